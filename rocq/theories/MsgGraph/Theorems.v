(** Property theorem C06. *)
From Coq Require Import String List Arith Lia.
From Verif.MsgGraph Require Import Model Spec Proofs.
Import ListNotations.

(** C06, exact extent: building the graph always finishes, and reports a cycle exactly when some
    message that a root uses lies on a dependency cycle. *)
Theorem C06_reported_iff_cycle_below_a_root : forall ms fuel,
  well_formed ms -> length ms + length ms < fuel ->
  create_graph ms fuel <> None /\
  (reports_cycle (create_graph ms fuel) <-> exists u, used_from_root ms u /\ cyclic ms u).
Proof. exact create_graph_spec. Qed.
Print Assumptions C06_reported_iff_cycle_below_a_root.

(** C06, second half: no cycle, no report. *)
Theorem C06_no_false_alarm : forall ms fuel,
  well_formed ms -> length ms + length ms < fuel ->
  (forall u, ~ cyclic ms u) -> ~ reports_cycle (create_graph ms fuel).
Proof.
  exact (fun ms fuel Hw Hf Hn Hr =>
    match proj1 (proj2 (create_graph_spec ms fuel Hw Hf)) Hr with
    | ex_intro _ u (conj _ Hc) => Hn u Hc end).
Qed.
Print Assumptions C06_no_false_alarm.

(** C06, first half, when every message is used from a root. Missing for the full C06: cycles that
    no root uses (refuted below). *)
Theorem C06_cycles_are_reported_partial : forall ms fuel u,
  well_formed ms -> length ms + length ms < fuel ->
  (forall m, cyclic ms m -> used_from_root ms m) ->
  cyclic ms u -> reports_cycle (create_graph ms fuel).
Proof.
  exact (fun ms fuel u Hw Hf Hall Hc =>
    proj2 (proj2 (create_graph_spec ms fuel Hw Hf)) (ex_intro _ u (conj (Hall u Hc) Hc))).
Qed.
Print Assumptions C06_cycles_are_reported_partial.

Definition mk ds os n := {| has_rule := true; msg_defs := ds; oneof_defs := os;
                            every_field_rule := true; msg_name := n |}.

(** Response -> User -> (in the details of an error) Item -> (map) User. *)
Definition cyclic_sample : list message :=
  [ mk [XOther; XMessage (Some 1)] [] "Response";
    mk [XCall [GErr [] [GDetail [] [XMessage (Some 2)]]]] [] "User";
    mk [] [[XMap (Some (Some 1))]] "Item" ].

Lemma sample_well_formed : well_formed cyclic_sample.
Proof.
  intros d x m Hd Hx Hm. simpl in Hd.
  destruct Hd as [<-|[<-|[<-|[]]]]; simpl in Hx.
  - destruct Hx as [<-|[<-|[]]]; inversion Hm; subst; simpl; lia.
  - destruct Hx as [<-|[]]; inversion Hm as [| |? e ? Hin He|]; subst.
    destruct Hin as [<-|[]]. inversion He as [? ? ? ? Hin|? ? dt ? Hin Hdt]; subst; [destruct Hin|].
    destruct Hin as [<-|[]]. inversion Hdt as [? ? y ? Hy Hym]; subst.
    destruct Hy as [<-|[]]. inversion Hym; subst; simpl; lia.
  - destruct Hx as [<-|[]]; inversion Hm; subst; simpl; lia.
Qed.

Lemma sample_cyclic : cyclic cyclic_sample 1.
Proof.
  assert (H12 : needs cyclic_sample 1 2).
  { apply kids_needs; [simpl; lia|]. vm_compute. auto. }
  assert (H21 : needs cyclic_sample 2 1).
  { apply kids_needs; [simpl; lia|]. vm_compute. auto. }
  exact (needs_more _ _ _ _ (needs_one _ _ _ H12) H21).
Qed.

Example C06_sample_reported :
  well_formed cyclic_sample /\ cyclic cyclic_sample 1 /\ used_from_root cyclic_sample 1 /\
  create_graph cyclic_sample 7 = Some (false, [CyclicDependency [0; 1; 2; 1]]).
Proof.
  split; [exact sample_well_formed|]. split; [exact sample_cyclic|]. split; [|vm_compute; reflexivity].
  exists 0. split.
  - apply roots_In. vm_compute. auto.
  - right; constructor. apply kids_needs; [simpl; lia|]. vm_compute. auto.
Qed.

(** C06 refuted: two messages that need each other and are needed by no root are accepted, with or
    without other messages around. In the first case no graph is returned, so the arguments and CEL
    expressions of all messages stay unresolved without any error (resolver.go:3577-3580). *)
Theorem C06_cycles_are_reported_refuted :
  let a := mk [XMessage (Some 1)] [] "A" in
  let b := mk [XMessage (Some 0)] [] "B" in
  let c := mk [] [] "C" in
  (cyclic [a; b] 0 /\ forall fuel, create_graph [a; b] fuel = Some (false, [])) /\
  (cyclic [a; b; c] 0 /\ forall fuel, 1 <= fuel -> create_graph [a; b; c] fuel = Some (true, [])).
Proof.
  split; split.
  - assert (H : forall i j, i + j = 1 -> needs [mk [XMessage (Some 1)] [] "A"; mk [XMessage (Some 0)] [] "B"] i j).
    { intros [|[|i]] [|[|j]] E; try lia; (apply kids_needs; [simpl; lia|vm_compute; auto]). }
    exact (needs_more _ _ _ _ (needs_one _ _ _ (H 0 1 eq_refl)) (H 1 0 eq_refl)).
  - intros; reflexivity.
  - assert (H : forall i j, i + j = 1 -> needs [mk [XMessage (Some 1)] [] "A"; mk [XMessage (Some 0)] [] "B"; mk [] [] "C"] i j).
    { intros [|[|i]] [|[|j]] E; try lia; (apply kids_needs; [simpl; lia|vm_compute; auto]). }
    exact (needs_more _ _ _ _ (needs_one _ _ _ (H 0 1 eq_refl)) (H 1 0 eq_refl)).
  - intros [|fuel] H; [lia|reflexivity].
Qed.
Print Assumptions C06_cycles_are_reported_refuted.
