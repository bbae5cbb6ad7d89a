From Coq Require Import Ascii String List Bool Arith Lia.
From Verif.Base Require Import Text TextProofs.
From Verif.Watch Require Import Model Spec Proofs.
Import ListNotations.
Local Open Scope string_scope.

(** C34 in full: once nothing is left to do, the generator has run on the latest content of every file. *)
Definition C34_statement : Prop := forall l s, Forall proto_change l -> run l init = Some s -> stopped s -> forall p, up_to_date s p.
Definition w : ops := {| o_write := true; o_create := false; o_remove := false; o_rename := false; o_chmod := false |}.
Definition end_of (l : list action) : state := match run l init with Some s => s | None => init end.
(** Refuted: a change that is noticed while the generator runs is dropped. *)
Theorem C34_refuted : ~ C34_statement.
Proof.
  intros H. pose (l := [Change "a.proto" w; Take; Receive; Start; Read; Change "a.proto" w; Take; Finish]).
  assert (E : run l init = Some (end_of l)) by (vm_compute; reflexivity). assert (U : up_to_date (end_of l) "a.proto").
  { apply (H l); [|exact E|].
    - assert (P : proto_change (Change "a.proto" w)).
      { split; [left; reflexivity|]. split; [exists "a"; reflexivity|]. split; intros [b B]; discriminate. }
      unfold l. constructor; [exact P|]. do 4 (constructor; [exact I|]). constructor; [exact P|]. do 2 (constructor; [exact I|]). constructor.
    - intros a N. destruct a; (destruct N; exact I) || (vm_compute; reflexivity). }
  vm_compute in U. discriminate.
Qed.
Print Assumptions C34_refuted.

(** C34, partial: otherwise; that is, at rest every file is up to date or an event for its last change was noticed while the generator was running. *)
Theorem C34_only_changes_during_a_run_are_lost_partial : forall l s, Forall proto_change l -> run l init = Some s -> stopped s ->
  forall p, up_to_date s p \/ exists e, In e (missed s) /\ e_path e = p /\ e_version e = version s p.
Proof.
  intros l s F R S p. destruct (inv_run l init s inv_init F R p) as [H|(e & H1 & H2 & _ & _ & H3)]; [left; exact H|]. right. exists e.
  destruct (stopped_pending s S) as [P _]. rewrite P in H3. destruct H3 as [[]|H3]. auto.
Qed.
Print Assumptions C34_only_changes_during_a_run_are_lost_partial.
(** Events are dropped only by a receiver that is running. *)
Theorem C34_dropped_only_while_working : forall s s', step Take s = Some s' -> missed s' <> missed s -> working s = true.
Proof.
  intros s s' E. cbn in E. destruct (queue s); [discriminate|]. destruct (sending s); [discriminate|]. injection E as <-.
  destruct (working s); [reflexivity|]. destruct (negb _); [cbn; congruence|]. destruct (ignoreFilePath _); cbn; congruence.
Qed.
Print Assumptions C34_dropped_only_while_working.
(** C34: once changes stop, the watcher comes to rest, whatever the schedule. *)
Theorem C34_comes_to_rest : forall s, (exists n, forall l s', Forall (fun a => ~ external a) l -> run l s = Some s' -> List.length l <= n) /\
  (forall l s', Forall (fun a => ~ external a) l -> run l s = Some s' -> exists k s'', Forall (fun a => ~ external a) k /\ run (l ++ k) s = Some s'' /\ stopped s'').
Proof.
  intros s. split.
  - exists (measure s). intros l s' F R. pose proof (internal_bounded l s s' F R). lia.
  - intros l s' F R. destruct (stops (measure s') s' (le_n _)) as (k & s'' & Fk & Rk & S). exists k, s''. split; [exact Fk|]. split; [|exact S].
    revert s R. clear F. induction l as [|a l IH]; cbn; intros s R; [injection R as ->; exact Rk|]. destruct (step a s) as [s1|]; [apply IH; exact R|discriminate].
Qed.
Print Assumptions C34_comes_to_rest.
(** C34: the generator runs on nothing but files events were reported for. *)
Theorem C34_runs_have_causes : forall l s, run l init = Some s -> forall p, In p (runs s) -> exists o, In (Change p o) l \/ In (Noise p o) l.
Proof. intros l s R p I. destruct (runs_caused l s R) as [_ H]. apply H. exact I. Qed.
Print Assumptions C34_runs_have_causes.
Example C34_sample : exists l s, Forall proto_change l /\ run l init = Some s /\ stopped s /\ missed s = [] /\ version s "a.proto" = 2 /\ up_to_date s "a.proto" /\ runs s = ["a.proto"; "a.proto"].
Proof.
  pose (l := [Change "a.proto" w; Take; Receive; Change "a.proto" w; Take; Start; Read; Finish; Receive; Start; Read; Finish]).
  assert (E : run l init = Some (end_of l)) by (vm_compute; reflexivity). exists l, (end_of l).
  assert (P : proto_change (Change "a.proto" w)).
  { split; [left; reflexivity|]. split; [exists "a"; reflexivity|]. split; intros [b B]; discriminate. }
  split. { unfold l. constructor; [exact P|]. do 2 (constructor; [exact I|]). constructor; [exact P|]. do 8 (constructor; [exact I|]). constructor. }
  split; [exact E|]. clear E. split; [intros a N; destruct a; (destruct N; exact I) || (vm_compute; reflexivity)|].
  split; [vm_compute; reflexivity|]. split; [vm_compute; reflexivity|]. split; vm_compute; reflexivity.
Qed.

(** C51 in full: a change of any proto file below the configured directories is noticed. *)
Definition C51_statement : Prop := forall srcs root t dir file, In (root, t) srcs -> root <> "" -> below root t dir file -> (exists b, file = b ++ ".proto") -> noticed srcs dir file.
(** Refuted: not below a directory written with a leading dot, such as ./proto *)
Theorem C51_refuted : ~ C51_statement.
Proof.
  intros H. pose (srcs := [("./proto", Dir [("a.proto", File)])]).
  destruct (H srcs "./proto" (Dir [("a.proto", File)]) "./proto" "a.proto") as [I _].
  - left. reflexivity.
  - discriminate.
  - constructor. left. reflexivity.
  - exists "a". reflexivity.
  - destruct I.
Qed.
Print Assumptions C51_refuted.
(** C51, partial: below directories whose path does not start with a dot or a hash, at any depth. *)
Theorem C51_changes_are_noticed_partial : forall srcs root t dir file, In (root, t) srcs -> root <> "" ->
  ~ (exists b, root = "." ++ b) -> ~ (exists b, root = "#" ++ b) ->
  below root t dir file -> (exists b, file = b ++ ".proto") -> noticed srcs dir file.
Proof.
  intros srcs root t dir file I N D S B [b ->]. rewrite <- (prefix1 "."%char), prefix_starts in D. rewrite <- (prefix1 "#"%char), prefix_starts in S.
  destruct (starts "." root) eqn:SD; [congruence|]. destruct (starts "#" root) eqn:SS; [congruence|].
  destruct (below_watched _ _ _ _ B N SD) as (H1 & H2 & H3). split.
  - apply in_flat_map. exists (root, t). auto.
  - assert (DD : starts "." dir = false) by (rewrite H3; exact SD). apply ignore_iff.
    rewrite <- (prefix1 "."%char), <- (prefix1 "#"%char), !prefix_starts, !join_starts, DD, H3, SS by assumption.
    split; [|split; discriminate]. unfold joinPath. destruct (String.eqb_spec dir ".") as [->|_]; [discriminate|].
    exists (strip_dot dir ++ "/" ++ b). clear. generalize (strip_dot dir). intros s. induction s as [|c s IH]; [reflexivity|]. cbn. f_equal. exact IH.
Qed.
Print Assumptions C51_changes_are_noticed_partial.
Example C51_sample : below "proto" (Dir [("x", Dir [("a.proto", File)])]) "proto/x" "a.proto" /\ watchedDirs [("proto", Dir [("x", Dir [("a.proto", File)])])] = ["proto"; "proto/x"].
Proof. split; [|reflexivity]. eapply Deeper; [left; reflexivity|]. constructor. left. reflexivity. Qed.
