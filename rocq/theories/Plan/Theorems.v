(** Property theorems C04 and C05. *)
From Coq Require Import String List Arith Lia.
From Verif.Graph Require Import Dfs.
From Verif.Plan Require Import Model Spec GraphProofs Proofs.
Import ListNotations.

(** C05: the edges of the graph built for a definition list are exactly the dependencies, on the
    child side and on the parent side, each recorded once. *)
Theorem C05_edges_are_the_dependencies : forall ds,
  (forall i j, In j (children (build_graph ds) i) <-> depends ds i j) /\
  (forall i j, In i (parents (build_graph ds) j) <-> depends ds i j) /\
  (forall i, NoDup (children (build_graph ds) i) /\ NoDup (parents (build_graph ds) i)).
Proof.
  exact (fun ds => match build_graph_edges ds with
                   | conj a (conj b (conj c d)) => conj a (conj b (fun i => conj (c i) (d i)))
                   end).
Qed.
Print Assumptions C05_edges_are_the_dependencies.

(** C05: a dependency never points backwards, and only a self reference stays in place. *)
Theorem C05_edges_never_point_backwards : forall ds i j,
  depends ds i j ->
  i < j < length ds \/
  (i = j /\ exists d, nth_error ds i = Some d /\ vname d <> EmptyString /\
              In (vname d) (vrefs d) /\ vname d <> iter_name d).
Proof.
  exact (fun ds i j H => match Nat.eq_dec i j with
    | left E => or_intror (conj E (proj1 (depends_self ds i) (eq_ind_r (fun k => depends ds i k) H E)))
    | right N => or_introl (match depends_forward ds i j H with
                            | conj a b => conj (proj2 (Nat.le_neq i j) (conj a N)) b end)
    end).
Qed.
Print Assumptions C05_edges_never_point_backwards.

Definition mkdef n refs it v := {| vname := n; vrefs := refs; viter := it; vvalidation := v |}.

(** res, then user and posts from res, a validation, then an unrelated greeting. *)
Definition sample : list vdef :=
  [ mkdef "res" [] None false; mkdef "user" ["res"%string] None false;
    mkdef "posts" ["res"; "iter"]%string (Some "iter"%string) false;
    mkdef "_def3" ["user"; "posts"]%string None true; mkdef "greeting" [] None false ].

Example C05_sample_edges :
  map (parents (build_graph sample)) [0; 1; 2; 3; 4] = [[]; [0]; [0]; [1; 2]; [3]] /\
  depends sample 3 4 /\ ~ depends sample 0 4.
Proof.
  split; [reflexivity|]. split.
  - apply build_graph_edges. vm_compute. auto.
  - intros H. apply build_graph_edges in H. vm_compute in H. intuition discriminate.
Qed.

(** C04, without self references: setup succeeds, however large the stack bound; its plan
    evaluates every declared definition and nothing else; inside every group each definition
    is preceded by exactly what it depends on; and the groups end, once each, in the
    definitions nothing depends on. Missing for the full C04: definitions that mention their
    own name (below). *)
Theorem C04_plan_covers_exactly_the_definitions_partial : forall ds,
  no_self_reference ds -> ds <> [] ->
  exists gs,
    (forall fuel, length ds < fuel -> setup fuel ds = Planned gs) /\
    Forall (waits (depends ds)) gs /\
    (forall i, In i (planned_defs gs) <-> i < length ds) /\
    NoDup (map last_def gs) /\
    (forall i, In i (map last_def gs) <-> i < length ds /\ forall j, ~ depends ds i j).
Proof. exact setup_planned. Qed.
Print Assumptions C04_plan_covers_exactly_the_definitions_partial.

Example C04_sample_plan :
  no_self_reference sample /\
  setup 6 sample =
  Planned [Seq (Some (Conc [Seq (Some (Seq None 0)) 2; Seq (Some (Seq None 0)) 1] 3)) 4].
Proof.
  split; [|vm_compute; reflexivity].
  intros d Hd _ Hr. simpl in Hd. intuition subst; simpl in *; intuition discriminate.
Qed.

(** C04 refuted: [a] is accepted (no error is reported) but the plan does not evaluate it. The
    CEL checker reports the loop variable of a macro as a reference, so
    `def { name: "a" by: "xs.filter(a, a > 1)" }` is such a definition. *)
Theorem C04_plan_covers_exactly_the_definitions_refuted :
  exists ds gs i, i < length ds /\
    (forall fuel, 2 <= fuel -> setup fuel ds = Planned gs) /\ ~ In i (planned_defs gs).
Proof.
  exists [mkdef "xs" [] None false; mkdef "a" ["a"%string] None false], [Seq None 0], 1.
  split; [simpl; lia|]. split.
  - intros [|[|fuel]] H; [lia..|]. reflexivity.
  - simpl. intuition lia.
Qed.
Print Assumptions C04_plan_covers_exactly_the_definitions_refuted.

(** C04: this is what happens to every self reference: whenever a plan is produced, neither the
    definition nor anything that depends on it is ever evaluated. *)
Theorem C04_self_reference_is_never_evaluated : forall ds fuel gs i j,
  depends ds i i -> depends ds i j -> setup fuel ds = Planned gs ->
  ~ In i (planned_defs gs) /\ ~ In j (planned_defs gs).
Proof.
  exact (fun ds fuel gs i j Hi Hj Hs =>
           conj (setup_self_missing ds fuel gs i Hi Hs) (setup_after_self_missing ds fuel gs i j Hi Hj Hs)).
Qed.
Print Assumptions C04_self_reference_is_never_evaluated.

(** C04: with no other definition the message is accepted without any plan at all. *)
Theorem C04_single_self_reference_yields_no_plan : forall fuel,
  setup fuel [mkdef "a" ["a"%string] None false] = NoRoots.
Proof. exact (fun _ => eq_refl). Qed.
Print Assumptions C04_single_self_reference_yields_no_plan.

(** C04: a definition that uses a regular and a self-referring variable sends the plan builder
    into unbounded recursion: no amount of stack is enough. *)
Theorem C04_plan_building_may_not_terminate :
  exists ds, forall fuel, setup fuel ds = OutOfFuel.
Proof.
  exists [mkdef "xs" [] None false; mkdef "a" ["a"%string] None false;
          mkdef "b" ["xs"; "a"]%string None false].
  intros fuel. destruct fuel as [|[|[|fuel]]]; [reflexivity..|].
  unfold setup.
  set (ds := [mkdef "xs" [] None false; mkdef "a" ["a"%string] None false;
              mkdef "b" ["xs"; "a"]%string None false]).
  set (g := build_graph ds).
  change (roots_of g (length ds)) with [0]. 
  change (validate (children g) (S (S (S fuel))) [0]) with VOk.
  cbv beta iota.
  unfold groups.
  change (unique_children g (node_key ds) (S (S (S fuel))) [0]) with (Some [2]).
  cbn [map_opt].
  destruct (mk_group g (node_key ds) (S (S (S fuel))) 2) as [gr|] eqn:E.
  - exfalso.
    destruct (mk_group_parent g (node_key ds) 2 1 _ gr (or_intror (or_introl eq_refl)) E) as [gp Hgp].
    rewrite (mk_group_self_loop g (node_key ds) 1 (or_introl eq_refl)) in Hgp. discriminate.
  - reflexivity.
Qed.
Print Assumptions C04_plan_building_may_not_terminate.
