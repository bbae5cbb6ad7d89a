(** Property theorems C03 and C07. *)
From Coq Require Import String List Arith Lia.
From Verif.Plan Require Import Model Spec Proofs Theorems.
From Verif.Exec Require Import Model Spec Proofs More Deps Top.
Import ListNotations.

(** C03: whatever the definitions, the schedule and the outcomes, when the body of a definition
    starts, every definition it depends on was already evaluated without error. Names are unique
    (resolver.go:1472-1510 rejects anything else). *)
Theorem C03_evaluation_waits_for_dependencies : forall ds fuel gs sc st,
  NoDup (map vname ds) -> setup fuel ds = Planned gs ->
  run gs (node_key ds) sc init = Some st ->
  forall l1 p j l2 i,
    log st = l1 ++ {| at_path := p; of_def := j; kind := EStart |} :: l2 ->
    depends ds i j -> evaluated l2 i true.
Proof. exact order_holds. Qed.
Print Assumptions C03_evaluation_waits_for_dependencies.

(** C03: when all top level groups report success, every definition of the message was evaluated
    without error. *)
Theorem C03_success_means_everything_was_evaluated : forall ds fuel gs sc st,
  NoDup (map vname ds) -> no_self_reference ds -> ds <> [] -> length ds < fuel ->
  setup fuel ds = Planned gs -> run gs (node_key ds) sc init = Some st ->
  (forall k, k < length gs -> phase_of st [k] = Done true) ->
  forall i, i < length ds -> evaluated (log st) i true.
Proof. exact success_complete. Qed.
Print Assumptions C03_success_means_everything_was_evaluated.

(** C03: evaluation never gets stuck halfway (no deadlock): when nothing can move any more, every
    call either returned, or was skipped because something before it failed. *)
Theorem C03_evaluation_never_deadlocks : forall gs key sc st,
  run gs key sc init = Some st -> stuck gs key st ->
  forall k gr, nth_error gs k = Some gr -> over st [k] gr.
Proof. exact no_deadlock. Qed.
Print Assumptions C03_evaluation_never_deadlocks.

(** C03: ... and it always comes to an end: a run takes at most five steps per call. *)
Theorem C03_evaluation_terminates : forall gs key sc st,
  run gs key sc init = Some st ->
  length sc <= 5 * list_sum (map (fun gr => length (places_of gr)) gs).
Proof. exact run_bounded. Qed.
Print Assumptions C03_evaluation_terminates.

(** C07: evaluations of one definition never overlap. *)
Theorem C07_evaluations_never_overlap : forall gs key sc st,
  (forall i j, In i (planned_defs gs) -> In j (planned_defs gs) -> key i = key j -> i = j) ->
  run gs key sc init = Some st ->
  forall d, In d (planned_defs gs) ->
    ends_of d (log st) <= starts_of d (log st) <= S (ends_of d (log st)).
Proof. exact no_overlap. Qed.
Print Assumptions C07_evaluations_never_overlap.

(** C07: every caller obtains the outcome of an evaluation of the definition it asked for. *)
Theorem C07_callers_obtain_an_outcome_of_the_definition : forall gs key sc st p gr ok,
  (forall i j, In i (planned_defs gs) -> In j (planned_defs gs) -> key i = key j -> i = j) ->
  run gs key sc init = Some st ->
  group_at gs p = Some gr -> phase_of st p = Done ok ->
  evaluated (log st) (last_def gr) ok.
Proof. exact caller_outcome. Qed.
Print Assumptions C07_callers_obtain_an_outcome_of_the_definition.

(** C07: a caller that starts after an outcome was recorded never evaluates again: whoever starts
    the body began looking for it before any outcome was recorded. *)
Theorem C07_no_evaluation_after_a_recorded_outcome : forall gs key sc st,
  run gs key sc init = Some st ->
  forall l1 p d l2,
    log st = l1 ++ {| at_path := p; of_def := d; kind := EStart |} :: l2 ->
    exists l2a l2b, l2 = l2a ++ {| at_path := p; of_def := d; kind := EBegin |} :: l2b /\
      ~ recorded l2b d.
Proof. exact start_before_record. Qed.
Print Assumptions C07_no_evaluation_after_a_recorded_outcome.

(** C07, at most one evaluation, for definitions called from a single place of the plan. Missing
    for the full claim: definitions several others depend on (refuted below). *)
Theorem C07_evaluated_at_most_once_partial : forall gs key sc st,
  run gs key sc init = Some st ->
  forall d, (forall p q gp gq, group_at gs p = Some gp -> group_at gs q = Some gq ->
               last_def gp = d -> last_def gq = d -> p = q) ->
    starts_of d (log st) <= 1.
Proof. exact at_most_once. Qed.
Print Assumptions C07_evaluated_at_most_once_partial.

(** C07: in general a definition is evaluated at most once per call. *)
Theorem C07_evaluated_at_most_once_per_call : forall gs key sc st,
  run gs key sc init = Some st ->
  forall l1 l2 p d d', log st = l1 ++ {| at_path := p; of_def := d; kind := EStart |} :: l2 ->
  ~ started l2 p d'.
Proof. exact once_per_call. Qed.
Print Assumptions C07_evaluated_at_most_once_per_call.

(** [a], then [b] and [c] which both use [a]. *)
Definition diamond : list vdef :=
  [ mkdef "a" [] None false; mkdef "b" ["a"%string] None false; mkdef "c" ["a"%string] None false ].
Definition diamond_plan : list group := [Seq (Some (Seq None 0)) 1; Seq (Some (Seq None 0)) 2].

(** Both goroutines look into the cache, the first evaluates and leaves single flight, only then
    does the second enter it. *)
Definition racy : schedule :=
  [ ([0;0], BodyOk); ([0;0], BodyOk); ([1;0], BodyOk); ([0;0], BodyOk); ([0;0], BodyOk);
    ([0;0], BodyOk); ([1;0], BodyOk) ].

(** C07 refuted: a definition can be evaluated twice. *)
Theorem C07_evaluated_at_most_once_refuted :
  exists ds gs sc st d,
    NoDup (map vname ds) /\ no_self_reference ds /\ setup 4 ds = Planned gs /\
    run gs (node_key ds) sc init = Some st /\ starts_of d (log st) = 2.
Proof.
  exists diamond, diamond_plan, racy.
  destruct (run diamond_plan (node_key diamond) racy init) as [st|] eqn:E; [|discriminate].
  exists st, 0. split; [|split; [|split; [|split]]].
  - repeat constructor; simpl; intuition discriminate.
  - intros d Hd _ Hr. simpl in Hd. intuition subst; simpl in *; intuition discriminate.
  - reflexivity.
  - reflexivity.
  - assert (L : option_map (fun s => starts_of 0 (log s)) (run diamond_plan (node_key diamond) racy init) = Some 2)
      by (vm_compute; reflexivity).
    rewrite E in L. simpl in L. congruence.
Qed.
Print Assumptions C07_evaluated_at_most_once_refuted.

(** A complete run of the sample of C04: the second user of [res] finds it in the cache. *)
Definition calm : schedule :=
  let go p := repeat (p, BodyOk) 5 in
  go [0;0;0;0] ++ go [0;0;0] ++ [([0;0;1;0], BodyOk)] ++ go [0;0;1] ++ go [0;0] ++ go [0].

Example C03_sample_run :
  NoDup (map vname sample) /\
  exists gs, setup 6 sample = Planned gs /\
  option_map (fun st => (phase_of st [0], map (fun d => starts_of d (log st)) [0;1;2;3;4]))
    (run gs (node_key sample) calm init) = Some (Done true, [1;1;1;1;1]).
Proof.
  split; [repeat constructor; simpl; intuition discriminate|].
  eexists. split; vm_compute; reflexivity.
Qed.

(** The hypothesis of the at-most-once theorem holds of the last definition of the sample. *)
Example C07_single_place :
  let gs := [Seq (Some (Conc [Seq (Some (Seq None 0)) 2; Seq (Some (Seq None 0)) 1] 3)) 4] in
  forall p q gp gq, group_at gs p = Some gp -> group_at gs q = Some gq ->
    last_def gp = 4 -> last_def gq = 4 -> p = q.
Proof.
  assert (H : forall p gp, group_at [Seq (Some (Conc [Seq (Some (Seq None 0)) 2; Seq (Some (Seq None 0)) 1] 3)) 4] p = Some gp ->
    last_def gp = 4 -> p = [0]).
  { intros p gp H. apply group_at_place in H as Hp. vm_compute in Hp. 
    destruct Hp as [<-|[<-|[<-|[<-|[<-|[<-|[]]]]]]]; [reflexivity|..]; vm_compute in H; injection H as <-; discriminate. }
  intros gs p q gp gq H1 H2 E1 E2. rewrite (H p gp H1 E1), (H q gq H2 E2). reflexivity.
Qed.
