(** When does one definition depend on another? (independent of the graph code) *)
From Coq Require Import String List Arith.
From Verif.Plan Require Import Model.
Import ListNotations.

(** [refers ds i j]: definition [j] mentions the name of definition [i] (other than as its own
    map iterator), and [i] is the latest definition with that name not after [j]. *)
Definition refers (ds : list vdef) (i j : nat) : Prop :=
  exists di dj,
    nth_error ds i = Some di /\ nth_error ds j = Some dj /\
    i <= j /\ vname di <> ""%string /\
    In (vname di) (vrefs dj) /\ vname di <> iter_name dj /\
    (forall k dk, i < k -> k <= j -> nth_error ds k = Some dk -> vname dk <> vname di).

(** [after_validation ds i j]: [i] is a validation written before [j]. *)
Definition after_validation (ds : list vdef) (i j : nat) : Prop :=
  exists di dj, nth_error ds i = Some di /\ nth_error ds j = Some dj /\ i < j /\
    vvalidation di = true.

(** [depends ds i j]: definition [j] must be evaluated after definition [i]. *)
Definition depends (ds : list vdef) (i j : nat) : Prop :=
  refers ds i j \/ after_validation ds i j.

(** No definition mentions its own name (other than as its map iterator). *)
Definition no_self_reference (ds : list vdef) : Prop :=
  forall d, In d ds -> vname d <> ""%string -> In (vname d) (vrefs d) -> vname d = iter_name d.

(** The definition a group evaluates last, after everything else in the group. *)
Definition last_def (gr : group) : nat :=
  match gr with Seq _ e => e | Conc _ e => e end.

(** [waits dep gr]: at every level of the group, the definition evaluated last is preceded,
    directly, by exactly the definitions it depends on. *)
Inductive waits (dep : nat -> nat -> Prop) : group -> Prop :=
| waits_first e :
    (forall i, ~ dep i e) -> waits dep (Seq None e)
| waits_seq s e :
    waits dep s -> (forall i, dep i e <-> i = last_def s) -> waits dep (Seq (Some s) e)
| waits_conc ss e :
    Forall (waits dep) ss -> NoDup (map last_def ss) ->
    (forall i, dep i e <-> In i (map last_def ss)) -> waits dep (Conc ss e).

(** The indices evaluated by a whole plan. *)
Definition planned_defs (gs : list group) : list nat := concat (map group_defs gs).
