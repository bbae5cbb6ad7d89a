(** Statement vocabulary for executions. The log is newest first: in [l1 ++ ev :: l2] the events
    in [l2] happened before [ev]. *)
From Coq Require Import List Arith Bool String.
From Coq Require Import List.
From Verif.Plan Require Import Model.
From Verif.Exec Require Import Model.
Import ListNotations.

Definition started (l : list event) (p : path) (d : nat) : Prop :=
  In {| at_path := p; of_def := d; kind := EStart |} l.

(** Some evaluation of definition [d] finished with result [ok]. *)
Definition evaluated (l : list event) (d : nat) (ok : bool) : Prop :=
  exists p, In {| at_path := p; of_def := d; kind := EEnd ok |} l.

Definition recorded (l : list event) (d : nat) : Prop :=
  exists p ok, In {| at_path := p; of_def := d; kind := ERecord ok |} l.

Definition is_start (d : nat) (ev : event) : bool :=
  Nat.eqb (of_def ev) d && match kind ev with EStart => true | _ => false end.
Definition is_end (d : nat) (ev : event) : bool :=
  Nat.eqb (of_def ev) d && match kind ev with EEnd _ => true | _ => false end.

Definition starts_of (d : nat) (l : list event) : nat := length (filter (is_start d) l).
Definition ends_of (d : nat) (l : list event) : nat := length (filter (is_end d) l).

(** All places where a plan calls definitions. *)
Fixpoint places_of (gr : group) : list path :=
  [] :: match gr with
        | Seq None _ => []
        | Seq (Some s) _ => map (cons 0) (places_of s)
        | Conc ss _ =>
            (fix go (i : nat) (ss : list group) : list path :=
               match ss with
               | [] => []
               | s :: ss' => map (cons i) (places_of s) ++ go (S i) ss'
               end) 0 ss
        end.

(** A call is over, one way or another: it returned, or everything started before it is over and
    something failed, so it is never made. *)
Inductive over (st : state) : path -> group -> Prop :=
| over_done p gr ok : phase_of st p = Done ok -> over st p gr
| over_skipped p gr :
    phase_of st p = Idle ->
    (forall i s, nth_error (starts gr) i = Some s -> over st (p ++ [i]) s) ->
    (exists i s, nth_error (starts gr) i = Some s /\ phase_of st (p ++ [i]) <> Done true) ->
    over st p gr.

(** Nothing can move any more. *)
Definition stuck (gs : list group) (key : nat -> String.string) (st : state) : Prop :=
  forall p c, step gs key p c st = None.
