(** Walks and reachability in a finite graph given by child lists. *)
From Coq Require Import List.
Import ListNotations.

Section Walk.
  Variable children : nat -> list nat.

  (** [walk l]: consecutive elements of [l] are edges. *)
  Fixpoint walk (l : list nat) : Prop :=
    match l with
    | [] => True
    | a :: l' =>
        match l' with
        | [] => True
        | b :: _ => In b (children a) /\ walk l'
        end
    end.

  (** [u] can be reached from [t] in zero or more steps. *)
  Inductive reach (t : nat) : nat -> Prop :=
  | reach_refl : reach t t
  | reach_step : forall u v, reach t u -> In v (children u) -> reach t v.

  (** [u] lies on a cycle. *)
  Definition on_cycle (u : nat) : Prop := exists v, In v (children u) /\ reach v u.

  Definition acyclic_from (t : nat) : Prop := forall u, reach t u -> ~ on_cycle u.
End Walk.
