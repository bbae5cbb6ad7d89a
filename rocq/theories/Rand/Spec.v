(** What users expect of random numbers. *)
From Coq Require Import ZArith List Bool.
From Verif.Rand Require Import Model.
Import ListNotations.
Local Open Scope Z_scope.

(** The contract of a source. *)
Definition proper (gen : gen_type) : Prop := forall seed i, 0 <= gen seed i < 2 ^ 63.
(** The functions with a bound. *)
Inductive bounded : action -> Z -> Prop :=
| bounded31 n : bounded (AInt31n n) n
| bounded63 n : bounded (AInt63n n) n
| bounded_int n : bounded (AIntn n) n.
(** A call that uses the source [s]; comparing is not one. *)
Inductive uses (s : nat) : call -> action -> Prop :=
| uses_int63 : uses s (SourceInt63 s) AInt63
| uses_seed z : uses s (SourceSeed s z) (ASeed z)
| uses_rand a : uses s (OnRand s a) a.
Definition compares (c : call) : Prop := match c with SourceEqual _ _ | RandEqual _ _ => True | _ => False end.
(** What is done to a source in a run, and with what results. *)
Inductive seen (s : nat) : list call -> list result -> list (action * result) -> Prop :=
| seen_nil : seen s [] [] []
| seen_use c a cs r rs l : uses s c a -> seen s cs rs l -> seen s (c :: cs) (r :: rs) ((a, r) :: l)
| seen_other c cs r rs l : (forall a, ~ uses s c a) -> seen s cs rs l -> seen s (c :: cs) (r :: rs) l.
