(** sort.Slice / sort.Strings on string keys. Go's sort is not stable, but everywhere it is
    modelled here the keys are distinct, or the caller does not depend on the order of
    equal keys (noted at the use site); insertion sort by Go's bytewise string order. *)
From Coq Require Import List String Ascii Arith Bool.
Import ListNotations.

(** Go string comparison: bytewise lexicographic. *)
Fixpoint str_leb (a b : string) : bool :=
  match a, b with
  | EmptyString, _ => true
  | String _ _, EmptyString => false
  | String x a', String y b' =>
      let nx := nat_of_ascii x in let ny := nat_of_ascii y in
      if Nat.ltb nx ny then true
      else if Nat.eqb nx ny then str_leb a' b'
      else false
  end.

Section SortBy.
  Context {A : Type}.
  Variable key : A -> string.

  Fixpoint insert_by (x : A) (l : list A) : list A :=
    match l with
    | [] => [x]
    | y :: l' => if str_leb (key x) (key y) then x :: l else y :: insert_by x l'
    end.

  Fixpoint sort_by (l : list A) : list A :=
    match l with
    | [] => []
    | x :: l' => insert_by x (sort_by l')
    end.
End SortBy.
