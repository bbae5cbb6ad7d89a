(** The list library of CEL.
    Models grpc/federation/cel/list.go and the comprehensions its macros expand to (cel-go parser.MakeMap,
    parser.MakeFilter and the evaluation of folds).
    Simplifications: an expression over the iteration variable is a function into outcomes; sort.SliceStable is insertion
    sort with the same order function; sort.Slice is any function with the documented contract (a section variable); the
    target of a sort, which the macro evaluates twice, is deterministic. *)
From Coq Require Import String List ZArith Bool.
From Verif.Base Require Import Result.
Import ListNotations.

Section Lists.
  Variable E : Type.

  (** cel-go fold without short circuit (the condition is the literal true): the accumulator may hold an error *)
  Definition cel_fold {A B} (step : A -> result B E -> result B E) (l : list A) (init : result B E) : result B E :=
    fold_left (fun acc x => step x acc) l init.

  (** list.go:135-148 makeReduce *)
  Definition reduce {A B} (l : list A) (step : A -> result B E -> result B E) (init : result B E) : result B E :=
    cel_fold step l init.

  (** parser.MakeMap: accu + [f(x)] *)
  Definition map_macro {A B} (f : A -> result B E) (l : list A) : result (list B) E :=
    cel_fold (fun x acc => match acc with
                           | Err e => Err e
                           | Ok a => match f x with Err e => Err e | Ok y => Ok (a ++ [y]) end
                           end) l (Ok []).

  (** parser.MakeFilter: p(x) ? accu + [x] : accu *)
  Definition filter_macro {A} (p : A -> result bool E) (l : list A) : result (list A) E :=
    cel_fold (fun x acc => match p x with
                           | Err e => Err e
                           | Ok true => match acc with Ok a => Ok (a ++ [x]) | Err e => Err e end
                           | Ok false => acc
                           end) l (Ok []).

  (** list.go:150-156 makeFirst: filter(...)[?0] *)
  Definition first {A} (p : A -> result bool E) (l : list A) : result (option A) E :=
    match filter_macro p l with Err e => Err e | Ok l' => Ok (nth_error l' 0) end.

  (** Compare of CEL values: -1, 0, 1, or an error *)
  Inductive cmp := Lt | Eq | Gt | Incomparable.
  Inductive direction := Asc | Desc.

  Section Sort.
    Variable A K : Type.
    Variable compare : K -> K -> cmp.
    (** sort.Slice on the pairs of value and key *)
    Variable sort_slice : (A * K -> A * K -> bool) -> list (A * K) -> list (A * K).

    (** list.go:218-222: out == direction, where direction is -1 for Asc and 1 for Desc *)
    Definition less (d : direction) (x y : A * K) : bool :=
      match d, compare (snd x) (snd y) with
      | Asc, Lt => true
      | Desc, Gt => true
      | _, _ => false
      end.

    (** insertion sort (Go sort): the sorted part is kept in reverse; move left while less *)
    Fixpoint insert_left (ls : A * K -> A * K -> bool) (x : A * K) (rev_sorted : list (A * K)) : list (A * K) :=
      match rev_sorted with
      | [] => [x]
      | y :: ys => if ls x y then y :: insert_left ls x ys else x :: y :: ys
      end.
    Definition stable_sort (ls : A * K -> A * K -> bool) (l : list (A * K)) : list (A * K) :=
      rev (fold_left (fun acc x => insert_left ls x acc) l []).

    (** list.go:196-230 sortRefVal, with the macro of list.go:174-184: the keys are the map of the target *)
    Definition sort_macro (stable : bool) (d : direction) (key : A -> result K E) (l : list A) : result (list A) E :=
      match map_macro key l with
      | Err e => Err e
      | Ok keys =>
          let vals := combine l keys in
          let sorted := (if stable then stable_sort else sort_slice) (less d) vals in
          Ok (map fst sorted)
      end.
  End Sort.

  (** list.go:102-127 flatten with depth 1: an element is a list or not *)
  Inductive elem (A : Type) := Nested (l : list A) | Plain (x : A).
  Fixpoint flatten {A} (l : list (elem A)) : list A :=
    match l with
    | [] => []
    | Nested _ xs :: l => xs ++ flatten l
    | Plain _ x :: l => x :: flatten l
    end.
End Lists.
Arguments Nested {A}. Arguments Plain {A}.
Arguments reduce {E A B}. Arguments map_macro {E A B}. Arguments filter_macro {E A}. Arguments first {E A}.
Arguments less {A K}. Arguments stable_sort {A K}. Arguments sort_macro {E A K}. Arguments insert_left {A K}. Arguments cel_fold {E A B}.
Arguments flatten {A}.
