(** Go slices: a slice is a window into a backing array, and append writes into the array in place
    when there is room (Go spec, "Appending to and copying slices"). Needed because several functions
    of the runtime hand out slices that share their array. Slices start at index 0 of their array
    (no reslicing in the modelled code). *)
From Coq Require Import List Arith Bool Lia.
Import ListNotations.

Section Slice.
  Variable A : Type.

  Record slice := { arr : nat; len : nat }.

  (** All arrays ever allocated; the number of cells of an array is its capacity, [None] is a cell
      not written yet. Array numbers not in the heap have capacity 0 (nil slices). *)
  Definition heap := list (list (option A)).

  Definition cells (h : heap) (a : nat) : list (option A) := nth a h [].
  Definition cap (h : heap) (s : slice) : nat := length (cells h (arr s)).

  (** The elements of a slice. *)
  Definition view (h : heap) (s : slice) : list (option A) := firstn (len s) (cells h (arr s)).

  (** []T{}: no array yet, so no capacity. *)
  Definition empty_slice (h : heap) : slice := {| arr := length h; len := 0 |}.

  Fixpoint set_nth {X} (n : nat) (x : X) (l : list X) : list X :=
    match l, n with
    | [], _ => []
    | _ :: l', O => x :: l'
    | y :: l', S n' => y :: set_nth n' x l'
    end.

  (** append(s, xs...). [room] is the spare capacity the runtime chooses when it reallocates. *)
  Definition append (room : nat) (h : heap) (s : slice) (xs : list (option A)) : heap * slice :=
    let n := len s + length xs in
    if n <=? cap h s then
      let c := cells h (arr s) in
      (set_nth (arr s) (firstn (len s) c ++ xs ++ skipn n c) h, {| arr := arr s; len := n |})
    else
      (h ++ [view h s ++ xs ++ repeat None room], {| arr := length h; len := n |}).

  (** Slices the program can hold. *)
  Definition valid (h : heap) (s : slice) : Prop := len s <= cap h s.
End Slice.
Arguments cells {A}. Arguments empty_slice {A}. Arguments cap {A}. Arguments view {A}. Arguments append {A}. Arguments valid {A}.
