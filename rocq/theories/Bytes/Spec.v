(** * Values that do not change *)

From Coq Require Import Ascii List.
From Verif.Base Require Import Slice.
From Verif.Bytes Require Import Model.
Import ListNotations.

(** A value is its bytes, and whether it is of type bytes. *)
Definition plain := (bool * list ascii)%type.
(** What is read from the values of a program. *)
Definition shown (h : heap ascii) (v : cel) : plain := match v with Bytes s => (true, read (Slice.view h s)) | Text t => (false, t) end.
Definition contents (st : state) : list plain := map (shown (heap_ st)) (values st).

(** The meaning of a program: values are lists. *)
Definition means1 (vs : list plain) (c : call) : list plain :=
  match c with
  | New xs _ => vs ++ [(true, xs)]
  | NewText xs => vs ++ [(false, xs)]
  | Append i _ ps => match nth_error vs i with None => vs | Some (b, xs) => vs ++ [(b, xs ++ concat (map fst ps))] end
  end.
Definition means (calls : list call) : list plain := fold_left means1 calls [].

(** The values of type bytes that calls append to, in order. *)
Fixpoint targets (vs : list plain) (calls : list call) : list nat :=
  match calls with
  | [] => []
  | c :: r => match c with Append i _ _ => match nth_error vs i with Some (true, _) => [i] | _ => [] end | _ => [] end ++ targets (means1 vs c) r
  end.
