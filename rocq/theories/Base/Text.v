(** Go's strings functions on byte strings, as used by the code under study. *)
From Coq Require Import String Ascii List Bool.
Import ListNotations.
Local Open Scope string_scope.

(** strings.Split(s, sep) for a one-byte separator *)
Fixpoint split (sep : ascii) (s : string) : list string :=
  match s with
  | EmptyString => [EmptyString]
  | String c s' =>
      if Ascii.eqb c sep then EmptyString :: split sep s'
      else match split sep s' with
           | [] => [String c EmptyString]     (* never: split is not empty *)
           | h :: t => String c h :: t
           end
  end.

(** strings.Join *)
Fixpoint join (sep : string) (l : list string) : string :=
  match l with
  | [] => EmptyString
  | [x] => x
  | x :: l' => x ++ sep ++ join sep l'
  end.

(** strings.HasPrefix with a one-byte prefix, strings.TrimPrefix *)
Definition trim_prefix1 (c : ascii) (s : string) : string :=
  match s with
  | String c' s' => if Ascii.eqb c c' then s' else s
  | EmptyString => EmptyString
  end.

(** strings.Contains with a one-byte substring *)
Fixpoint has_char (c : ascii) (s : string) : bool :=
  match s with
  | EmptyString => false
  | String c' s' => Ascii.eqb c' c || has_char c s'
  end.
