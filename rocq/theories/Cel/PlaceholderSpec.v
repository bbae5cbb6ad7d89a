(** The lexical structure of CEL texts, as far as needed to tell string literals from code
    (CEL.g4: STRING, BYTES, COMMENT). *)
From Coq Require Import String Ascii List Bool.
Import ListNotations.
Local Open Scope string_scope.

Inductive mode :=
| Code (raw : bool)                          (* raw: the previous character is r or R *)
| Slash                                      (* one slash seen *)
| Comment
| Opened (q : ascii) (raw : bool)            (* after an opening quote *)
| Opened2 (q : ascii) (raw : bool)           (* after two quotes: the empty literal, or the start of a triple-quoted one *)
| Lit (q : ascii) (raw esc : bool)           (* inside; esc: after a backslash *)
| Lit3 (q : ascii) (raw esc : bool) (n : nat). (* inside a triple-quoted literal, n closing quotes seen *)

Definition quote (c : ascii) : bool := Ascii.eqb c "034" || Ascii.eqb c "'".
Definition code (c : ascii) : mode :=
  if Ascii.eqb c "r" || Ascii.eqb c "R" then Code true else if Ascii.eqb c "/" then Slash else Code false.
Definition inside (q : ascii) (raw : bool) (c : ascii) : mode :=
  if Ascii.eqb c q then Code false else Lit q raw (Ascii.eqb c "\" && negb raw).
Definition inside3 (q : ascii) (raw : bool) (n : nat) (c : ascii) : mode :=
  if Ascii.eqb c q then (if Nat.eqb n 2 then Code false else Lit3 q raw false (S n))
  else Lit3 q raw (Ascii.eqb c "\" && negb raw) 0.

(** The mode after a character, and whether the character is part of the text of a literal. *)
Definition next (m : mode) (c : ascii) : mode * bool :=
  match m with
  | Code raw => if quote c then (Opened c raw, false) else (code c, false)
  | Slash => if Ascii.eqb c "/" then (Comment, false) else if quote c then (Opened c false, false) else (code c, false)
  | Comment => if Ascii.eqb c "010" then (Code false, false) else (Comment, false)
  | Opened q raw => if Ascii.eqb c q then (Opened2 q raw, false) else (inside q raw c, true)
  | Opened2 q raw => if Ascii.eqb c q then (Lit3 q raw false 0, false) else if quote c then (Opened c false, false) else (code c, false)
  | Lit q raw true => (Lit q raw false, true)
  | Lit q raw false => (inside q raw c, negb (Ascii.eqb c q))
  | Lit3 q raw true n => (Lit3 q raw false 0, true)
  | Lit3 q raw false n => (inside3 q raw n c, true)
  end.

(** [$] replaced by the argument's name in code only. *)
Fixpoint intended (m : mode) (s : string) : string :=
  match s with
  | EmptyString => EmptyString
  | String c s' =>
      let '(m', lit) := next m c in
      if Ascii.eqb c "$" && negb lit then "__ARG__" ++ intended m' s' else String c (intended m' s')
  end.

(** No [$] in a literal. *)
Fixpoint no_dollar_in_literals (m : mode) (s : string) : bool :=
  match s with
  | EmptyString => true
  | String c s' => let '(m', lit) := next m c in negb (Ascii.eqb c "$" && lit) && no_dollar_in_literals m' s'
  end.
