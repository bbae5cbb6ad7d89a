(** * How Go reads the generated code *)

From Coq Require Import Ascii String List Bool.
From Verif.Texts Require Import Model.
Import ListNotations.
Local Open Scope string_scope.

(** The Go Programming Language Specification, "Comments" and "String literals". A token is a character of the code outside literals and comments, or a literal with
    its value. Escapes by number and runes do not occur: the first are taken for errors here. *)
Inductive token := Ch (c : ascii) | Lit (value : string).
(** Where the reader is: in code, after a slash, in a raw literal, in a quoted literal, after a backslash in it, in a comment of a line, in a block comment, after a star in it. *)
Inductive mode := InCode | Slash | InRaw (v : string) | InQuote (v : string) | Escape (v : string) | InLine | InBlock | Star.
Definition snoc (v : string) (c : ascii) : string := v ++ String c "".
Definition unescape (c : ascii) : option ascii :=
  if Ascii.eqb c "a" then Some "007"%char else if Ascii.eqb c "b" then Some "008"%char else if Ascii.eqb c "f" then Some "012"%char
  else if Ascii.eqb c "n" then Some "010"%char else if Ascii.eqb c "r" then Some "013"%char else if Ascii.eqb c "t" then Some "009"%char
  else if Ascii.eqb c "v" then Some "011"%char else if Ascii.eqb c "\" then Some "\"%char else if Ascii.eqb c "034" then Some "034"%char else None.
(** One character: the tokens that are complete, and where the reader is then. [None]: not Go. *)
Definition in_code (c : ascii) : list token * mode :=
  if Ascii.eqb c "`" then ([], InRaw "") else if Ascii.eqb c "034" then ([], InQuote "") else if Ascii.eqb c "/" then ([], Slash) else ([Ch c], InCode).
Definition next (m : mode) (c : ascii) : option (list token * mode) :=
  match m with
  | InCode => Some (in_code c)
  | Slash => Some (if Ascii.eqb c "/" then ([], InLine) else if Ascii.eqb c "*" then ([], InBlock) else let '(l, m) := in_code c in (Ch "/" :: l, m))
  | InRaw v => Some (if Ascii.eqb c "`" then ([Lit v], InCode) else if Ascii.eqb c "013" then ([], InRaw v) else ([], InRaw (snoc v c)))
  | InQuote v => if Ascii.eqb c "034" then Some ([Lit v], InCode) else if Ascii.eqb c "010" then None
                 else Some (if Ascii.eqb c "\" then ([], Escape v) else ([], InQuote (snoc v c)))
  | Escape v => match unescape c with Some x => Some ([], InQuote (snoc v x)) | None => None end
  | InLine => Some (if Ascii.eqb c "010" then ([Ch "010"%char], InCode) else ([], InLine))
  | InBlock => Some ([], if Ascii.eqb c "*" then Star else InBlock)
  | Star => Some (if Ascii.eqb c "/" then ([Ch "010"%char], InCode) else ([], if Ascii.eqb c "*" then Star else InBlock))
  end.
Fixpoint lex (m : mode) (s : string) : option (list token) :=
  match s with
  | EmptyString => match m with InCode | InLine => Some [] | Slash => Some [Ch "/"%char] | _ => None end
  | String c r =>
      match next m c with
      | None => None
      | Some (l, m') => match lex m' r with Some l' => Some (l ++ l')%list | None => None end
      end
  end.
Definition go_tokens (s : string) : option (list token) := lex InCode s.

(** What the templates mean: fixed text is code, texts are literals with just this value, and a comment is a line break. *)
Fixpoint code_tokens (s : string) : list token := match s with EmptyString => [] | String c r => Ch c :: code_tokens r end.
Definition means (p : piece) : list token :=
  match p with
  | Code s => code_tokens s
  | Raw s | Quoted s => [Lit s]
  | Block _ | Line _ => [Ch "010"%char]
  end.
Definition meaning (l : list item) : list token := flat_map means (flat_map pieces l).

(** ** Texts *)

Definition has (c : ascii) (s : string) : Prop := exists a b, s = a ++ String c b.
Definition contains (t s : string) : Prop := exists a b, s = a ++ t ++ b.

(** The texts in a comment over lines. *)
Definition some (t : option string) : list string := match t with Some t => [t] | None => [] end.
Definition arg_texts (a : arg) : list string := ([g_name a; g_value a] ++ some (g_if a))%list.
Definition expr_texts (e : expr) : list string :=
  match e with
  | By e => [e]
  | Call m args => m :: flat_map arg_texts args
  | Message n args => n :: flat_map arg_texts args
  | Enum n e => [n; e]
  | Map i s e => [i; s] ++ match e with EachBy e => [e] | EachMessage n args => n :: flat_map arg_texts args | EachEnum _ => [] end
  | Validation n e => n :: some (e_if e) ++ some (e_message e) ++ map t_if (e_details e)
  end%list.
Definition def_texts (d : def) : list string := (d_name d :: some (d_if d) ++ expr_texts (d_expr d))%list.

(** The texts in raw literals. *)
Definition raw_texts (i : item) : list string :=
  match i with
  | Definition_ d => some (d_if d) ++ [d_name d] ++
      match d_expr d with
      | By e | Enum _ e => [e]
      | Map i _ (EachBy e | EachEnum e) => [i; e]
      | Map i _ _ => [i]
      | Validation _ e => some (e_if e) ++ some (e_message e)
      | _ => []
      end
  | Argument a _ => some (g_if a) ++ [g_value a]
  | Field _ e => [e]
  | Precondition t s d => [t; s; d]
  | BadRequest f d => [f; d]
  | Localized _ m => [m]
  | Attribute n v => [n; v]
  end%list.

(** All literals of an item, in order: the condition, the name, then the expressions. *)
Definition texts (i : item) : list string := match i with Localized l m => [l; m] | _ => raw_texts i end.
Definition values (l : list token) : list string := flat_map (fun t => match t with Lit v => [v] | Ch _ => [] end) l.

(** Texts that survive: no backtick and no carriage return in raw literals, no end of a comment in definitions, no quote, backslash or line break in locales. *)
Definition harmless (i : item) : Prop :=
  (forall t, In t (raw_texts i) -> ~ has "`" t /\ ~ has "013" t) /\
  match i with
  | Definition_ d => forall t, In t (def_texts d) -> ~ contains "*/" t
  | Localized l _ => ~ has "034" l /\ ~ has "\" l /\ ~ has "010" l
  | _ => True
  end.
