(** * Conventional names *)

From Coq Require Import Ascii String List Bool Arith.
From Verif.Base Require Import Text.
From Verif.Ident Require Import Model.
Import ListNotations.
Local Open Scope string_scope.

Fixpoint all (P : ascii -> bool) (s : string) : Prop :=
  match s with EmptyString => True | String c r => P c = true /\ all P r end.

(** A word: lower case letters, and then perhaps digits. *)
Definition word (w : string) : Prop :=
  exists c letters digits, w = String c (letters ++ digits) /\
    is_lower c = true /\ all is_lower letters /\ all is_digit digits.

(** The word with a capital. *)
Definition capital (w : string) : string :=
  match w with EmptyString => EmptyString | String c r => String (upper c) r end.

(** snake_case: words with underscores between them. *)
Definition snake_of (ws : list string) : string := join "_" ws.
(** PascalCase: words with capitals. *)
Definition pascal_of (ws : list string) : string := String.concat "" (map capital ws).

Definition words (ws : list string) : Prop := ws <> [] /\ Forall word ws.

Definition snake (s : string) : Prop := exists ws, words ws /\ s = snake_of ws.
Definition pascal (s : string) : Prop := exists ws, words ws /\ s = pascal_of ws.

(** Two names of the same words, in whichever of the two styles. *)
Definition spells (ws : list string) (s : string) : Prop := s = snake_of ws \/ s = pascal_of ws.
Definition same_words (a b : string) : Prop := exists ws, words ws /\ spells ws a /\ spells ws b.

(** A qualified name of conventional parts. *)
Definition conventional (parts : list string) : Prop :=
  parts <> [] /\ Forall (fun p => snake p \/ pascal p) parts.

Definition qualified (parts : list string) : string := join "." parts.

(** A qualified name with a package, and the names of a type in the types that contain
    it. *)
Definition type_name (package types : list string) : Prop :=
  types <> [] /\ Forall snake package /\ Forall pascal types.

(** ** Types *)

(** A message, an enum or a field of a oneof, with the parts of its qualified name;
    [c] tells that an underscore is added to its Go name. *)
Inductive named : typ -> bool -> list string -> bool -> Prop :=
| named_message : forall b ps, named (Message b (qualified ps)) b ps false
| named_enum : forall b ps, named (Enum b (qualified ps)) b ps false
| named_oneof : forall b ps c, named (Oneof b (qualified ps) c) b ps c.

(** Types with conventional names; the key of a map is a scalar. *)
Inductive usual : typ -> Prop :=
| usual_scalar : forall b k, usual (Scalar b k)
| usual_null : forall b, usual (Null b)
| usual_named : forall t b ps c, named t b ps c -> conventional ps -> usual t
| usual_map : forall k v, usual v -> usual (Map (Scalar false k) v).

(** The kinds of scalars that protoc-gen-go gives one Go type. *)
Definition go_types : list (list kind) :=
  [[Double]; [Float]; [Int32; Sint32; Sfixed32]; [Int64; Sint64; Sfixed64]; [Uint32; Fixed32]; [Uint64; Fixed64];
   [Bool]; [Str]; [Bytes]].
Definition one_go_type (k k' : kind) : Prop := exists g, In g go_types /\ In k g /\ In k' g.

(** Types that are the same up to the Go type of a scalar and the style of names. *)
Inductive alike : typ -> typ -> Prop :=
| alike_scalar : forall b k k', one_go_type k k' -> alike (Scalar b k) (Scalar b k')
| alike_null : forall b, alike (Null b) (Null b)
| alike_named : forall t t' b ps ps' c, named t b ps c -> named t' b ps' c ->
    Forall2 same_words ps ps' -> alike t t'
| alike_map : forall k k' v v', alike k k' -> alike v v' -> alike (Map k v) (Map k' v').

(** ** Functions of plugins *)

(** The parts of the full name of a function: those of its receiver or package, and
    its own. *)
Inductive called : func -> list string -> string -> Prop :=
| called_method : forall m n args ret,
    called {| f_receiver := Some (qualified m); f_name := n; f_args := args; f_return := ret |} m n
| called_global : forall p n args ret,
    called {| f_receiver := None; f_name := qualified (p ++ [n])%list; f_args := args; f_return := ret |} p n.

(** A name in snake_case that ends in a letter. *)
Definition ends_in_letter (n : string) : Prop :=
  exists ws w, words (ws ++ [w])%list /\ all is_lower w /\ n = snake_of (ws ++ [w])%list.

(** The parts of all the names in the signature of a function, one after the other. *)
Definition signature (owner name : string) (args : list typ) (ret : option typ) : list string :=
  flat_map (split ".")
    (owner :: name :: map fqdn (args ++ match ret with Some t => [t] | None => [] end)%list)%list.
