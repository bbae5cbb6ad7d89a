(** * Attributes and accessors of enums

    Model of the check of attributes, resolveEnumRules, resolver/resolver.go:1872-1892, with
    Enum.AttributeMap, resolver/enum.go:45-56; of the map of attributes that is generated,
    File.EnumAttributes, generator/code_generator.go:713-734, and server.go.tmpl:31-43; and of
    EnumAccessorOptions and EnumAttrOption, grpc/federation/cel.go:213-259.

    Simplifications.  The maps E_name and E_value are those protoc-gen-go generates: of the
    names of one number the first is kept.  Texts are what protoc lets through, UTF-8; a byte
    order mark inside of one, which Go refuses too, is not modelled. *)

From Coq Require Import Ascii String List Bool Arith ZArith.
From Verif.Base Require Import Text.
From Verif.Enums Require Import Model.
Import ListNotations.
Local Open Scope string_scope.

Definition attributes (v : value) : list (string * string) := match rule v with Some l => l | None => [] end.

(** AttributeMap: the values under the name [n], one for each attribute. *)
Definition occurrences (n : string) (vs : list value) : list value :=
  flat_map (fun v => flat_map (fun a => if String.eqb (fst a) n then [v] else []) (attributes v)) vs.

Definition attribute_names (vs : list value) : list string := flat_map (fun v => map fst (attributes v)) vs.

(** resolver.go:1872-1892: no error for any name; and resolver.go:3225-3238: names are given. *)
Definition accepts (e : enum) : bool :=
  forallb (fun n => negb (String.eqb n "") && Nat.eqb (List.length (occurrences n (values e))) (List.length (values e)))
    (attribute_names (values e)).

(** What is generated for an enum. *)
Inductive generated :=
| Nothing
| Panic
| Literal (entries : list (Z * list (string * string))).

Fixpoint entries_of (vs : list value) : option (list (Z * list (string * string))) :=
  match vs with
  | [] => Some []
  | v :: r => match rule v, entries_of r with
              | Some a, Some l => Some ((number v, a) :: l)
              | _, _ => None
              end
  end.

(** EnumAttributes: code_generator.go:713-734; [value.Rule.Attrs] of a value without rule is a
    nil dereference. *)
Definition generate (e : enum) : generated :=
  if has_attributes e then match entries_of (values e) with Some l => Literal l | None => Panic end
  else Nothing.

(** A raw string of Go, server.go.tmpl:37: it ends at a backquote, has no NUL, and carriage
    returns are not part of its value. *)
Definition raw (s : string) : bool := negb (has_char "`" s) && negb (has_char "000" s).
Fixpoint go_value (s : string) : string :=
  match s with
  | EmptyString => EmptyString
  | String c r => if Ascii.eqb c "013" then go_value r else String c (go_value r)
  end.

(** A map literal of Go: constant keys are not repeated. *)
Fixpoint distinct_b {A : Type} (eqb : A -> A -> bool) (l : list A) : bool :=
  match l with [] => true | x :: r => negb (existsb (eqb x) r) && distinct_b eqb r end.
Definition valid_go (l : list (Z * list (string * string))) : bool :=
  distinct_b Z.eqb (map fst l) &&
  forallb (fun p => distinct_b String.eqb (map (fun a => go_value (fst a)) (snd p)) && forallb (fun a => raw (fst a) && raw (snd a)) (snd p)) l.

(** Conversion to int32. *)
Definition to_int32 (z : Z) : Z := ((z + 2 ^ 31) mod 2 ^ 32 - 2 ^ 31)%Z.

Fixpoint get (n : string) (l : list (string * string)) : string :=
  match l with [] => "" | (k, x) :: r => if String.eqb (go_value k) n then go_value x else get n r end.
Fixpoint get_entry (z : Z) (l : list (Z * list (string * string))) : option (list (string * string)) :=
  match l with [] => None | (k, x) :: r => if Z.eqb k z then Some x else get_entry z r end.

(** EnumAttrOption: cel.go:246-259; [None] is an error. *)
Definition attr (l : list (Z * list (string * string))) (v : Z) (n : string) : option string :=
  match get_entry (to_int32 v) l with Some a => Some (get n a) | None => None end.

(** EnumAccessorOptions: cel.go:213-240. *)
Fixpoint first_name (z : Z) (vs : list value) : string :=
  match vs with [] => "" | v :: r => if Z.eqb (number v) z then vname v else first_name z r end.
Fixpoint number_of (n : string) (vs : list value) : Z :=
  match vs with [] => 0%Z | v :: r => if String.eqb (vname v) n then number v else number_of n r end.
Definition name_accessor (e : enum) (v : Z) : string := first_name (to_int32 v) (values e).
Definition value_accessor (e : enum) (n : string) : Z := number_of n (values e).
Definition from_accessor (v : Z) : Z := v.
