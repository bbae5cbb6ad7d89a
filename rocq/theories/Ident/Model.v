(** * Go identifiers made from proto names

    Model of util/name.go:9-39, with GoCamelCase of
    google.golang.org/protobuf/internal/strs, to which name.go:9-10 links; of
    protoFQDNToPublicGoName, fullServiceName, fullOneofName, fullMessageName,
    fullEnumName, castFuncName and castName, generator/code_generator.go:3695-3765; of
    the text of scalar types, code_generator.go:1116-1175; of
    CELFunction.GoName and PluginFunctions, code_generator.go:104-112, 307-319; of the
    names of resolvers, code_generator.go:966-981, 1736-1753; of DeclVariables,
    code_generator.go:1834-1861; of Type.FQDN, resolver/fqdn.go:66-87; and of
    toPluginFunctionID, resolver/resolver.go:881-896, 999-1008.

    Simplifications.  Names are bytes, and upper and lower case are those of ASCII:
    proto identifiers have no other letters. *)

From Coq Require Import Ascii String List Bool Arith.
From Verif.Base Require Import Text.
From Verif.Names Require Import Model.
Import ListNotations.
Local Open Scope string_scope.

Definition is_lower (c : ascii) : bool :=
  let n := nat_of_ascii c in (Nat.leb 97 n && Nat.leb n 122).
Definition is_upper (c : ascii) : bool :=
  let n := nat_of_ascii c in (Nat.leb 65 n && Nat.leb n 90).
Definition is_digit (c : ascii) : bool :=
  let n := nat_of_ascii c in (Nat.leb 48 n && Nat.leb n 57).

Definition upper (c : ascii) : ascii :=
  if is_lower c then ascii_of_nat (nat_of_ascii c - 32) else c.
Definition lower (c : ascii) : ascii :=
  if is_upper c then ascii_of_nat (nat_of_ascii c + 32) else c.

Definition lower_next (s : string) : bool :=
  match s with EmptyString => false | String c _ => is_lower c end.

(** strs.GoCamelCase.  [prev] is the byte before, and [run] tells that the lower case
    letters that come now belong to the word begun. *)
Fixpoint camel (prev : option ascii) (run : bool) (s : string) : string :=
  match s with
  | EmptyString => EmptyString
  | String c r =>
      if run && is_lower c then String c (camel (Some c) true r)
      else if Ascii.eqb c "."%char then
        if lower_next r then camel (Some c) false r
        else String "_" (camel (Some c) false r)
      else if Ascii.eqb c "_"%char &&
              match prev with None => true | Some p => Ascii.eqb p "."%char end
      then String "X" (camel (Some c) false r)
      else if Ascii.eqb c "_"%char && lower_next r then camel (Some c) false r
      else if is_digit c then String c (camel (Some c) false r)
      else String (upper c) (camel (Some c) true r)
  end.

Definition go_camel (s : string) : string := camel None false s.

(** ToPublicVariable: util/name.go:23-28. *)
Definition to_public (s : string) : string :=
  match s with EmptyString => EmptyString | String c r => String (upper c) r end.

(** ToPrivateVariable: util/name.go:30-35. *)
Definition to_private (s : string) : string :=
  match s with EmptyString => EmptyString | String c r => String (lower c) r end.

(** ToPublicGoVariable: util/name.go:12-14. *)
Definition public (s : string) : string := to_public (go_camel s).

(** ToPrivateGoVariable: util/name.go:16-18. *)
Definition private (s : string) : string := to_private (go_camel s).

Fixpoint replace (a b : ascii) (s : string) : string :=
  match s with
  | EmptyString => EmptyString
  | String c r => String (if Ascii.eqb c a then b else c) (replace a b r)
  end.

(** protoFQDNToPublicGoName: code_generator.go:3695-3703; and fullServiceName,
    fullMessageName, fullEnumName, which apply it to the FQDN. *)
Definition go_name (fqdn : string) : string :=
  join "_" (map (fun n => public (replace "-" "_" n)) (split "." fqdn)).

(** ** Conversion functions *)

Inductive kind :=
| Double | Float | Int32 | Int64 | Uint32 | Uint64 | Sint32 | Sint64
| Fixed32 | Fixed64 | Sfixed32 | Sfixed64 | Bool | Str | Bytes.

(** toTypeText: code_generator.go:1129-1159. *)
Definition go_scalar (k : kind) : string :=
  match k with
  | Double => "float64" | Float => "float32"
  | Int32 | Sint32 | Sfixed32 => "int32"
  | Int64 | Sint64 | Sfixed64 => "int64"
  | Uint32 | Fixed32 => "uint32"
  | Uint64 | Fixed64 => "uint64"
  | Bool => "bool" | Str => "string" | Bytes => "[]byte"
  end.

(** Kind.ToString: types/types.go:53-93. *)
Definition proto_scalar (k : kind) : string :=
  match k with
  | Double => "double" | Float => "float"
  | Int32 => "int32" | Int64 => "int64" | Uint32 => "uint32" | Uint64 => "uint64"
  | Sint32 => "sint32" | Sint64 => "sint64" | Fixed32 => "fixed32" | Fixed64 => "fixed64"
  | Sfixed32 => "sfixed32" | Sfixed64 => "sfixed64"
  | Bool => "bool" | Str => "string" | Bytes => "bytes"
  end.

(** A type: what castName and Type.FQDN look at.  A oneof field has its FQDN and
    whether it conflicts; a map has the types of its key and value. *)
Inductive typ :=
| Scalar (repeated : bool) (k : kind)
| Null (repeated : bool)
| Message (repeated : bool) (fqdn : string)
| Enum (repeated : bool) (fqdn : string)
| Oneof (repeated : bool) (fqdn : string) (conflict : bool)
| Map (key value : typ).

Definition repeated_ (b : bool) : string := if b then "repeated_" else "".

(** castName: code_generator.go:3745-3765. *)
Fixpoint cast_name (t : typ) : string :=
  match t with
  | Scalar b k => repeated_ b ++ go_scalar k
  | Null b => repeated_ b ++ "any"
  | Message b n => repeated_ b ++ go_name n
  | Enum b n => repeated_ b ++ go_name n
  | Oneof b n c => repeated_ b ++ go_name n ++ (if c then "_" else "")
  | Map k v => "map_" ++ cast_name k ++ "_" ++ cast_name v
  end.

(** castFuncName: code_generator.go:3741-3743. *)
Definition cast_func (from to : typ) : string :=
  "cast_" ++ cast_name from ++ "__to__" ++ cast_name to.

(** ** Oneof fields *)

(** IsConflict: resolver/oneof.go:36-50; [nested] are the names of the messages and
    enums in the message. *)
Definition conflicts (field : string) (nested : list string) : bool :=
  existsb (fun n => String.eqb (public n) (public field)) nested.

(** fullOneofName: code_generator.go:3709-3715. *)
Definition oneof_name (msg field : string) (nested : list string) : string :=
  go_name (msg ++ "." ++ field) ++ (if conflicts field nested then "_" else "").

(** ** Resolvers *)

(** CustomResolver.Name and fullName: code_generator.go:966-981; ToPublicGoVariable of
    the field. *)
Definition resolver_name (msg : string) (field : option string) : string :=
  "Resolve_" ++ go_name msg ++ match field with Some f => "_" ++ public f | None => "" end.

(** ** Variables *)

Definition memb (x : string) (l : list string) : bool := existsb (String.eqb x) l.

Fixpoint distinct (seen l : list string) : list string :=
  match l with
  | [] => []
  | x :: r => if memb x seen then distinct seen r else x :: distinct (x :: seen) r
  end.

(** The fields declared by DeclVariables for the variables of a message, before
    sorting: code_generator.go:1841-1855.  There is one for each name. *)
Definition declared (names : list string) : list string := map public (distinct [] names).

(** ** Plugin functions *)

(** A function: its receiver's FQDN, its Name, the FQDNs of its types. *)
Record func := {
  f_receiver : option string;
  f_name : string;
  f_args : list typ;
  f_return : option typ
}.

(** The name with the number of the overload: code_generator.go:104-112. *)
Definition numbered (name : string) (idx : nat) : string :=
  match idx with O => name | S _ => name ++ dec (S idx) end.

(** GoName: code_generator.go:104-112. *)
Definition func_go_name (f : func) (idx : nat) : string :=
  match f_receiver f with
  | Some m => go_name (m ++ "." ++ numbered (f_name f) idx)
  | None => go_name (numbered (f_name f) idx)
  end.

(** PluginFunctions: code_generator.go:307-319; [before] are the names so far. *)
Fixpoint func_go_names (before : list string) (fs : list func) : list string :=
  match fs with
  | [] => []
  | f :: r =>
      func_go_name f (List.length (filter (String.eqb (f_name f)) before))
      :: func_go_names (f_name f :: before) r
  end.

(** Type.FQDN: resolver/fqdn.go:66-87. *)
Fixpoint fqdn (t : typ) : string :=
  match t with
  | Scalar b k => (if b then "repeated " else "") ++ proto_scalar k
  | Null b => (if b then "repeated " else "") ++ "null"
  | Message b n => (if b then "repeated " else "") ++ n
  | Enum b n => (if b then "repeated " else "") ++ n
  | Oneof b n _ => (if b then "repeated " else "") ++ n
  | Map k v => "map<" ++ fqdn k ++ ", " ++ fqdn v ++ ">"
  end.

(** toPluginFunctionID: resolver.go:999-1008, with the prefixes of 884 and 895:
    [owner] is the FQDN of the receiver, or the package of a global function, and
    [name] the name in the option. *)
Definition func_id (owner name : string) (args : list typ) (ret : option typ) : string :=
  replace "." "_"
    (join "_" ((owner ++ "_" ++ name) :: map fqdn (args ++ match ret with Some t => [t] | None => [] end)%list)).
