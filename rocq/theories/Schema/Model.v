(** Types of the resolved schema and the checks on assignments.
    Models: resolver/types.go (Type), resolver/resolver.go (isDifferentType, validateBindFieldType,
    validateRequestFieldType, findMessageAliasName, findEnumAliasName), generator/code_generator.go (requiredCast),
    resolver/type_conversion.go (requiredTypeConversion).
    Simplified: messages and enums are numbers; the resolver keeps one object per fully qualified name, so comparing
    names and comparing objects is the same. A map entry message is its key and value types. An enum selector (the message
    grpc.federation.private.EnumSelector the resolver makes for one select call) is the types of its two fields. *)
From Coq Require Import String List Bool Arith.
From Verif.Cast Require Import Model.
Import ListNotations.
Local Open Scope nat_scope.

(** resolver/types.go:408-418 Type. [oneof] is OneofField: the message and the name of the field. *)
Inductive ty := T (b : base) (rep null : bool) (oneof : option (nat * string))
with base :=
| BKind (k : kind)              (* a scalar; the null type is [BKind Unknown] with the null flag *)
| BMsg (m : nat)
| BEnum (e : nat)
| BMap (k v : ty)
| BSelector (t f : ty).

Definition base_of (t : ty) : base := match t with T b _ _ _ => b end.
Definition rep (t : ty) : bool := match t with T _ r _ _ => r end.
Definition null (t : ty) : bool := match t with T _ _ n _ => n end.
Definition oneof (t : ty) : option (nat * string) := match t with T _ _ _ o => o end.
Definition kind_of (t : ty) : kind :=
  match base_of t with BKind k => k | BMsg _ | BMap _ _ | BSelector _ _ => Message | BEnum _ => Enum end.
(** A plain type. *)
Definition single (b : base) : ty := T b false false None.
Definition list_of (b : base) : ty := T b true false None.

Definition kind_eqb (a b : kind) : bool := String.eqb (ToString a) (ToString b).

(** What the checks use of messages and enums: the messages (enums) named by "alias" in their options, and the six number
    wrappers of resolver/wellknown_types.go:68-75. *)
Record schema := { msg_aliases : nat -> list nat; enum_aliases : nat -> list nat; wrapper : nat -> bool }.

(** resolver/types.go:431-448 IsNumber *)
Definition is_number (t : ty) : bool :=
  match kind_of t with
  | Double | Float | Int64 | Uint64 | Int32 | Fixed64 | Fixed32 | Uint32 | Sfixed32 | Sfixed64 | Sint32 | Sint64 => true
  | _ => false
  end.

(** resolver/resolver.go:5301-5316 *)
Definition isDifferentType (from to : ty) : bool :=
  if is_number from && is_number to then false
  else if kind_eqb (kind_of from) Enum && is_number to then false
  else if null from && (rep to || kind_eqb (kind_of to) Message || kind_eqb (kind_of to) Bytes) then false
  else negb (kind_eqb (kind_of from) (kind_of to)).

(** resolver/types.go:450-456 IsNumberWrapper: looked up by name; the name of a repeated type or of a oneof field is
    another one. *)
Definition is_wrapper (s : schema) (t : ty) : bool :=
  match t with T (BMsg m) false _ None => wrapper s m | _ => false end.

Definition mem (n : nat) (l : list nat) : bool := existsb (Nat.eqb n) l.
(** resolver/resolver.go:1674-1696 findMessageAliasName *)
Definition findMessageAliasName (s : schema) (from to : nat) : bool :=
  mem to (msg_aliases s from) || mem from (msg_aliases s to).
(** resolver/resolver.go:1698-1718 findEnumAliasName *)
Definition findEnumAliasName (s : schema) (from to : nat) : bool :=
  mem to (enum_aliases s from) || mem from (enum_aliases s to).

(** The part the two checks share, for two message types (resolver.go:1586-1627, 1747-1790). Messages other than ordinary
    ones have no alias. *)
Definition messages_ok (s : schema) (from to : ty) : bool :=
  if is_wrapper s from && is_wrapper s to then true
  else match base_of from, base_of to with
       | BMap fk fv, BMap tk tv => negb (isDifferentType fk tk) && negb (isDifferentType fv tv)
       | BMsg m, BMsg n => Nat.eqb m n || (findMessageAliasName s m n && negb (isDifferentType from to))
       | _, _ => false
       end.
Definition enums_ok (s : schema) (from to : ty) (m n : nat) : bool :=
  Nat.eqb m n || (findEnumAliasName s m n && negb (isDifferentType from to)).

(** resolver/resolver.go:1731-1838 validateBindFieldType and 1720-1729 validateBindFieldEnumSelectorType;
    [true]: no error is reported. Not modelled: types that could not be resolved. *)
Fixpoint validateBindFieldType (s : schema) (from to : ty) {struct from} : bool :=
  match from with
  | T (BSelector t f) _ _ _ =>
      if kind_eqb (kind_of to) Enum then validateBindFieldType s t to && validateBindFieldType s f to
      else false
  | T (BMsg _) _ _ _ | T (BMap _ _) _ _ _ =>
      if kind_eqb (kind_of to) Message then messages_ok s from to else false
  | T (BEnum m) _ _ _ => match base_of to with BEnum n => enums_ok s from to m n | _ => true end
  | T (BKind _) _ _ _ => negb (isDifferentType from to)
  end.

(** resolver/resolver.go:1580-1672 validateRequestFieldType *)
Definition validateRequestFieldType (s : schema) (from to : ty) : bool :=
  if kind_eqb (kind_of to) Message then
    if kind_eqb (kind_of from) Message then messages_ok s from to else true
  else match base_of to with
       | BEnum n => match base_of from with BEnum m => enums_ok s from to m n | _ => true end
       | _ => negb (isDifferentType from to)
       end.

(** resolver/resolver.go:1840-1861 validateEnumMultipleAliases; [true]: no error. *)
Definition validateEnumMultipleAliases (s : schema) (from to : ty) : bool :=
  match base_of to with
  | BEnum n =>
      if Nat.leb (length (enum_aliases s n)) 1 then true
      else match base_of from with
           | BEnum m => Nat.eqb m n
           | BSelector _ _ => true
           | _ => false
           end
  | _ => true
  end.

(** generator/code_generator.go:3725-3739 requiredCast; resolver/type_conversion.go:117-139 requiredTypeConversion is
    the same function on accepted types. A map and another message have different types. *)
Fixpoint requiredCast (from to : ty) {struct from} : bool :=
  match base_of from, base_of to with
  | BMap fk fv, BMap tk tv => requiredCast fk tk || requiredCast fv tv
  | BMsg m, BMsg n => negb (Nat.eqb m n)
  | BEnum m, BEnum n => negb (Nat.eqb m n)
  | BKind k, BKind l => negb (kind_eqb k l)
  | _, _ => true
  end.
