(** Model of the checked integer conversions and of the generated numeric casts.
    Models: grpc/federation/cast.go, types/types.go,
    generator/code_generator.go (CastField), generator/templates/cast.go.tmpl,
    generator/templates/server.go.tmpl (cast dispatch). *)
From Coq Require Import ZArith String List Bool.
From Verif.Base Require Import Result.
Import ListNotations.
Open Scope Z_scope.

(** Go fixed width integer types. *)
Inductive gotype := GInt32 | GInt64 | GUint32 | GUint64.

Definition gotype_eqb (a b : gotype) : bool :=
  match a, b with
  | GInt32, GInt32 | GInt64, GInt64 | GUint32, GUint32 | GUint64, GUint64 => true
  | _, _ => false
  end.

(** Go's unchecked integer conversion T(v): keep the low bits, reinterpret.
    (Go spec, "Conversions between numeric types".) *)
Definition go_wrap (t : gotype) (v : Z) : Z :=
  match t with
  | GUint32 => v mod 2 ^ 32
  | GUint64 => v mod 2 ^ 64
  | GInt32 => (v + 2 ^ 31) mod 2 ^ 32 - 2 ^ 31
  | GInt64 => (v + 2 ^ 63) mod 2 ^ 64 - 2 ^ 63
  end.

(** The only error of cast.go: ErrOverflowTypeConversion (wrapped with the value). *)
Inductive cast_error := ErrOverflowTypeConversion.

Definition cres := result Z cast_error.

(** cast.go:5-10 *)
Definition Int64ToInt32 (v : Z) : cres :=
  if (v <? -1 * Z.shiftl 1 31) || (Z.shiftl 1 31 <=? v)
  then Err ErrOverflowTypeConversion else Ok (go_wrap GInt32 v).

(** cast.go:12-17 *)
Definition Int64ToUint32 (v : Z) : cres :=
  if (v <? 0) || (Z.shiftl 1 32 <=? v)
  then Err ErrOverflowTypeConversion else Ok (go_wrap GUint32 v).

(** cast.go:19-24 *)
Definition Int64ToUint64 (v : Z) : cres :=
  if v <? 0 then Err ErrOverflowTypeConversion else Ok (go_wrap GUint64 v).

(** cast.go:26-31 *)
Definition Int32ToUint32 (v : Z) : cres :=
  if v <? 0 then Err ErrOverflowTypeConversion else Ok (go_wrap GUint32 v).

(** cast.go:33-38 *)
Definition Int32ToUint64 (v : Z) : cres :=
  if v <? 0 then Err ErrOverflowTypeConversion else Ok (go_wrap GUint64 v).

(** cast.go:40-45 *)
Definition Uint64ToInt32 (v : Z) : cres :=
  if Z.shiftl 1 31 <=? v then Err ErrOverflowTypeConversion else Ok (go_wrap GInt32 v).

(** cast.go:47-52 *)
Definition Uint64ToInt64 (v : Z) : cres :=
  if Z.shiftl 1 63 <=? v then Err ErrOverflowTypeConversion else Ok (go_wrap GInt64 v).

(** cast.go:54-59 *)
Definition Uint64ToUint32 (v : Z) : cres :=
  if Z.shiftl 1 32 <=? v then Err ErrOverflowTypeConversion else Ok (go_wrap GUint32 v).

(** cast.go:61-66 *)
Definition Uint32ToInt32 (v : Z) : cres :=
  if Z.shiftl 1 31 <=? v then Err ErrOverflowTypeConversion else Ok (go_wrap GInt32 v).

(** The helper selected by its generated name.
    generator/code_generator.go:2048-2050 CastWithValidationName builds
    ToPublicVariable(RequestType) ++ "To" ++ ToPublicVariable(ReturnType); a
    name with no helper does not compile ([None]). *)
Definition helper (from to : gotype) : option (Z -> cres) :=
  match from, to with
  | GInt64, GInt32 => Some Int64ToInt32
  | GInt64, GUint32 => Some Int64ToUint32
  | GInt64, GUint64 => Some Int64ToUint64
  | GInt32, GUint32 => Some Int32ToUint32
  | GInt32, GUint64 => Some Int32ToUint64
  | GUint64, GInt32 => Some Uint64ToInt32
  | GUint64, GInt64 => Some Uint64ToInt64
  | GUint64, GUint32 => Some Uint64ToUint32
  | GUint32, GInt32 => Some Uint32ToInt32
  | _, _ => None
  end.

(** types/types.go:7-27 (the protobuf field kinds). *)
Inductive kind :=
| Double | Float | Int64 | Uint64 | Int32 | Fixed64 | Fixed32 | Bool | String_
| Group | Message | Bytes | Uint32 | Enum | Sfixed32 | Sfixed64 | Sint32 | Sint64
| Unknown.

(** types/types.go:53-92 *)
Definition ToString (k : kind) : string :=
  match k with
  | Double => "double" | Float => "float" | Int64 => "int64" | Uint64 => "uint64"
  | Int32 => "int32" | Fixed64 => "fixed64" | Fixed32 => "fixed32" | Bool => "bool"
  | String_ => "string" | Group => "group" | Message => "message" | Bytes => "bytes"
  | Uint32 => "uint32" | Enum => "enum" | Sfixed32 => "sfixed32"
  | Sfixed64 => "sfixed64" | Sint32 => "sint32" | Sint64 => "sint64"
  | Unknown => "null"
  end%string.

(** types/types.go:94-130 *)
Definition ToKind (s : string) : kind :=
  if String.eqb s "double" then Double
  else if String.eqb s "float" then Float
  else if String.eqb s "int64" then Int64
  else if String.eqb s "uint64" then Uint64
  else if String.eqb s "int32" then Int32
  else if String.eqb s "fixed64" then Fixed64
  else if String.eqb s "fixed32" then Fixed32
  else if String.eqb s "bool" then Bool
  else if String.eqb s "string" then String_
  else if String.eqb s "group" then Group
  else if String.eqb s "bytes" then Bytes
  else if String.eqb s "uint32" then Uint32
  else if String.eqb s "sfixed32" then Sfixed32
  else if String.eqb s "sfixed64" then Sfixed64
  else if String.eqb s "sint32" then Sint32
  else if String.eqb s "sint64" then Sint64
  else Unknown.

(** resolver/types.go:431-448 *)
Definition IsNumber (k : kind) : bool :=
  match k with
  | Double | Float | Int64 | Uint64 | Int32 | Fixed64 | Fixed32 | Uint32
  | Sfixed32 | Sfixed64 | Sint32 | Sint64 => true
  | _ => false
  end.

(** generator/code_generator.go:1116-1175 toTypeText, restricted to integer
    kinds; a protobuf-Go enum type has underlying type int32. Kinds without an
    integer Go type give [None]. *)
Definition kind_gotype (k : kind) : option gotype :=
  match k with
  | Int32 | Sint32 | Sfixed32 | Enum => Some GInt32
  | Int64 | Sint64 | Sfixed64 => Some GInt64
  | Uint32 | Fixed32 => Some GUint32
  | Uint64 | Fixed64 => Some GUint64
  | _ => None
  end.

(** generator/code_generator.go:2030-2042 *)
Definition castValidationNumberMap : list string :=
  [ ToString Int64 ++ ToString Int32;
    ToString Int64 ++ ToString Uint32;
    ToString Int64 ++ ToString Uint64;
    ToString Int32 ++ ToString Uint32;
    ToString Int32 ++ ToString Uint64;
    ToString Uint64 ++ ToString Int32;
    ToString Uint64 ++ ToString Int64;
    ToString Uint64 ++ ToString Uint32;
    ToString Uint32 ++ ToString Int32 ]%string.

(** generator/code_generator.go:2044-2046 *)
Definition IsRequiredValidationNumber (from to : kind) : bool :=
  existsb (String.eqb (ToString from ++ ToString to)) castValidationNumberMap.

(** generator/code_generator.go:2013-2015 *)
Definition IsEnumToNumber (from to : kind) : bool :=
  match from, to with
  | Enum, Enum => false
  | Enum, _ => IsNumber to
  | _, _ => false
  end.

(** generator/code_generator.go:2017-2019 *)
Definition IsNumberToEnum (from to : kind) : bool :=
  match from, to with
  | Enum, _ => false
  | _, Enum => IsNumber from
  | _, _ => false
  end.

(** What one generated scalar conversion function does to an integer value:
    generator/templates/server.go.tmpl:610-632 picks the body,
    generator/templates/cast.go.tmpl castEnumAndNumber (T(from)),
    castRequiredValidationNumber (checked helper) or castDefault (T(from)).
    Restricted to single (non repeated), non-oneof, integer valued kinds; the
    enum to enum case is modelled in area Enum. [None] = not an integer cast or
    does not compile. *)
Definition generated_int_cast (from to : kind) (v : Z) : option cres :=
  match kind_gotype from, kind_gotype to with
  | Some gf, Some gt =>
      if IsEnumToNumber from to then Some (Ok (go_wrap gt v))
      else if IsNumberToEnum from to then Some (Ok (go_wrap gt v))
      else match from, to with
           | Enum, Enum => None
           | _, _ =>
               if IsRequiredValidationNumber from to
               then match helper gf gt with Some h => Some (h v) | None => None end
               else Some (Ok (go_wrap gt v))
           end
  | _, _ => None
  end.
