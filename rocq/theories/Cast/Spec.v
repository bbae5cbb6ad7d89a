(** What "representable" and "faithful conversion" mean. *)
From Coq Require Import ZArith.
From Verif.Base Require Import Result.
From Verif.Cast Require Import Model.
Open Scope Z_scope.

Definition lo (t : gotype) : Z :=
  match t with
  | GInt32 => -2147483648 | GInt64 => -9223372036854775808
  | GUint32 => 0 | GUint64 => 0
  end.
Definition hi (t : gotype) : Z :=
  match t with
  | GInt32 => 2147483647 | GInt64 => 9223372036854775807
  | GUint32 => 4294967295 | GUint64 => 18446744073709551615
  end.
(** [v] is a value of Go type [t]. *)
Definition fits (t : gotype) (v : Z) : Prop := lo t <= v <= hi t.

(** The conversion [f] from [src] to [dst] is exact or rejected. *)
Definition exact_or_rejected (src dst : gotype) (f : Z -> cres) : Prop :=
  forall v, fits src v ->
    (fits dst v -> f v = Ok v) /\
    (~ fits dst v -> f v = Err ErrOverflowTypeConversion).

(** Every value of [src] is a value of [dst]. *)
Definition widening (src dst : gotype) : Prop := forall v, fits src v -> fits dst v.

(** The kinds whose proto name is also the name of their Go type. *)
Definition plain (k : kind) : bool :=
  match k with Int32 | Int64 | Uint32 | Uint64 => true | _ => false end.

(** [holds k v]: the protobuf integer kind [k] has the value [v] (protobuf language guide, scalar
    value types; enum numbers are int32). *)
Definition holds (k : kind) (v : Z) : Prop :=
  match k with
  | Int32 | Sint32 | Sfixed32 | Enum => -2147483648 <= v <= 2147483647
  | Int64 | Sint64 | Sfixed64 => -9223372036854775808 <= v <= 9223372036854775807
  | Uint32 | Fixed32 => 0 <= v <= 4294967295
  | Uint64 | Fixed64 => 0 <= v <= 18446744073709551615
  | _ => False
  end.
