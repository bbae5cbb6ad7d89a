(** * The types of environment variables (C67)

    Models resolveEnvType, resolver/resolver.go:2031-2081; NewMapType, resolver/message.go:22-30; and EnvVar.Type with toTypeText,
    generator/code_generator.go:416-441, 1116-1175, for the types it can make. *)

From Coq Require Import String List Bool.
Import ListNotations.
Local Open Scope string_scope.

(** federation.proto:156-191. A message that is left out is [None]. *)
Inductive kind := UNKNOWN | STRING | BOOL | INT64 | UINT64 | DOUBLE | DURATION.
Inductive env_type :=
| TUnset
| TKind (k : kind)
| TRepeated (t : env_type)
| TMap (key value : option env_type).

(** resolver.Type: a kind, repeated or not, or a map. *)
Inductive rtype := RKind (k : kind) (repeated : bool) | RMap (key value : rtype).

Inductive result := Resolved (t : rtype) | Refused | Panic.

(** resolveEnvType. A nil definition is dereferenced by the switch (2032). *)
Fixpoint resolve (t : env_type) (repeated : bool) : result :=
  match t with
  | TUnset => Refused
  | TKind UNKNOWN => Refused
  | TKind k => Resolved (RKind k repeated)
  | TRepeated t' => resolve t' true
  | TMap k v =>
      match match k with None => Panic | Some k' => resolve k' false end with
      | Resolved rk => match match v with None => Panic | Some v' => resolve v' false end with
                       | Resolved rv => Resolved (RMap rk rv)
                       | r => r
                       end
      | r => r
      end
  end.

(** Types of Go. *)
Inductive go_type := GoString | GoBool | GoInt64 | GoUint64 | GoFloat64 | GoDuration | GoSlice (t : go_type) | GoMap (key value : go_type).

Definition go_kind (k : kind) : go_type :=
  match k with UNKNOWN | STRING => GoString | BOOL => GoBool | INT64 => GoInt64 | UINT64 => GoUint64 | DOUBLE => GoFloat64 | DURATION => GoDuration end.

(** EnvVar.Type: code_generator.go:416-441, with toTypeText. *)
Fixpoint go_type_of (t : rtype) : go_type :=
  match t with
  | RKind k true => GoSlice (go_kind k)
  | RKind k false => go_kind k
  | RMap k v => GoMap (go_type_of k) (go_type_of v)
  end.

(** Go compares keys of maps: slices and maps cannot be compared. *)
Fixpoint go_valid (t : go_type) : bool :=
  match t with
  | GoSlice t' => go_valid t'
  | GoMap k v => match k with GoSlice _ | GoMap _ _ => false | _ => go_valid v end
  | _ => true
  end.
