(** What it means that a CEL value and a Go value are the same value of a declared type. *)
From Coq Require Import String List ZArith.
From Verif.Cast Require Import Model Spec.
From Verif.Plugin Require Import Codec.
Import ListNotations.

(** The messages CEL does not treat as messages. *)
Definition well_known : list string :=
  ["google.protobuf.BoolValue"; "google.protobuf.BytesValue"; "google.protobuf.DoubleValue"; "google.protobuf.FloatValue";
   "google.protobuf.Int64Value"; "google.protobuf.Int32Value"; "google.protobuf.UInt64Value"; "google.protobuf.UInt32Value";
   "google.protobuf.StringValue"; "google.protobuf.Any"; "google.protobuf.Duration"; "google.protobuf.Timestamp";
   "google.protobuf.ListValue"; "google.protobuf.NullValue"; "google.protobuf.Struct"; "google.protobuf.Value"]%string.
(** The wrappers among them. *)
Definition wrappers : list string := firstn 9 well_known.

(** Everything but the well-known messages and maps. *)
Definition ordinary (t : rtype) : Prop :=
  match t with
  | RT (RMessage n) _ => ~ In n well_known
  | RT RDuration _ | RT (RMap _ _) _ => False
  | _ => True
  end.

Section Spec.
  Variables (F : Type) (round32 : F -> F) (msg : Type) (msg_name : msg -> string) (marshal : msg -> out string).
  Notation cval := (cval F msg). Notation gval := (gval F msg).

  Definition signed (k : kind) : bool :=
    match k with Int32 | Int64 | Sint32 | Sint64 | Sfixed32 | Sfixed64 => true | _ => false end.
  Definition unsigned (k : kind) : bool :=
    match k with Uint32 | Uint64 | Fixed32 | Fixed64 => true | _ => false end.

  (** [same b c g]: the CEL value [c] and the Go value [g] are the same value of type [b]. Numbers are in the range of
      their kind; a message has the declared type and can be encoded. *)
  Inductive same : rbase -> cval -> gval -> Prop :=
  | same_bool b : same (RKind Bool) (CBool b) (GoBool b)
  | same_string s : same (RKind String_) (CString s) (GoString s)
  | same_bytes s : same (RKind Bytes) (CBytes s) (GoBytes s)
  | same_double f : same (RKind Double) (CDouble f) (GoFloat f)
  | same_float f : round32 f = f -> same (RKind Float) (CDouble f) (GoFloat f)
  | same_int k z : signed k = true -> holds k z -> same (RKind k) (CInt z) (GoInt z)
  | same_uint k z : unsigned k = true -> holds k z -> same (RKind k) (CUint z) (GoInt z)
  | same_enum e z : holds Enum z -> same (REnum e) (CInt z) (GoInt z)
  | same_msg n m b : msg_name m = n -> marshal m = Good b -> same (RMessage n) (CMsg m) (GoMsg m).

  Inductive same_value : rtype -> cval -> gval -> Prop :=
  | same_single b c g : same b c g -> same_value (RT b false) c g
  | same_list b cs gs : Forall2 (same b) cs gs -> same_value (RT b true) (CList cs) (GoList gs).

  (** CEL values of a CEL type, for the types plugins can carry. *)
  Inductive of_type : ctype -> cval -> Prop :=
  | of_bool b : of_type TBool (CBool b)
  | of_double f : of_type TDouble (CDouble f)
  | of_int z : of_type TInt (CInt z)
  | of_uint z : of_type TUint (CUint z)
  | of_bytes s : of_type TBytes (CBytes s)
  | of_string s : of_type TString (CString s)
  | of_msg n m b : msg_name m = n -> marshal m = Good b -> of_type (TStruct n) (CMsg m)
  | of_list t l : Forall (of_type t) l -> of_type (TList t) (CList l).

  (** CEL values of a declared type. *)
  Inductive of_decl : decl -> cval -> Prop :=
  | decl_int z : holds Int64 z -> of_decl (DKind KInt64) (CInt z)
  | decl_uint z : holds Uint64 z -> of_decl (DKind KUint64) (CUint z)
  | decl_bool b : of_decl (DKind KBool) (CBool b)
  | decl_string s : of_decl (DKind KString) (CString s)
  | decl_double f : of_decl (DKind KDouble) (CDouble f)
  | decl_enum e z : holds Enum z -> of_decl (DEnum e) (CInt z)
  | decl_message n m b : msg_name m = n -> marshal m = Good b -> of_decl (DMessage n) (CMsg m)
  | decl_list d l : Forall (of_decl d) l -> of_decl (DRepeated d) (CList l).

  (** The declared types whose values get through: no lists of lists, no maps, no well-known messages. *)
  Definition plain (d : decl) : Prop :=
    match d with
    | DKind k => k <> KUnknown /\ k <> KDuration
    | DMessage n => ~ In n well_known
    | DEnum _ => True
    | _ => False
    end.
  Definition carried (d : decl) : Prop := match d with DRepeated d => plain d | d => plain d end.
End Spec.
Arguments same {F} round32 {msg} msg_name marshal _ _ _.
Arguments same_value {F} round32 {msg} msg_name marshal _ _ _.
Arguments of_type {F msg} msg_name marshal _ _.
Arguments of_decl {F msg} msg_name marshal _ _.
