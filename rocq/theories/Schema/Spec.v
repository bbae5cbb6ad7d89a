(** When a value of one type may be assigned to a field of another (docs: a field takes values of its type; numbers convert
    to numbers, enums to numbers, messages and enums along their aliases, null to whatever can be null). *)
From Coq Require Import String List Bool.
From Verif.Cast Require Import Model.
From Verif.Schema Require Import Model.
Import ListNotations.

Definition number (b : base) : Prop :=
  exists k, b = BKind k /\
    In k [Double; Float; Int64; Uint64; Int32; Fixed64; Fixed32; Uint32; Sfixed32; Sfixed64; Sint32; Sint64].
Definition aliased (aliases : nat -> list nat) (a b : nat) : Prop := In b (aliases a) \/ In a (aliases b).

Inductive compatible (s : schema) : ty -> ty -> Prop :=
| c_number b c r o1 o2 : number b -> number c -> compatible s (T b r false o1) (T c r false o2)
| c_enum_number e c r o1 o2 : number c -> compatible s (T (BEnum e) r false o1) (T c r false o2)
| c_null k t : (rep t = true \/ (exists m, base_of t = BMsg m) \/ (exists k v, base_of t = BMap k v) \/ base_of t = BKind Bytes) ->
    compatible s (T (BKind k) false true None) t
| c_same k r o1 o2 : compatible s (T (BKind k) r false o1) (T (BKind k) r false o2)
| c_message m n r o1 o2 : m = n \/ aliased (msg_aliases s) m n ->
    compatible s (T (BMsg m) r false o1) (T (BMsg n) r false o2)
| c_wrapper m n : wrapper s m = true -> wrapper s n = true -> compatible s (single (BMsg m)) (single (BMsg n))
| c_enum m n r o1 o2 : m = n \/ aliased (enum_aliases s) m n ->
    compatible s (T (BEnum m) r false o1) (T (BEnum n) r false o2)
| c_map fk fv tk tv r o1 o2 : compatible s fk tk -> compatible s fv tv ->
    compatible s (T (BMap fk fv) r false o1) (T (BMap tk tv) r false o2)
| c_select t f n r o1 o2 : compatible s t (T (BEnum n) r false o2) -> compatible s f (T (BEnum n) r false o2) ->
    compatible s (T (BSelector t f) r false o1) (T (BEnum n) r false o2).

(** Every type the resolver makes: only the null type is null, it is no kind of its own, and the entries of maps are
    scalars, messages or enums (protobuf: a map's key and value are not repeated, and no maps). A kind that names no scalar
    ([Message], [Enum]) occurs with its message or enum only. *)
Definition scalar (k : kind) : Prop := ~ In k [Message; Enum; Unknown].
Inductive proper : ty -> Prop :=
| p_kind k r o : scalar k -> proper (T (BKind k) r false o)
| p_null : proper (T (BKind Unknown) false true None)
| p_msg m r o : proper (T (BMsg m) r false o)
| p_enum e r o : proper (T (BEnum e) r false o)
| p_map k vb o : scalar k -> proper (single vb) -> (forall a b, vb <> BMap a b) -> (forall a b, vb <> BSelector a b) ->
    proper (T (BMap (single (BKind k)) (single vb)) false false o)
| p_select t f o : selectable t -> selectable f -> proper (T (BSelector t f) false false o)
(** What grpc.federation.enum.select chooses from. *)
with selectable : ty -> Prop :=
| s_enum e o : selectable (T (BEnum e) false false o)
| s_select t f o : selectable t -> selectable f -> selectable (T (BSelector t f) false false o).
(** Types of fields: no null, no selector. *)
Inductive field_type : ty -> Prop :=
| f_type t : proper t -> null t = false -> (forall a b, base_of t <> BSelector a b) -> field_type t.
