(** What it means to convert a value of one protobuf type to another. *)
From Coq Require Import String List Bool Arith ZArith.
From Verif.Base Require Import Result.
From Verif.Cast Require Import Model Spec.
From Verif.Conv Require Import Enum Model.
Import ListNotations.
Local Open Scope nat_scope.

Section Spec.
  Variable enums : nat -> enum.
  Variable msgs : nat -> message.
  Variable other : kind -> kind -> value -> value.

  (** [t] is a map with these types of keys and values. *)
  Definition is_map_of (t : ty) (k v : ty) : Prop :=
    exists m fk fv rest, t_kind t = Message /\ t_msg t = Some m /\ m_map (msgs m) = true /\ m_fields (msgs m) = fk :: fv :: rest /\ f_type fk = k /\ f_type fv = v.
  Definition is_map (t : ty) : Prop := exists m, t_kind t = Message /\ t_msg t = Some m /\ m_map (msgs m) = true.
  (** [t] is the message [m], not a map. *)
  Definition is_msg (t : ty) (m : nat) : Prop := t_kind t = Message /\ t_msg t = Some m /\ m_map (msgs m) = false.

  (** Both types are the same message, enum or kind, or maps of the same. *)
  Definition same1 (f t : ty) : Prop :=
    match t_kind f with Message => t_msg f = t_msg t | Enum => t_enum f = t_enum t | k => t_kind t = k end.
  Definition same (f t : ty) : Prop :=
    (exists fk fv tk tv, is_map_of f fk fv /\ is_map_of t tk tv /\ same1 fk tk /\ same1 fv tv) \/ (~ (is_map f /\ is_map t) /\ same1 f t).

  (** The field [tf] is converted from the field [n] of message [m], of type [ft]: the one it is declared an alias of, or else
      the one of the same name. *)
  Definition source_of (tf : field) (m : nat) (n : string) (ft : ty) : Prop :=
    In (m, (n, ft)) (f_aliases tf) \/
    ((forall a, In a (f_aliases tf) -> fst a <> m) /\ n = f_name tf /\ exists f, In f (m_fields (msgs m)) /\ f_name f = n /\ f_type f = ft).

  (** The value of a field that is not set *)
  Definition default (t : ty) (x : value) : Prop :=
    if t_rep t then x = VList []
    else (is_map t /\ x = VMap []) \/ (~ is_map t /\ t_kind t = Message /\ x = VMsg None) \/
         (t_kind t <> Message /\ match kind_gotype (t_kind t) with Some _ => x = VNum 0 | None => x = VOther 0 end).
  Definition value_of (n : string) (t : ty) (fs : list (string * value)) (x : value) : Prop :=
    In (n, x) fs \/ ((forall y, ~ In (n, y) fs) /\ default t x).
  (** The field [n] holds a message that is not nil. *)
  Definition holds_message (n : string) (fs : list (string * value)) (x : value) : Prop := In (n, x) fs /\ exists l, x = VMsg (Some l).
  (** [tf] is the member of the oneof [o] to be set from the message [m] with fields [fs]: the first whose source is set. *)
  Definition selected (m : nat) (fs : list (string * value)) (o : list field) (tf : field) (n : string) (ft : ty) (x : value) : Prop :=
    exists o1 o2, o = o1 ++ tf :: o2 /\ source_of tf m n ft /\ holds_message n fs x /\
      forall tf' n' ft' x', In tf' o1 -> source_of tf' m n' ft' -> ~ holds_message n' fs x'.

  (** [converts f t v w]: [w], of type [t], is [v], of type [f], converted; [moved] also allows for equal types. *)
  Inductive converts : ty -> ty -> value -> value -> Prop :=
  | c_list f t l l' : t_rep f = true -> Forall2 (moved (elem f) (elem t)) l l' -> converts f t (VList l) (VList l')
  | c_map f t fk fv tk tv l l' : t_rep f = false -> is_map_of f fk fv -> is_map_of t tk tv ->
      (** every key is there; every entry comes from an entry with its key (several keys may be converted to the same); every value can be converted *)
      (forall p, In p l -> exists y, moved fv tv (snd p) y) ->
      (forall p, In p l -> exists q, In q l' /\ moved fk tk (fst p) (fst q)) ->
      (forall q, In q l' -> exists p, In p l /\ moved fk tk (fst p) (fst q) /\ moved fv tv (snd p) (snd q)) ->
      converts f t (VMap l) (VMap l')
  | c_nil f t : t_rep f = false -> t_kind f = Message -> converts f t (VMsg None) (VMsg None)
  | c_msg f t a b fs out : t_rep f = false -> is_msg f a -> t_msg t = Some b -> t_oneof t = false ->
      (** every field with a source has the converted value of the source *)
      (forall tf n ft, In tf (m_fields (msgs b)) -> t_oneof (f_type tf) = false -> source_of tf a n ft ->
         exists x y, value_of n ft fs x /\ In (f_name tf, y) out /\ moved ft (f_type tf) x y) ->
      (** of every oneof the member is set whose source is set *)
      (forall o tf n ft x, In o (m_oneofs (msgs b)) -> selected a fs o tf n ft x ->
         exists y, In (f_name tf, y) out /\ converts ft (f_type tf) x (VWrap y)) ->
      (** nothing else is set *)
      NoDup (map fst out) ->
      (forall n' y, In (n', y) out ->
         exists tf n ft, In tf (m_fields (msgs b)) /\ f_name tf = n' /\ source_of tf a n ft /\
           (t_oneof (f_type tf) = true -> exists o x, In o (m_oneofs (msgs b)) /\ selected a fs o tf n ft x)) ->
      converts f t (VMsg (Some fs)) (VMsg (Some out))
  | c_enum f t a b c z : t_rep f = false -> t_oneof t = false -> t_kind f = Enum -> t_kind t = Enum -> t_enum f = Some a -> t_enum t = Some b ->
      ToEnum enums a b = Some c -> converts f t (VNum z) (VNum (castEnum c z))
  | c_num f t z z' : t_rep f = false -> t_oneof t = false -> generated_int_cast (t_kind f) (t_kind t) z = Some (Ok z') -> converts f t (VNum z) (VNum z')
  | c_other f t v : t_rep f = false -> t_oneof t = false -> t_kind f <> Message -> kind_gotype (t_kind f) = None \/ kind_gotype (t_kind t) = None ->
      converts f t v (other (t_kind f) (t_kind t) v)
  | c_member f t v w : t_rep f = false -> t_oneof t = true -> v <> VMsg None -> moved (strip f) (strip t) v w -> converts f t v (VWrap w)
  with moved : ty -> ty -> value -> value -> Prop :=
  | m_same f t v : same f t -> moved f t v v
  | m_convert f t v w : ~ same f t -> converts f t v w -> moved f t v w.

  (** [v] is a value of type [t]. *)
  Inductive typed : ty -> value -> Prop :=
  | t_list t l : t_rep t = true -> Forall (typed (elem t)) l -> typed t (VList l)
  | t_map t k v l : t_rep t = false -> is_map_of t k v -> Forall (fun p => typed k (fst p) /\ typed v (snd p)) l -> typed t (VMap l)
  | t_nil t a : t_rep t = false -> is_msg t a -> typed t (VMsg None)
  | t_message t a fs : t_rep t = false -> is_msg t a -> NoDup (map fst fs) ->
      Forall (fun p => exists f, In f (m_fields (msgs a)) /\ f_name f = fst p /\ typed (f_type f) (snd p)) fs -> typed t (VMsg (Some fs))
  | t_num t g z : t_rep t = false -> kind_gotype (t_kind t) = Some g -> fits g z -> typed t (VNum z)
  | t_other t n : t_rep t = false -> t_kind t <> Message -> kind_gotype (t_kind t) = None -> typed t (VOther n).

  (** [v] contains a number that the conversion rejects. *)
  Inductive breaks : ty -> ty -> value -> Prop :=
  | b_num f t z e : t_rep f = false -> generated_int_cast (t_kind f) (t_kind t) z = Some (Err e) -> breaks f t (VNum z)
  | b_list f t l x : t_rep f = true -> In x l -> ~ same (elem f) (elem t) -> breaks (elem f) (elem t) x -> breaks f t (VList l)
  | b_key f t fk fv tk tv l p : t_rep f = false -> is_map_of f fk fv -> is_map_of t tk tv -> In p l -> ~ same fk tk -> breaks fk tk (fst p) -> breaks f t (VMap l)
  | b_value f t fk fv tk tv l p : t_rep f = false -> is_map_of f fk fv -> is_map_of t tk tv -> In p l -> ~ same fv tv -> breaks fv tv (snd p) -> breaks f t (VMap l)
  | b_field f t a b fs tf n ft x : t_rep f = false -> is_msg f a -> t_msg t = Some b -> In tf (m_fields (msgs b)) -> t_oneof (f_type tf) = false ->
      source_of tf a n ft -> In (n, x) fs -> ~ same ft (f_type tf) -> breaks ft (f_type tf) x -> breaks f t (VMsg (Some fs))
  | b_member f t a b fs o tf n ft x : t_rep f = false -> is_msg f a -> t_msg t = Some b -> In o (m_oneofs (msgs b)) ->
      selected a fs o tf n ft x -> ~ same ft (f_type tf) -> breaks ft (f_type tf) x -> breaks f t (VMsg (Some fs)).

  (** What protobuf and the resolver guarantee about messages. *)
  Definition well_formed (m : nat) : Prop :=
    NoDup (map f_name (m_fields (msgs m))) /\
    NoDup (map f_name (concat (m_oneofs (msgs m)))) /\
    (forall o tf, In o (m_oneofs (msgs m)) -> In tf o -> In tf (m_fields (msgs m)) /\ t_oneof (f_type tf) = true) /\
    (forall tf, In tf (m_fields (msgs m)) -> NoDup (map fst (f_aliases tf)) /\
       forall a n ft, In (a, (n, ft)) (f_aliases tf) -> exists f, In f (m_fields (msgs a)) /\ f_name f = n /\ f_type f = ft) /\
    (m_map (msgs m) = true -> exists k v, m_fields (msgs m) = [k; v] /\ ~ is_map (f_type k) /\ ~ is_map (f_type v) /\
       t_oneof (f_type k) = false /\ t_oneof (f_type v) = false).

  (** The conversion from [f] to [t] can be written in Go, and calls only conversions in [G]. *)
  Definition writable (G : ty -> ty -> Prop) (f t : ty) : Prop :=
    let calls f t := same f t \/ G f t in
    let struct a b := forall tf n ft, In tf (m_fields (msgs b)) -> source_of tf a n ft ->
      if t_oneof (f_type tf) then G ft (f_type tf) /\ t_rep ft = false /\ exists c, is_msg ft c
      else calls ft (f_type tf) in
    ~ same f t /\
    ((t_rep f = true /\ t_oneof f = false /\ t_oneof t = false /\ calls (elem f) (elem t)) \/
    (t_rep f = false /\ exists fk fv tk tv, is_map_of f fk fv /\ is_map_of t tk tv /\ t_oneof t = false /\ calls fk tk /\ calls fv tv) \/
    (t_rep f = false /\ exists a b, is_msg f a /\ is_msg t b /\ (t_oneof f = true -> t_oneof t = true) /\ struct a b) \/
    (t_rep f = false /\ t_oneof f = false /\ t_kind f <> Message /\
     match kind_gotype (t_kind f), kind_gotype (t_kind t) with
     | Some _, Some _ => if is_enum f && is_enum t
                         then exists a b, t_enum f = Some a /\ t_enum t = Some b /\ ToEnum enums a b <> None
                         else forall z, generated_int_cast (t_kind f) (t_kind t) z <> None
     | _, _ => True
     end)).
  Definition all_writable (G : ty -> ty -> Prop) : Prop := forall f t, G f t -> writable G f t.
End Spec.
