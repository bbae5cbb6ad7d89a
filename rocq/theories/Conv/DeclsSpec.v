(** What a complete set of conversions is, and the schemas this is about. *)
From Coq Require Import String List Bool Arith.
From Verif.Cast Require Import Model.
From Verif.Conv Require Import Enum Model Decls.
Import ListNotations.
Local Open Scope nat_scope.

Section Spec.
  Variable msgs : nat -> message.
  Variable selector : nat -> bool.

  (** The same Go type: equal, or maps with equal keys and values (their entry messages may differ). *)
  Definition alike (a b : ty) : Prop :=
    a = b \/ (t_rep a = t_rep b /\ t_member a = t_member b /\
              exists ma mb k v, map_entry msgs a = Some ma /\ map_entry msgs b = Some mb /\ entry ma = Some (k, v) /\ entry mb = Some (k, v)).
  (** [d] has a conversion from [f] to [t]. *)
  Definition provided (d : list (ty * ty)) (f t : ty) : Prop := exists f' t', In (f', t') d /\ alike f f' /\ alike t t'.

  (** [U] has all types that occur in the schema. *)
  Definition all_types (U : list ty) : Prop :=
    (forall t, In t U -> In (elem t) U /\ In (strip t) U) /\
    (forall t m fd, In t U -> t_msg t = Some m -> In fd (m_fields (msgs m)) -> In (f_type fd) U).

  (** Protocol buffer schemas: a type with a message has the kind "message"; map entries have the fields "key" and "value", which
      are no maps; members of oneofs are not maps; there are no lists of maps, and no fields or members that are enum selectors. *)
  Definition is_selector (t : ty) : Prop := exists m, t_msg t = Some m /\ selector m = true.
  Definition occurs (U : list ty) (m : nat) : Prop := exists t, In t U /\ t_msg t = Some m.
  Record schema_ok (U : list ty) : Prop := {
    ok_kind : forall t m, In t U -> t_msg t = Some m -> is_message t = true;
    ok_entry : forall t m, In t U -> t_msg t = Some m -> m_map (msgs m) = true ->
      exists k v, m_fields (msgs m) = [k; v] /\ f_name k = "key"%string /\ f_name v = "value"%string /\
                  map_entry msgs (f_type k) = None /\ map_entry msgs (f_type v) = None;
    ok_map : forall t, In t U -> map_entry msgs t <> None -> t_rep t = false;
    ok_selector : forall m fd, occurs U m -> In fd (m_fields (msgs m)) -> selector m = false -> ~ is_selector (f_type fd);
    ok_member : forall t, In t U -> t_oneof t = true -> t_rep t = false /\ ~ is_selector t;
    ok_nomap : forall m, occurs U m -> selector m = true -> m_map (msgs m) = false }.

  (** A value of type [f] can be given for one of type [t]: messages for messages, maps for maps; enum selectors also for enums. *)
  Definition compatible (f t : ty) : Prop :=
    is_message f = true ->
    (~ is_selector f /\ is_message t = true /\ t_msg f <> None /\ t_msg t <> None /\ (map_entry msgs f = None <-> map_entry msgs t = None)) \/
    (is_selector f /\ is_enum t = true /\ t_rep f = t_rep t).

  (** The leaves of an enum selector: the types it chooses from. *)
  Inductive leaf : nat -> ty -> Prop :=
  | leaf_here m fd : selector m = true -> In fd (m_fields (msgs m)) -> ~ (is_message (f_type fd) = true /\ is_selector (f_type fd)) -> leaf m (f_type fd)
  | leaf_there m fd m' t : selector m = true -> In fd (m_fields (msgs m)) -> is_message (f_type fd) = true -> t_msg (f_type fd) = Some m' -> leaf m' t -> leaf m t.

  (** The conversions the code of an assignment of an [f] to a [t] calls: one for every leaf of an enum selector
      (code_generator.go:2546-2573 createEnumSelectorParam), else the one from [f] to [t] if the types differ
      (code_generator.go:2500-2543, 3495-3560). *)
  Definition root_call (f t f' t' : ty) : Prop :=
    requiredCast msgs f' t' = true /\
    ((~ (is_selector f /\ is_enum t = true) /\ f' = f /\ t' = t) \/
     (is_enum t = true /\ exists m, t_msg f = Some m /\ selector m = true /\ leaf m f' /\ t' = elem t)).

  (** The types that meet: those of the assignments and those of their parts of the same name. *)
  Inductive meets (roots : list (ty * ty)) : ty -> ty -> Prop :=
  | meets_root f t : In (f, t) roots -> meets roots f t
  | meets_elem f t : meets roots f t -> t_rep f = true -> meets roots (elem f) (elem t)
  | meets_strip f t : meets roots f t -> t_oneof f = true -> meets roots (strip f) (strip t)
  | meets_field f t a b ff tf : meets roots f t -> t_msg f = Some a -> t_msg t = Some b ->
      In ff (m_fields (msgs a)) -> In tf (m_fields (msgs b)) -> f_name ff = f_name tf -> meets roots (f_type ff) (f_type tf)
  | meets_leaf f t m x : meets roots f t -> t_msg f = Some m -> selector m = true -> leaf m x -> meets roots x t.

  (** A field that is read from an alias has the same name and type there. *)
  Definition not_renamed (U : list ty) : Prop :=
    forall a b tf n ft, occurs U a -> occurs U b -> In tf (m_fields (msgs b)) -> toStructField msgs tf a = Some (n, ft) ->
                        exists ff, find_field (msgs a) (f_name tf) = Some ff /\ f_type ff = ft.

  (** The assignments [roots] in a schema with the types [U] whose enum selectors are finite. *)
  Record assignments (depth : nat) (U : list ty) (roots : list (ty * ty)) : Prop := {
    as_types : all_types U;
    as_schema : schema_ok U;
    as_roots : forall f t, In (f, t) roots -> In f U /\ In t U;
    as_finite : forall m, occurs U m -> selector m = true -> leaves msgs selector depth m <> None;
    as_compatible : forall f t, meets roots f t -> compatible f t }.

  (** How a type is written, given the full names of messages and enums *)
  Definition written1 (mname ename : nat -> string) (t : ty) : string :=
    let base := match t_member t, t_msg t, t_enum t with
                | Some member, _, _ => member
                | None, Some m, _ => mname m
                | None, None, Some e => ename e
                | None, None, None => ToString (t_kind t)
                end in
    if t_rep t then ("repeated " ++ base)%string else base.
  Definition written (mname ename : nat -> string) (t : ty) : string :=
    match map_entry msgs t, t_member t with
    | Some m, None => match entry m with
                      | Some (k, v) => ("map<" ++ written1 mname ename k ++ ", " ++ written1 mname ename v ++ ">")%string
                      | None => ""%string
                      end
    | _, _ => written1 mname ename t
    end.
  (** Different types are written differently, also when two of them are written one after the other without a separator. *)
  Definition unambiguous (mname ename : nat -> string) (U : list ty) : Prop :=
    (forall a b, In a U -> In b U -> written mname ename a = written mname ename b -> alike a b) /\
    (forall a b c d, In a U -> In b U -> In c U -> In d U ->
       (written mname ename a ++ written mname ename b = written mname ename c ++ written mname ename d)%string -> written mname ename a = written mname ename c).

  (** [d] has every conversion the assignments call, and every conversion the conversions in [d] call. *)
  Definition complete (roots d : list (ty * ty)) : Prop :=
    (forall f t f' t', In (f, t) roots -> root_call f t f' t' -> provided d f' t') /\
    (forall f t f' t', In (f, t) d -> In (f', t') (calls msgs f t) -> provided d f' t').
End Spec.
