(** The generated conversion functions between messages, lists, maps, oneofs, enums and numbers, and which of them are generated.
    Models: generator/code_generator.go (CastField and its methods, requiredCast), generator/templates/cast.go.tmpl,
    generator/templates/server.go.tmpl (cast dispatch), resolver/type_conversion.go.
    Simplified: messages and enums are numbers, see [msgs] and [enums]; a protobuf map entry has no map as value. *)
From Coq Require Import String List Bool Arith ZArith.
From Verif.Base Require Import Result.
From Verif.Cast Require Import Model.
From Verif.Conv Require Import Enum.
Import ListNotations.
Local Open Scope nat_scope.

(** resolver/types.go:411-418 Type. [t_member] stands for OneofField: the full name of the member of a oneof this is the type of. *)
Record ty := { t_kind : kind; t_rep : bool; t_msg : option nat; t_enum : option nat; t_member : option string }.
Definition t_oneof (t : ty) : bool := match t_member t with Some _ => true | None => false end.
(** resolver/types.go Field. [f_aliases]: the message, the name and the type of every field it is an alias of. *)
Record field := { f_name : string; f_type : ty; f_aliases : list (nat * (string * ty)) }.
(** resolver/types.go Message. The members of a oneof are also in [m_fields]. *)
Record message := { m_map : bool; m_fields : list field; m_oneofs : list (list field) }.

(** Values. [VNum]: integers and enum numbers; [VOther]: everything else without structure, 0 being the zero value. A message
    is nil or has the fields that are set, the set member of a oneof among them; nil and empty lists and maps are not
    distinguished (nor are they by protobuf). [VWrap]: the Go struct that wraps a member of a oneof. *)
Inductive value :=
| VNum (z : Z)
| VOther (n : nat)
| VMsg (fs : option (list (string * value)))
| VList (l : list value)
| VMap (l : list (value * value))
| VWrap (v : value).

(** The outcome of a conversion. [Stuck]: the function is not generated, does not compile or cannot have this argument. *)
Inductive res := Val (v : value) | Fail | Stuck.
Definition bind (r : res) (f : value -> res) : res := match r with Val v => f v | _ => r end.
(** The same for parts of a value. *)
Inductive pres (A : Type) := PVal (a : A) | PFail | PStuck.
Arguments PVal {A}. Arguments PFail {A}. Arguments PStuck {A}.
Definition pbind {A B} (r : pres A) (f : A -> pres B) : pres B := match r with PVal a => f a | PFail => PFail | PStuck => PStuck end.
Definition to_pres (r : res) : pres value := match r with Val v => PVal v | Fail => PFail | Stuck => PStuck end.
Definition of_pres {A} (r : pres A) (f : A -> value) : res := match r with PVal a => Val (f a) | PFail => Fail | PStuck => Stuck end.

Definition onat_eqb (a b : option nat) : bool := match a, b with Some x, Some y => Nat.eqb x y | None, None => true | _, _ => false end.
Definition kind_eqb (a b : kind) : bool := String.eqb (ToString a) (ToString b).

Section Conv.
  Variable enums : nat -> enum.
  Variable msgs : nat -> message.
  (** Go's conversions that involve something else than integers. *)
  Variable other : kind -> kind -> value -> value.

  Definition find_field (m : message) (n : string) : option field := find (fun f => String.eqb (f_name f) n) (m_fields m).
  Definition is_message (t : ty) : bool := match t_kind t with Message => true | _ => false end.
  Definition is_enum (t : ty) : bool := match t_kind t with Enum => true | _ => false end.
  Definition map_entry (t : ty) : option message :=
    if is_message t then match t_msg t with Some m => if m_map (msgs m) then Some (msgs m) else None | None => None end else None.

  (** code_generator.go:3728-3742 requiredCast, for types that are not maps *)
  Definition requiredCast1 (from to : ty) : bool :=
    if is_message from then negb (onat_eqb (t_msg from) (t_msg to))
    else if is_enum from then negb (onat_eqb (t_enum from) (t_enum to))
    else negb (kind_eqb (t_kind from) (t_kind to)).
  (** The key and the value of a map entry: Message.Fields[0] and Message.Fields[1] *)
  Definition entry (m : message) : option (ty * ty) :=
    match m_fields m with k :: v :: _ => Some (f_type k, f_type v) | _ => None end.
  (** code_generator.go:3728-3742 requiredCast *)
  Definition requiredCast (from to : ty) : bool :=
    match map_entry from, map_entry to with
    | Some f, Some t => match entry f, entry t with
                        | Some (fk, fv), Some (tk, tv) => requiredCast1 fk tk || requiredCast1 fv tv
                        | _, _ => false
                        end
    | _, _ => requiredCast1 from to
    end.

  (** A type without "repeated", and without the oneof: ToSlice and ToOneof (code_generator.go:2198-2211, 2323-2351) *)
  Definition elem (t : ty) : ty := {| t_kind := t_kind t; t_rep := false; t_msg := t_msg t; t_enum := t_enum t; t_member := t_member t |}.
  Definition strip (t : ty) : ty := {| t_kind := t_kind t; t_rep := t_rep t; t_msg := t_msg t; t_enum := t_enum t; t_member := None |}.

  (** code_generator.go:2285-2314 toStructField: the field it is read from *)
  Definition toStructField (tf : field) (from : nat) : option (string * ty) :=
    match find (fun a => Nat.eqb (fst a) from) (f_aliases tf) with
    | Some a => Some (snd a)
    | None => match find_field (msgs from) (f_name tf) with Some f => Some (f_name f, f_type f) | None => None end
    end.

  (** The zero value a getter returns *)
  Definition zero (t : ty) : value :=
    if t_rep t then VList []
    else match map_entry t with
         | Some _ => VMap []
         | None => if is_message t then VMsg None
                   else match kind_gotype (t_kind t) with Some _ => VNum 0 | None => VOther 0 end
         end.

  (** ret[key] = val *)
  Definition key_eqb (a b : value) : bool := match a, b with VNum x, VNum y => Z.eqb x y | VOther x, VOther y => Nat.eqb x y | _, _ => false end.
  Fixpoint insert (k v : value) (l : list (value * value)) : list (value * value) :=
    match l with [] => [(k, v)] | (k', v') :: l => if key_eqb k k' then (k', v) :: l else (k', v') :: insert k v l end.

  (** cast.go.tmpl castEnumAndNumber, castEnum, castRequiredValidationNumber, castDefault *)
  Definition scalar (from to : ty) (v : value) : res :=
    match v, kind_gotype (t_kind from), kind_gotype (t_kind to) with
    | VNum z, Some _, Some _ =>
        if is_enum from && is_enum to then
          match t_enum from, t_enum to with
          | Some a, Some b => match ToEnum enums a b with Some t => Val (VNum (castEnum t z)) | None => Stuck end
          | _, _ => Stuck
          end
        else match generated_int_cast (t_kind from) (t_kind to) z with Some (Ok z') => Val (VNum z') | Some (Err _) => Fail | None => Stuck end
    | _, _, _ => Val (other (t_kind from) (t_kind to) v)
    end.

  Section Body.
    Variable rec : ty -> ty -> value -> res.
    Variable zrec : ty -> ty -> res.
    (** A value that is converted only if its type requires it *)
    Definition conv (f t : ty) (v : value) : res := if requiredCast f t then rec f t v else Val v.
    Definition zconv (f t : ty) : res := if requiredCast f t then zrec f t else Val (zero f).

    (** cast.go.tmpl castRepeated *)
    Definition cast_list (f t : ty) : list value -> pres (list value) :=
      fix go (l : list value) := match l with
                                 | [] => PVal []
                                 | x :: l => pbind (to_pres (conv f t x)) (fun y => pbind (go l) (fun ys => PVal (y :: ys)))
                                 end.
    (** cast.go.tmpl castMap; the order of the list is the order of the iteration. *)
    Definition cast_entries (fk tk fv tv : ty) : list (value * value) -> list (value * value) -> pres (list (value * value)) :=
      fix go (l : list (value * value)) (acc : list (value * value)) :=
        match l with
        | [] => PVal acc
        | (k, x) :: l => pbind (to_pres (conv fk tk k)) (fun k' => pbind (to_pres (conv fv tv x)) (fun x' => go l (insert k' x' acc)))
        end.
    (** from.GetX(), converted *)
    Definition get_conv (n : string) (f t : ty) : list (string * value) -> res :=
      fix go (fs : list (string * value)) := match fs with [] => zconv f t | (n', x) :: fs => if String.eqb n' n then conv f t x else go fs end.
    (** cast.go.tmpl castMessage, the fields outside of oneofs (code_generator.go:2233-2242) *)
    Definition cast_fields (from : nat) (fs : list (string * value)) : list field -> pres (list (string * value)) :=
      fix go (l : list field) :=
        match l with
        | [] => PVal []
        | tf :: l =>
            if t_oneof (f_type tf) then go l
            else match toStructField tf from with
                 | None => go l
                 | Some (n, ft) => pbind (to_pres (get_conv n ft (f_type tf) fs)) (fun y => pbind (go l) (fun ys => PVal ((f_name tf, y) :: ys)))
                 end
        end.
    (** The same getter where only a message that is not nil matters: [None] for nil *)
    Definition get_member (n : string) (f t : ty) : list (string * value) -> option res :=
      fix go (fs : list (string * value)) :=
        match fs with
        | [] => None
        | (n', x) :: fs => if String.eqb n' n then match x with
                                                   | VMsg None => None
                                                   | VMsg (Some _) => Some (if requiredCast f t then rec f t x else Stuck)
                                                   | _ => Some Stuck
                                                   end
                           else go fs
        end.
    (** cast.go.tmpl castMessage, the switch of one oneof *)
    Definition cast_oneof (from : nat) (fs : list (string * value)) : list field -> pres (list (string * value)) :=
      fix go (l : list field) :=
        match l with
        | [] => PVal []
        | tf :: l =>
            if negb (t_oneof (f_type tf)) then go l
            else match toStructField tf from with
                 | None => go l
                 | Some (n, ft) => match get_member n ft (f_type tf) fs with
                                   | None => go l
                                   | Some r => pbind (to_pres r) (fun y => match y with VWrap y => PVal [(f_name tf, y)] | _ => PStuck end)
                                   end
                 end
        end.
    Definition cast_oneofs (from : nat) (fs : list (string * value)) : list (list field) -> pres (list (string * value)) :=
      fix go (l : list (list field)) :=
        match l with
        | [] => PVal []
        | o :: l => pbind (cast_oneof from fs o) (fun a => pbind (go l) (fun b => PVal (a ++ b)))
        end.
    Definition cast_struct (from to : nat) (fs : list (string * value)) : pres (list (string * value)) :=
      pbind (cast_fields from fs (m_fields (msgs to))) (fun a => pbind (cast_oneofs from fs (m_oneofs (msgs to))) (fun b => PVal (a ++ b))).

    (** castMessage and the scalar conversions, without the wrapper *)
    Definition cast_single (from to : ty) (v : value) : res :=
      if is_message from then
        match v, t_msg from, t_msg to with
        | VMsg (Some fs), Some a, Some b => of_pres (cast_struct a b fs) (fun x => VMsg (Some x))
        | _, _, _ => Stuck
        end
      else scalar from to v.

    (** code_generator.go:2069-2083 CastOneofWrapper *)
    Definition wrap (to : ty) (r : res) : res := if t_oneof to then bind r (fun x => Val (VWrap x)) else r.

    (** server.go.tmpl:610-633. [VMsg None] is nil: castMessage and castOneof return nil, without a wrapper. *)
    Definition body (from to : ty) (v : value) : res :=
      if t_rep from then
        match v with VList l => wrap to (of_pres (cast_list (elem from) (elem to) l) VList) | _ => Stuck end
      else match map_entry from, map_entry to with
           | Some f, Some t =>
               match v, entry f, entry t with
               | VMap l, Some (fk, fv), Some (tk, tv) => wrap to (of_pres (cast_entries fk tk fv tv l []) VMap)
               | _, _, _ => Stuck
               end
           | _, _ =>
               if t_oneof from then
                 if t_oneof to then
                   match v with
                   | VMsg None => Val (VMsg None)
                   | _ => wrap to (if requiredCast (strip from) (strip to) then cast_single (strip from) (strip to) v else Val v)
                   end
                 else Stuck
               else match v with
                    | VMsg None => if is_message from then Val (VMsg None) else Stuck
                    | _ => wrap to (cast_single from to v)
                    end
           end.
  End Body.

  (** The conversion of a zero value calls no other conversion. *)
  Definition cast_zero (f t : ty) : res := body (fun _ _ _ => Stuck) (fun _ _ => Stuck) f t (zero f).
  (** The generated function that converts from [from] to [to] *)
  Fixpoint cast (from to : ty) (v : value) {struct v} : res := body cast cast_zero from to v.
End Conv.
