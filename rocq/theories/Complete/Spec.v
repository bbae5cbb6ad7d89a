(** What may be written at a place, without the functions of the completion. *)

From Coq Require Import Ascii String List Arith Bool.
From Verif.Complete Require Import Model.
Import ListNotations.
Local Open Scope list_scope.
Local Open Scope string_scope.

(** A text begins with another one. *)
Definition begins (s p : string) : Prop := exists r, s = p ++ r.

(** A definition gives a variable to those after it: it has a name of its own and a
    value. *)
Definition gives (d : def) (n : string) (t : option typ) : Prop :=
  d_name d = n /\ n <> "" /\ ~ begins n "_" /\ d_expr d = Some t.

(** The arguments of the message. *)
Definition argument (m : message) (n : string) (t : option typ) : Prop :=
  exists ds args f x, m_rule m = Some (ds, Some args) /\ In (f, x) args /\ n = "$." ++ f /\ t = Some x.

(** The variables that an expression may use: the arguments, and what the first [k]
    definitions give. *)
Definition usable (m : message) (k : nat) (n : string) (t : option typ) : Prop :=
  argument m n t \/
  exists i d, i < k /\ nth_error (defs_of m) i = Some d /\ gives d n t.

(** The places of expressions: the value of a definition, of a field of a request, of an
    argument, of a field; and how many definitions are before it. *)
Inductive value_place : Type :=
| VDef (idx : nat)
| VRequest (idx ridx : nat)
| VArg (idx : nat) (inline : bool)
| VField (name : string).
Definition before (m : message) (v : value_place) : nat :=
  match v with
  | VDef i | VRequest i _ | VArg i _ => i
  | VField _ => List.length (defs_of m)
  end.
Definition place_of (v : value_place) : place :=
  match v with
  | VDef i => POption (Some {| p_idx := i; p_name := false; p_by := true; p_map := false;
                               p_call := None; p_message := None |})
  | VRequest i r =>
      POption (Some {| p_idx := i; p_name := false; p_by := false; p_map := false;
                       p_call := Some {| c_method := false;
                                         c_request := Some {| rq_idx := r; rq_field := false; rq_by := true |} |};
                       p_message := None |})
  | VArg i b =>
      POption (Some {| p_idx := i; p_name := false; p_by := false; p_map := false; p_call := None;
                       p_message := Some {| me_name := false;
                                            me_args := Some {| a_name := false; a_by := negb b; a_inline := b |} |} |})
  | VField n => PField n (Some true)
  end.

(** The places of names. *)
Definition at_method_name (i : nat) : place :=
  POption (Some {| p_idx := i; p_name := false; p_by := false; p_map := false;
                   p_call := Some {| c_method := true; c_request := None |}; p_message := None |}).
Definition at_message_name (i : nat) : place :=
  POption (Some {| p_idx := i; p_name := false; p_by := false; p_map := false; p_call := None;
                   p_message := Some {| me_name := true; me_args := None |} |}).
Definition at_request_field (i r : nat) : place :=
  POption (Some {| p_idx := i; p_name := false; p_by := false; p_map := false;
                   p_call := Some {| c_method := false;
                                     c_request := Some {| rq_idx := r; rq_field := true; rq_by := false |} |};
                   p_message := None |}).

(** The type expected at a place: that of the field, or of the field of the request that
    is written at this number. *)
Definition expected (m : message) (v : value_place) (t : typ) : Prop :=
  match v with
  | VField n => exists a b, m_fields m = (a ++ (n, t) :: b)%list /\ ~ In n (map fst a)
  | VRequest i r => exists d fs n, nth_error (defs_of m) i = Some d /\ d_request d = Some fs /\
                                   nth_error (d_items d) r = Some n /\ In (n, t) fs
  | VDef _ | VArg _ _ => False
  end.

(** A value of type [a] fits where [b] is expected, for the completion. *)
Inductive fits : option typ -> option typ -> Prop :=
| fits_unknown b : fits None b
| fits_anywhere a : fits a None
| fits_scalar a b : ty_msg a = None -> ty_enum a = None -> ty_kind a = ty_kind b -> fits (Some a) (Some b)
| fits_same a b : ty_ptr a = ty_ptr b -> fits (Some a) (Some b)
| fits_numbers a b x y : ty_kind a = KNumber x -> ty_kind b = KNumber y -> fits (Some a) (Some b)
| fits_message a b i : ty_msg a = Some i -> ty_msg b = Some i -> fits (Some a) (Some b)
| fits_enum a b i : ty_enum a = Some i -> ty_enum b = Some i -> fits (Some a) (Some b).

(** The resolver accepts it: resolver.go:5301-5316, without null. *)
Definition accepted (a b : typ) : Prop :=
  ty_kind a = ty_kind b \/
  (exists x y, ty_kind a = KNumber x /\ ty_kind b = KNumber y) \/
  (ty_kind a = KEnum /\ exists y, ty_kind b = KNumber y).

(** Types are well formed: equal addresses are equal types. *)
Definition good_type (t : typ) : Prop :=
  (ty_msg t <> None -> ty_kind t = KMessage) /\ (ty_enum t <> None -> ty_kind t = KEnum).

(** Names of fields are distinct, and variables are identifiers. *)
Definition good_message (m : message) : Prop :=
  (forall ds args, m_rule m = Some (ds, Some args) -> NoDup (map fst args)) /\
  (forall d, In d (defs_of m) -> ~ begins (d_name d) "$").

(** The line after an edit: the text is put in at the offset. *)
Definition apply_edit (line : string) (e : nat * string) : string :=
  substring 0 (fst e) line ++ snd e ++ substring (fst e) (String.length line - fst e) line.
Definition quote : string := String "034"%char "".
Definition quoted (s : string) : string := quote ++ s ++ quote.
