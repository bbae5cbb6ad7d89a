(** * When the generated log functions are valid Go *)

From Coq Require Import Ascii String List Bool Arith ZArith.
From Verif.Base Require Import Text.
From Verif.Ident Require Model.
From Verif.Logs Require Import Model.
Import ListNotations.
Local Open Scope string_scope.

(** ** The types of expressions *)

(** Conversions used: to the larger type of a kind, and bytes to a string. *)
Definition convertible (a b : string) : Prop :=
  In (a, b) [("int32", "int64"); ("uint32", "uint64"); ("float32", "float64"); ("[]byte", "string")].

(** [funcs f g]: there is a function [f] that takes a [g]. [vars n g]: the variable [n] is a [g]. *)
Inductive typed (funcs vars : string -> gotype -> Prop) : expr -> gotype -> Prop :=
| T_var : forall n g, vars n g -> typed funcs vars (Var n) g
| T_call : forall f e g, typed funcs vars e g -> funcs f g -> typed funcs vars (Call f e) GValue
| T_string : forall e, typed funcs vars e GValue -> typed funcs vars (ToString e) (GText "string")
| T_cast : forall a b e, typed funcs vars e (GText a) -> convertible a b -> typed funcs vars (Cast b e) (GText b)
| T_string_value : forall e, typed funcs vars e (GText "string") -> typed funcs vars (StringValue e) GValue
| T_any_value : forall e g, typed funcs vars e g -> typed funcs vars (AnyValue e) GValue.

(** The second argument of slog.Any, slog.String and so on. *)
Inductive takes : string -> gotype -> Prop :=
| K_any : forall g, takes "Any" g
| K_string : takes "String" (GText "string")
| K_int : takes "Int64" (GText "int64")
| K_uint : takes "Uint64" (GText "uint64")
| K_float : takes "Float64" (GText "float64")
| K_bool : takes "Bool" (GText "bool").

Section Service.
  Variable msgs : nat -> message.
  Variable enums : nat -> enum.

  (** A field of the list, with its Go type. *)
  Definition field_of (fs : list (string * ty)) (n : string) (g : gotype) : Prop := exists t, In (n, t) fs /\ g = go_of t.

  (** A field of the struct for the arguments of a message, with its Go type. *)
  Definition argument_of (i : nat) (fs : list (string * ty)) (n : string) (g : gotype) : Prop :=
    lookup (Ident.Model.public n) (struct_fields (m_vars (msgs i)) fs) = Some g.

  Definition attr_ok (funcs vars : string -> gotype -> Prop) (a : attr) : Prop :=
    exists g, typed funcs vars (a_value a) g /\ takes (a_type a) g.

  (** A function is valid Go; [structs] are the structs of the file. In a switch no constant may come twice. *)
  Inductive valid (structs : list string) (funcs : string -> gotype -> Prop) : gotype -> body -> Prop :=
  | V_message : forall i l, (forall a, In a l -> attr_ok funcs (field_of (m_fields (msgs i))) a) -> valid structs funcs (GMessage i) (BMessage i l)
  | V_argument : forall n i l fs, In n structs -> m_arg (msgs i) = Some fs -> (forall a, In a l -> attr_ok funcs (argument_of i fs) a) ->
      valid structs funcs (GStruct n) (BArgument i l)
  | V_map : forall k v g e, typed funcs (fun n h => n = "value" /\ h = g) e GValue -> valid structs funcs (GMap k g) (BMap v e)
  | V_repeated : forall g t f, funcs f g -> valid structs funcs (GSlice g) (BRepeated t f)
  | V_enum : forall i cases, NoDup (map snd cases) -> valid structs funcs (GEnum i) (BEnum i cases).

  (** The functions of the generated file. *)
  Definition declared (st : list def) (f : string) (g : gotype) : Prop := exists d, In d st /\ d_name d = f /\ d_param d = g.

  (** The generated code is valid: no function twice, every function valid, every call of an existing function with its type. *)
  Definition compiles (structs : list string) (st : list def) (calls : list (string * gotype)) : Prop :=
    NoDup (map d_name st) /\ (forall d, In d st -> valid structs (declared st) (d_param d) (d_body d)) /\
    (forall f g, In (f, g) calls -> declared st f g).

  (** ** The types that occur *)

  (** [roots]: messages that are logged. *)
  Inductive used (roots : list nat) : ty -> Prop :=
  | U_root : forall i, In i roots -> used roots (Msg i false)
  | U_argument : forall i fs n t, In i roots -> m_arg (msgs i) = Some fs -> In (n, t) fs -> used roots t
  | U_field : forall i b n t, used roots (Msg i b) -> In (n, t) (m_fields (msgs i)) -> used roots t
  | U_nested : forall i b t, used roots (Msg i b) -> In t (m_nested (msgs i)) -> used roots t
  | U_enum : forall i b e, used roots (Msg i b) -> In e (m_enums (msgs i)) -> used roots (Enm e false)
  | U_value : forall q k v b, used roots (Map q k v b) -> used roots v.

  (** Every message that occurs is one of the first [n]. *)
  Inductive below (n : nat) : ty -> Prop :=
  | L_scalar : forall k b, below n (Scalar k b)
  | L_null : forall b, below n (Null b)
  | L_message : forall i b, i < n -> below n (Msg i b)
  | L_enum : forall i b, below n (Enm i b)
  | L_map : forall q k v b, below n v -> below n (Map q k v b).

  (** ** Names *)

  Variable service : string.

  (** The function a type needs, with the Go type it has to take. *)
  Inductive named (roots : list nat) : string -> gotype -> Prop :=
  | N_message : forall i b, used roots (Msg i b) -> named roots (fn (m_fqdn msgs i)) (GMessage i)
  | N_messages : forall i, used roots (Msg i true) -> named roots (repeated_fn (m_fqdn msgs i)) (GSlice (GMessage i))
  | N_enum : forall e b, used roots (Enm e b) -> named roots (fn (e_fqdn (enums e))) (GEnum e)
  | N_enums : forall e, used roots (Enm e true) -> named roots (repeated_fn (e_fqdn (enums e))) (GSlice (GEnum e))
  | N_map : forall q k v b, used roots (Map q k v b) -> named roots (fn q) (GMap (go_of k) (go_of v))
  | N_argument : forall i fs, In i roots -> m_arg (msgs i) = Some fs ->
      named roots (fn (arg_fqdn msgs i)) (GStruct (service ++ "_" ++ Ident.Model.go_name (arg_fqdn msgs i))).
  (** No two of them have the same name and take different types. *)
  Definition clear_names (roots : list nat) : Prop := forall f g g', named roots f g -> named roots f g' -> g = g'.

  (** The two names of the argument of a message agree. *)
  Definition argument_named (i : nat) : Prop :=
    Ident.Model.go_name (arg_fqdn msgs i) = (Ident.Model.go_name (m_fqdn msgs i) ++ "Argument")%string.

  (** A variable of a message, or another argument, with the Go name of an argument has its type. *)
  Definition own_fields (i : nat) : Prop := forall fs n t m u, m_arg (msgs i) = Some fs -> In (n, t) fs ->
    In (m, u) (m_vars (msgs i)) \/ In (m, u) fs -> Ident.Model.public m = Ident.Model.public n -> go_of u = go_of t.

  (** ** Values *)

  (** The values of no enum that occurs have the same number. *)
  Definition no_aliases (roots : list nat) : Prop :=
    forall e b, used roots (Enm e b) -> NoDup (map snd (e_values (enums e))).
  (** No map that occurs has lists of bytes as values. *)
  Definition no_byte_lists (roots : list nat) : Prop := forall q k b, ~ used roots (Map q k (Scalar Bytes true) b).
  (** No field or argument is null. *)
  Definition no_null (roots : list nat) : Prop :=
    (forall i b n, used roots (Msg i b) -> ~ In (n, Null false) (m_fields (msgs i))) /\
    (forall i fs n, In i roots -> m_arg (msgs i) = Some fs -> ~ In (n, Null false) fs).

  (** ** What is logged *)

  (** An expression reads this variable and no other. *)
  Inductive reads (n : string) : expr -> Prop :=
  | R_var : reads n (Var n)
  | R_call : forall f e, reads n e -> reads n (Call f e)
  | R_string : forall e, reads n e -> reads n (ToString e)
  | R_cast : forall t e, reads n e -> reads n (Cast t e)
  | R_string_value : forall e, reads n e -> reads n (StringValue e)
  | R_any_value : forall e, reads n e -> reads n (AnyValue e).

  (** How a value of a type is logged: numbers and booleans as such, text, bytes and enums as text, the rest as it is. *)
  Inductive logged_as : ty -> string -> Prop :=
  | A_int : forall k, In k [Int32; Int64; Sint32; Sint64; Sfixed32; Sfixed64] -> logged_as (Scalar k false) "Int64"
  | A_uint : forall k, In k [Uint32; Uint64; Fixed32; Fixed64] -> logged_as (Scalar k false) "Uint64"
  | A_float : forall k, In k [Float; Double] -> logged_as (Scalar k false) "Float64"
  | A_bool : logged_as (Scalar Bool false) "Bool"
  | A_text : forall k, In k [Str; Bytes] -> logged_as (Scalar k false) "String"
  | A_group : logged_as (Scalar Group false) "Any"
  | A_enum : forall e, logged_as (Enm e false) "String"
  | A_message : forall i b, logged_as (Msg i b) "Any"
  | A_map : forall q k v b, logged_as (Map q k v b) "Any"
  | A_scalars : forall k, logged_as (Scalar k true) "Any"
  | A_enums : forall e, logged_as (Enm e true) "Any"
  | A_nulls : logged_as (Null true) "Any".

  (** Each field once, in order, under its own name. *)
  Definition lists (fs : list (string * ty)) (l : list attr) : Prop :=
    Forall2 (fun x a => a_key a = fst x /\ reads (fst x) (a_value a) /\ logged_as (snd x) (a_type a)) fs l.
  (** A function logs all there is. *)
  Definition shows (d : def) : Prop :=
    match d_body d with
    | BMessage i l => lists (m_fields (msgs i)) l
    | BArgument i l => exists fs, m_arg (msgs i) = Some fs /\ lists fs l
    | BMap _ e => reads "value" e
    | BRepeated _ _ => True
    | BEnum i cases => cases = e_values (enums i)
    end.
End Service.

(** A name that begins with an upper case letter and has letters, digits and underscores. *)
Definition capitalised (s : string) : Prop :=
  (exists c r, s = String c r /\ Ident.Model.is_upper c = true) /\ has_char "." s = false /\ has_char "-" s = false.
