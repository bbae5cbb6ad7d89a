(** How the fields of a message are meant to be filled, in terms of the options as written. *)
From Coq Require Import String List Bool Arith.
From Verif.Cast Require Import Model.
From Verif.Schema Require Import Model Bind.
Import ListNotations.

Section BindSpec.
  Variables (expr defs : Type).
  Variable fields_of : nat -> list (string * ty).
  Notation mdecl := (mdecl expr defs). Notation fdecl := (fdecl expr defs).

  (** The definition [d], marked "autobind", has a field named [n] of type [t]. *)
  Definition offers (m : mdecl) (n : string) (d : vdef) (t : ty) : Prop :=
    In d (m_defs _ _ m) /\ d_auto d = true /\ In (n, t) (offered fields_of (d_type d)).
  (** The field is left to automatic binding, and [d] offers it. *)
  Definition auto_bound (m : mdecl) (f : fdecl) (d : vdef) (t : ty) : Prop :=
    f_opt _ _ f = ONone /\ m_custom _ _ m = false /\ m_aliases _ _ m = [] /\ offers m (f_name _ _ f) d t.

  Definition members (m : mdecl) (n : string) : list fdecl :=
    filter (fun f => match f_oneof _ _ f with Some o => String.eqb o n | None => false end) (m_fields _ _ m).

  Section Run.
    Variables (env V : Type) (eval_if : env -> expr -> option bool) (eval : env -> expr -> option V)
      (run_defs : env -> defs -> option env) (get : env -> string -> string -> V) (is_nil : V -> bool)
      (convert : ty -> ty -> V -> option V) (custom : env -> string -> option V).
    Variables (m : mdecl) (e : env).

    (** The condition under which a member of a oneof is set, and its outcome ([None]: it fails). *)
    Inductive condition (f : fdecl) : option bool -> Prop :=
    | cond_if o x : f_opt _ _ f = OOneof o -> o_default _ _ o = false -> o_if _ _ o = Some x -> condition f (eval_if e x)
    | cond_auto d t : auto_bound m f d t -> condition f (Some (negb (is_nil (get e (d_name d) (f_name _ _ f))))).
    Definition is_default (f : fdecl) : Prop := exists o, f_opt _ _ f = OOneof o /\ o_default _ _ o = true.

    (** The first member in declaration order whose condition holds, else the default, else none. *)
    Inductive selected (n : string) : option fdecl -> Prop :=
    | sel_first l f r : members m n = l ++ f :: r -> (forall g b, In g l -> condition g b -> b = Some false) ->
        condition f (Some true) -> selected n (Some f)
    | sel_default f : In f (members m n) -> is_default f ->
        (forall g b, In g (members m n) -> condition g b -> b = Some false) -> selected n (Some f)
    | sel_none : (forall f, In f (members m n) -> ~ is_default f) ->
        (forall g b, In g (members m n) -> condition g b -> b = Some false) -> selected n None.

    (** [v] as a value of the other type: itself, or what the conversion gives. *)
    Definition as_type (from to : ty) (v : V) : option V := if requiredCast from to then convert from to v else Some v.

    (** The value a field's rule asks for ([None]: evaluating it fails). *)
    Inductive value_of (f : fdecl) : option V -> Prop :=
    | val_by x t : f_opt _ _ f = OBy x t -> value_of f (oapp (eval e x) (as_type t (f_type _ _ f)))
    | val_custom : f_opt _ _ f = OCustom true -> value_of f (custom e (f_name _ _ f))
    | val_auto d t : auto_bound m f d t -> value_of f (as_type t (f_type _ _ f) (get e (d_name d) (f_name _ _ f)))
    | val_oneof o : f_opt _ _ f = OOneof o ->
        value_of f (oapp (run_defs e (o_defs _ _ o)) (fun e' => oapp (eval e' (o_by _ _ o)) (as_type (o_type _ _ o) (f_type _ _ f)))).
  End Run.
End BindSpec.
