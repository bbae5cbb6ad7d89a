(** Assignments and the binding of fields: C22, C28, C38, C48. *)
From Coq Require Import String List Bool Arith Lia.
From Verif.Cast Require Import Model.
From Verif.Schema Require Import Model Spec Proofs Bind BindSpec BindProofs.
Import ListNotations.
Local Open Scope nat_scope.
Local Open Scope string_scope.

(** ** C38: assignments the resolver accepts are between compatible types *)
(** Every assignment between compatible types is accepted: to a response field ... *)
Theorem C38_bind_complete : forall s from to, proper from -> compatible s from to -> validateBindFieldType s from to = true.
Proof. exact bind_complete. Qed.
Print Assumptions C38_bind_complete.
(** ... and to a request field. *)
Theorem C38_request_complete : forall s from to, proper from -> field_type to -> compatible s from to ->
  validateRequestFieldType s from to = true.
Proof. exact request_complete. Qed.
Print Assumptions C38_request_complete.

Definition C38_bind_statement : Prop := forall s from to, proper from -> field_type to ->
  validateBindFieldType s from to = true -> compatible s from to.
Definition C38_request_statement : Prop := forall s from to, proper from -> field_type to ->
  validateRequestFieldType s from to = true -> compatible s from to.

(** Accepted assignments are between compatible types, except in these cases, in which the checks say nothing: single values
    and lists, enums to what is neither number nor enum, and map values of different message or enum types. *)
Theorem C38_bind_partial : forall s from to, proper from -> field_type to ->
  rep from = rep to \/ null from = true ->
  (forall e, base_of from = BEnum e -> number (base_of to) \/ exists n, base_of to = BEnum n) ->
  (forall fk fv tk tv, base_of from = BMap fk fv -> base_of to = BMap tk tv -> isDifferentType fv tv = false -> compatible s fv tv) ->
  validateBindFieldType s from to = true -> compatible s from to.
Proof. exact bind_sound. Qed.
Print Assumptions C38_bind_partial.
(** Requests: also, anything that is no message is accepted for a message, and anything that is no enum for an enum. *)
Theorem C38_request_partial : forall s from to, proper from -> field_type to ->
  rep from = rep to \/ null from = true ->
  (kind_of to = Message -> kind_of from = Message \/ null from = true) ->
  (kind_of to = Enum -> kind_of from = Enum) ->
  (forall fk fv tk tv, base_of from = BMap fk fv -> base_of to = BMap tk tv -> isDifferentType fv tv = false -> compatible s fv tv) ->
  validateRequestFieldType s from to = true -> compatible s from to.
Proof. exact request_sound. Qed.
Print Assumptions C38_request_partial.

Definition no_aliases : schema := {| msg_aliases := fun _ => []; enum_aliases := fun _ => []; wrapper := fun _ => false |}.
Ltac scalar_ := let H := fresh in cbv; intros H; repeat (destruct H as [H|H]; [discriminate H|]); exact H.
Ltac incompatible := let H := fresh in let K := fresh in let E := fresh in
  intros H; inversion H; subst; try match goal with K : number _ |- _ => destruct K as (? & E & K) end; try discriminate.

(** A list of strings is accepted for a string ... *)
Theorem C38_repeated_refuted : ~ C38_bind_statement /\ ~ C38_request_statement.
Proof.
  split; intros H.
  - specialize (H no_aliases (list_of (BKind String_)) (single (BKind String_))).
    assert (X : ~ compatible no_aliases (list_of (BKind String_)) (single (BKind String_))) by (intros K; inversion K).
    apply X, H; [constructor; scalar_|constructor; [constructor; scalar_|reflexivity|discriminate]|reflexivity].
  - specialize (H no_aliases (list_of (BKind String_)) (single (BKind String_))).
    assert (X : ~ compatible no_aliases (list_of (BKind String_)) (single (BKind String_))) by (intros K; inversion K).
    apply X, H; [constructor; scalar_|constructor; [constructor; scalar_|reflexivity|discriminate]|reflexivity].
Qed.
Print Assumptions C38_repeated_refuted.
(** ... an enum for a string field, a map with values of an unrelated message, a string for a message or an enum of a request. *)
Theorem C38_enum_to_string_accepted : forall s e, validateBindFieldType s (single (BEnum e)) (single (BKind String_)) = true /\
  ~ compatible s (single (BEnum e)) (single (BKind String_)).
Proof.
  intros s e. split; [reflexivity|]. intros H. inversion H; subst.
  - match goal with K : number (BEnum _) |- _ => destruct K as (? & E & _); discriminate E end.
  - match goal with K : number _ |- _ => destruct K as (k & E & K); injection E as <-; cbn in K; intuition discriminate end.
Qed.
Print Assumptions C38_enum_to_string_accepted.
Theorem C38_map_values_accepted : forall m n, m <> n ->
  let t i := single (BMap (single (BKind String_)) (single (BMsg i))) in
  validateBindFieldType no_aliases (t m) (t n) = true /\ validateRequestFieldType no_aliases (t m) (t n) = true /\
  ~ compatible no_aliases (t m) (t n).
Proof.
  intros m n N t. repeat split. intros H. inversion H; subst; try nonum.
  match goal with K : compatible _ (single (BMsg m)) _ |- _ => inversion K; subst; try nonum end.
  - match goal with K : _ \/ _ |- _ => destruct K as [K|[[]|[]]]; contradiction end.
  - discriminate.
Qed.
Print Assumptions C38_map_values_accepted.
Theorem C38_request_scalar_accepted : forall s i,
  validateRequestFieldType s (single (BKind String_)) (single (BMsg i)) = true /\ ~ compatible s (single (BKind String_)) (single (BMsg i)) /\
  validateRequestFieldType s (single (BKind String_)) (single (BEnum i)) = true /\ ~ compatible s (single (BKind String_)) (single (BEnum i)).
Proof. intros s i. repeat split; intros H; inversion H; subst; nonum. Qed.
Print Assumptions C38_request_scalar_accepted.

(** Concrete cases: an aliased message, an enum selector with a nested one, null for a list. *)
Definition sample_schema : schema :=
  {| msg_aliases := fun m => if Nat.eqb m 1 then [2] else []; enum_aliases := fun e => if Nat.eqb e 5 then [6; 7] else []; wrapper := fun _ => false |}.
Definition sample_selector : ty := single (BSelector (single (BSelector (single (BEnum 6)) (single (BEnum 5)))) (single (BEnum 7))).
Example C38_sample :
  compatible sample_schema (list_of (BMsg 2)) (list_of (BMsg 1)) /\ validateBindFieldType sample_schema (list_of (BMsg 2)) (list_of (BMsg 1)) = true /\
  compatible sample_schema sample_selector (single (BEnum 5)) /\ proper sample_selector /\
  compatible sample_schema (T (BKind Unknown) false true None) (list_of (BKind String_)) /\
  ~ compatible sample_schema (single (BMsg 3)) (single (BMsg 1)) /\ validateBindFieldType sample_schema (single (BMsg 3)) (single (BMsg 1)) = false.
Proof.
  split; [apply c_message; right; right; left; reflexivity|]. split; [reflexivity|].
  split; [apply c_select; [apply c_select|]; apply c_enum; unfold aliased; cbn; auto 6|].
  split; [repeat constructor|]. split; [apply c_null; auto|]. split; [|reflexivity].
  intros H; inversion H; subst; try nonum.
  - match goal with K : _ \/ _ |- _ => destruct K as [K|[K|K]]; cbn in K; intuition discriminate end.
  - discriminate.
Qed.

Section Bind.
  Variables (expr defs : Type) (s : schema) (fields_of : nat -> list (string * ty)).
  Notation resolve := (resolve expr defs s fields_of).
  Notation offers := (offers expr defs fields_of).

  (** ** C28: automatic binding *)
  (** In an accepted message a field without an option is offered by exactly one variable, it is bound to that one, and
      the types pass the check of C38. *)
  Theorem C28_bound : forall m l f r, resolve m = Some l -> In (f, r) l -> f_opt _ _ f = ONone ->
    m_custom _ _ m = false -> m_aliases _ _ m = [] ->
    exists d t, r_auto _ _ r = Some (d, (f_name _ _ f, t)) /\ offers m (f_name _ _ f) d t /\
      (forall d' t', offers m (f_name _ _ f) d' t' -> d' = d /\ t' = t) /\ validateBindFieldType s t (f_type _ _ f) = true.
  Proof. exact (bound_unique expr defs s fields_of). Qed.

  (** Two variables that offer the field are an error, and so is none. *)
  Theorem C28_ambiguous : forall m f d t d' t', In f (m_fields _ _ m) -> f_opt _ _ f = ONone ->
    m_custom _ _ m = false -> m_aliases _ _ m = [] ->
    offers m (f_name _ _ f) d t -> offers m (f_name _ _ f) d' t' -> (d, t) <> (d', t') -> resolve m = None.
  Proof.
    intros m f d t d' t' Hf O C A H1 H2 N. destruct (resolve m) as [l|] eqn:E; [|reflexivity]. exfalso.
    pose proof (resolve_facts _ _ _ _ _ _ E) as (F & _). rewrite <- F in Hf. apply in_map_iff in Hf. destruct Hf as ([f' r] & Ef & Hin).
    cbn in Ef. subst f'. destruct (C28_bound _ _ _ _ E Hin O C A) as (d0 & t0 & _ & _ & U & _).
    destruct (U _ _ H1), (U _ _ H2). apply N. congruence.
  Qed.
  Theorem C28_unoffered : forall m f, In f (m_fields _ _ m) -> f_opt _ _ f = ONone ->
    m_custom _ _ m = false -> m_aliases _ _ m = [] -> (forall d t, ~ offers m (f_name _ _ f) d t) -> resolve m = None.
  Proof.
    intros m f Hf O C A N. destruct (resolve m) as [l|] eqn:E; [|reflexivity]. exfalso.
    pose proof (resolve_facts _ _ _ _ _ _ E) as (F & _). rewrite <- F in Hf. apply in_map_iff in Hf. destruct Hf as ([f' r] & Ef & Hin).
    cbn in Ef. subst f'. destruct (C28_bound _ _ _ _ E Hin O C A) as (d0 & t0 & _ & H & _). exact (N _ _ H).
  Qed.
  (** A message all of whose fields are offered once, with a compatible type, is accepted. *)
  Theorem C28_accepted : forall m, m_custom _ _ m = false -> m_aliases _ _ m = [] -> NoDup (m_defs _ _ m) ->
    (forall d, In d (m_defs _ _ m) -> NoDup (map fst (offered fields_of (d_type d)))) ->
    (forall f, In f (m_fields _ _ m) -> f_opt _ _ f = ONone /\ exists d t, offers m (f_name _ _ f) d t /\
       (forall d' t', offers m (f_name _ _ f) d' t' -> d' = d) /\ proper t /\ field_type t /\ compatible s t (f_type _ _ f)) ->
    resolve m <> None.
  Proof. exact (auto_accepted expr defs s fields_of). Qed.

  (** ** C22, C48: running the generated code on an accepted message *)
  Section Run.
    Variables (env V : Type) (eval_if : env -> expr -> option bool) (eval : env -> expr -> option V)
      (run_defs : env -> defs -> option env) (get : env -> string -> string -> V) (is_nil : V -> bool)
      (convert : ty -> ty -> V -> option V) (custom : env -> string -> option V).
    Notation run e m l r := (exec expr defs env V eval_if eval run_defs get is_nil convert custom e (ReturnFields expr defs m l) r).
    Notation condition := (condition expr defs fields_of env V eval_if get is_nil).
    Notation value_of := (value_of expr defs fields_of env V eval run_defs get convert custom).
    Notation selected := (selected expr defs fields_of env V eval_if get is_nil).

    (** A oneof ends up with the member the rules select and the value that member's rule asks for; if they select none, it
        stays as it was (unset, or what the message's custom resolver returned). *)
    Theorem C22_selection : forall m l e r r' n, resolve m = Some l -> NoDup (m_oneofs _ _ m) -> In n (m_oneofs _ _ m) ->
      run e m l r = Some r' ->
      exists sel, selected m e n sel /\ (forall sel', selected m e n sel' -> sel' = sel) /\
        match sel with
        | Some f => exists v, value_of m e f (Some v) /\ slot V r' n = Some (f_name _ _ f, v)
        | None => slot V r' n = slot V r n
        end.
    Proof.
      intros m l e r r' n R ND Hn H. destruct (return_oneof _ _ _ _ _ _ _ _ _ _ _ _ _ m e l R n r r' ND Hn H) as (sel & Hs & Hv).
      exists sel. split; [exact Hs|]. split; [|exact Hv]. intros sel' Hs'. eapply selected_det; eauto.
    Qed.
    (** A condition that fails to evaluate fails the resolution, whatever the other conditions are. *)
    Theorem C22_condition_fails : forall m l e r n f, resolve m = Some l -> In n (m_oneofs _ _ m) -> In f (members _ _ m n) ->
      condition m e f None -> run e m l r = None.
    Proof. intros m l e r n f R. apply (return_cond_fails _ _ _ _ _ _ _ _ _ _ _ _ _ m e l R). Qed.
    (** So does the value of the selected member. *)
    Theorem C22_value_fails : forall m l e r n f, resolve m = Some l -> In n (m_oneofs _ _ m) -> selected m e n (Some f) ->
      value_of m e f None -> run e m l r = None.
    Proof. intros m l e r n f R. apply (return_value_fails _ _ _ _ _ _ _ _ _ _ _ _ _ m e l R). Qed.

    (** A field outside oneofs gets the value its rule asks for, and a field whose rule asks for none is left alone. *)
    Theorem C48_fields : forall m l e r r' f, resolve m = Some l -> NoDup (map (f_name _ _) (m_fields _ _ m)) ->
      In f (m_fields _ _ m) -> f_oneof _ _ f = None -> run e m l r = Some r' ->
      (exists v, value_of m e f (Some v) /\ plain V r' (f_name _ _ f) = Some v) \/
      ((forall v, ~ value_of m e f v) /\ plain V r' (f_name _ _ f) = plain V r (f_name _ _ f)).
    Proof. intros m l e r r' f R. apply (return_plain _ _ _ _ _ _ _ _ _ _ _ _ _ m e l R). Qed.
    (** The value of a field is determined by its rule; if it fails, so does the resolution. *)
    Theorem C48_value_unique : forall m l e f v v', resolve m = Some l -> In f (m_fields _ _ m) ->
      value_of m e f v -> value_of m e f v' -> v = v'.
    Proof. intros m l e f v v' R. exact (value_det _ _ _ _ _ _ _ _ _ _ _ m e l R f v v'). Qed.
    Theorem C48_value_fails : forall m l e r f, resolve m = Some l -> In f (m_fields _ _ m) -> f_oneof _ _ f = None ->
      value_of m e f None -> run e m l r = None.
    Proof. intros m l e r f R. apply (return_plain_fails _ _ _ _ _ _ _ _ _ _ _ _ _ m e l R). Qed.
    (** Nothing but a failing condition, or a failing value of a plain field or selected member, makes it fail. *)
    Theorem C48_fails_only : forall m l e r, resolve m = Some l -> run e m l r = None ->
      exists f, In f (m_fields _ _ m) /\ (condition m e f None \/
        value_of m e f None /\ (f_oneof _ _ f = None \/ exists n, f_oneof _ _ f = Some n /\ selected m e n (Some f))).
    Proof. intros m l e r R. apply (return_fails _ _ _ _ _ _ _ _ _ _ _ _ _ m e l R). Qed.
  End Run.
End Bind.
Print Assumptions C28_bound.
Print Assumptions C28_ambiguous.
Print Assumptions C28_unoffered.
Print Assumptions C28_accepted.
Print Assumptions C22_selection.
Print Assumptions C22_condition_fails.
Print Assumptions C22_value_fails.
Print Assumptions C48_fields.
Print Assumptions C48_value_unique.
Print Assumptions C48_value_fails.
Print Assumptions C48_fails_only.

(** ** Where it goes wrong *)
(** A small language for concrete cases: an expression is its value; 9 fails. Values are numbers, 0 is nil. *)
Definition c_if (_ : unit) (x : nat) : option bool := if Nat.eqb x 9 then None else Some (Nat.eqb x 1).
Definition c_eval (_ : unit) (x : nat) : option nat := if Nat.eqb x 9 then None else Some x.
Definition c_defs (_ : unit) (_ : unit) : option unit := Some tt.
Definition c_get (_ : unit) (v f : string) : nat := if String.eqb v "a" then 4 else 0.
Definition c_run (m : mdecl nat unit) (l : list (fdecl nat unit * frule nat unit)) :=
  exec nat unit unit nat c_if c_eval c_defs c_get (Nat.eqb 0) (fun _ _ v => Some v) (fun _ _ => Some 3) tt (ReturnFields nat unit m l)
    {| plain := fun _ => None; slot := fun _ => None |}.
Definition c_fields (m : nat) : list (string * ty) := match m with 2 => [("x", single (BMsg 3)); ("n", single (BKind Int64))] | _ => [] end.
Notation mk n t o p := {| f_name := n; f_type := t; f_oneof := o; f_opt := p |} (only parsing).
Definition str := single (BKind String_).

Section Refute.
  Local Notation resolve := (resolve nat unit no_aliases c_fields).

  (** Every field with a rule in an accepted message is set. *)
  Definition C48_statement : Prop := forall m l f r', resolve m = Some l -> NoDup (map (f_name _ _) (m_fields _ _ m)) ->
    In f (m_fields _ _ m) -> (exists v, f_opt _ _ f = OCustom true \/ f_opt _ _ f = OBy v (f_type _ _ f)) ->
    (forall n, f_oneof _ _ f = Some n -> In n (m_oneofs _ _ m)) ->
    c_run m l = Some r' -> plain nat r' (f_name _ _ f) <> None \/ exists n v, slot nat r' n = Some (f_name _ _ f, v).
  (** Not if it is a member of a oneof, as every proto3 optional field is: "by" on it is accepted and ignored. *)
  Theorem C48_oneof_member_refuted : ~ C48_statement.
  Proof.
    intros H.
    pose (f := mk "name" str (Some "_name") (@OBy nat unit 7 str)).
    pose (m := {| m_fields := [f]; m_oneofs := ["_name"]; m_defs := []; m_custom := false; m_aliases := [] |}).
    assert (ND : NoDup (map (f_name nat unit) (m_fields nat unit m))) by (repeat constructor; intros []).
    assert (Ho : forall n, f_oneof nat unit f = Some n -> In n (m_oneofs nat unit m)) by (intros n E; injection E as <-; left; reflexivity).
    specialize (H m _ f _ eq_refl ND (or_introl eq_refl) (ex_intro _ 7 (or_intror eq_refl)) Ho eq_refl).
    destruct H as [X|(n & v & X)].
    - apply X. reflexivity.
    - vm_compute in X. discriminate X.
  Qed.

  (** Every field of an accepted message without custom resolvers asks for a value. *)
  Definition C48_bound_statement : Prop := forall (m : mdecl nat unit) l f, resolve m = Some l -> m_custom _ _ m = false -> In f (m_fields _ _ m) ->
    exists v, value_of nat unit c_fields unit nat c_eval c_defs c_get (fun _ _ v => Some v) (fun _ _ => Some 3) m tt f v.
  (** Not in a message with an alias: its fields without options are not bound automatically and stay at zero, although a
      variable offers them. *)
  Theorem C48_alias_refuted : ~ C48_bound_statement.
  Proof.
    intros H.
    pose (f := mk "n" (single (BKind Int64)) None (@ONone nat unit)).
    pose (m := {| m_fields := [f]; m_oneofs := []; m_defs := [{| d_name := "a"; d_auto := true; d_type := single (BMsg 2) |}]; m_custom := false; m_aliases := [2] |}).
    destruct (H m _ f eq_refl eq_refl (or_introl eq_refl)) as (v & X). inversion X; subst; try discriminate.
    match goal with K : auto_bound _ _ _ _ _ _ _ |- _ => destruct K as (_ & _ & E & _); discriminate E end.
  Qed.
  (** Nor with "custom_resolver: false". *)
  Theorem C48_custom_false_refuted : ~ C48_bound_statement.
  Proof.
    intros H.
    pose (f := mk "n" str None (@OCustom nat unit false)).
    pose (m := {| m_fields := [f]; m_oneofs := []; m_defs := []; m_custom := false; m_aliases := [] |}).
    destruct (H m _ f eq_refl eq_refl (or_introl eq_refl)) as (v & X). inversion X; subst; try discriminate.
    match goal with K : auto_bound _ _ _ _ _ _ _ |- _ => destruct K as (E & _); discriminate E end.
  Qed.

  (** The code generated for an accepted message compiles. *)
  Definition C28_compiles_statement : Prop := forall (m : mdecl nat unit) l, resolve m = Some l ->
    forallb (compiles nat unit) (ReturnFields _ _ m l) = true.
  (** Not if a list is bound automatically ... *)
  Theorem C28_list_refuted : ~ C28_compiles_statement.
  Proof.
    intros H.
    pose (f := mk "n" (single (BKind Int64)) None (@ONone nat unit)).
    pose (m := {| m_fields := [f]; m_oneofs := []; m_defs := [{| d_name := "a"; d_auto := true; d_type := list_of (BMsg 2) |}]; m_custom := false; m_aliases := [] |}).
    specialize (H m _ eq_refl). discriminate H.
  Qed.
  (** ... nor if a member of a oneof is bound automatically beside one with a rule. *)
  Theorem C22_mixed_refuted : ~ C28_compiles_statement.
  Proof.
    intros H.
    pose (f := mk "x" (single (BMsg 3)) (Some "o") (@ONone nat unit)).
    pose (g := mk "y" str (Some "o") (OOneof {| o_if := Some 1; o_default := false; o_defs := tt; o_by := 5; o_type := str |})).
    pose (m := {| m_fields := [f; g]; m_oneofs := ["o"]; m_defs := [{| d_name := "a"; d_auto := true; d_type := single (BMsg 2) |}]; m_custom := false; m_aliases := [] |}).
    specialize (H m _ eq_refl). discriminate H.
  Qed.

  (** A second variable that offers the field makes it an error even if only one has a suitable type. *)
  Theorem C28_incompatible_candidate : exists (m : mdecl nat unit) f d t d' t',
    m_fields _ _ m = [f] /\ f_opt _ _ f = ONone /\ m_custom _ _ m = false /\ m_aliases _ _ m = [] /\
    offers nat unit (fun i => [("n", if Nat.eqb i 1 then str else single (BKind Int64))]) m (f_name _ _ f) d t /\
    offers nat unit (fun i => [("n", if Nat.eqb i 1 then str else single (BKind Int64))]) m (f_name _ _ f) d' t' /\
    isDifferentType t (f_type _ _ f) = false /\ isDifferentType t' (f_type _ _ f) = true /\
    Bind.resolve nat unit no_aliases (fun i => [("n", if Nat.eqb i 1 then str else single (BKind Int64))]) m = None.
  Proof.
    pose (f := mk "n" str None (@ONone nat unit)).
    pose (d := {| d_name := "a"; d_auto := true; d_type := single (BMsg 1) |}). pose (d' := {| d_name := "b"; d_auto := true; d_type := single (BMsg 2) |}).
    exists {| m_fields := [f]; m_oneofs := []; m_defs := [d; d']; m_custom := false; m_aliases := [] |}, f, d, str, d', (single (BKind Int64)).
    repeat split; cbn; auto.
  Qed.
End Refute.
Print Assumptions C48_oneof_member_refuted.
Print Assumptions C48_alias_refuted.
Print Assumptions C48_custom_false_refuted.
Print Assumptions C28_list_refuted.
Print Assumptions C22_mixed_refuted.
Print Assumptions C28_incompatible_candidate.

(** A message with an automatic field, one with "by", and a oneof of four: false, true, true and the default; a failing
    condition after the true one fails. *)
Definition sample_member (n : string) (i : option nat) (d : bool) (x : nat) : fdecl nat unit := mk n str (Some "o") (OOneof {| o_if := i; o_default := d; o_defs := tt; o_by := x; o_type := str |}).
Definition sample_message (third : nat) : mdecl nat unit :=
  {| m_fields := [mk "n" (single (BKind Int64)) None ONone; mk "z" str None (OBy 8 str);
                  sample_member "p" (Some 0) false 20; sample_member "dflt" None true 21; sample_member "q" (Some 1) false 22; sample_member "r" (Some third) false 23];
     m_oneofs := ["o"]; m_defs := [{| d_name := "a"; d_auto := true; d_type := single (BMsg 2) |}; {| d_name := "b"; d_auto := false; d_type := single (BMsg 2) |}];
     m_custom := false; m_aliases := [] |}.
Example C22_sample : exists l r, resolve nat unit no_aliases c_fields (sample_message 1) = Some l /\ c_run (sample_message 1) l = Some r /\
  slot nat r "o" = Some ("q", 22) /\ plain nat r "n" = Some 4 /\ plain nat r "z" = Some 8 /\
  exists l', resolve nat unit no_aliases c_fields (sample_message 9) = Some l' /\ c_run (sample_message 9) l' = None.
Proof. do 2 eexists. repeat split; try reflexivity. eexists. repeat split; reflexivity. Qed.
