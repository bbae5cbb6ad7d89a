(** * Environment variables have the value their options say (C66) *)

From Coq Require Import Ascii String List Bool.
From Verif.Base Require Import Text.
From Verif.Ident Require Import Model.
From Verif.Env Require Import Model Spec Proofs.
Import ListNotations.
Local Open Scope string_scope.

(** The service starts exactly with the values the options and the environment say, for every conversion of texts to values. *)
Definition C66_statement : Prop := forall (type value : Type) (parse : type -> string -> option value) (zero : type -> value) env (vars : list (var type)) vs,
  (forall v, In v vars -> name_ok v) ->
  (start parse zero env vars = Some vs <->
   Forall2 (fun v x => exists key, reads v key /\ value_of parse zero env key v (Some x)) vars vs).

Section Values.
  Context {type value : Type}.
  Variable parse : type -> string -> option value.
  Variable zero : type -> value.

  (** What is read is the variable in upper case, also if an alternate is given; and the generated code is valid Go exactly if the
      Go names differ and the texts have no backquote. *)
  Theorem C66_exact : forall env (vars : list (var type)) vs, (forall v, In v vars -> name_ok v) ->
    (start parse zero env vars = Some vs <->
     fields_distinct vars /\ (forall v, In v vars -> plain_options v) /\
     Forall2 (fun v x => exists key, reads v key /\ value_of parse zero env (upper_case key) v (Some x)) vars vs).
  Proof using.
    intros env vars vs Nm. unfold start. pose proof (struct_spec vars Nm) as S.
    assert (F : forall vs, process parse zero env (map field_of vars) = Some vs <->
      Forall2 (fun v x => exists key, reads v key /\ value_of parse zero env (upper_case key) v (Some x)) vars vs).
    { clear vs S. intros vs. rewrite process_spec. revert vs. induction vars as [ | v vars IH]; intros vs.
      - cbn [map]. split; intros H; inversion H; constructor.
      - cbn [map]. assert (X : forall x, (exists key, reads v key /\ value_of parse zero env (upper_case key) v (Some x)) <-> process_field parse zero env (field_of v) = Some x).
        { intros x. destruct (Nm v (or_introl eq_refl)) as [NE _]. split.
          - intros [key [R V]]. apply (process_field_spec parse zero env v key NE R). exact V.
          - intros P. exists (chosen v). assert (R : reads v (chosen v)) by (apply reads_spec; reflexivity). split; [exact R | ].
            apply (process_field_spec parse zero env v (chosen v) NE R). exact P. }
        split; intros H; inversion H as [ | ? y ? ys H1 H2]; subst; (constructor; [apply X; exact H1 | ]);
          apply (IH (fun u I => Nm u (or_intror I))); exact H2. }
    destruct (struct_ok (map field_of vars)).
    - rewrite F. destruct (proj1 S eq_refl) as [A B]. split; [intros H; split; [exact A | split; [exact B | exact H]] | intros [_ [_ H]]; exact H].
    - split; [discriminate | ]. intros [A [B _]]. discriminate (proj2 S (conj A B)).
  Qed.

  (** The full statement, for alternates in upper case, distinct Go names and texts without a backquote. *)
  Theorem C66_partial : forall env (vars : list (var type)) vs, (forall v, In v vars -> name_ok v) ->
    fields_distinct vars -> (forall v, In v vars -> plain_options v) ->
    (forall v s, In v vars -> has_text alternate v s -> upper_case s = s) ->
    (start parse zero env vars = Some vs <->
     Forall2 (fun v x => exists key, reads v key /\ value_of parse zero env key v (Some x)) vars vs).
  Proof using.
    intros env vars vs Nm D P U. rewrite (C66_exact env vars vs Nm).
    assert (K : forall v key, In v vars -> reads v key -> upper_case key = key).
    { intros v key I [T | [_ ->]]; [exact (U v key I T) | apply upper_twice]. }
    assert (E : Forall2 (fun v x => exists key, reads v key /\ value_of parse zero env (upper_case key) v (Some x)) vars vs <->
                Forall2 (fun v x => exists key, reads v key /\ value_of parse zero env key v (Some x)) vars vs).
    { clear D P U Nm. revert vs. induction vars as [ | v vars IH]; intros vs; (split; intros H; inversion H as [ | ? y ? ys [key [R V]] H2]; subst; constructor).
      - exists key. split; [exact R | rewrite <- (K v key (or_introl eq_refl) R); exact V].
      - apply (IH (fun u k I => K u k (or_intror I))). exact H2.
      - exists key. split; [exact R | rewrite (K v key (or_introl eq_refl) R); exact V].
      - apply (IH (fun u k I => K u k (or_intror I))). exact H2. }
    rewrite E. split; [intros [_ [_ H]]; exact H | intros H; split; [exact D | split; [exact P | exact H]]].
  Qed.

  (** An expression reads the value the variable started with. *)
  Theorem C66_read : forall env (vars : list (var type)) vs i v x, (forall v, In v vars -> name_ok v) ->
    start parse zero env vars = Some vs -> nth_error vars i = Some v -> nth_error vs i = Some x ->
    read vars vs (v_name v) = Some x.
  Proof using.
    intros env vars vs i v x Nm S V X. apply (C66_exact env vars vs Nm) in S. destruct S as [D [_ F]].
    assert (L : List.length vars = List.length vs). { clear - F. induction F; [reflexivity | cbn; f_equal; assumption]. }
    unfold read.
    assert (A1 : assoc (v_name v) (map (fun v => (v_name v, public (v_name v))) vars) = Some (public (v_name v))).
    { clear - V. revert i V. induction vars as [ | u vars IH]; intros [ | i] V; try discriminate V; cbn [map assoc].
      - cbn in V. injection V as ->. rewrite String.eqb_refl. reflexivity.
      - destruct (String.eqb (v_name v) (v_name u)) eqn:E; [apply String.eqb_eq in E; rewrite E; reflexivity | exact (IH i V)]. }
    rewrite A1. clear A1 Nm F. revert i vs V X L. unfold fields_distinct in D. induction vars as [ | u vars IH]; intros [ | i] vs V X L; try discriminate V;
      destruct vs as [ | y vs]; try discriminate X; cbn [map combine assoc].
    - cbn in V, X. injection V as ->. injection X as ->. rewrite String.eqb_refl. reflexivity.
    - cbn [map] in D. inversion D as [ | ? ? D1 D2]; subst. destruct (String.eqb (public (v_name v)) (public (v_name u))) eqn:E.
      + exfalso. apply D1. apply String.eqb_eq in E. rewrite <- E. apply (in_map (fun w => public (v_name w))). exact (nth_error_In vars i V).
      + apply (IH D2 i vs V X). cbn in L. injection L as L. exact L.
  Qed.
End Values.
Print Assumptions C66_exact.
Print Assumptions C66_partial.
Print Assumptions C66_read.

(** ** Examples and counterexamples: variables of type string *)

Definition text_parse (_ : unit) (s : string) : option string := Some s.
Definition text_zero (_ : unit) : string := "".
Definition text_var (n : string) (o : option var_option) : var unit := {| v_name := n; v_type := tt; v_option := o |}.
Definition options (a d : string) (r i : bool) : option var_option := Some {| alternate := a; default := d; required := r; ignored := i |}.

Ltac name := split; [discriminate | intros c I; cbn in I; cbn; tauto].

(** An alternate in lower case is not the variable that is read. *)
Theorem C66_refuted : ~ C66_statement.
Proof.
  intros H.
  set (env := fun k => if String.eqb k "http_proxy" then Some "a" else None).
  set (v := text_var "proxy" (options "http_proxy" "" false false)).
  assert (X : start text_parse text_zero env [v] = Some ["a"]).
  { apply H; [intros u [<- | []]; name | ]. constructor; [ | constructor]. exists "http_proxy". split.
    - left. split; [discriminate | eexists; split; reflexivity].
    - apply (Of_env text_parse text_zero env "http_proxy" v "a"); [ | reflexivity]. intros [o [E I]]. cbn in E. injection E as <-. discriminate I. }
  vm_compute in X. discriminate X.
Qed.
Print Assumptions C66_refuted.

(** Variables whose Go names are the same, and a backquote in a default, are accepted and make invalid Go. *)
Theorem C66_code_refuted :
  (forall env, start text_parse text_zero env [text_var "user_id" None; text_var "userId" None] = None) /\
  (forall env, start text_parse text_zero env [text_var "query" (options "" "`x`" false false)] = None) /\
  (forall v, In v [text_var "user_id" None; text_var "userId" None; text_var "query" (options "" "`x`" false false)] -> name_ok v).
Proof.
  split; [intros env; reflexivity | split; [intros env; reflexivity | ]].
  intros v [<- | [<- | [<- | []]]]; name.
Qed.
Print Assumptions C66_code_refuted.

Definition some_vars : list (var unit) :=
  [text_var "a" None; text_var "b_c" (options "ALT" "d\""" true false); text_var "e" (options "" "f" true true); text_var "g" (options "" "" false false)].
Example C66_example :
  start text_parse text_zero (fun k => if String.eqb k "A" then Some "x" else None) some_vars = Some ["x"; "d\"""; ""; ""] /\
  start text_parse text_zero (fun k => if String.eqb k "ALT" then Some "y" else if String.eqb k "E" then Some "z" else None) some_vars = Some [""; "y"; ""; ""] /\
  start text_parse text_zero (fun _ => None) [text_var "r" (options "" "" true false)] = None /\
  read some_vars ["x"; "d"; ""; ""] "b_c" = Some "d" /\
  tag (text_var "b_c" (options "ALT" "d\""" true false)) = "envconfig:""ALT"" default:""d\\\"""" required:""true""".
Proof. vm_compute. repeat split. Qed.

(** The hypotheses of the partial theorem are met by them. *)
Example C66_hypotheses : (forall v, In v some_vars -> name_ok v) /\ fields_distinct some_vars /\ (forall v, In v some_vars -> plain_options v) /\
  (forall v s, In v some_vars -> has_text alternate v s -> upper_case s = s).
Proof.
  split; [ | split; [ | split]].
  - intros v I. cbn in I. destruct I as [<- | [<- | [<- | [<- | []]]]]; name.
  - unfold fields_distinct. apply (proj1 (distinct_spec _)). vm_compute. reflexivity.
  - intros v I. assert (N : name_ok v) by (cbn in I; destruct I as [<- | [<- | [<- | [<- | []]]]]; name).
    apply (bq_tag v N). cbn in I. destruct I as [<- | [<- | [<- | [<- | []]]]]; vm_compute; reflexivity.
  - intros v s I [N [o [E A]]]. cbn in I. destruct I as [<- | [<- | [<- | [<- | []]]]]; cbn in E; inversion E; subst o; cbn in A; subst s; reflexivity.
Qed.
