From Coq Require Import Ascii String List Bool Arith Lia.
From Verif.Names Require Model.
From Verif.Ident Require Model.
From Verif.Svcvars Require Import Model Spec.
Import ListNotations.
Local Open Scope string_scope.

Section Service.
  Variables expr other V E : Type.
  Variable check : decls -> expr -> option ty.
  Variable check_other : decls -> other -> option ty.
  Variable eval : expr -> vals V -> result V E.
  Variable eval_other : other -> vals V -> result V E.
  Variable zero : ty -> V.
  Variable as_bool : V -> option bool.
  Variable as_text : V -> option string.

  Notation var := (var expr other).
  Notation resolve := (resolve expr other check check_other).
  Notation accepts := (accepts expr other check check_other).
  Notation init := (init expr other V E check check_other eval eval_other zero as_bool as_text).
  Notation boots := (boots expr other V E check check_other eval eval_other zero as_bool as_text).

  Lemma existsb_name : forall n l, existsb (String.eqb n) l = false <-> ~ In n l.
  Proof using.
    intros n l. rewrite <- not_true_iff_false, existsb_exists. split; intros H I; apply H.
    - exists n. split; [exact I | apply String.eqb_refl].
    - destruct I as [x [I E']]. apply String.eqb_eq in E'. subst. exact I.
  Qed.
  Lemma is_bool_spec : forall k, is_bool k = true <-> k = KBool.
  Proof using. destruct k; split; intros H; try discriminate H; reflexivity. Qed.
  Lemma is_string_spec : forall k, is_string k = true <-> k = KString.
  Proof using. destruct k; split; intros H; try discriminate H; reflexivity. Qed.

  (** The name is fine, or there is an error. *)
  Definition name_error (seen : list string) (v : var) : bool :=
    String.eqb (v_name _ _ v) "" && negb (is_validation _ _ v) || negb (Names.Model.validateName (v_name _ _ v)) || existsb (String.eqb (v_name _ _ v)) seen.
  Lemma name_error_spec : forall seen v, name_error seen v = false <-> nameable _ _ seen v.
  Proof using.
    intros seen v. unfold name_error, nameable. rewrite !orb_false_iff, negb_false_iff, existsb_name, and_assoc.
    assert (X : String.eqb (v_name _ _ v) "" && negb (is_validation _ _ v) = false <-> (v_name _ _ v = "" -> exists c e, v_body _ _ v = Validation _ _ c e)).
    { unfold is_validation. destruct (String.eqb (v_name _ _ v) "") eqn:E'.
      - apply String.eqb_eq in E'. cbn [andb]. destruct (v_body _ _ v) as [ | e | o | c e] eqn:B; cbn; split; intros H; try discriminate H; try (destruct (H E') as [c' [e' X]]; discriminate X); [intros _; exists c, e; reflexivity | reflexivity].
      - cbn. split; [intros _ X; rewrite X in E'; discriminate E' | reflexivity]. }
    rewrite X. reflexivity.
  Qed.
  Lemma resolve_var_name : forall env seen v, resolve_var _ _ check check_other env seen v =
    if name_error seen v then resolve_var _ _ check check_other env seen v
    else match v_if _ _ v with
         | None => resolve_body _ _ check check_other env v None
         | Some c => match check env c with
             | None => Ret _ _ None ["if"]
             | Some t => Ret _ _ None (if negb (is_bool (t_kind t)) then ["return value of ""if"" must be bool type"] else [])
             end
         end.
  Proof using.
    intros env seen v. unfold name_error. destruct (String.eqb (v_name _ _ v) "" && negb (is_validation _ _ v)) eqn:A; [reflexivity | ].
    destruct (negb (Names.Model.validateName (v_name _ _ v))) eqn:B; [reflexivity | ]. destruct (existsb (String.eqb (v_name _ _ v)) seen) eqn:C; [reflexivity | ].
    cbn [orb]. unfold resolve_var. rewrite A, B, C. reflexivity.
  Qed.
  Lemma resolve_var_error : forall env seen v, name_error seen v = true -> exists e, resolve_var _ _ check check_other env seen v = Ret _ _ None [e].
  Proof using.
    intros env seen v H. unfold name_error in H. unfold resolve_var.
    destruct (String.eqb (v_name _ _ v) "" && negb (is_validation _ _ v)); [eexists; reflexivity | ]. cbn [orb] in H.
    destruct (negb (Names.Model.validateName (v_name _ _ v))); [eexists; reflexivity | ]. cbn [orb] in H. rewrite H. eexists; reflexivity.
  Qed.

  (** The variables that are kept. *)
  Definition kept (env : decls) (v : var) (s : svar expr other) : Prop :=
    s_name _ _ s = v_name _ _ v /\ s_if _ _ s = None /\
    match v_body _ _ v with
    | By _ _ e => exists t, check env e = Some t /\ s_body _ _ s = SValue _ _ (VBy _ _ e) (Some t)
    | Other _ _ o => exists t, check_other env o = Some t /\ s_body _ _ s = SValue _ _ (VOther _ _ o) (Some t)
    | Validation _ _ (Some c) (Some e) => of_kind _ check KBool env c /\ of_kind _ check KString env e /\ s_body _ _ s = SValidation _ _ c e
    | _ => False
    end.
  Lemma resolve_body_kept : forall env v s, resolve_body _ _ check check_other env v None = Ret _ _ s [] -> exists s', s = Some s' /\ kept env v s'.
  Proof using.
    intros env v s H. unfold resolve_body in H. unfold kept. destruct (v_body _ _ v) as [ | e | o | [c | ] [e | ]]; try discriminate H.
    - destruct (check env e) as [t | ]; [ | discriminate H]. injection H as <-. eexists. split; [reflexivity | ]. repeat split. exists t. split; reflexivity.
    - destruct (check_other env o) as [t | ]; [ | discriminate H]. injection H as <-. eexists. split; [reflexivity | ]. repeat split. exists t. split; reflexivity.
    - destruct (check env c) as [t | ] eqn:Ec; [ | discriminate H]. destruct (is_bool (t_kind t)) eqn:B; [ | discriminate H]. cbn in H.
      destruct (check env e) as [u | ] eqn:Ee; [ | discriminate H]. destruct (is_string (t_kind u)) eqn:S; [ | discriminate H]. cbn in H. injection H as <-.
      eexists. split; [reflexivity | ]. split; [reflexivity | split; [reflexivity | ]]. split; [exists t; split; [exact Ec | apply is_bool_spec; exact B] | ].
      split; [exists u; split; [exact Ee | apply is_string_spec; exact S] | reflexivity].
  Qed.
  Lemma kept_resolve_body : forall env v s, kept env v s -> resolve_body _ _ check check_other env v None = Ret _ _ (Some s) [].
  Proof using.
    intros env v s [N [I B]]. unfold resolve_body. destruct s as [n i b]. cbn in N, I, B. subst.
    destruct (v_body _ _ v) as [ | e | o | [c | ] [e | ]]; try contradiction.
    - destruct B as [t [-> ->]]. reflexivity.
    - destruct B as [t [-> ->]]. reflexivity.
    - destruct B as [[t [-> K]] [[u [-> L]] ->]]. rewrite K, L. reflexivity.
  Qed.

  Lemma accepted_iff : forall vs env seen, (exists l, resolve env seen vs = Answer _ _ l []) <-> accepts env seen vs.
  Proof using.
    induction vs as [ | v r IH]; intros env seen.
    - split; [intros _; constructor | intros _; exists []; reflexivity].
    - cbn [Model.resolve]. rewrite resolve_var_name. destruct (name_error seen v) eqn:N.
      + destruct (resolve_var_error env seen v N) as [e ->]. split.
        * intros [l H]. destruct (resolve env seen r); discriminate H.
        * intros H. exfalso. assert (X : nameable _ _ seen v) by (inversion H; assumption). apply name_error_spec in X. rewrite X in N. discriminate N.
      + apply name_error_spec in N. destruct (v_if _ _ v) as [c | ] eqn:I.
        * destruct (check env c) as [t | ] eqn:C.
          -- destruct (is_bool (t_kind t)) eqn:B; cbn [negb].
             ++ assert (X : (exists l, match resolve env seen r with Crash _ _ => Crash _ _ | Answer _ _ l errs' => Answer _ _ l ([] ++ errs')%list end = Answer _ _ l []) <-> exists l, resolve env seen r = Answer _ _ l []).
                { destruct (resolve env seen r); cbn; reflexivity. }
                rewrite X, IH. split; [intros H; apply C_condition with (c := c); [exact N | exact I | exists t; split; [exact C | apply is_bool_spec; exact B] | exact H] | ].
                intros H. inversion H; subst; [assumption | congruence | congruence].
             ++ split; [intros [l H]; destruct (resolve env seen r); discriminate H | ]. intros H. exfalso.
                inversion H as [ | ? ? ? ? c' _ I' [t' [C' K']] _ | | ]; subst; [ | congruence | congruence]. assert (c' = c) by congruence. subst. rewrite C in C'. injection C' as <-. rewrite K' in B. discriminate B.
          -- split; [intros [l H]; destruct (resolve env seen r); discriminate H | ]. intros H. exfalso.
             inversion H as [ | ? ? ? ? c' _ I' [t' [C' K']] _ | | ]; subst; [ | congruence | congruence]. assert (c' = c) by congruence. subst. congruence.
        * split.
          -- intros [l H]. destruct (resolve_body _ _ check check_other env v None) as [ | [s | ] errs] eqn:R; [discriminate H | | ].
             ++ destruct (resolve (extend _ _ env s) (s_name _ _ s :: seen) r) as [ | l' errs'] eqn:R'; [discriminate H | ]. injection H as <- H. apply app_eq_nil in H. destruct H as [-> ->].
                destruct (resolve_body_kept env v (Some s) R) as [s' [E' K]]. injection E' as <-. destruct K as [Kn [Ki Kb]].
                assert (A : accepts (extend _ _ env s) (s_name _ _ s :: seen) r) by (apply IH; exists l'; exact R').
                rewrite Kn in A. unfold extend, s_type in A. rewrite Kn in A. destruct (v_body _ _ v) as [ | e | o | [c | ] [e | ]] eqn:Eb; try contradiction.
                ** destruct Kb as [t [C B]]. rewrite B in A. apply C_value with (t := t); [exact N | exact I | rewrite Eb; exact C | ].
                   destruct (String.eqb (v_name _ _ v) "") eqn:E0; [ | exact A]. apply String.eqb_eq in E0. destruct (proj1 N E0) as [c' [e' X]]. congruence.
                ** destruct Kb as [t [C B]]. rewrite B in A. apply C_value with (t := t); [exact N | exact I | rewrite Eb; exact C | ].
                   destruct (String.eqb (v_name _ _ v) "") eqn:E0; [ | exact A]. apply String.eqb_eq in E0. destruct (proj1 N E0) as [c' [e' X]]. congruence.
                ** destruct Kb as [C1 [C2 B]]. rewrite B in A. apply C_validation with (c := c) (e := e); assumption.
             ++ destruct (resolve env seen r) as [ | l' errs'] eqn:R'; [discriminate H | ]. injection H as <- H. apply app_eq_nil in H. destruct H as [-> ->].
                destruct (resolve_body_kept env v None R) as [s' [E' _]]. discriminate E'.
          -- intros H. inversion H as [ | | ? ? ? ? t _ _ T A | ? ? ? ? c e _ _ B C1 C2 A]; subst; [congruence | | ].
             ++ assert (Nn : String.eqb (v_name _ _ v) "" = false). { apply String.eqb_neq. intros E0. destruct (proj1 N E0) as [c' [e' X]]. rewrite X in T. exact T. }
                destruct (v_body _ _ v) as [ | e | o | c e] eqn:Eb; try contradiction.
                ** rewrite (kept_resolve_body env v {| s_name := v_name _ _ v; s_if := None; s_body := SValue _ _ (VBy _ _ e) (Some t) |}).
                   2:{ split; [reflexivity | split; [reflexivity | ]]. rewrite Eb. exists t. split; [exact T | reflexivity]. }
                   cbn [extend s_type s_body s_name]. unfold extend, s_type. cbn. rewrite Nn. apply IH in A. destruct A as [l' A]. rewrite A. eexists. reflexivity.
                ** rewrite (kept_resolve_body env v {| s_name := v_name _ _ v; s_if := None; s_body := SValue _ _ (VOther _ _ o) (Some t) |}).
                   2:{ split; [reflexivity | split; [reflexivity | ]]. rewrite Eb. exists t. split; [exact T | reflexivity]. }
                   unfold extend, s_type. cbn. rewrite Nn. apply IH in A. destruct A as [l' A]. rewrite A. eexists. reflexivity.
             ++ rewrite (kept_resolve_body env v {| s_name := v_name _ _ v; s_if := None; s_body := SValidation _ _ c e |}).
                2:{ split; [reflexivity | split; [reflexivity | ]]. rewrite B. split; [exact C1 | split; [exact C2 | reflexivity]]. }
                unfold extend, s_type. cbn. unfold BoolType. apply IH in A. destruct A as [l' A]. rewrite A. eexists. reflexivity.
  Qed.

  (** Taking one variable off. *)
  Lemma resolve_cons : forall env seen v r l, resolve env seen (v :: r) = Answer _ _ l [] ->
    nameable _ _ seen v /\
    ((exists c, v_if _ _ v = Some c /\ resolve env seen r = Answer _ _ l []) \/
     (v_if _ _ v = None /\ exists s l', l = s :: l' /\ kept env v s /\ resolve (extend _ _ env s) (v_name _ _ v :: seen) r = Answer _ _ l' [])).
  Proof using.
    intros env seen v r l H. cbn [Model.resolve] in H. rewrite resolve_var_name in H. destruct (name_error seen v) eqn:N.
    { destruct (resolve_var_error env seen v N) as [e Er]. rewrite Er in H. destruct (resolve env seen r); discriminate H. }
    apply name_error_spec in N. split; [exact N | ]. destruct (v_if _ _ v) as [c | ] eqn:I.
    - left. exists c. split; [reflexivity | ]. destruct (check env c) as [t | ]; [destruct (is_bool (t_kind t)) | ]; cbn in H; destruct (resolve env seen r); try discriminate H. exact H.
    - right. split; [reflexivity | ]. destruct (resolve_body _ _ check check_other env v None) as [ | [s | ] errs] eqn:R; [discriminate H | | ].
      + destruct (resolve (extend _ _ env s) (s_name _ _ s :: seen) r) as [ | l' errs'] eqn:R'; [discriminate H | ]. injection H as <- H. apply app_eq_nil in H. destruct H as [-> ->].
        destruct (resolve_body_kept env v (Some s) R) as [s' [E' K]]. injection E' as <-. exists s, l'. split; [reflexivity | split; [exact K | ]]. rewrite <- (proj1 K). exact R'.
      + destruct (resolve env seen r) as [ | l' errs'] eqn:R'; [discriminate H | ]. injection H as <- H. apply app_eq_nil in H. destruct H as [-> ->].
        destruct (resolve_body_kept env v None R) as [s' [E' _]]. discriminate E'.
  Qed.

  Definition continues (struct : list (string * V)) (o : outcome V E) (out : ends V E) : Prop :=
    match o, out with
    | Started _ _ s', Up _ _ values => s' = (struct ++ map (fun p => (Ident.Model.public (fst p), snd p)) values)%list
    | Stopped _ _ f, Down _ _ f' => f = f'
    | _, _ => False
    end.

  Lemma holds_test : forall env m c, of_kind _ check KBool env c -> holds expr V E eval as_bool m c (test expr V E check eval as_bool env m c).
  Proof using.
    intros env m c [t [C _]]. unfold test, EvalCEL. rewrite C. destruct (eval c m) as [x | e] eqn:R.
    - destruct (as_bool x) as [b | ] eqn:B; [apply H_value with (x := x) | apply H_type with (x := x)]; assumption.
    - apply H_error. exact R.
  Qed.

  Lemma init_boots : forall vs env seen m struct l, resolve env seen vs = Answer _ _ l [] -> Forall (plain expr other) vs ->
    exists out, boots env m (filter (unconditional expr other) vs) out /\ continues struct (init env m struct l) out.
  Proof using.
    induction vs as [ | v r IH]; intros env seen m struct l H P.
    - injection H as <-. exists (Up _ _ []). split; [constructor | cbn; rewrite app_nil_r; reflexivity].
    - inversion P as [ | ? ? Pv Pr]; subst. apply resolve_cons in H. destruct H as [N [[c [I H]] | [I [s [l' [-> [[Kn [Ki Kb]] H]]]]]]].
      + cbn [filter]. unfold unconditional at 1. rewrite I. exact (IH env seen m struct l H Pr).
      + cbn [filter]. unfold unconditional at 1. rewrite I. cbn [Model.init].
        assert (AT : applies expr V E eval as_bool m (v_if _ _ v) (inl true)) by (rewrite I; constructor).
        unfold extend, s_type in H. rewrite Kn in H.
        assert (Nn : (exists t, has_type expr other check check_other env (v_body _ _ v) t) -> String.eqb (v_name _ _ v) "" = false).
        { intros [t T]. apply String.eqb_neq. intros E0. destruct (proj1 N E0) as [c' [e' X]]. rewrite X in T. exact T. }
        destruct (v_body _ _ v) as [ | e | o | [c | ] [e | ]] eqn:Eb; try contradiction.
        * destruct Kb as [t [C B]]. rewrite B in H |- *. rewrite (Nn (ex_intro _ t C)) in H. unfold run_value. rewrite Ki. unfold EvalCEL. rewrite C.
          destruct (eval e m) as [x | f] eqn:R.
          -- destruct (IH _ _ (set V m (s_name _ _ s) x) (struct ++ [(Ident.Model.public (s_name _ _ s), x)])%list l' H Pr) as [out [Bo Co]]. rewrite Kn in Bo, Co |- *.
             exists (cons_value V E (v_name _ _ v) x out). split; [apply B_value with (t := t); [exact AT | rewrite Eb; exact C | rewrite Eb; apply G_by; exact R | exact Bo] | ].
             destruct (init _ _ _ l') as [s' | f'], out as [values | f'']; cbn in *; try contradiction; [ | exact Co]. subst s'. rewrite <- app_assoc. reflexivity.
          -- exists (Down _ _ (Failure _ f)). split; [apply B_error; [exact AT | rewrite Eb; apply G_by_error; exact R] | reflexivity].
        * destruct Kb as [t [C B]]. rewrite B in H |- *. rewrite (Nn (ex_intro _ t C)) in H. unfold run_value. rewrite Ki. unfold EvalOther. rewrite C.
          destruct (eval_other o m) as [x | f] eqn:R.
          -- destruct (IH _ _ (set V m (s_name _ _ s) x) (struct ++ [(Ident.Model.public (s_name _ _ s), x)])%list l' H Pr) as [out [Bo Co]]. rewrite Kn in Bo, Co |- *.
             exists (cons_value V E (v_name _ _ v) x out). split; [apply B_value with (t := t); [exact AT | rewrite Eb; exact C | rewrite Eb; apply G_other; exact R | exact Bo] | ].
             destruct (init _ _ _ l') as [s' | f'], out as [values | f'']; cbn in *; try contradiction; [ | exact Co]. subst s'. rewrite <- app_assoc. reflexivity.
          -- exists (Down _ _ (Failure _ f)). split; [apply B_error; [exact AT | rewrite Eb; apply G_other_error; exact R] | reflexivity].
        * destruct Kb as [C1 [C2 B]]. rewrite B in H |- *. pose proof (Pv _ _ Eb) as N0. rewrite N0 in H. cbn [String.eqb] in H.
          pose proof (holds_test env m c C1) as T. unfold run_validation. destruct (test _ _ _ _ _ _ env m c) as [[] | f].
          -- destruct C2 as [u [C2 _]]. unfold EvalCEL. rewrite C2. destruct (eval e m) as [x | f] eqn:R.
             ++ destruct (as_text x) as [w | ] eqn:W.
                ** exists (Down _ _ (Internal _ w)). split; [apply B_invalid with (c := c) (e := e); [exact AT | exact Eb | exact T | apply S_text with (x := x); assumption] | reflexivity].
                ** exists (Down _ _ (NotConverted _)). split; [apply B_invalid with (c := c) (e := e); [exact AT | exact Eb | exact T | apply S_type with (x := x); assumption] | reflexivity].
             ++ exists (Down _ _ (Failure _ f)). split; [apply B_invalid with (c := c) (e := e); [exact AT | exact Eb | exact T | apply S_error; assumption] | reflexivity].
          -- destruct (IH _ _ m struct l' H Pr) as [out [Bo Co]]. exists out. split; [apply B_valid with (c := c) (e := e); assumption | exact Co].
          -- exists (Down _ _ f). split; [apply B_validation_error with (c := c) (e := e); assumption | reflexivity].
  Qed.

  (** ** Names *)

  Lemma resolve_names : forall vs env seen l, resolve env seen vs = Answer _ _ l [] ->
    map (s_name _ _) l = map (v_name _ _) (filter (unconditional expr other) vs) /\ NoDup (map (s_name _ _) l) /\ (forall s, In s l -> ~ In (s_name _ _ s) seen) /\
    (forall s, In s l -> Names.Model.validateName (s_name _ _ s) = true) /\ (forall s v t, In s l -> s_body _ _ s = SValue _ _ v t -> s_name _ _ s <> "").
  Proof using.
    induction vs as [ | v r IH]; intros env seen l H.
    - injection H as <-. split; [reflexivity | ]. split; [constructor | ]. split; [intros s [] | ]. split; [intros s [] | intros s v t []].
    - apply resolve_cons in H. destruct H as [N [[c [I H]] | [I [s [l' [-> [[Kn [Ki Kb]] H]]]]]]].
      + cbn [filter]. unfold unconditional at 1. rewrite I. exact (IH env seen l H).
      + cbn [filter]. unfold unconditional at 1. rewrite I. destruct (IH _ _ _ H) as [A [B [C [D F]]]]. cbn [map]. rewrite Kn.
        split; [f_equal; exact A | ]. split; [constructor; [ | exact B] | split; [ | split]].
        * intros X. apply in_map_iff in X. destruct X as [s' [E' X]]. apply (C s' X). left. congruence.
        * intros s' [<- | X]; [rewrite Kn; exact (proj2 (proj2 N)) | intros Y; exact (C s' X (or_intror Y))].
        * intros s' [<- | X]; [rewrite Kn; exact (proj1 (proj2 N)) | exact (D s' X)].
        * intros s' w t [<- | X] Bd; [ | exact (F s' w t X Bd)]. rewrite Kn. intros E0. destruct (proj1 N E0) as [c [e Eb]]. rewrite Eb in Kb.
          destruct c as [c | ], e as [e | ]; try contradiction. destruct Kb as [_ [_ Kb]]. congruence.
  Qed.

  Definition nonempty (n : string) : bool := negb (String.eqb n "").
  Lemma upper_word : forall c, Names.Model.letter c = true -> Ident.Model.upper c <> "b"%char.
  Proof using. intros [[] [] [] [] [] [] [] []] H; vm_compute in H; try discriminate H; vm_compute; intros X; discriminate X. Qed.
  Lemma public_not_bool : forall n, Names.Model.validateName n = true -> n <> "" -> Ident.Model.public n <> "bool".
  Proof using.
    intros n V' N. unfold Names.Model.validateName in V'. destruct (String.eqb n "") eqn:E0; [apply String.eqb_eq in E0; contradiction | ].
    destruct n as [ | c r]; [congruence | ]. destruct (Names.Model.name_matches (String c r)) eqn:M; [ | discriminate V']. cbn in M. apply andb_true_iff in M. destruct M as [L _].
    assert (D : Ascii.eqb c "."%char = false /\ Ascii.eqb c "_"%char = false /\ Ident.Model.is_digit c = false) by (revert L; clear; destruct c as [[] [] [] [] [] [] [] []]; intros L; vm_compute in L; try discriminate L; repeat split; reflexivity).
    destruct D as [D1 [D2 D3]]. unfold Ident.Model.public, Ident.Model.go_camel. cbn [Ident.Model.camel]. rewrite D1, D2, D3. cbn [andb]. cbn [Ident.Model.to_public].
    intros X. injection X as X _. assert (U : Ident.Model.upper (Ident.Model.upper c) = Ident.Model.upper c) by (clear; destruct c as [[] [] [] [] [] [] [] []]; reflexivity).
    rewrite U in X. exact (upper_word c L X).
  Qed.

  Lemma fields_names : forall l, (forall s, In s l -> Names.Model.validateName (s_name expr other s) = true) -> NoDup (map (s_name _ _) l) ->
    (NoDup (fields expr other l) <-> NoDup (map Ident.Model.public (filter nonempty (map (s_name _ _) l)))).
  Proof using.
    assert (In_iff : forall l k, k <> "bool" -> In k (fields expr other l) -> In k (map Ident.Model.public (filter nonempty (map (s_name _ _) l)))).
    { intros l k Nk I. apply in_map_iff in I. destruct I as [s [E' I]]. destruct (String.eqb (s_name _ _ s) "") eqn:E0; [congruence | ].
      apply in_map_iff. exists (s_name _ _ s). split; [exact E' | ]. apply filter_In. split; [apply in_map; exact I | unfold nonempty; rewrite E0; reflexivity]. }
    assert (In_iff' : forall l k, In k (map Ident.Model.public (filter nonempty (map (s_name _ _) l))) -> In k (fields expr other l)).
    { intros l k I. apply in_map_iff in I. destruct I as [n [E' I]]. apply filter_In in I. destruct I as [I Nn]. apply in_map_iff in I. destruct I as [s [En I]].
      apply in_map_iff. exists s. split; [ | exact I]. unfold nonempty in Nn. subst n. destruct (String.eqb (s_name _ _ s) ""); [discriminate Nn | exact E']. }
    induction l as [ | s l IH]; intros Va Nd; [split; intros _; constructor | ].
    cbn [map filter fields]. inversion Nd as [ | ? ? Ns Nd']; subst. specialize (IH (fun s' I => Va s' (or_intror I)) Nd').
    fold (fields expr other l). unfold nonempty at 1. destruct (String.eqb (s_name _ _ s) "") eqn:E0; cbn [negb].
    - apply String.eqb_eq in E0. rewrite <- IH. split; [intros H; inversion H; assumption | ]. intros H. constructor; [ | exact H].
      intros I. apply in_map_iff in I. destruct I as [s' [E' I]]. destruct (String.eqb (s_name _ _ s') "") eqn:E1.
      + apply String.eqb_eq in E1. apply Ns. apply in_map_iff. exists s'. split; [congruence | exact I].
      + apply String.eqb_neq in E1. exact (public_not_bool _ (Va s' (or_intror I)) E1 E').
    - apply String.eqb_neq in E0. cbn [map]. pose proof (public_not_bool _ (Va s (or_introl eq_refl)) E0) as Nb. split; intros H; inversion H as [ | ? ? A B]; subst; constructor.
      + intros I. apply A. apply In_iff'. exact I.
      + apply IH. exact B.
      + intros I. apply A. apply In_iff; [exact Nb | exact I].
      + apply IH. exact B.
  Qed.

  Definition keys (l : list (svar expr other)) : list string := flat_map (fun s => match s_body _ _ s with SValue _ _ _ _ => [Ident.Model.public (s_name _ _ s)] | _ => [] end) l.
  Lemma init_keys : forall l env m struct s', init env m struct l = Started _ _ s' -> map fst s' = (map fst struct ++ keys l)%list.
  Proof using.
    induction l as [ | s l IH]; intros env m struct s' H; cbn [Model.init] in H.
    - injection H as <-. cbn. rewrite app_nil_r. reflexivity.
    - cbn [keys flat_map]. fold (keys l). destruct (s_body _ _ s) as [v t | c e].
      + destruct (run_value _ _ _ _ _ _ _ _ _ _ env m s v _) as [x | f]; [ | discriminate H]. apply IH in H. rewrite H, map_app, <- app_assoc. reflexivity.
      + destruct (run_validation _ _ _ _ _ _ _ env m c e); [discriminate H | ]. exact (IH _ _ _ _ H).
  Qed.
  Lemma keys_fields : forall l, (forall s v t, In s l -> s_body _ _ s = SValue _ _ v t -> s_name expr other s <> "") ->
    (forall k, In k (keys l) -> In k (fields expr other l)) /\ (NoDup (fields expr other l) -> NoDup (keys l)).
  Proof using.
    induction l as [ | s l IH]; intros F; [split; [intros k [] | intros _; constructor] | ].
    destruct (IH (fun s' v t I => F s' v t (or_intror I))) as [A B]. cbn [keys flat_map fields map]. fold (keys l). fold (fields expr other l).
    destruct (s_body _ _ s) as [v t | c e] eqn:Eb.
    - pose proof (F s v t (or_introl eq_refl) Eb) as Nn. apply String.eqb_neq in Nn. rewrite Nn. cbn [app]. split.
      + intros k [<- | I]; [left; reflexivity | right; exact (A k I)].
      + intros H. inversion H as [ | ? ? N H']; subst. constructor; [intros I; exact (N (A _ I)) | exact (B H')].
    - cbn [app]. split; [intros k I; right; exact (A k I) | intros H; inversion H; exact (B ltac:(assumption))].
  Qed.

  Lemma field_in : forall (struct : list (string * V)) k x, NoDup (map fst struct) -> In (k, x) struct -> field V struct k = Some x.
  Proof using.
    induction struct as [ | [k' x'] r IH]; intros k x N I; [destruct I | ]. cbn [field]. cbn in N. inversion N as [ | ? ? Nk N']; subst. destruct I as [E' | I].
    - injection E' as -> ->. rewrite String.eqb_refl. reflexivity.
    - destruct (String.eqb k' k) eqn:E'; [apply String.eqb_eq in E'; subst; exfalso; apply Nk; apply in_map_iff; exists (k, x); split; [reflexivity | exact I] | exact (IH k x N' I)].
  Qed.

  Lemma init_agrees : forall vs l, Resolve expr other check check_other vs = Answer _ _ l [] -> Forall (plain expr other) vs -> NoDup (fields expr other l) ->
    exists out, boots [] (fun _ => None) (filter (unconditional expr other) vs) out /\
      agrees V E (Init expr other V E check check_other eval eval_other zero as_bool as_text l) out.
  Proof using.
    intros vs l H P N. destruct (init_boots vs [] [] (fun _ => None) [] l H P) as [out [B C]]. exists out. split; [exact B | ]. unfold Init, agrees.
    destruct (init [] (fun _ => None) [] l) as [s' | f] eqn:Ei, out as [values | f']; cbn in C; try contradiction; [ | exact C]. subst s'.
    pose proof (init_keys _ _ _ _ _ Ei) as Ks. cbn [map app] in Ks.
    destruct (resolve_names _ _ _ _ H) as [_ [_ [_ [_ F]]]]. destruct (keys_fields l F) as [_ Nk]. specialize (Nk N). rewrite <- Ks in Nk.
    split; [ | rewrite !map_map; reflexivity]. intros n x I. apply field_in; [exact Nk | ]. apply in_map_iff. exists (n, x). split; [reflexivity | exact I].
  Qed.

  (** ** Right lists *)

  Definition validations (vs : list var) : nat := List.length (filter (is_validation expr other) vs).
  Lemma right_accepts : forall vs env seen seen', right expr other check check_other env seen vs -> Forall (fun v => v_if _ _ v = None) vs ->
    (forall n, n <> "" -> In n seen' -> In n seen) -> validations vs <= (if existsb (String.eqb "") seen' then 0 else 1) -> accepts env seen' vs.
  Proof using.
    intros vs env seen seen' R. revert seen'. induction R as [env seen | env seen v r t Ic Nn Nv Ns T R IH | env seen v r c e t Ic Nn Eb Cc Ce Te R IH]; intros seen' F S C.
    - constructor.
    - inversion F as [ | ? ? Fv Fr]; subst. assert (Iv : is_validation _ _ v = false) by (unfold is_validation; destruct (v_body _ _ v); try reflexivity; contradiction T).
      unfold validations in C. cbn [filter] in C. rewrite Iv in C. apply C_value with (t := t); [ | exact Fv | exact T | ].
      + split; [intros X; contradiction | split; [exact Nv | intros X; exact (Ns (S _ Nn X))]].
      + apply IH; [exact Fr | intros n Hn [X | X]; [left; exact X | right; exact (S n Hn X)] | ]. cbn [existsb].
        destruct (String.eqb "" (v_name _ _ v)) eqn:E0; [apply String.eqb_eq in E0; congruence | exact C].
    - inversion F as [ | ? ? Fv Fr]; subst. assert (Iv : is_validation _ _ v = true) by (unfold is_validation; rewrite Eb; reflexivity).
      unfold validations in C. cbn [filter] in C. rewrite Iv in C. cbn [List.length] in C. destruct (existsb (String.eqb "") seen') eqn:X; [lia | ].
      apply C_validation with (c := c) (e := e); [ | exact Fv | exact Eb | | | ].
      + split; [intros _; exists (Some c), (Some e); exact Eb | split; [rewrite Nn; reflexivity | rewrite Nn; apply existsb_name; exact X]].
      + destruct Cc as [u [Cu Bu]]. exists u. split; [exact Cu | rewrite Bu; reflexivity].
      + exists t. split; [exact Ce | rewrite Te; reflexivity].
      + rewrite Nn. cbn [String.eqb]. apply IH; [exact Fr | intros n Hn [Y | Y]; [congruence | exact (S n Hn Y)] | ]. cbn [existsb String.eqb orb]. unfold validations. lia.
  Qed.
  Lemma right_plain : forall vs env seen, right expr other check check_other env seen vs -> Forall (plain expr other) vs.
  Proof using.
    intros vs env seen R. induction R as [env seen | env seen v r t Ic Nn Nv Ns T R IH | env seen v r c e t Ic Nn Eb Cc Ce Te R IH]; constructor; try exact IH.
    - intros c e X. rewrite X in T. contradiction T.
    - intros c' e' X. exact Nn.
  Qed.
  Lemma filter_all : forall vs, Forall (fun v => v_if expr other v = None) vs -> filter (unconditional expr other) vs = vs.
  Proof using. intros vs F. induction F as [ | v vs Fv F IH]; [reflexivity | ]. cbn [filter]. unfold unconditional at 1. rewrite Fv, IH. reflexivity. Qed.

  Lemma accepts_unnamed : forall vs env seen, accepts env seen vs -> In "" seen -> forall v, In v vs -> v_name _ _ v <> "".
  Proof using.
    intros vs env seen A. induction A as [env seen | env seen v r c N I K A IH | env seen v r t N I T A IH | env seen v r c e N I B K1 K2 A IH]; intros S w Iw.
    - destruct Iw.
    - destruct Iw as [<- | Iw]; [intros X; apply (proj2 (proj2 N)); rewrite X; exact S | exact (IH S w Iw)].
    - destruct Iw as [<- | Iw]; [intros X; apply (proj2 (proj2 N)); rewrite X; exact S | exact (IH (or_intror S) w Iw)].
    - destruct Iw as [<- | Iw]; [intros X; apply (proj2 (proj2 N)); rewrite X; exact S | exact (IH (or_intror S) w Iw)].
  Qed.
  Lemma accepts_app : forall a b env seen, accepts env seen (a ++ b) -> exists env' seen', accepts env' seen' b.
  Proof using.
    induction a as [ | v a IH]; intros b env seen A; [exists env, seen; exact A | ]. inversion A; subst; eapply IH; eassumption.
  Qed.
End Service.
