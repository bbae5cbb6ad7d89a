From Coq Require Import String List ZArith Bool Lia.
From Verif.Base Require Import Result.
From Verif.Err Require Import Model Spec.
Import ListNotations.
Local Open Scope Z_scope.

Section P.
  Context {M S V : Type}.
  Variable kind : M -> dkind.
  Variable marshals : M -> bool.
  Variable code_string : Z -> string.
  Variable mkp : list (string * string * string) -> M.
  Variable mkb : list (string * string) -> M.
  Variable mkl : string -> string -> M.
  Variable set_error : celerr M -> S -> S.
  Notation err := (err M).
  Notation status := (status M).
  Notation eval A := (eval M S A).
  Notation defs := (defs M S).
  Notation rule := (rule M S V).
  Notation detail := (detail M S).
  Notation from_error := (from_error M code_string).
  Notation grpc_error := (grpc_error M kind marshals code_string).
  Notation set_grpc_error := (set_grpc_error M kind marshals code_string S set_error).
  Notation run_rules := (run_rules M marshals mkp mkb mkl S V).
  Notation handle := (handle_call_error M kind marshals code_string mkp mkb mkl S V set_error).
  Notation defaults_of := (defaults_of M code_string).
  Notation eval_details := (eval_details M mkp mkb mkl S).
  Notation eval_detail := (eval_detail M mkp mkb mkl S).
  Notation reply := (reply M marshals mkp mkb mkl S).
  Notation details_give := (@Spec.details_give M S mkp mkb mkl).
  Notation details_fail := (@Spec.details_fail M S mkp mkb mkl).

  (** ** The error variable *)
  Lemma add_detail_spec g m :
    let g' := add_detail M kind g m in
    c_code _ g' = c_code _ g /\ c_msg _ g' = c_msg _ g /\ c_details _ g' = (c_details _ g ++ [m])%list /\
    forall k, field k g' = (field k g ++ filter (fun x => dkind_eqb (kind x) k) [m])%list.
  Proof.
    destruct g. unfold add_detail. simpl.
    destruct (kind m); simpl; (split; [reflexivity|split; [reflexivity|split; [reflexivity|]]]);
      intros k; destruct k; simpl; rewrite ?app_nil_r; reflexivity.
  Qed.

  Lemma fold_details ds g :
    let good := filter marshals (flat_map (fun d => match d with Some m => [m] | None => [] end) ds) in
    let g' := fold_left (fun g d => match d with
                                    | None => g
                                    | Some m => if marshals m then add_detail M kind g m else g
                                    end) ds g in
    c_code _ g' = c_code _ g /\ c_msg _ g' = c_msg _ g /\ c_details _ g' = (c_details _ g ++ good)%list /\
    forall k, field k g' = (field k g ++ filter (fun x => dkind_eqb (kind x) k) good)%list.
  Proof.
    revert g. induction ds as [|d ds IH]; intros g; cbn zeta in *.
    - simpl. rewrite app_nil_r. repeat split. intros k. rewrite app_nil_r. reflexivity.
    - destruct d as [m|]; cbn [fold_left flat_map app].
      + cbn [filter]. destruct (marshals m).
        * destruct (IH (add_detail M kind g m)) as (A & B & C & D).
          destruct (add_detail_spec g m) as (A1 & B1 & C1 & D1). rewrite A, B, C, A1, B1, C1.
          repeat split; [rewrite <- app_assoc; reflexivity|].
          intros k. rewrite D, D1, <- app_assoc. cbn [filter app]. destruct (dkind_eqb (kind m) k); reflexivity.
        * apply IH.
      + apply IH.
  Qed.

  Lemma to_int32_small z : 0 <= z < 2147483648 -> to_int32 z = z.
  Proof.
    intros H. unfold to_int32. rewrite Z.mod_small by lia. cbv zeta.
    destruct (Z.ltb_spec z 2147483648); lia.
  Qed.

  Lemma grpc_error_spec e st : from_error e = (st, true) ->
    exists g, grpc_error e = Some g /\
      c_code _ g = to_int32 (st_code _ st) /\ c_msg _ g = st_msg _ st /\
      c_details _ g = filter marshals (decoded st) /\
      forall k, field k g = filter (fun x => dkind_eqb (kind x) k) (filter marshals (decoded st)).
  Proof.
    intros H. unfold Model.grpc_error. rewrite H. eexists. split; [reflexivity|].
    match goal with |- context [fold_left _ ?ds ?g0] => destruct (fold_details ds g0) as (A & B & C & D) end.
    rewrite A, B, C. repeat split. intros k. rewrite D. destruct k; reflexivity.
  Qed.

  Lemma grpc_error_none e st : from_error e = (st, false) -> grpc_error e = None.
  Proof. intros H. unfold Model.grpc_error. rewrite H. reflexivity. Qed.

  Lemma filter_true {A} (f : A -> bool) l : (forall x, In x l -> f x = true) -> filter f l = l.
  Proof.
    induction l as [|x l IH]; simpl; intros H; [reflexivity|].
    rewrite (H x) by auto. rewrite IH; auto.
  Qed.

  (** ** Violations *)
  Lemma precondition_loop_spec vs : forall acc s,
    exists r s', precondition_loop M S vs acc s = ((acc ++ r)%list, s') /\ kept3 vs s r s'.
  Proof.
    induction vs as [|[[t u] d] vs IH]; intros acc s; cbn [precondition_loop].
    - exists [], s. rewrite app_nil_r. split; [reflexivity|constructor].
    - destruct (t s) as [[a|e] s1] eqn:E1.
      + destruct (u s1) as [[b|e] s2] eqn:E2.
        * destruct (d s2) as [[c|e] s3] eqn:E3.
          -- destruct (IH (acc ++ [(a, b, c)])%list s3) as (r & s' & -> & K). exists ((a, b, c) :: r), s'.
             rewrite <- app_assoc. split; [reflexivity|]. eapply kept3_ok; eassumption.
          -- destruct (IH acc s3) as (r & s' & -> & K). exists r, s'. split; [reflexivity|]. eapply kept3_bad3; eassumption.
        * destruct (IH acc s2) as (r & s' & -> & K). exists r, s'. split; [reflexivity|]. eapply kept3_bad2; eassumption.
      + destruct (IH acc s1) as (r & s' & -> & K). exists r, s'. split; [reflexivity|]. eapply kept3_bad1; eassumption.
  Qed.

  Lemma bad_request_loop_spec vs : forall acc s,
    exists r s', bad_request_loop M S vs acc s = ((acc ++ r)%list, s') /\ kept2 vs s r s'.
  Proof.
    induction vs as [|[t d] vs IH]; intros acc s; cbn [bad_request_loop].
    - exists [], s. rewrite app_nil_r. split; [reflexivity|constructor].
    - destruct (t s) as [[a|e] s1] eqn:E1.
      + destruct (d s1) as [[c|e] s3] eqn:E3.
        * destruct (IH (acc ++ [(a, c)])%list s3) as (r & s' & -> & K). exists ((a, c) :: r), s'.
          rewrite <- app_assoc. split; [reflexivity|]. eapply kept2_ok; eassumption.
        * destruct (IH acc s3) as (r & s' & -> & K). exists r, s'. split; [reflexivity|]. eapply kept2_bad2; eassumption.
      + destruct (IH acc s1) as (r & s' & -> & K). exists r, s'. split; [reflexivity|]. eapply kept2_bad1; eassumption.
  Qed.

  Lemma precondition_failure_spec vs s o s' :
    precondition_failure M mkp S vs s = (o, s') ->
    exists r, kept3 vs s r s' /\ o = match r with [] => None | _ => Some (mkp r) end.
  Proof.
    unfold precondition_failure. destruct (precondition_loop_spec vs [] s) as (r & s1 & -> & K). cbn [app].
    destruct r as [|x r]; intros [= <- <-]; eexists; (split; [exact K|reflexivity]).
  Qed.
  Lemma bad_request_spec vs s o s' :
    bad_request M mkb S vs s = (o, s') ->
    exists r, kept2 vs s r s' /\ o = match r with [] => None | _ => Some (mkb r) end.
  Proof.
    unfold bad_request. destruct (bad_request_loop_spec vs [] s) as (r & s1 & -> & K). cbn [app].
    destruct r as [|x r]; intros [= <- <-]; eexists; (split; [exact K|reflexivity]).
  Qed.

  Lemma kept3_loop vs s r s' : kept3 vs s r s' -> forall acc, precondition_loop M S vs acc s = ((acc ++ r)%list, s').
  Proof.
    induction 1 as [s|t u d l s a s1 b s2 c s3 r s4 H1 H2 H3 _ IH|t u d l s e s1 r s4 H1 _ IH
                   |t u d l s a s1 e s2 r s4 H1 H2 _ IH|t u d l s a s1 b s2 e s3 r s4 H1 H2 H3 _ IH];
      intros acc; cbn [precondition_loop].
    - rewrite app_nil_r. reflexivity.
    - rewrite H1, H2, H3, IH, <- app_assoc. reflexivity.
    - rewrite H1. apply IH.
    - rewrite H1, H2. apply IH.
    - rewrite H1, H2, H3. apply IH.
  Qed.
  Lemma kept2_loop vs s r s' : kept2 vs s r s' -> forall acc, bad_request_loop M S vs acc s = ((acc ++ r)%list, s').
  Proof.
    induction 1 as [s|t d l s a s1 c s3 r s4 H1 H2 _ IH|t d l s e s1 r s4 H1 _ IH|t d l s a s1 e s3 r s4 H1 H2 _ IH];
      intros acc; cbn [bad_request_loop].
    - rewrite app_nil_r. reflexivity.
    - rewrite H1, H2, IH, <- app_assoc. reflexivity.
    - rewrite H1. apply IH.
    - rewrite H1, H2. apply IH.
  Qed.

  (** The functions implement the parts. *)
  Definition implements {A} (f : S -> option A * S) (R : S -> option A -> S -> Prop) : Prop :=
    forall s o s', f s = (o, s') <-> R s o s'.

  Lemma implements_message ev : implements (custom_message M S ev) (message_part ev).
  Proof.
    intros s o s'. unfold custom_message, message_part. destruct (ev s) as [[m|e] s1]; split.
    - intros [= <- <-]. eauto.
    - intros (r & [= <- <-] & ->). reflexivity.
    - intros [= <- <-]. eauto.
    - intros (r & [= <- <-] & ->). reflexivity.
  Qed.
  Lemma implements_by ev : implements (by_detail M S ev) (by_part ev).
  Proof.
    intros s o s'. unfold by_detail, by_part. destruct (ev s) as [[m|e] s1]; split.
    - intros [= <- <-]. eauto.
    - intros (r & [= <- <-] & ->). reflexivity.
    - intros [= <- <-]. eauto.
    - intros (r & [= <- <-] & ->). reflexivity.
  Qed.
  Lemma implements_localized p : implements (localized_message M mkl S (fst p) (snd p)) (localized_part mkl p).
  Proof.
    intros s o s'. unfold localized_message, localized_part. destruct (snd p s) as [[m|e] s1]; split.
    - intros [= <- <-]. eauto.
    - intros (r & [= <- <-] & ->). reflexivity.
    - intros [= <- <-]. eauto.
    - intros (r & [= <- <-] & ->). reflexivity.
  Qed.
  Lemma implements_precondition vs : implements (precondition_failure M mkp S vs) (precondition_part mkp vs).
  Proof.
    intros s o s'. split; [apply precondition_failure_spec|].
    intros (r & K & ->). unfold precondition_failure. rewrite (kept3_loop _ _ _ _ K []). destruct r; reflexivity.
  Qed.
  Lemma implements_bad_request vs : implements (bad_request M mkb S vs) (bad_request_part mkb vs).
  Proof.
    intros s o s'. split; [apply bad_request_spec|].
    intros (r & K & ->). unfold bad_request. rewrite (kept2_loop _ _ _ _ K []). destruct r; reflexivity.
  Qed.

  Definition part_funs (d : detail) : list (S -> option M * S) :=
    map (custom_message M S) (match d_messages _ _ d with Some (_, l) => l | None => [] end)
    ++ map (by_detail M S) (d_by _ _ d)
    ++ map (precondition_failure M mkp S) (d_preconditions _ _ d)
    ++ map (bad_request M mkb S) (d_bad_requests _ _ d)
    ++ map (fun p => localized_message M mkl S (fst p) (snd p)) (d_localized _ _ d).

  Lemma Forall2_maps {A B C} (R : B -> C -> Prop) (f : A -> B) (g : A -> C) l :
    (forall x, R (f x) (g x)) -> Forall2 R (map f l) (map g l).
  Proof. intros H. induction l; simpl; constructor; auto. Qed.

  Lemma parts_implemented d : Forall2 implements (part_funs d) (parts mkp mkb mkl d).
  Proof.
    unfold part_funs, parts. repeat apply Forall2_app; apply Forall2_maps.
    - apply implements_message.
    - apply implements_by.
    - apply implements_precondition.
    - apply implements_bad_request.
    - apply implements_localized.
  Qed.

  Lemma collect_gathers l Rs : Forall2 implements l Rs -> forall s ms s',
    collect M S l s = (ms, s') <-> gathers Rs s ms s'.
  Proof.
    induction 1 as [|f R l Rs Hf _ IH]; intros s ms s'; cbn [collect].
    - split; [intros [= <- <-]; constructor|inversion 1; reflexivity].
    - destruct (f s) as [o s1] eqn:Ef. destruct (collect M S l s1) as [ms1 s2] eqn:Ec. split.
      + apply Hf in Ef. apply IH in Ec. destruct o as [m|]; intros [= <- <-].
        * eapply gathers_some; eassumption.
        * eapply gathers_none; eassumption.
      + intros H. inversion H as [|f0 l0 s0 a s3 as_ s4 H1 H2|f0 l0 s0 s3 as_ s4 H1 H2]; subst; clear H;
          apply Hf in H1; rewrite Ef in H1; injection H1 as -> ->; apply IH in H2; congruence.
  Qed.

  (** ** Finding the status of an error *)
  Lemma from_error_status s : from_error (EStatus _ s) = (s, true).
  Proof. reflexivity. Qed.

  Lemma wraps_as_status e s : wraps e (EStatus _ s) ->
    exists s', as_status M code_string e = Some s' /\ st_code _ s' = st_code _ s /\ st_details _ s' = st_details _ s.
  Proof.
    intros H. remember (EStatus M s) as i eqn:Hi. induction H as [e|t e inner _ IH|l e inner _ IH]; subst.
    - exists s. auto.
    - destruct (IH eq_refl) as (s' & E1 & H). exists s'. cbn [as_status]. auto.
    - destruct (IH eq_refl) as (s' & E1 & E2 & E3). cbn [as_status]. rewrite E1. eexists. split; [reflexivity|].
      unfold close. destruct (direct M e); auto.
  Qed.

  Lemma wraps_from_error e s : wraps e (EStatus _ s) ->
    snd (from_error e) = true /\ st_code _ (fst (from_error e)) = st_code _ s /\
    st_details _ (fst (from_error e)) = st_details _ s.
  Proof.
    intros H. destruct (wraps_as_status e s H) as (s' & E1 & E2 & E3). unfold Model.from_error. rewrite E1. unfold close.
    destruct (direct M e); auto.
  Qed.

  Lemma as_status_has : forall e, (match as_status M code_string e with Some _ => true | None => false end) = has_status e.
  Proof.
    fix IH 1. intros [s|t|t e|e l|es]; cbn [as_status has_status]; try reflexivity.
    - apply IH.
    - induction es as [|e es IHes]; [reflexivity|]. cbn [existsb]. rewrite <- (IH e).
      destruct (as_status M code_string e); [reflexivity|exact IHes].
  Qed.

  Lemma from_error_has e : snd (from_error e) = has_status e.
  Proof. unfold Model.from_error. rewrite <- as_status_has. destruct (as_status M code_string e); reflexivity. Qed.

  (** ** Details *)
  Lemma run_defs_none (d : option defs) s s' : run_defs M S d s = (None, s') -> defs_ok d s s'.
  Proof. destruct d as [f|]; simpl; [auto|]. intros [= <-]. reflexivity. Qed.
  Lemma run_defs_some (d : option defs) s e s' : run_defs M S d s = (Some e, s') -> defs_fail d s e s'.
  Proof. destruct d as [f|]; simpl; [auto|discriminate]. Qed.
  Lemma defs_ok_run (d : option defs) s s' : defs_ok d s s' -> run_defs M S d s = (None, s').
  Proof. destruct d as [f|]; simpl; [auto|]. intros ->. reflexivity. Qed.
  Lemma defs_fail_run (d : option defs) s e s' : defs_fail d s e s' -> run_defs M S d s = (Some e, s').
  Proof. destruct d as [f|]; simpl; [auto|tauto]. Qed.

  Lemma eval_detail_cases d s :
    match eval_detail d s with
    | (Ok ms, s') => details_give [d] s ms s'
    | (Err e, s') => details_fail [d] s e s'
    end.
  Proof.
    unfold Model.eval_detail. destruct (run_defs M S (d_defs _ _ d) s) as [[e|] s1] eqn:E1.
    - apply run_defs_some in E1. eapply details_fail_now. left. exact E1.
    - apply run_defs_none in E1. unfold if_. destruct (d_if _ _ d s1) as [[[]|e] s2] eqn:E2.
      + fold (message_defs d).
        destruct (run_defs M S (message_defs d) s2) as [[e|] s3] eqn:E3.
        * apply run_defs_some in E3. apply details_fail_now. right. exists s1. split; [exact E1|].
          right. exists s2. auto.
        * apply run_defs_none in E3. fold (part_funs d).
          destruct (collect M S _ s3) as [ms s4] eqn:E4. apply (collect_gathers _ _ (parts_implemented d)) in E4.
          rewrite <- (app_nil_r ms). eapply details_add; try eassumption. constructor.
      + eapply details_skip; try eassumption. constructor.
      + apply details_fail_now. right. exists s1. auto.
  Qed.

  Lemma details_give_one_cons d ds s ms1 s1 ms2 s2 :
    details_give [d] s ms1 s1 -> details_give ds s1 ms2 s2 -> details_give (d :: ds) s (ms1 ++ ms2)%list s2.
  Proof.
    intros H1 H2. inversion H1; subst.
    - match goal with H : details_give [] _ _ _ |- _ => inversion H; subst end.
      eapply details_skip; eassumption.
    - match goal with H : details_give [] _ _ _ |- _ => inversion H; subst end.
      rewrite app_nil_r. eapply details_add; eassumption.
  Qed.

  Lemma eval_details_cases ds : forall acc s,
    match eval_details ds acc s with
    | (Ok ms, s') => exists ms', details_give ds s ms' s' /\ ms = (acc ++ ms')%list
    | (Err e, s') => details_fail ds s e s'
    end.
  Proof.
    induction ds as [|d ds IH]; intros acc s; cbn [Model.eval_details].
    - exists []. split; [constructor|rewrite app_nil_r; reflexivity].
    - pose proof (eval_detail_cases d s) as H. destruct (eval_detail d s) as [[ms|e] s1].
      + specialize (IH (acc ++ ms)%list s1). destruct (eval_details ds (acc ++ ms) s1) as [[ms2|e] s2].
        * destruct IH as (ms' & G & ->). exists (ms ++ ms')%list. split; [|rewrite app_assoc; reflexivity].
          eapply details_give_one_cons; eassumption.
        * eapply details_fail_later; eassumption.
      + inversion H; subst; [eapply details_fail_now; eassumption|].
        match goal with H : details_fail [] _ _ _ |- _ => inversion H end.
  Qed.

  Lemma details_give_eval ds s ms s' : details_give ds s ms s' ->
    forall acc, eval_details ds acc s = (Ok (acc ++ ms)%list, s').
  Proof.
    induction 1 as [s|d ds s s1 s2 ms s3 H1 H2 _ IH|d ds s s1 s2 s3 ms s4 ms' s5 H1 H2 H3 H4 _ IH];
      intros acc; cbn [Model.eval_details].
    - rewrite app_nil_r. reflexivity.
    - unfold Model.eval_detail. rewrite (defs_ok_run _ _ _ H1). unfold if_. rewrite H2, app_nil_r. apply IH.
    - unfold Model.eval_detail. rewrite (defs_ok_run _ _ _ H1). unfold if_. rewrite H2.
      fold (message_defs d). rewrite (defs_ok_run _ _ _ H3). fold (part_funs d).
      apply (collect_gathers _ _ (parts_implemented d)) in H4. rewrite H4, app_assoc. apply IH.
  Qed.

  Lemma details_fail_eval ds s e s' : details_fail ds s e s' ->
    forall acc, eval_details ds acc s = (Err e, s').
  Proof.
    induction 1 as [d ds s e s' H|d ds s ms s1 e s' H _ IH]; intros acc; cbn [Model.eval_details].
    - unfold Model.eval_detail. destruct H as [H|(s1 & H1 & H)].
      + rewrite (defs_fail_run _ _ _ _ H). reflexivity.
      + rewrite (defs_ok_run _ _ _ H1). unfold if_. destruct H as [H|(s2 & H2 & H)].
        * rewrite H. reflexivity.
        * rewrite H2. fold (message_defs d). rewrite (defs_fail_run _ _ _ _ H). reflexivity.
    - pose proof (details_give_eval _ _ _ _ H []) as He. cbn [Model.eval_details] in He.
      destruct (eval_detail d s) as [[ms0|e0] s0] eqn:E; [|discriminate].
      injection He as -> ->. apply IH.
  Qed.

  (** ** Rules *)
  Lemma passes_run df r rs s s' : passes r s s' -> run_rules df (r :: rs) s = run_rules df rs s'.
  Proof.
    intros (s1 & H1 & H2). cbn [Model.run_rules]. rewrite (defs_ok_run _ _ _ H1). unfold if_. rewrite H2. reflexivity.
  Qed.

  Lemma all_pass_run df pre rs s s' : all_pass pre s s' -> run_rules df (pre ++ rs) s = run_rules df rs s'.
  Proof.
    induction 1 as [|r l s s1 s2 Hp _ IH]; [reflexivity|]. cbn [app]. rewrite (passes_run _ _ _ _ _ Hp). exact IH.
  Qed.

  Lemma matches_run df r rs s s' : matches r s s' ->
    run_rules df (r :: rs) s = match run_action M marshals mkp mkb mkl S V df (r_action _ _ _ r) s' with
                               | (Err e, s2) => (Err e, s2)
                               | (Ok (st, ret), s2) => (Ok (Some (st, r_level _ _ _ r, ret)), s2)
                               end.
  Proof.
    intros (s1 & H1 & H2). cbn [Model.run_rules]. rewrite (defs_ok_run _ _ _ H1). unfold if_. rewrite H2.
    destruct (run_action M marshals mkp mkb mkl S V df (r_action _ _ _ r) s') as [[[st ret]|e] s2]; reflexivity.
  Qed.

  Lemma undecided_run df r rs s s' : undecided r s s' -> exists e, run_rules df (r :: rs) s = (Err e, s').
  Proof.
    intros (e & [H|(s1 & H1 & H2)]); exists e; cbn [Model.run_rules].
    - rewrite (defs_fail_run _ _ _ _ H). reflexivity.
    - rewrite (defs_ok_run _ _ _ H1). unfold if_. rewrite H2. reflexivity.
  Qed.

  (** Exactly one thing can happen: no rule matches, or a first rule matches or cannot be decided. *)
  Lemma rules_trichotomy (rules : list rule) s :
    (exists s', all_pass rules s s') \/
    (exists r s1 s2, reached rules s r s1 /\ (matches r s1 s2 \/ undecided r s1 s2)).
  Proof.
    revert s. induction rules as [|r rs IH]; intros s.
    - left. exists s. constructor.
    - destruct (run_defs M S (r_defs _ _ _ r) s) as [[e|] s1] eqn:E1.
      + right. exists r, s, s1. split; [exists [], rs; split; [reflexivity|constructor]|].
        right. exists e. left. apply run_defs_some, E1.
      + apply run_defs_none in E1. destruct (r_if _ _ _ r s1) as [[[]|e] s2] eqn:E2.
        * right. exists r, s, s2. split; [exists [], rs; split; [reflexivity|constructor]|].
          left. exists s1. auto.
        * assert (Hp : passes r s s2) by (exists s1; auto).
          destruct (IH s2) as [(s' & H)|(r' & s3 & s4 & (pre & post & -> & H) & Hm)].
          -- left. exists s'. eapply all_pass_cons; eassumption.
          -- right. exists r', s3, s4. split; [|exact Hm].
             exists (r :: pre), post. split; [reflexivity|]. eapply all_pass_cons; eassumption.
        * right. exists r, s, s2. split; [exists [], rs; split; [reflexivity|constructor]|].
          right. exists e. right. exists s1. auto.
  Qed.

  Lemma handle_no_match rules ret e s s' :
    all_pass rules (set_grpc_error e s) s' ->
    exists s'', handle rules ret e s = ((None, Some (ELogged _ e 8)), s'') /\ (rules <> [] -> s'' = s').
  Proof.
    intros H. unfold handle_call_error. destruct rules as [|r rs]; [eexists; split; [reflexivity|congruence]|].
    pose proof (all_pass_run (defaults_of e) (r :: rs) [] _ _ H) as Hr. rewrite app_nil_r in Hr. rewrite Hr.
    cbn [Model.run_rules]. eexists. split; reflexivity.
  Qed.

  Lemma reached_ne (rules : list rule) s r s' : reached rules s r s' -> rules <> [].
  Proof. intros (pre & post & -> & _). destruct pre; discriminate. Qed.

  Lemma reached_run df rules s r s' : reached rules s r s' ->
    exists post, run_rules df rules s = run_rules df (r :: post) s'.
  Proof. intros (pre & post & -> & H). exists post. apply all_pass_run, H. Qed.

  Lemma handle_reached rules ret e s r s1 :
    reached rules (set_grpc_error e s) r s1 ->
    exists post, handle rules ret e s =
      match run_rules (defaults_of e) (r :: post) s1 with
      | (Err _, s1) => ((None, Some (ELogged _ e 8)), s1)
      | (Ok None, s1) => ((None, Some (ELogged _ e 8)), s1)
      | (Ok (Some (st, level, r)), s1) =>
          match logged _ (status_err _ st) level with
          | Some e' => ((None, Some e'), s1)
          | None => ((match r with Some v => v | None => ret end, None), s1)
          end
      end.
  Proof.
    intros H. destruct (reached_run (defaults_of e) _ _ _ _ H) as (post & Hr). exists post.
    pose proof (reached_ne _ _ _ _ H) as Hne. unfold handle_call_error.
    destruct rules as [|r0 rs]; [congruence|]. rewrite Hr. reflexivity.
  Qed.

  Lemma handle_undecided rules ret e s r s1 s2 :
    reached rules (set_grpc_error e s) r s1 -> undecided r s1 s2 ->
    handle rules ret e s = ((None, Some (ELogged _ e 8)), s2).
  Proof.
    intros H Hu. destruct (handle_reached _ ret _ _ _ _ H) as (post & ->).
    destruct (undecided_run (defaults_of e) _ post _ _ Hu) as (e' & ->). reflexivity.
  Qed.

  Lemma handle_ignore rules ret e s r s1 s2 :
    reached rules (set_grpc_error e s) r s1 -> matches r s1 s2 -> r_action _ _ _ r = Ignore _ _ _ ->
    handle rules ret e s = ((ret, None), s2).
  Proof.
    intros H Hm Ha. destruct (handle_reached _ ret _ _ _ _ H) as (post & ->).
    rewrite (matches_run (defaults_of e) _ post _ _ Hm), Ha. reflexivity.
  Qed.

  Lemma handle_response rules ret e s r s1 s2 ev res s3 :
    reached rules (set_grpc_error e s) r s1 -> matches r s1 s2 -> r_action _ _ _ r = IgnoreAndResponse _ _ _ ev ->
    ev s2 = (res, s3) ->
    handle rules ret e s = ((match res with Ok v => Some v | Err _ => None end, None), s3).
  Proof.
    intros H Hm Ha He. destruct (handle_reached _ ret _ _ _ _ H) as (post & ->).
    rewrite (matches_run (defaults_of e) _ post _ _ Hm), Ha. unfold run_action. rewrite He.
    destruct res; reflexivity.
  Qed.

  Notation orig_message := (orig_message code_string).
  Notation orig_code := (orig_code code_string).
  Notation orig_details := (orig_details code_string).

  Lemma defaults_spec e :
    (if String.eqb (df_msg _ (defaults_of e)) "" then "error"%string else df_msg _ (defaults_of e)) = orig_message e /\
    df_code _ (defaults_of e) = orig_code e /\ df_details _ (defaults_of e) = orig_details e.
  Proof.
    unfold Model.defaults_of, Spec.orig_message, Spec.orig_code, Spec.orig_details. destruct (from_error e) as [st []]; simpl; auto.
  Qed.

  Lemma with_details_spec c m ds : c <> 0 ->
    match with_details M marshals (new_status M c m) ds with Some st' => st' | None => new_status M c m end
    = status_with marshals c m ds.
  Proof.
    intros Hc. unfold with_details, status_with, new_status. simpl.
    destruct (Z.eqb_spec c 0); [contradiction|]. destruct (forallb marshals ds); reflexivity.
  Qed.
  Lemma with_details_zero m ds :
    match with_details M marshals (new_status M 0 m) ds with Some st' => st' | None => new_status M 0 m end
    = new_status M 0 m.
  Proof. reflexivity. Qed.

  Lemma reply_ok e message details code s m s1 ds s2 :
    message_is message (orig_message e) s m s1 -> details_give details s1 ds s2 ->
    exists st, reply (defaults_of e) message details code s = (Ok st, s2) /\
      let c := match code with Some c => c | None => orig_code e end in
      st_code _ st = c /\ st_msg _ st = m /\
      (c <> 0 -> st = status_with marshals c m (match details with [] => orig_details e | _ => ds end)).
  Proof.
    intros Hm Hd. destruct (defaults_spec e) as (D1 & D2 & D3). unfold Model.reply.
    assert (Hrm : match message with
                  | Some ev => ev s
                  | None => (Ok (if String.eqb (df_msg _ (defaults_of e)) "" then "error"%string
                                 else df_msg _ (defaults_of e)), s)
                  end = (Ok m, s1)).
    { unfold message_is in Hm. destruct message; [exact Hm|]. destruct Hm as [-> ->]. rewrite D1. reflexivity. }
    rewrite Hrm, (details_give_eval _ _ _ _ Hd []). cbn [app]. rewrite D2, D3. eexists. split; [reflexivity|].
    set (c := match code with Some c => c | None => orig_code e end).
    set (at_ := match details with [] => orig_details e | _ => ds end).
    cbv zeta. destruct (Z.eq_dec c 0) as [E|E].
    - rewrite E, with_details_zero. repeat split. congruence.
    - rewrite with_details_spec by exact E. repeat split.
  Qed.

  Lemma reply_fail e message details code s :
    (exists e' s', message_fails message s e' s') \/
    (exists m s1 e' s', message_is message (orig_message e) s m s1 /\ details_fail details s1 e' s') ->
    exists e' s', reply (defaults_of e) message details code s = (Err e', s').
  Proof.
    destruct (defaults_spec e) as (D1 & _). unfold Model.reply. intros [(e' & s' & H)|(m & s1 & e' & s' & Hm & Hd)].
    - unfold message_fails in H. destruct message; [|tauto]. rewrite H. eauto.
    - unfold message_is in Hm. destruct message.
      + rewrite Hm, (details_fail_eval _ _ _ _ Hd []). eauto.
      + destruct Hm as [-> ->]. rewrite (details_fail_eval _ _ _ _ Hd []). eauto.
  Qed.

  Lemma reply_cases e message details code s :
    match reply (defaults_of e) message details code s with
    | (Ok st, s2) => exists m s1 ds, message_is message (orig_message e) s m s1 /\ details_give details s1 ds s2
    | (Err e', s2) => message_fails message s e' s2 \/
        (exists m s1, message_is message (orig_message e) s m s1 /\ details_fail details s1 e' s2)
    end.
  Proof.
    destruct (defaults_spec e) as (D1 & _). unfold Model.reply.
    destruct message as [ev|]; cbn [message_is message_fails].
    - destruct (ev s) as [[m|e'] s1]; [|left; eauto].
      pose proof (eval_details_cases details [] s1) as H.
      destruct (eval_details details [] s1) as [[ds|e'] s2].
      + destruct H as (ms & H & ->). exists m, s1, ms. auto.
      + right. exists m, s1. auto.
    - pose proof (eval_details_cases details [] s) as H.
      destruct (eval_details details [] s) as [[ds|e'] s2].
      + destruct H as (ms & H & ->). exists (orig_message e), s, ms. auto.
      + right. exists (orig_message e), s. auto.
  Qed.

  Lemma handle_reply rules ret e s r s1 s2 message details code m s3 ds s4 :
    reached rules (set_grpc_error e s) r s1 -> matches r s1 s2 ->
    r_action _ _ _ r = Reply _ _ _ message details code ->
    message_is message (orig_message e) s2 m s3 -> details_give details s3 ds s4 ->
    let c := match code with Some c => c | None => orig_code e end in
    c <> 0 ->
    handle rules ret e s =
      ((None, Some (ELogged _ (EStatus _ (status_with marshals c m (match details with [] => orig_details e | _ => ds end)))
                     (r_level _ _ _ r))), s4).
  Proof.
    intros H Hm Ha Hmsg Hd c Hc. destruct (handle_reached _ ret _ _ _ _ H) as (post & ->).
    rewrite (matches_run (defaults_of e) _ post _ _ Hm), Ha. unfold run_action.
    destruct (reply_ok e message details code s2 m s3 ds s4 Hmsg Hd) as (st & -> & H1 & _ & H2).
    fold c in H1, H2. specialize (H2 Hc). subst st. unfold status_err. rewrite H1.
    destruct (Z.eqb_spec c 0); [contradiction|]. reflexivity.
  Qed.

  Lemma handle_reply_fails rules ret e s r s1 s2 message details code :
    reached rules (set_grpc_error e s) r s1 -> matches r s1 s2 ->
    r_action _ _ _ r = Reply _ _ _ message details code ->
    (exists e' s', message_fails message s2 e' s') \/
    (exists m s3 e' s', message_is message (orig_message e) s2 m s3 /\ details_fail details s3 e' s') ->
    exists s', handle rules ret e s = ((None, Some (ELogged _ e 8)), s').
  Proof.
    intros H Hm Ha Hf. destruct (handle_reached _ ret _ _ _ _ H) as (post & ->).
    rewrite (matches_run (defaults_of e) _ post _ _ Hm), Ha. unfold run_action.
    destruct (reply_fail e message details code s2 Hf) as (e' & s' & ->). eauto.
  Qed.

  (** Success after a failed call. *)
  Lemma handle_success rules ret e s ret' s' :
    handle rules ret e s = ((ret', None), s') ->
    exists r s1 s2, reached rules (set_grpc_error e s) r s1 /\ matches r s1 s2 /\
      match r_action _ _ _ r with
      | Ignore _ _ _ => True
      | IgnoreAndResponse _ _ _ _ => True
      | Reply _ _ _ _ _ code => match code with Some c => c | None => orig_code e end = 0
      end.
  Proof.
    intros H. destruct (rules_trichotomy rules (set_grpc_error e s)) as [(s1 & Hp)|(r & s1 & s2 & Hr & [Hm|Hu])].
    - destruct (handle_no_match _ ret _ _ _ Hp) as (s'' & Hh & _). congruence.
    - exists r, s1, s2. split; [exact Hr|split; [exact Hm|]].
      destruct (r_action _ _ _ r) as [|ev|message details code] eqn:Ea; [exact I|exact I|].
      destruct (handle_reached _ ret _ _ _ _ Hr) as (post & Hh). rewrite Hh in H.
      rewrite (matches_run (defaults_of e) _ post _ _ Hm), Ea in H. unfold run_action in H.
      pose proof (reply_cases e message details code s2) as Hc.
      destruct (reply (defaults_of e) message details code s2) as [[st|e'] s3] eqn:Er; [|discriminate].
      destruct Hc as (m & s4 & ds & Hmsg & Hd).
      destruct (reply_ok e message details code s2 m s4 ds s3 Hmsg Hd) as (st' & Er' & H1 & _).
      rewrite Er in Er'. injection Er' as <-. rewrite <- H1.
      unfold status_err in H. destruct (Z.eqb_spec (st_code _ st) 0) as [E|E]; [exact E|discriminate].
    - pose proof (handle_undecided _ ret _ _ _ _ _ Hr Hu). congruence.
  Qed.

  (** ** Validation *)
  Notation vrule := (vrule M S).
  Notation validation := (validation M marshals mkp mkb mkl S).
  Notation validation_def := (validation_def M marshals code_string mkp mkb mkl S).

  Notation v_error := (@Spec.v_error M S mkp mkb mkl).
  Notation v_status := (@Spec.v_status M S mkp mkb mkl).

  Lemma validation_passes v s s' : v_passes v s s' -> validation v s = (None, s').
  Proof.
    intros (s1 & H1 & H2). unfold Model.validation. rewrite (defs_ok_run _ _ _ H1). unfold if_. rewrite H2. reflexivity.
  Qed.

  Lemma validation_matches v s m ds s3 : v_status v s m ds s3 ->
    validation v s =
      (if v_code _ _ v =? 0 then None
       else Some (ELogged _ (EStatus _ (status_with marshals (v_code _ _ v) m ds)) (v_level _ _ v)), s3).
  Proof.
    intros (s1 & s2 & (s0 & H1 & H2) & Hm & Hd). unfold Model.validation. rewrite (defs_ok_run _ _ _ H1). unfold if_. rewrite H2.
    assert (Hrm : match v_message _ _ v with Some ev => ev s1 | None => (Ok "error"%string, s1) end = (Ok m, s2)).
    { unfold message_is in Hm. destruct (v_message _ _ v); [exact Hm|]. destruct Hm as [-> ->]. reflexivity. }
    rewrite Hrm, (details_give_eval _ _ _ _ Hd []). cbn [app].
    assert (Hst : match v_details _ _ v with
                  | [] => new_status M (v_code _ _ v) m
                  | _ => match with_details M marshals (new_status M (v_code _ _ v) m) ds with
                         | Some st' => st' | None => new_status M (v_code _ _ v) m end
                  end = if v_code _ _ v =? 0 then new_status M 0 m
                        else status_with marshals (v_code _ _ v) m ds).
    { destruct (Z.eqb_spec (v_code _ _ v) 0) as [E|E].
      - rewrite E. destruct (v_details _ _ v); [reflexivity|]. apply with_details_zero.
      - destruct (v_details _ _ v) eqn:Ed; [|apply with_details_spec, E].
        inversion Hd. subst. reflexivity. }
    rewrite Hst. unfold status_err. destruct (Z.eqb_spec (v_code _ _ v) 0) as [E|E]; simpl; [reflexivity|].
    destruct (Z.eqb_spec (v_code _ _ v) 0); [contradiction|reflexivity].
  Qed.

  Lemma validation_error v s e s' : v_error v s e s' -> validation v s = (Some e, s').
  Proof.
    unfold Model.validation. intros [H|[(s1 & H1 & H2)|(s1 & (s0 & H1 & H2) & [He|(m & s2 & Hm & Hd)])]].
    - rewrite (defs_fail_run _ _ _ _ H). reflexivity.
    - rewrite (defs_ok_run _ _ _ H1). unfold if_. rewrite H2. reflexivity.
    - rewrite (defs_ok_run _ _ _ H1). unfold if_. rewrite H2. unfold message_fails in He.
      destruct (v_message _ _ v); [|tauto]. rewrite He. reflexivity.
    - pose proof (details_fail_eval _ _ _ _ Hd []) as He. rewrite (defs_ok_run _ _ _ H1). unfold if_. rewrite H2.
      unfold message_is in Hm. destruct (v_message _ _ v).
      + rewrite Hm, He. reflexivity.
      + destruct Hm as [-> ->]. rewrite He. reflexivity.
  Qed.

  Lemma validation_cases v s :
    (exists s', v_passes v s s') \/
    (exists m ds s', v_status v s m ds s') \/
    (exists e s', v_error v s e s').
  Proof.
    destruct (run_defs M S (v_defs _ _ v) s) as [[e|] s1] eqn:E1.
    { right; right. exists e, s1. left. apply run_defs_some, E1. }
    apply run_defs_none in E1. destruct (v_if _ _ v s1) as [[[]|e] s2] eqn:E2.
    - assert (Hm : v_matches v s s2) by (exists s1; auto).
      assert (Hcase : (exists m s3, message_is (v_message _ _ v) "error" s2 m s3) \/
                      (exists e s3, message_fails (v_message _ _ v) s2 e s3)).
      { unfold message_is, message_fails. destruct (v_message _ _ v) as [ev|].
        - destruct (ev s2) as [[m|e] s3] eqn:E; [left; eauto|right; eauto].
        - left; eauto. }
      destruct Hcase as [(m & s3 & Hms)|(e & s3 & He)].
      + pose proof (eval_details_cases (v_details _ _ v) [] s3) as Hd.
        destruct (eval_details (v_details _ _ v) [] s3) as [[ds|e] s4] eqn:Ed.
        * destruct Hd as (ms & Hd & _). right; left. exists m, ms, s4. exists s2, s3. auto.
        * right; right. exists e, s4. right; right. exists s2. split; [exact Hm|]. right. exists m, s3. auto.
      + right; right. exists e, s3. right; right. exists s2. split; [exact Hm|]. left. exact He.
    - left. exists s2. exists s1. auto.
    - right; right. exists e, s2. right; left. exists s1. auto.
  Qed.

End P.
