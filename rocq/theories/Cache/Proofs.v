From Coq Require Import String List Arith Bool Lia.
From Verif.Cache Require Import Model Spec.
Import ListNotations.

(** * Emission *)
Definition good (e : emission) (l : list text) : Prop := forall n, e n = (combine l (seq (S n) (length l)), n + length l).
Lemma combine_app {A B} : forall (l1 l2 : list A) (k1 k2 : list B), length l1 = length k1 -> combine (l1 ++ l2) (k1 ++ k2) = combine l1 k1 ++ combine l2 k2.
Proof. induction l1; destruct k1; cbn; intros; try discriminate; [reflexivity|]. rewrite IHl1; auto. Qed.
Lemma good_nothing : good nothing [].
Proof. intros n. cbn. rewrite Nat.add_0_r. reflexivity. Qed.
Lemma good_site e : good (site e) [e].
Proof. intros n. cbn. rewrite Nat.add_1_r. reflexivity. Qed.
Lemma good_seq a b l k : good a l -> good b k -> good (seqE a b) (l ++ k).
Proof.
  intros A B n. unfold seqE. rewrite A, B, app_length, seq_app, combine_app by (rewrite seq_length; reflexivity).
  rewrite Nat.add_assoc. reflexivity.
Qed.
Lemma good_opt o : good (optE o) (opt o).
Proof. destruct o; [apply good_site|apply good_nothing]. Qed.
Lemma good_all {A} (f : A -> emission) (g : A -> list text) l : Forall (fun x => good (f x) (g x)) l -> good (allE (map f l)) (flat_map g l).
Proof. induction 1; cbn; [apply good_nothing|]. apply good_seq; assumption. Qed.
Lemma good_all' {A} (f : A -> emission) (g : A -> list text) l : (forall x, good (f x) (g x)) -> good (allE (map f l)) (flat_map g l).
Proof. intros H. apply good_all. apply Forall_forall. auto. Qed.
Lemma good_arg a : good (setCELArgument a) (arg_exprs a).
Proof.
  unfold setCELArgument, arg_exprs. destruct (a_cel a) as [e|]; [|apply good_nothing]. destruct (a_if a); cbn.
  - apply (good_seq _ _ [t] [e]); apply good_site.
  - apply good_site.
Qed.
Lemma good_v3 v : good (violation3 v) [fst (fst v); snd (fst v); snd v].
Proof. intros n. destruct v as [[t s] d]. replace (n + length _) with (S (S (S n))) by (cbn; lia). reflexivity. Qed.
Lemma good_v2 v : good (violation2 v) [fst v; snd v].
Proof. intros n. destruct v as [t d]. replace (n + length _) with (S (S n)) by (cbn; lia). reflexivity. Qed.
Lemma flat_map_concat_nested {A} (g : A -> list text) l : flat_map g (concat l) = flat_map (flat_map g) l.
Proof. induction l as [|x l IH]; cbn; [reflexivity|]. rewrite flat_map_app, IH. reflexivity. Qed.
Lemma flat_map_single {A B} (g : A -> B) l : flat_map (fun x => [g x]) l = map g l.
Proof. induction l; cbn; congruence. Qed.

Section Ind.
  Variables (P : def -> Prop) (Q : expr -> Prop) (R : gerror -> Prop) (O : outcome -> Prop) (T : detail -> Prop).
  Hypothesis HD : forall n c e, Q e -> P (Def n c e).
  Hypothesis HB : forall c, Q (By c).
  Hypothesis HE : forall c, Q (Enum c).
  Hypothesis HMB : forall c, Q (MapBy c).
  Hypothesis HME : forall c, Q (MapEnum c).
  Hypothesis HMM : forall a, Q (MapMessage a).
  Hypothesis HM : forall a, Q (Message a).
  Hypothesis HC : forall a r es, Forall R es -> Q (Call a r es).
  Hypothesis HV : forall e, R e -> Q (Validation e).
  Hypothesis HG : forall c ds b, Forall P ds -> O b -> R (GError c ds b).
  Hypothesis HI : O Ignore.
  Hypothesis HR : forall e, O (IgnoreAndResponse e).
  Hypothesis HS : forall m ts, Forall T ts -> O (Status m ts).
  Hypothesis HT : forall ds c ms b p q l, Forall P ds -> Forall P ms -> T (Detail ds c ms b p q l).
  Fixpoint def_all (d : def) : P d := match d with Def n c e => HD n c e (expr_all e) end
  with expr_all (e : expr) : Q e :=
    match e with
    | By c => HB c | Enum c => HE c | MapBy c => HMB c | MapEnum c => HME c | MapMessage a => HMM a | Message a => HM a
    | Call a r es => HC a r es ((fix f l : Forall R l := match l with [] => Forall_nil R | x :: l' => Forall_cons x (gerror_all x) (f l') end) es)
    | Validation e => HV e (gerror_all e)
    end
  with gerror_all (e : gerror) : R e :=
    match e with
    | GError c ds b => HG c ds b ((fix f l : Forall P l := match l with [] => Forall_nil P | x :: l' => Forall_cons x (def_all x) (f l') end) ds) (outcome_all b)
    end
  with outcome_all (o : outcome) : O o :=
    match o with
    | Ignore => HI
    | IgnoreAndResponse e => HR e
    | Status m ts => HS m ts ((fix f l : Forall T l := match l with [] => Forall_nil T | x :: l' => Forall_cons x (detail_all x) (f l') end) ts)
    end
  with detail_all (t : detail) : T t :=
    match t with
    | Detail ds c ms b p q l =>
        HT ds c ms b p q l
          ((fix f l : Forall P l := match l with [] => Forall_nil P | x :: l' => Forall_cons x (def_all x) (f l') end) ds)
          ((fix f l : Forall P l := match l with [] => Forall_nil P | x :: l' => Forall_cons x (def_all x) (f l') end) ms)
    end.
End Ind.

Theorem good_def : forall d, good (declDef d) (def_exprs d).
Proof.
  apply (def_all (fun d => good (declDef d) (def_exprs d)) (fun e => good (declExpr e) (expr_exprs e)) (fun e => good (errorHandler e) (error_exprs e))
           (fun o => good (declOutcome o) (outcome_exprs o)) (fun t => good (declDetail t) (detail_exprs t)));
    intros; cbn [declDef declExpr errorHandler declOutcome declDetail def_exprs expr_exprs error_exprs outcome_exprs detail_exprs].
  - apply good_seq; [apply good_opt|assumption].
  - apply good_site.
  - apply good_site.
  - apply good_site.
  - apply good_site.
  - apply good_all', good_arg.
  - apply good_all', good_arg.
  - apply good_seq; [apply good_all', good_arg|]. apply good_seq; [apply good_opt|]. apply good_all. assumption.
  - assumption.
  - apply good_seq; [apply good_all; assumption|]. apply (good_seq _ _ [c]); [apply good_site|assumption].
  - apply good_nothing.
  - apply good_site.
  - apply good_seq; [apply good_opt|apply good_all; assumption].
  - apply good_seq; [apply good_all; assumption|]. apply (good_seq _ _ [c]); [apply good_site|].
    apply good_seq; [apply good_all; assumption|]. apply good_seq.
    { rewrite <- (flat_map_single name_of ms). apply good_all'. intros d. apply good_site. }
    apply good_seq.
    { rewrite <- (map_id b) at 2. rewrite <- (flat_map_single (fun x => x) b). apply good_all'. intros d. apply good_site. }
    apply good_seq.
    { rewrite flat_map_concat_nested. apply good_all'. intros f. apply good_all', good_v3. }
    apply good_seq.
    { rewrite flat_map_concat_nested. apply good_all'. intros f. apply good_all', good_v2. }
    rewrite <- (map_id l) at 2. rewrite <- (flat_map_single (fun x => x) l). apply good_all'. intros d. apply good_site.
Qed.
Lemma good_case o : good (oneof_value o) (case_exprs o).
Proof. apply good_seq; [apply good_all', good_def|apply good_opt]. Qed.
Lemma good_field f : good (setField f) (field_exprs f).
Proof.
  destruct f as [e|cases d|]; cbn.
  - apply good_site.
  - apply good_seq; [apply good_all'; intros o; apply good_opt|]. apply good_seq; [apply good_all', good_case|].
    destruct d; cbn; [rewrite app_nil_r; apply good_case|apply good_nothing].
  - apply good_nothing.
Qed.
Lemma good_var v : good (declVariable v) (var_exprs v).
Proof. destruct v; cbn; [apply (good_seq _ _ [if_] [msg]); apply good_site|apply good_def]. Qed.
Theorem generate_eq s : generate s = combine (service_exprs s) (seq 1 (length (service_exprs s))).
Proof.
  unfold generate, service_exprs. rewrite (good_seq _ _ _ _ (good_all' _ _ (s_vars s) good_var) (good_all' resolveMessage
    (fun m => flat_map def_exprs (m_defs m) ++ flat_map field_exprs (m_fields m)) (s_messages s)
    (fun m => good_seq _ _ _ _ (good_all' _ _ _ good_def) (good_all' _ _ _ good_field)))). reflexivity.
Qed.
Lemma map_fst_combine {A B} : forall (l : list A) (k : list B), length l = length k -> map fst (combine l k) = l.
Proof. induction l; destruct k; cbn; intros; try discriminate; [reflexivity|]. rewrite IHl; auto. Qed.
Lemma map_snd_combine {A B} : forall (l : list A) (k : list B), length l = length k -> map snd (combine l k) = k.
Proof. induction l; destruct k; cbn; intros; try discriminate; [reflexivity|]. rewrite IHl; auto. Qed.
Theorem generate_exprs s : map fst (generate s) = service_exprs s.
Proof. rewrite generate_eq. apply map_fst_combine. rewrite seq_length. reflexivity. Qed.
Theorem generate_indices s : map snd (generate s) = seq 1 (length (service_exprs s)).
Proof. rewrite generate_eq. apply map_snd_combine. rewrite seq_length. reflexivity. Qed.
Theorem index_own s e e' i : In (e, i) (generate s) -> In (e', i) (generate s) -> e = e'.
Proof.
  assert (N : NoDup (map snd (generate s))) by (rewrite generate_indices; apply seq_NoDup).
  revert N. induction (generate s) as [|[x j] l IH]; cbn; intros N I I'; [destruct I|]. inversion N as [|y m Nj Nl]; subst y m.
  destruct I as [I|I], I' as [I'|I'].
  - congruence.
  - injection I as -> ->. destruct Nj. apply (in_map snd) in I'. exact I'.
  - injection I' as -> ->. destruct Nj. apply (in_map snd) in I. exact I.
  - auto.
Qed.
Theorem index_nonzero s e i : In (e, i) (generate s) -> i <> 0.
Proof. intros I. apply (in_map snd) in I. rewrite generate_indices in I. apply in_seq in I. cbn in I. lia. Qed.

(** * Evaluation *)
Section Run.
  Context {env program : Type}.
  Variable compile : env -> text -> option program.
  Lemma in_set_nth {A} : forall (l : list A) n (x y : A), In y (set_nth n x l) -> y = x \/ In y l.
  Proof.
    intros l n x y. unfold set_nth. intros I. apply in_app_or in I. destruct I as [I|I].
    - right. rewrite <- (firstn_skipn n l). apply in_or_app. auto.
    - destruct (skipn n l) as [|z k] eqn:E; [destruct I|]. destruct I as [<-|I]; [auto|]. right. rewrite <- (firstn_skipn n l), E.
      apply in_or_app. right. right. exact I.
  Qed.
  Definition from (l : list (action env)) (i : nat) (p : program) : Prop :=
    exists r, In r (calls_of l) /\ r_index r = i /\ compile (r_env r) (r_expr r) = Some p.
  Record inv (l : list (action env)) (st : state env program) : Prop := {
    i_known : forall r ph, In (r, ph) (calls st) -> In r (calls_of l);
    i_compiled : forall r p, In (r, Compiled p) (calls st) -> compile (r_env r) (r_expr r) = Some p;
    i_uses : forall r p, In (r, Uses p) (calls st) -> from l (r_index r) p;
    i_failed : forall r, In (r, Failed) (calls st) -> r_index r = 0 \/ compile (r_env r) (r_expr r) = None;
    i_cache : forall i p, In (i, p) (cache st) -> from l i p }.
  Lemma get_in i : forall c (p : program), get i c = Some p -> In (i, p) c.
  Proof.
    induction c as [|[j q] c IH]; cbn; intros p E; [discriminate|]. destruct (Nat.eqb_spec i j); [injection E as <-; subst; auto|auto].
  Qed.
  Lemma from_mono (l : list (action env)) a i p : from l i p -> from (l ++ [a]) i p.
  Proof.
    intros [r [I H]]. exists r. split; [|exact H]. unfold calls_of. rewrite flat_map_app. apply in_or_app. auto.
  Qed.
  Lemma calls_mono (l : list (action env)) a r : In r (calls_of l) -> In r (calls_of (l ++ [a])).
  Proof. unfold calls_of. rewrite flat_map_app, in_app_iff. auto. Qed.
  Lemma inv_step (l : list (action env)) a st : inv l st -> inv (l ++ [a]) (step compile a st).
  Proof.
    intros [K C U F G].
    assert (IW : inv (l ++ [a]) st).
    { constructor; intros; eauto using from_mono, calls_mono. }
    destruct a as [r|k]; cbn [step].
    - assert (NC : forall r' ph, In (r', ph) (calls st ++ [(r, Called)]) -> In (r', ph) (calls st) \/ (r', ph) = (r, @Called program)).
      { intros r' ph I. apply in_app_or in I. destruct I as [I|[I|[]]]; auto. }
      destruct IW as [K' C' U' F' G']. constructor; cbn [calls cache].
      + intros r' ph I. destruct (NC _ _ I) as [J|J]; [eauto|]. injection J as -> ->. unfold calls_of. rewrite flat_map_app, in_app_iff. right. cbn. auto.
      + intros r' p I. destruct (NC _ _ I) as [J|J]; [eauto|discriminate].
      + intros r' p I. destruct (NC _ _ I) as [J|J]; [eauto|discriminate].
      + intros r' I. destruct (NC _ _ I) as [J|J]; [eauto|discriminate].
      + exact G'.
    - destruct (nth_error (calls st) k) as [[r ph]|] eqn:E; [|exact IW]. apply nth_error_In in E.
      assert (GO : forall ph', (forall p, ph' = Compiled p -> compile (r_env r) (r_expr r) = Some p) ->
                   (forall p, ph' = Uses p -> from (l ++ [Move k]) (r_index r) p) ->
                   (ph' = Failed -> r_index r = 0 \/ compile (r_env r) (r_expr r) = None) ->
                   inv (l ++ [Move k]) {| calls := set_nth k (r, ph') (calls st); cache := cache st |}).
      { intros ph' H1 H2 H3. destruct IW as [K' C' U' F' G']. constructor; cbn [calls cache].
        - intros r' q I. apply in_set_nth in I. destruct I as [I|I]; [|eauto]. injection I as -> ->. eauto.
        - intros r' p I. apply in_set_nth in I. destruct I as [I|I]; [|eauto]. injection I as -> I. auto.
        - intros r' p I. apply in_set_nth in I. destruct I as [I|I]; [|eauto]. injection I as -> I. auto.
        - intros r' I. apply in_set_nth in I. destruct I as [I|I]; [|eauto]. injection I as -> I. auto.
        - exact G'. }
      destruct ph as [| |p|p|].
      + destruct (Nat.eqb_spec (r_index r) 0) as [Z|NZ].
        * apply GO; try discriminate. auto.
        * destruct (get (r_index r) (cache st)) as [p|] eqn:Eg; apply GO; try discriminate.
          intros q Eq. injection Eq as <-. apply get_in in Eg. apply (i_cache _ _ IW) in Eg. exact Eg.
      + destruct (compile (r_env r) (r_expr r)) as [p|] eqn:Ec; apply GO; try discriminate; try congruence. auto.
      + assert (FR : from (l ++ [Move k]) (r_index r) p).
        { exists r. split; [apply calls_mono; eauto|]. split; [reflexivity|]. apply C. exact E. }
        destruct (GO (Uses p)) as [K' C' U' F' G']; try discriminate; [intros q Eq; injection Eq as <-; exact FR|].
        constructor; cbn [calls cache]; eauto. intros i q [I|I]; [injection I as <- <-; exact FR|]. exact (G' i q I).
      + exact IW.
      + exact IW.
  Qed.
  Theorem inv_run (l : list (action env)) : inv l (run compile l).
  Proof.
    unfold run. induction l as [|a l IH] using rev_ind.
    - constructor; cbn; tauto.
    - rewrite fold_left_app. cbn. apply inv_step. exact IH.
  Qed.
End Run.
