(** Consequences of the invariant. *)
From Coq Require Import String List Arith Bool Lia.
From Verif.Plan Require Import Model Spec Proofs.
From Verif.Exec Require Import Model Spec Proofs.
Import ListNotations.

Notation mk p e k := {| at_path := p; of_def := e; kind := k |}.

Lemma group_at_snoc : forall p gs gr i s,
  group_at gs p = Some gr -> nth_error (starts gr) i = Some s -> group_at gs (p ++ [i]) = Some s.
Proof.
  induction p as [|x p IH]; intros gs gr i s H Hi; [discriminate|].
  simpl in H |- *. destruct (nth_error gs x) as [g|]; [|discriminate].
  destruct p as [|y p].
  - injection H as ->. simpl. rewrite Hi. reflexivity.
  - change ((y :: p) ++ [i]) with (y :: (p ++ [i])). apply (IH _ gr i s H Hi).
Qed.

(** A property of groups inherited by the groups started first holds at every place. *)
Lemma group_at_forall (P : group -> Prop) :
  (forall gr, P gr -> Forall P (starts gr)) ->
  forall p gs gr, Forall P gs -> group_at gs p = Some gr -> P gr.
Proof.
  intros HP. induction p as [|x p IH]; intros gs gr Hall H; [discriminate|].
  simpl in H. destruct (nth_error gs x) as [g|] eqn:E; [|discriminate].
  assert (Hg : P g) by (rewrite Forall_forall in Hall; apply Hall; eapply nth_error_In, E).
  destruct p as [|y p]; [injection H as <-; exact Hg|].
  apply (IH (starts g) gr); [apply HP, Hg|exact H].
Qed.

Lemma end_last gr : end_of gr = last_def gr.
Proof. destruct gr; reflexivity. Qed.

Lemma waits_starts dep gr : waits dep gr -> Forall (waits dep) (starts gr).
Proof. intros []; simpl; auto. Qed.

Lemma waits_dep dep gr i : waits dep gr -> dep i (end_of gr) ->
  exists k s, nth_error (starts gr) k = Some s /\ end_of s = i.
Proof.
  intros H Hd. destruct H as [e H|s e H1 H2|ss e H1 H2 H3]; simpl in *.
  - exfalso; eapply H, Hd.
  - exists 0, s. split; [reflexivity|]. rewrite end_last. symmetry. apply H2, Hd.
  - apply H3, in_map_iff in Hd as (s & Hs & Hin). apply In_nth_error in Hin as [k Hk].
    exists k, s. split; [exact Hk|]. rewrite end_last. exact Hs.
Qed.

Lemma group_defs_starts gr : group_defs gr = concat (map group_defs (starts gr)) ++ [end_of gr].
Proof. destruct gr as [[s|] e|ss e]; simpl; [rewrite app_nil_r; reflexivity|reflexivity..]. Qed.

Lemma group_at_defs p gs gr : group_at gs p = Some gr -> incl (group_defs gr) (planned_defs gs).
Proof.
  revert gs; induction p as [|x p IH]; intros gs H; [discriminate|].
  simpl in H. destruct (nth_error gs x) as [g|] eqn:E; [|discriminate].
  assert (Hg : incl (group_defs g) (planned_defs gs)).
  { intros y Hy. unfold planned_defs. apply in_concat. exists (group_defs g). split; [|exact Hy].
    apply in_map. eapply nth_error_In, E. }
  destruct p as [|y p]; [injection H as <-; exact Hg|].
  intros z Hz. apply Hg. rewrite group_defs_starts. apply in_or_app; left.
  apply (IH (starts g) H z Hz).
Qed.

Lemma group_at_end p gs gr : group_at gs p = Some gr -> In (end_of gr) (planned_defs gs).
Proof.
  intros H. eapply group_at_defs; [exact H|]. rewrite group_defs_starts. apply in_or_app; right; left; reflexivity.
Qed.

Lemma group_ind2 (P : group -> Prop) :
  (forall gr, Forall P (starts gr) -> P gr) -> forall gr, P gr.
Proof.
  intros H. fix IH 1. intros [[s|] e|ss e]; apply H; simpl.
  - constructor; [apply IH|constructor].
  - constructor.
  - induction ss as [|s ss IHs]; constructor; [apply IH|exact IHs].
Qed.

Section Plan.
  Variable gs : list group.
  Variable key : nat -> string.
  Hypothesis key_inj : forall i j, In i (planned_defs gs) -> In j (planned_defs gs) -> key i = key j -> i = j.

  Section St.
    Variable st : state.
    Hypothesis I : inv gs key st.

    Lemma ended_evaluated l d r :
      incl l (log st) -> In d (planned_defs gs) -> ended key l (key d) r -> evaluated l d r.
    Proof.
      intros Hl Hd (p & e & He & Hin). exists p.
      destruct (i_ev _ _ _ I _ (Hl _ Hin)) as (gr & Ho & E). simpl in *.
      assert (Hin' : In e (planned_defs gs)) by (rewrite E; eapply group_at_end, Ho).
      rewrite <- (key_inj e d Hin' Hd He). exact Hin.
    Qed.

    (** Evaluation order. *)
    Lemma start_after_deps dep l1 p j l2 i :
      Forall (waits dep) gs -> log st = l1 ++ mk p j EStart :: l2 -> dep i j -> evaluated l2 i true.
    Proof.
      intros Hw E Hd.
      destruct (i_log _ _ _ I l1 p j l2 E) as (gr & Ho & Hpre & _).
      assert (Hj : j = end_of gr).
      { destruct (i_ev _ _ _ I (mk p j EStart)) as (gr' & Ho' & Ej).
        - rewrite E. apply in_or_app; right; left; reflexivity.
        - simpl in *. congruence. }
      subst j. pose proof (group_at_forall _ (waits_starts dep) p gs gr Hw Ho) as Hwg.
      destruct (waits_dep dep gr i Hwg Hd) as (k & s & Hk & <-).
      apply ended_evaluated.
      - rewrite E. intros x Hx. apply in_or_app; right; right; exact Hx.
      - eapply group_at_end, group_at_snoc; eassumption.
      - apply (Hpre k s Hk).
    Qed.

    (** Outcomes. *)
    Lemma done_evaluated p gr r :
      group_at gs p = Some gr -> phase_of st p = Done r -> evaluated (log st) (end_of gr) r.
    Proof.
      intros Ho Hp. apply ended_evaluated; [apply incl_refl|eapply group_at_end, Ho|].
      eapply i_ret; [exact I|exact Ho|auto].
    Qed.

    Lemma done_true_all : forall gr p,
      group_at gs p = Some gr -> phase_of st p = Done true ->
      forall d, In d (group_defs gr) -> evaluated (log st) d true.
    Proof.
      intros gr; induction gr as [gr IH] using group_ind2. intros p Ho Hp d Hd.
      destruct (i_ready _ _ _ I p) as (gr' & Ho' & Hr); [congruence|]. assert (gr' = gr) by congruence; subst gr'.
      rewrite group_defs_starts in Hd. apply in_app_iff in Hd as [Hd|[<-|[]]].
      - apply in_concat in Hd as (l & Hl & Hd). apply in_map_iff in Hl as (s & <- & Hs).
        apply In_nth_error in Hs as [k Hk]. rewrite Forall_forall in IH.
        apply (IH s (nth_error_In _ _ Hk) (p ++ [k])); [eapply group_at_snoc; eassumption|apply (Hr k s Hk)|exact Hd].
      - eapply done_evaluated; eassumption.
    Qed.
  End St.
End Plan.

(** Nothing gets stuck halfway. *)
Section Progress.
  Variable gs : list group.
  Variable key : nat -> string.
  Variable st : state.
  Hypothesis I : inv gs key st.

  Lemma leader_steps p gr f : group_at gs p = Some gr -> leader (phase_of st p) = Some f ->
    step gs key p BodyOk st <> None.
  Proof.
    intros Ho Hl. unfold step. rewrite Ho. destruct (phase_of st p); simpl in Hl; try discriminate.
    destruct panicked; discriminate.
  Qed.

  Lemma stuck_over : stuck gs key st -> forall gr p, group_at gs p = Some gr -> over st p gr.
  Proof.
    intros Hst gr; induction gr as [gr IH] using group_ind2. intros p Ho.
    assert (Hs : forall i s, nth_error (starts gr) i = Some s -> over st (p ++ [i]) s).
    { intros i s Hi. rewrite Forall_forall in IH. apply (IH s (nth_error_In _ _ Hi)).
      eapply group_at_snoc; eassumption. }
    destruct (phase_of st p) as [| |f|f r pn|f r|f|r] eqn:E.
    - destruct (ready st p gr) eqn:Er.
      + exfalso. specialize (Hst p BodyOk). unfold step in Hst. rewrite Ho, E, Er in Hst.
        destruct (cache st (key (end_of gr))); discriminate.
      + apply over_skipped; [exact E|exact Hs|].
        assert (Hex : exists i, i < length (starts gr) /\ is_done_ok (phase_of st (p ++ [i])) = false).
        { unfold ready in Er. clear -Er. assert (G : forall l, forallb (fun i => is_done_ok (phase_of st (p ++ [i]))) l = false ->
            exists i, In i l /\ is_done_ok (phase_of st (p ++ [i])) = false).
          { induction l as [|a l IHl]; simpl; [discriminate|]. destruct (is_done_ok _) eqn:Ea; simpl.
            - intros H; destruct (IHl H) as (i & ? & ?); eauto.
            - eauto. }
          destruct (G _ Er) as (i & Hi & Hd). apply in_seq in Hi. exists i; split; [lia|exact Hd]. }
        destruct Hex as (i & Hi & Hd). destruct (nth_error (starts gr) i) as [s|] eqn:En.
        * exists i, s. split; [exact En|]. intros Hd'. rewrite Hd' in Hd. discriminate.
        * apply nth_error_None in En. lia.
    - exfalso. specialize (Hst p BodyOk). unfold step in Hst. rewrite Ho, E in Hst.
      destruct (active (key (end_of gr)) 0 (flights st)); discriminate.
    - exfalso. eapply (leader_steps p gr f Ho); [rewrite E; reflexivity|apply Hst].
    - exfalso. eapply (leader_steps p gr f Ho); [rewrite E; reflexivity|apply Hst].
    - exfalso. eapply (leader_steps p gr f Ho); [rewrite E; reflexivity|apply Hst].
    - exfalso. destruct (i_wait _ _ _ I p gr f Ho E) as [[r|] Hr].
      + specialize (Hst p BodyOk). unfold step in Hst. rewrite Ho, E, Hr in Hst. discriminate.
      + destruct (i_act _ _ _ I f _ Hr) as (q & gq & Hq & _ & Hl). eapply (leader_steps q gq f Hq Hl), Hst.
    - eapply over_done, E.
  Qed.
End Progress.

(** Every step brings some call forward. *)
Definition rank (ph : phase) : nat :=
  match ph with
  | Idle => 5 | Missed => 4 | Running _ => 3 | Returned _ _ _ => 2 | Closing _ _ => 1 | Waiting _ => 1 | Done _ => 0
  end.

Lemma places_starts gr :
  places_of gr = [] :: concat (map (fun ip => map (cons (fst ip)) (places_of (snd ip)))
                                  (combine (seq 0 (length (starts gr))) (starts gr))).
Proof.
  destruct gr as [[s|] e|ss e]; [simpl; rewrite app_nil_r; reflexivity|reflexivity|].
  cbn [places_of starts]. f_equal. generalize 0.
  induction ss as [|s ss IH]; intros n; [reflexivity|]. simpl. f_equal. apply IH.
Qed.

Lemma nth_combine_seq {A} (l : list A) : forall n i x, nth_error l i = Some x ->
  In (n + i, x) (combine (seq n (length l)) l).
Proof.
  induction l as [|a l IH]; intros n i x H; [destruct i; discriminate|].
  destruct i as [|i]; simpl in *.
  - injection H as ->. left. f_equal; lia.
  - right. replace (n + S i) with (S n + i) by lia. apply IH, H.
Qed.

Definition all_places (gs : list group) : list path :=
  concat (map (fun ip => map (cons (fst ip)) (places_of (snd ip))) (combine (seq 0 (length gs)) gs)).

Lemma group_at_place : forall p gs gr, group_at gs p = Some gr -> In p (all_places gs).
Proof.
  induction p as [|x p IH]; intros gs gr H; [discriminate|]. simpl in H.
  destruct (nth_error gs x) as [g|] eqn:E; [|discriminate].
  unfold all_places. apply in_concat. exists (map (cons x) (places_of g)). split.
  - apply in_map_iff. exists (x, g). split; [reflexivity|]. apply (nth_combine_seq gs 0 x g E).
  - apply in_map. rewrite places_starts. destruct p as [|y p]; [left; reflexivity|].
    right. apply (IH (starts g) gr H).
Qed.

Definition total (gs : list group) (st : state) : nat :=
  list_sum (map (fun p => rank (phase_of st p)) (all_places gs)).

Lemma step_rank gs key p c st st' :
  step gs key p c st = Some st' ->
  rank (phase_of st' p) < rank (phase_of st p) /\ (forall q, q <> p -> phase_of st' q = phase_of st q) /\
  In p (all_places gs).
Proof.
  intros H. apply step_inv in H as (gr & Ho & Hs). split; [|split; [|eapply group_at_place, Ho]].
  - destruct Hs as [r Hph Hrd Hc ->|Hph Hrd Hc ->|f Hph Ha ->|Hph Ha ->|f r pn Hph ->|f r Hph ->|f r Hph ->|f r Hph ->|f k r Hph Hf ->];
      simpl; rewrite set_same, Hph; simpl; lia.
  - intros q Hq. destruct Hs as [r Hph Hrd Hc ->|Hph Hrd Hc ->|f Hph Ha ->|Hph Ha ->|f r pn Hph ->|f r Hph ->|f r Hph ->|f r Hph ->|f k r Hph Hf ->];
      simpl; apply set_other, Hq.
Qed.

Lemma sum_less (f g : path -> nat) p l :
  In p l -> f p < g p -> (forall q, q <> p -> f q = g q) -> list_sum (map f l) < list_sum (map g l).
Proof.
  intros Hin Hp Hq.
  assert (Hle : forall q, f q <= g q).
  { intros q. destruct (list_eq_dec Nat.eq_dec q p) as [->|H]; [lia|rewrite (Hq q H); lia]. }
  assert (Hs : forall l, list_sum (map f l) <= list_sum (map g l)).
  { induction l0 as [|a l0 IH]; simpl; [lia|]. specialize (Hle a). lia. }
  induction l as [|a l IH]; [destruct Hin|]. simpl. destruct Hin as [->|Hin].
  - specialize (Hs l). lia.
  - specialize (IH Hin). specialize (Hle a). lia.
Qed.

Lemma run_total gs key sc : forall st st', run gs key sc st = Some st' -> length sc + total gs st' <= total gs st.
Proof.
  induction sc as [|[p c] sc IH]; simpl; intros st st' H; [injection H as <-; lia|].
  destruct (step gs key p c st) as [st1|] eqn:E; [|discriminate]. apply IH in H.
  apply step_rank in E as (H1 & H2 & H3).
  assert (total gs st1 < total gs st); [|lia]. unfold total.
  apply (sum_less _ _ p); [exact H3|exact H1|]. intros q Hq. rewrite (H2 q Hq). reflexivity.
Qed.

Lemma total_init gs : total gs init = 5 * length (all_places gs).
Proof. unfold total. induction (all_places gs) as [|a l IH]; simpl in *; lia. Qed.

(** Each place starts its definition at most once. *)
Definition starters (l : list event) : list path :=
  map at_path (filter (fun ev => match kind ev with EStart => true | _ => false end) l).

Definition not_started (ph : phase) : Prop := ph = Idle \/ ph = Missed.

Lemma starters_run gs key sc : forall st st', run gs key sc st = Some st' ->
  NoDup (starters (log st)) -> (forall p, In p (starters (log st)) -> ~ not_started (phase_of st p)) ->
  NoDup (starters (log st')) /\ (forall p, In p (starters (log st')) -> ~ not_started (phase_of st' p)).
Proof.
  induction sc as [|[p c] sc IH]; simpl; intros st st' H Hn Hp; [injection H as <-; auto|].
  destruct (step gs key p c st) as [st1|] eqn:E; [|discriminate].
  apply (IH _ _ H); clear IH H.
  - apply step_inv in E as (gr & Ho & Hs).
    destruct Hs as [r Hph Hrd Hc ->|Hph Hrd Hc ->|f Hph Ha ->|Hph Ha ->|f r pn Hph ->|f r Hph ->|f r Hph ->|f r Hph ->|f k r Hph Hf ->];
      simpl; try exact Hn. unfold starters in *; simpl. constructor; [|exact Hn].
    intros Hin. apply (Hp p Hin). right; exact Hph.
  - intros q Hq. apply step_inv in E as (gr & Ho & Hs).
    destruct (path_eqb_spec q p) as [->|Hne].
    + destruct Hs as [r Hph Hrd Hc ->|Hph Hrd Hc ->|f Hph Ha ->|Hph Ha ->|f r pn Hph ->|f r Hph ->|f r Hph ->|f r Hph ->|f k r Hph Hf ->];
        simpl; rewrite set_same; intros [H|H]; try discriminate.
      apply (Hp p); [exact Hq|left; exact Hph].
    + assert (Hq' : In q (starters (log st))).
      { destruct Hs as [r Hph Hrd Hc ->|Hph Hrd Hc ->|f Hph Ha ->|Hph Ha ->|f r pn Hph ->|f r Hph ->|f r Hph ->|f r Hph ->|f k r Hph Hf ->];
          simpl in Hq; try exact Hq. unfold starters in Hq; simpl in Hq. destruct Hq as [Hq|Hq]; [congruence|exact Hq]. }
      intros Hns. apply (Hp q Hq'). unfold not_started in *.
      destruct Hs as [r Hph Hrd Hc ->|Hph Hrd Hc ->|f Hph Ha ->|Hph Ha ->|f r pn Hph ->|f r Hph ->|f r Hph ->|f r Hph ->|f k r Hph Hf ->];
        simpl in Hns; rewrite set_other in Hns by exact Hne; exact Hns.
Qed.
