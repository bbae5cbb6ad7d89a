From Coq Require Import String List Arith Bool Lia.
From Verif.Plan Require Import Model Spec.
From Verif.Exec Require Import Model Spec.
Import ListNotations.

Lemma path_eqb_spec a b : reflect (a = b) (path_eqb a b).
Proof. unfold path_eqb. destruct (list_eq_dec Nat.eq_dec a b); constructor; assumption. Qed.

Definition leader (ph : phase) : option nat :=
  match ph with Running f => Some f | Returned f _ _ => Some f | Closing f _ => Some f | _ => None end.

Lemma active_some k fl : forall n f, active k n fl = Some f ->
  n <= f /\ nth_error fl (f - n) = Some (k, None).
Proof.
  induction fl as [|[k' [r|]] fl IH]; simpl; intros n f H; [discriminate| |].
  - apply IH in H as [H1 H2]. split; [lia|]. replace (f - n) with (S (f - S n)) by lia. exact H2.
  - destruct (String.eqb_spec k k') as [->|E].
    + injection H as <-. split; [lia|]. rewrite Nat.sub_diag. reflexivity.
    + apply IH in H as [H1 H2]. split; [lia|]. replace (f - n) with (S (f - S n)) by lia. exact H2.
Qed.

Lemma active_none k fl : forall n, active k n fl = None ->
  forall f, nth_error fl f <> Some (k, None).
Proof.
  induction fl as [|[k' [r|]] fl IH]; simpl; intros n H f Hf.
  - destruct f; discriminate.
  - destruct f as [|f]; [discriminate|]. eapply IH; eassumption.
  - destruct (String.eqb_spec k k') as [->|E]; [discriminate|].
    destruct f as [|f]; simpl in Hf; [congruence|]. eapply IH; eassumption.
Qed.

Lemma finish_nth f r fl : forall i,
  nth_error (finish f r fl) i =
  if Nat.eqb i f then option_map (fun x => (fst x, Some r)) (nth_error fl i) else nth_error fl i.
Proof.
  revert f; induction fl as [|[k o] fl IH]; intros f i.
  - destruct f as [|f], i as [|i]; simpl; try reflexivity; destruct (Nat.eqb i f); reflexivity.
  - destruct f as [|f]; destruct i as [|i]; simpl; try reflexivity. apply IH.
Qed.

Section Inv.
  Variable gs : list group.
  Variable key : nat -> string.

  Notation occ p gr := (group_at gs p = Some gr).
  Notation mk p e k := {| at_path := p; of_def := e; kind := k |}.

  Definition ended (l : list event) (k : string) (r : bool) : Prop :=
    exists p e, key e = k /\ In (mk p e (EEnd r)) l.
  Definition noted (l : list event) (k : string) : Prop :=
    exists p e r, key e = k /\ In (mk p e (ERecord r)) l.

  Definition start_ok (l : list event) : Prop :=
    forall l1 p e l2, l = l1 ++ mk p e EStart :: l2 ->
      exists gr, occ p gr /\
        (forall i s, nth_error (starts gr) i = Some s -> ended l2 (key (end_of s)) true) /\
        exists l2a l2b, l2 = l2a ++ mk p e EBegin :: l2b /\ ~ noted l2b (key e).

  Definition count (P : event -> bool) (l : list event) : nat := length (filter P l).
  Definition start_key (k : string) (ev : event) : bool :=
    String.eqb (key (of_def ev)) k && match kind ev with EStart => true | _ => false end.
  Definition end_key (k : string) (ev : event) : bool :=
    String.eqb (key (of_def ev)) k && match kind ev with EEnd _ => true | _ => false end.

  Record inv (st : state) : Prop := {
    i_ready : forall p, phase_of st p <> Idle -> exists gr, occ p gr /\
                forall i s, nth_error (starts gr) i = Some s -> phase_of st (p ++ [i]) = Done true;
    i_leader : forall p gr f, occ p gr -> leader (phase_of st p) = Some f ->
                nth_error (flights st) f = Some (key (end_of gr), None);
    i_uniq : forall p q f, leader (phase_of st p) = Some f -> leader (phase_of st q) = Some f -> p = q;
    i_wait : forall p gr f, occ p gr -> phase_of st p = Waiting f ->
                exists r, nth_error (flights st) f = Some (key (end_of gr), r);
    i_fin : forall f k r, nth_error (flights st) f = Some (k, Some r) -> ended (log st) k r;
    i_act : forall f k, nth_error (flights st) f = Some (k, None) ->
                exists p gr, occ p gr /\ key (end_of gr) = k /\ leader (phase_of st p) = Some f;
    i_one : forall f g k, nth_error (flights st) f = Some (k, None) ->
                nth_error (flights st) g = Some (k, None) -> f = g;
    i_cache : forall k r, cache st k = Some r -> ended (log st) k r;
    i_none : forall k, cache st k = None -> ~ noted (log st) k;
    i_ret : forall p gr r, occ p gr ->
              (exists f pn, phase_of st p = Returned f r pn) \/ (exists f, phase_of st p = Closing f r) \/
              phase_of st p = Done r -> ended (log st) (key (end_of gr)) r;
    i_miss : forall p gr, occ p gr -> phase_of st p = Missed ->
              exists l2a l2b, log st = l2a ++ mk p (end_of gr) EBegin :: l2b /\ ~ noted l2b (key (end_of gr));
    i_log : start_ok (log st);
    i_ev : forall ev, In ev (log st) -> exists gr, occ (at_path ev) gr /\ of_def ev = end_of gr;
    i_count : forall k,
      (count (start_key k) (log st) = count (end_key k) (log st) /\
       forall p gr f, occ p gr -> key (end_of gr) = k -> phase_of st p <> Running f) \/
      (count (start_key k) (log st) = S (count (end_key k) (log st)) /\
       exists p gr f, occ p gr /\ key (end_of gr) = k /\ phase_of st p = Running f)
  }.

  Lemma inv_init : inv init.
  Proof.
    constructor; simpl; try congruence; try tauto.
    - intros f k r H; destruct f; discriminate.
    - intros f k H; destruct f; discriminate.
    - intros f g k H; destruct f; discriminate.
    - intros k _ (p & e & r & _ & []).
    - intros p gr r _ [(f & pn & H)|[(f & H)|H]]; discriminate.
    - intros l1 p e l2 H; destruct l1; discriminate.
    - intros k. left. split; [reflexivity|]. intros; discriminate.
  Qed.

  Lemma ready_spec st p gr :
    ready st p gr = true <->
    forall i s, nth_error (starts gr) i = Some s -> phase_of st (p ++ [i]) = Done true.
  Proof.
    unfold ready. rewrite forallb_forall. split.
    - intros H i s Hi. assert (Hlt : i < length (starts gr)) by (apply nth_error_Some; congruence).
      specialize (H i ltac:(apply in_seq; lia)). destruct (phase_of st (p ++ [i])) as [| | | | | |[]]; try discriminate H.
      reflexivity.
    - intros H i Hi. apply in_seq in Hi. destruct (nth_error (starts gr) i) as [s|] eqn:E.
      + rewrite (H i s E). reflexivity.
      + apply nth_error_None in E. lia.
  Qed.

  Lemma snoc_neq (p : path) i : p ++ [i] <> p.
  Proof. intros H. apply (f_equal (@length nat)) in H. rewrite app_length in H. simpl in H. lia. Qed.

  (** The possible steps, one by one. *)
  Inductive stepped (p : path) (gr : group) (st st' : state) : Prop :=
  | s_hit r : phase_of st p = Idle -> ready st p gr = true -> cache st (key (end_of gr)) = Some r ->
      st' = {| phase_of := set_phase st p (Done r); cache := cache st; flights := flights st;
               log := mk p (end_of gr) (EReturn r) :: mk p (end_of gr) EBegin :: log st |} ->
      stepped p gr st st'
  | s_miss : phase_of st p = Idle -> ready st p gr = true -> cache st (key (end_of gr)) = None ->
      st' = {| phase_of := set_phase st p Missed; cache := cache st; flights := flights st;
               log := mk p (end_of gr) EBegin :: log st |} ->
      stepped p gr st st'
  | s_join f : phase_of st p = Missed -> active (key (end_of gr)) 0 (flights st) = Some f ->
      st' = {| phase_of := set_phase st p (Waiting f); cache := cache st; flights := flights st; log := log st |} ->
      stepped p gr st st'
  | s_lead : phase_of st p = Missed -> active (key (end_of gr)) 0 (flights st) = None ->
      st' = {| phase_of := set_phase st p (Running (length (flights st))); cache := cache st;
               flights := flights st ++ [(key (end_of gr), None)];
               log := mk p (end_of gr) EStart :: log st |} ->
      stepped p gr st st'
  | s_end f r pn : phase_of st p = Running f ->
      st' = {| phase_of := set_phase st p (Returned f r pn); cache := cache st; flights := flights st;
               log := mk p (end_of gr) (EEnd r) :: log st |} ->
      stepped p gr st st'
  | s_panic f r : phase_of st p = Returned f r true ->
      st' = {| phase_of := set_phase st p (Closing f r); cache := cache st; flights := flights st; log := log st |} ->
      stepped p gr st st'
  | s_record f r : phase_of st p = Returned f r false ->
      st' = {| phase_of := set_phase st p (Closing f r);
               cache := fun k' => if String.eqb k' (key (end_of gr)) then Some r else cache st k';
               flights := flights st; log := mk p (end_of gr) (ERecord r) :: log st |} ->
      stepped p gr st st'
  | s_close f r : phase_of st p = Closing f r ->
      st' = {| phase_of := set_phase st p (Done r); cache := cache st; flights := finish f r (flights st);
               log := mk p (end_of gr) (EReturn r) :: log st |} ->
      stepped p gr st st'
  | s_wake f k r : phase_of st p = Waiting f -> nth_error (flights st) f = Some (k, Some r) ->
      st' = {| phase_of := set_phase st p (Done r); cache := cache st; flights := flights st;
               log := mk p (end_of gr) (EReturn r) :: log st |} ->
      stepped p gr st st'.

  Lemma step_inv p c st st' :
    step gs key p c st = Some st' -> exists gr, occ p gr /\ stepped p gr st st'.
  Proof.
    unfold step. destruct (group_at gs p) as [gr|] eqn:Eg; [|discriminate]. intros H. exists gr. split; [reflexivity|].
    destruct (phase_of st p) as [| |f|f r pn|f r|f|r] eqn:Ep.
    - destruct (ready st p gr) eqn:Er; [|discriminate].
      destruct (cache st (key (end_of gr))) as [r|] eqn:Ec; injection H as <-.
      + eapply s_hit; eauto.
      + eapply s_miss; eauto.
    - destruct (active (key (end_of gr)) 0 (flights st)) as [f|] eqn:Ea; injection H as <-.
      + eapply s_join; eauto.
      + eapply s_lead; eauto.
    - injection H as <-. eapply s_end; eauto.
    - destruct pn; injection H as <-; [eapply s_panic; eauto|eapply s_record; eauto].
    - injection H as <-. eapply s_close; eauto.
    - destruct (nth_error (flights st) f) as [[k [r|]]|] eqn:Ef; try discriminate. injection H as <-.
      eapply s_wake; eauto.
    - discriminate.
  Qed.

  Lemma ended_mono l l' k r : incl l l' -> ended l k r -> ended l' k r.
  Proof. intros Hi (p & e & H1 & H2). exists p, e. auto. Qed.

  Lemma cons_split {A} (a x : A) l l1 l2 :
    a :: l = l1 ++ x :: l2 -> (l1 = [] /\ a = x /\ l = l2) \/ (exists l1', l1 = a :: l1' /\ l = l1' ++ x :: l2).
  Proof. destruct l1; simpl; intros [= -> ->]; [left|right]; eauto. Qed.

  Lemma start_ok_cons ev l : kind ev <> EStart -> start_ok l -> start_ok (ev :: l).
  Proof.
    intros Hk H l1 p e l2 E. apply cons_split in E as [(-> & -> & _)|(l1' & -> & ->)]; [exfalso; apply Hk; reflexivity|].
    apply (H l1' p e l2 eq_refl).
  Qed.

  Lemma noted_cons ev l k : (forall r, kind ev <> ERecord r) -> noted (ev :: l) k -> noted l k.
  Proof.
    intros H (p & e & r & H1 & [->|H2]); [exfalso; eapply H; reflexivity|]. exists p, e, r; auto.
  Qed.

  Lemma set_same st p ph : set_phase st p ph p = ph.
  Proof. unfold set_phase. destruct (path_eqb_spec p p); congruence. Qed.
  Lemma set_other st p ph q : q <> p -> set_phase st p ph q = phase_of st q.
  Proof. unfold set_phase. destruct (path_eqb_spec q p); congruence. Qed.

  (** Readiness survives any step: [Done true] is final. *)
  Lemma keep_ready st st' p gr :
    inv st -> occ p gr -> stepped p gr st st' ->
    forall q, phase_of st' q <> Idle -> exists gr, occ q gr /\
      forall i s, nth_error (starts gr) i = Some s -> phase_of st' (q ++ [i]) = Done true.
  Proof.
    intros I Hocc Hs.
    assert (Hfinal : forall q, phase_of st q = Done true -> phase_of st' q = Done true).
    { intros q Hq. destruct (path_eqb_spec q p) as [->|Hne].
      - destruct Hs; congruence.
      - destruct Hs; subst st'; simpl; rewrite set_other; auto. }
    assert (Hp : forall i s, nth_error (starts gr) i = Some s -> phase_of st (p ++ [i]) = Done true).
    { destruct Hs; try (destruct (i_ready _ I p ltac:(congruence)) as (gr' & Ho & Hr);
        assert (gr' = gr) by congruence; subst gr'; exact Hr); apply ready_spec; assumption. }
    intros q Hq. destruct (path_eqb_spec q p) as [->|Hne].
    - exists gr. split; [exact Hocc|]. intros i s Hi. apply Hfinal, (Hp i s Hi).
    - assert (Hq' : phase_of st q <> Idle).
      { destruct Hs; subst st'; simpl in Hq; rewrite set_other in Hq; auto. }
      destruct (i_ready _ I q Hq') as (gr' & Ho & Hr). exists gr'. split; [exact Ho|].
      intros i s Hi. apply Hfinal, (Hr i s Hi).
  Qed.

  Ltac sp q p := destruct (path_eqb_spec q p) as [->|?Hne];
    [rewrite ?set_same in *|rewrite ?set_other in * by assumption].

  (** Steps that leave flights and leaders alone. *)
  Lemma leaders_same st p ph :
    leader ph = None -> leader (phase_of st p) = None ->
    forall q, leader (set_phase st p ph q) = leader (phase_of st q).
  Proof. intros H1 H2 q. sp q p; congruence. Qed.

  Lemma leaders_keep st p ph f :
    leader ph = Some f -> leader (phase_of st p) = Some f ->
    forall q, leader (set_phase st p ph q) = leader (phase_of st q).
  Proof. intros H1 H2 q. sp q p; congruence. Qed.

  Lemma count_cons P ev l : count P (ev :: l) = (if P ev then 1 else 0) + count P l.
  Proof. unfold count. simpl. destruct (P ev); reflexivity. Qed.

  Lemma sk k p e kd : start_key k (mk p e kd) = (String.eqb (key e) k && match kd with EStart => true | _ => false end).
  Proof. reflexivity. Qed.
  Lemma ek k p e kd : end_key k (mk p e kd) = (String.eqb (key e) k && match kd with EEnd _ => true | _ => false end).
  Proof. reflexivity. Qed.

  Ltac cnt := rewrite !count_cons, ?sk, ?ek; rewrite ?andb_false_r, ?andb_true_r; cbn [Nat.add].

  Theorem inv_step p c st st' : inv st -> step gs key p c st = Some st' -> inv st'.
  Proof.
    intros I Hstep. apply step_inv in Hstep as (gr & Hocc & Hs).
    pose proof (keep_ready st st' p gr I Hocc Hs) as Hready.
    assert (Hmono : incl (log st) (log st')).
    { destruct Hs; subst st'; simpl; intros x Hx; simpl; auto. }
    assert (Hev : forall ev, In ev (log st') -> exists gr, occ (at_path ev) gr /\ of_def ev = end_of gr).
    { intros ev Hin. destruct Hs; subst st'; simpl in Hin;
        repeat (destruct Hin as [<-|Hin]; [exists gr; auto|]); apply (i_ev _ I ev Hin). }
    set (k0 := key (end_of gr)) in *.
    destruct Hs as [r Hph Hrd Hc ->|Hph Hrd Hc ->|f Hph Ha ->|Hph Ha ->|f r pn Hph ->|f r Hph ->|f r Hph ->|f r Hph ->|f k r Hph Hf ->].
    - (* hit *)
      assert (L : forall q, leader (set_phase st p (Done r) q) = leader (phase_of st q))
        by (apply leaders_same; [reflexivity|rewrite Hph; reflexivity]).
      constructor; simpl; auto.
      + intros q gq f Hq Hl. rewrite L in Hl. eapply i_leader; eassumption.
      + intros q1 q2 f H1 H2. rewrite L in *. eapply i_uniq; eassumption.
      + intros q gq f Hq. sp q p; [discriminate|]. eapply i_wait; eassumption.
      + intros f k r' Hf. eapply ended_mono; [exact Hmono|]. eapply i_fin; eassumption.
      + intros f k Hf. destruct (i_act _ I f k Hf) as (q & gq & H1 & H2 & H3). exists q, gq. rewrite L. auto.
      + exact (i_one _ I).
      + intros k r' Hk. eapply ended_mono; [exact Hmono|]. eapply i_cache; eassumption.
      + intros k Hk Hn. apply noted_cons in Hn; [|intros; discriminate]. apply noted_cons in Hn; [|intros; discriminate].
        eapply i_none; eassumption.
      + intros q gq r' Hq. sp q p.
        * intros [(f & pn & H)|[(f & H)|H]]; try discriminate. injection H as <-.
          assert (gq = gr) by congruence; subst gq. eapply ended_mono; [exact Hmono|]. eapply i_cache; eassumption.
        * intros H. eapply ended_mono; [exact Hmono|]. eapply i_ret; eassumption.
      + intros q gq Hq. sp q p; [discriminate|]. intros H. destruct (i_miss _ I q gq Hq H) as (la & lb & E & Hn).
        rewrite E. eexists (_ :: _ :: la), lb. split; [reflexivity|exact Hn].
      + apply start_ok_cons; [discriminate|]. apply start_ok_cons; [discriminate|]. apply (i_log _ I).
      + intros k. cnt.
        destruct (i_count _ I k) as [[H1 H2]|[H1 (q & gq & f & Hq & Hk & Hr)]].
        * left; split; [exact H1|]. intros q gq f Hq Hk. sp q p; [discriminate|]. eapply H2; eassumption.
        * right; split; [exact H1|]. exists q, gq, f. repeat split; auto. rewrite set_other; [exact Hr|congruence].
    - (* miss *)
      assert (L : forall q, leader (set_phase st p Missed q) = leader (phase_of st q))
        by (apply leaders_same; [reflexivity|rewrite Hph; reflexivity]).
      constructor; simpl; auto.
      + intros q gq f Hq Hl. rewrite L in Hl. eapply i_leader; eassumption.
      + intros q1 q2 f H1 H2. rewrite L in *. eapply i_uniq; eassumption.
      + intros q gq f Hq. sp q p; [discriminate|]. eapply i_wait; eassumption.
      + intros f k r' Hf. eapply ended_mono; [exact Hmono|]. eapply i_fin; eassumption.
      + intros f k Hf. destruct (i_act _ I f k Hf) as (q & gq & H1 & H2 & H3). exists q, gq. rewrite L. auto.
      + exact (i_one _ I).
      + intros k r' Hk. eapply ended_mono; [exact Hmono|]. eapply i_cache; eassumption.
      + intros k Hk Hn. apply noted_cons in Hn; [|intros; discriminate]. eapply i_none; eassumption.
      + intros q gq r' Hq. sp q p.
        * intros [(f & pn & H)|[(f & H)|H]]; discriminate.
        * intros H. eapply ended_mono; [exact Hmono|]. eapply i_ret; eassumption.
      + intros q gq Hq. sp q p.
        * intros _. assert (gq = gr) by congruence; subst gq. exists [], (log st). split; [reflexivity|].
          apply (i_none _ I), Hc.
        * intros H. destruct (i_miss _ I q gq Hq H) as (la & lb & E & Hn).
          rewrite E. eexists (_ :: la), lb. split; [reflexivity|exact Hn].
      + apply start_ok_cons; [discriminate|]. apply (i_log _ I).
      + intros k. cnt.
        destruct (i_count _ I k) as [[H1 H2]|[H1 (q & gq & f & Hq & Hk & Hr)]].
        * left; split; [exact H1|]. intros q gq f Hq Hk. sp q p; [discriminate|]. eapply H2; eassumption.
        * right; split; [exact H1|]. exists q, gq, f. repeat split; auto. rewrite set_other; [exact Hr|congruence].
    - (* join *)
      assert (L : forall q, leader (set_phase st p (Waiting f) q) = leader (phase_of st q))
        by (apply leaders_same; [reflexivity|rewrite Hph; reflexivity]).
      apply active_some in Ha as [_ Ha]. rewrite Nat.sub_0_r in Ha.
      constructor; simpl; auto.
      + intros q gq g Hq Hl. rewrite L in Hl. eapply i_leader; eassumption.
      + intros q1 q2 g H1 H2. rewrite L in *. eapply i_uniq; eassumption.
      + intros q gq g Hq. sp q p.
        * intros [= <-]. assert (gq = gr) by congruence; subst gq. exists None. exact Ha.
        * eapply i_wait; eassumption.
      + exact (i_fin _ I).
      + intros g k Hg. destruct (i_act _ I g k Hg) as (q & gq & H1 & H2 & H3). exists q, gq. rewrite L. auto.
      + exact (i_one _ I).
      + exact (i_cache _ I).
      + exact (i_none _ I).
      + intros q gq r' Hq. sp q p.
        * intros [(g & pn & H)|[(g & H)|H]]; discriminate.
        * eapply i_ret; eassumption.
      + intros q gq Hq. sp q p; [discriminate|]. eapply i_miss; eassumption.
      + apply (i_log _ I).
      + intros k. destruct (i_count _ I k) as [[H1 H2]|[H1 (q & gq & g & Hq & Hk & Hr)]].
        * left; split; [exact H1|]. intros q gq g Hq Hk. sp q p; [discriminate|]. eapply H2; eassumption.
        * right; split; [exact H1|]. exists q, gq, g. repeat split; auto. rewrite set_other; [exact Hr|congruence].
    - (* lead *)
      assert (Hnew : forall i x, nth_error (flights st) i = Some x -> nth_error (flights st ++ [(k0, None)]) i = Some x).
      { intros i x Hi. rewrite nth_error_app1; [exact Hi|]. apply nth_error_Some; congruence. }
      assert (Hinv : forall i x, nth_error (flights st ++ [(k0, None)]) i = Some x ->
                nth_error (flights st) i = Some x \/ (i = length (flights st) /\ x = (k0, None))).
      { intros i x Hi. destruct (Nat.lt_ge_cases i (length (flights st))) as [Hlt|Hge].
        - rewrite nth_error_app1 in Hi by exact Hlt. auto.
        - rewrite nth_error_app2 in Hi by exact Hge. right.
          destruct (i - length (flights st)) as [|j] eqn:Ej; simpl in Hi.
          + split; [lia|congruence].
          + destruct j; discriminate. }
      assert (Hfresh : forall q f, leader (phase_of st q) = Some f -> f < length (flights st)).
      { intros q f Hl. destruct (i_ready _ I q) as (gq & Hq & _); [intros E; rewrite E in Hl; discriminate|].
        pose proof (i_leader _ I q gq f Hq Hl) as Hn. apply nth_error_Some; congruence. }
      constructor; simpl; auto.
      + intros q gq f Hq. sp q p.
        * intros [= <-]. assert (gq = gr) by congruence; subst gq.
          rewrite nth_error_app2, Nat.sub_diag by lia. reflexivity.
        * intros Hl. apply Hnew. eapply i_leader; eassumption.
      + intros q1 q2 f. sp q1 p; sp q2 p; auto.
        * intros [= <-] H. apply Hfresh in H. lia.
        * intros H [= <-]. apply Hfresh in H. lia.
        * apply (i_uniq _ I).
      + intros q gq f Hq. sp q p; [discriminate|]. intros H.
        destruct (i_wait _ I q gq f Hq H) as [r Hr]. exists r. apply Hnew, Hr.
      + intros f k r Hf. apply Hinv in Hf as [Hf|[_ Hf]]; [|discriminate].
        eapply ended_mono; [exact Hmono|]. eapply i_fin; eassumption.
      + intros f k Hf. apply Hinv in Hf as [Hf|[-> [= ->]]].
        * destruct (i_act _ I f k Hf) as (q & gq & H1 & H2 & H3). exists q, gq. split; [exact H1|]. split; [exact H2|].
          rewrite set_other; [exact H3|]. intros ->. rewrite Hph in H3. discriminate.
        * exists p, gr. rewrite set_same. auto.
      + intros f g k H1 H2. apply Hinv in H1 as [H1|[-> E1]]; apply Hinv in H2 as [H2|[-> E2]]; auto.
        * eapply i_one; eassumption.
        * injection E2 as ->. exfalso. eapply active_none; eassumption.
        * injection E1 as ->. exfalso. eapply active_none; eassumption.
      + intros k r' Hk. eapply ended_mono; [exact Hmono|]. eapply i_cache; eassumption.
      + intros k Hk Hn. apply noted_cons in Hn; [|intros; discriminate]. eapply i_none; eassumption.
      + intros q gq r' Hq. sp q p.
        * intros [(g & pn & H)|[(g & H)|H]]; discriminate.
        * intros H. eapply ended_mono; [exact Hmono|]. eapply i_ret; eassumption.
      + intros q gq Hq. sp q p; [discriminate|]. intros H. destruct (i_miss _ I q gq Hq H) as (la & lb & E & Hn).
        rewrite E. eexists (_ :: la), lb. split; [reflexivity|exact Hn].
      + intros l1 q e l2 E. apply cons_split in E as [(-> & Eq & <-)|(l1' & -> & E)].
        * injection Eq as <- <-. exists gr. split; [exact Hocc|].
          destruct (i_ready _ I p) as (gr' & Ho & Hr); [congruence|]. assert (gr' = gr) by congruence; subst gr'.
          split.
          -- intros i s Hi. apply (i_ret _ I (p ++ [i]) s).
             ++ assert (G : forall gs p gr i s, group_at gs p = Some gr -> nth_error (starts gr) i = Some s ->
                              group_at gs (p ++ [i]) = Some s).
                { clear. intros gs p; revert gs; induction p as [|x p IH]; intros gs gr i s H Hi; [discriminate|].
                  simpl in H |- *. destruct (nth_error gs x) as [g|]; [|discriminate].
                  destruct p as [|y p].
                  - injection H as ->. simpl. rewrite Hi. reflexivity.
                  - change ((y :: p) ++ [i]) with (y :: (p ++ [i])). apply (IH _ gr i s H Hi). }
                eapply G; eassumption.
             ++ right; right. exact (Hr i s Hi).
          -- apply (i_miss _ I p gr Hocc Hph).
        * apply (i_log _ I l1' q e l2 E).
      + intros k. cnt.
        destruct (String.eqb_spec (key (end_of gr)) k) as [Ek|Ek]; simpl.
        * destruct (i_count _ I k) as [[H1 H2]|[H1 (q & gq & g & Hq & Hk & Hr)]].
          -- right. split; [lia|]. exists p, gr, (length (flights st)). rewrite set_same. auto.
          -- exfalso. assert (Hl : leader (phase_of st q) = Some g) by (rewrite Hr; reflexivity).
             pose proof (i_leader _ I q gq g Hq Hl) as Hn. rewrite Hk, <- Ek in Hn.
             eapply active_none; eassumption.
        * destruct (i_count _ I k) as [[H1 H2]|[H1 (q & gq & g & Hq & Hk & Hr)]].
          -- left. split; [lia|]. intros q gq g Hq Hk. sp q p; [|eapply H2; eassumption].
             exfalso; apply Ek. congruence.
          -- right. split; [lia|]. exists q, gq, g. repeat split; auto. rewrite set_other; [exact Hr|congruence].
    - (* body ends *)
      assert (L : forall q, leader (set_phase st p (Returned f r pn) q) = leader (phase_of st q))
        by (apply leaders_keep with f; [reflexivity|rewrite Hph; reflexivity]).
      constructor; simpl; auto.
      + intros q gq g Hq Hl. rewrite L in Hl. eapply i_leader; eassumption.
      + intros q1 q2 g H1 H2. rewrite L in *. eapply i_uniq; eassumption.
      + intros q gq g Hq. sp q p; [discriminate|]. eapply i_wait; eassumption.
      + intros g k r' Hf. eapply ended_mono; [exact Hmono|]. eapply i_fin; eassumption.
      + intros g k Hf. destruct (i_act _ I g k Hf) as (q & gq & H1 & H2 & H3). exists q, gq. rewrite L. auto.
      + exact (i_one _ I).
      + intros k r' Hk. eapply ended_mono; [exact Hmono|]. eapply i_cache; eassumption.
      + intros k Hk Hn. apply noted_cons in Hn; [|intros; discriminate]. eapply i_none; eassumption.
      + intros q gq r' Hq. sp q p.
        * intros [(g & pn' & H)|[(g & H)|H]]; try discriminate. injection H as <- <- <-.
          assert (gq = gr) by congruence; subst gq. exists p, (end_of gr). split; [reflexivity|left; reflexivity].
        * intros H. eapply ended_mono; [exact Hmono|]. eapply i_ret; eassumption.
      + intros q gq Hq. sp q p; [discriminate|]. intros H. destruct (i_miss _ I q gq Hq H) as (la & lb & E & Hn).
        rewrite E. eexists (_ :: la), lb. split; [reflexivity|exact Hn].
      + apply start_ok_cons; [discriminate|]. apply (i_log _ I).
      + intros k. cnt.
        destruct (String.eqb_spec (key (end_of gr)) k) as [Ek|Ek]; simpl.
        * destruct (i_count _ I k) as [[H1 H2]|[H1 (q & gq & g & Hq & Hk & Hr)]].
          -- exfalso. apply (H2 p gr f Hocc Ek Hph).
          -- left. split; [lia|]. intros q' gq' g' Hq' Hk'. sp q' p; [discriminate|]. intros Hr'.
             assert (E : q' = p); [|congruence].
             assert (Hl : leader (phase_of st p) = Some f) by (rewrite Hph; reflexivity).
             assert (Hl' : leader (phase_of st q') = Some g') by (rewrite Hr'; reflexivity).
             pose proof (i_leader _ I p gr f Hocc Hl) as Hn. pose proof (i_leader _ I q' gq' g' Hq' Hl') as Hn'.
             rewrite Ek in Hn. rewrite Hk' in Hn'. pose proof (i_one _ I f g' k Hn Hn') as ->.
             eapply i_uniq; eassumption.
        * destruct (i_count _ I k) as [[H1 H2]|[H1 (q & gq & g & Hq & Hk & Hr)]].
          -- left. split; [lia|]. intros q gq g Hq Hk. sp q p; [discriminate|]. eapply H2; eassumption.
          -- right. split; [lia|]. exists q, gq, g. repeat split; auto. rewrite set_other; [exact Hr|]. intros ->.
             apply Ek. congruence.
    - (* panic *)
      assert (L : forall q, leader (set_phase st p (Closing f r) q) = leader (phase_of st q))
        by (apply leaders_keep with f; [reflexivity|rewrite Hph; reflexivity]).
      constructor; simpl; auto.
      + intros q gq g Hq Hl. rewrite L in Hl. eapply i_leader; eassumption.
      + intros q1 q2 g H1 H2. rewrite L in *. eapply i_uniq; eassumption.
      + intros q gq g Hq. sp q p; [discriminate|]. eapply i_wait; eassumption.
      + exact (i_fin _ I).
      + intros g k Hf. destruct (i_act _ I g k Hf) as (q & gq & H1 & H2 & H3). exists q, gq. rewrite L. auto.
      + exact (i_one _ I).
      + exact (i_cache _ I).
      + exact (i_none _ I).
      + intros q gq r' Hq. sp q p.
        * intros [(g & pn' & H)|[(g & H)|H]]; try discriminate. injection H as <- <-.
          apply (i_ret _ I p gq r Hq). left. exists f, true. exact Hph.
        * eapply i_ret; eassumption.
      + intros q gq Hq. sp q p; [discriminate|]. eapply i_miss; eassumption.
      + apply (i_log _ I).
      + intros k. destruct (i_count _ I k) as [[H1 H2]|[H1 (q & gq & g & Hq & Hk & Hr)]].
        * left; split; [exact H1|]. intros q gq g Hq Hk. sp q p; [discriminate|]. eapply H2; eassumption.
        * right; split; [exact H1|]. exists q, gq, g. repeat split; auto. rewrite set_other; [exact Hr|congruence].
    - (* record *)
      assert (L : forall q, leader (set_phase st p (Closing f r) q) = leader (phase_of st q))
        by (apply leaders_keep with f; [reflexivity|rewrite Hph; reflexivity]).
      constructor; simpl; auto.
      + intros q gq g Hq Hl. rewrite L in Hl. eapply i_leader; eassumption.
      + intros q1 q2 g H1 H2. rewrite L in *. eapply i_uniq; eassumption.
      + intros q gq g Hq. sp q p; [discriminate|]. eapply i_wait; eassumption.
      + intros g k r' Hf. eapply ended_mono; [exact Hmono|]. eapply i_fin; eassumption.
      + intros g k Hf. destruct (i_act _ I g k Hf) as (q & gq & H1 & H2 & H3). exists q, gq. rewrite L. auto.
      + exact (i_one _ I).
      + intros k r' Hk. eapply ended_mono; [exact Hmono|]. revert Hk. destruct (String.eqb_spec k (key (end_of gr))) as [->|E]; intros Hk.
        * injection Hk as <-. apply (i_ret _ I p gr r Hocc). left; exists f, false; exact Hph.
        * eapply i_cache; eassumption.
      + intros k Hk (q & e & r' & He & Hin). revert Hk.
        destruct (String.eqb_spec k (key (end_of gr))) as [->|E]; [discriminate|]. intros Hk. destruct Hin as [Hin|Hin].
        * injection Hin as <- <- <-. apply E. symmetry. exact He.
        * apply (i_none _ I k Hk). exists q, e, r'; auto.
      + intros q gq r' Hq. sp q p.
        * intros [(g & pn' & H)|[(g & H)|H]]; try discriminate. injection H as <- <-.
          eapply ended_mono; [exact Hmono|]. apply (i_ret _ I p gq r Hq). left. exists f, false. exact Hph.
        * intros H. eapply ended_mono; [exact Hmono|]. eapply i_ret; eassumption.
      + intros q gq Hq. sp q p; [discriminate|]. intros H. destruct (i_miss _ I q gq Hq H) as (la & lb & E & Hn).
        rewrite E. eexists (_ :: la), lb. split; [reflexivity|exact Hn].
      + apply start_ok_cons; [discriminate|]. apply (i_log _ I).
      + intros k. cnt.
        destruct (i_count _ I k) as [[H1 H2]|[H1 (q & gq & g & Hq & Hk & Hr)]].
        * left; split; [exact H1|]. intros q gq g Hq Hk. sp q p; [discriminate|]. eapply H2; eassumption.
        * right; split; [exact H1|]. exists q, gq, g. repeat split; auto. rewrite set_other; [exact Hr|congruence].
    - (* close *)
      assert (Hlead : leader (phase_of st p) = Some f) by (rewrite Hph; reflexivity).
      pose proof (i_leader _ I p gr f Hocc Hlead) as Hfl.
      assert (Hother : forall q g, q <> p -> leader (phase_of st q) = Some g -> g <> f).
      { intros q g Hq Hg ->. apply Hq. eapply i_uniq; eassumption. }
      constructor; simpl; auto.
      + intros q gq g Hq. sp q p; [discriminate|]. intros Hl. rewrite finish_nth.
        destruct (Nat.eqb_spec g f) as [->|_]; [exfalso; eapply Hother; eauto|]. eapply i_leader; eassumption.
      + intros q1 q2 g. sp q1 p; [discriminate|]. sp q2 p; [discriminate|]. apply (i_uniq _ I).
      + intros q gq g Hq. sp q p; [discriminate|]. intros H. destruct (i_wait _ I q gq g Hq H) as [r' Hr'].
        rewrite finish_nth, Hr'. destruct (Nat.eqb g f); simpl; eauto.
      + intros g k r' Hf. rewrite finish_nth in Hf. eapply ended_mono; [exact Hmono|].
        destruct (Nat.eqb_spec g f) as [->|_]; [|eapply i_fin; eassumption].
        rewrite Hfl in Hf. injection Hf as <- <-. apply (i_ret _ I p gr r Hocc). right; left; exists f; exact Hph.
      + intros g k Hf. rewrite finish_nth in Hf. destruct (Nat.eqb_spec g f) as [->|Hne].
        * rewrite Hfl in Hf. discriminate.
        * destruct (i_act _ I g k Hf) as (q & gq & H1 & H2 & H3). exists q, gq. repeat split; auto.
          rewrite set_other; [exact H3|]. intros ->. congruence.
      + intros g h k H1 H2. rewrite finish_nth in H1, H2.
        destruct (Nat.eqb_spec g f) as [->|_]; [rewrite Hfl in H1; discriminate|].
        destruct (Nat.eqb_spec h f) as [->|_]; [rewrite Hfl in H2; discriminate|]. eapply i_one; eassumption.
      + intros k r' Hk. eapply ended_mono; [exact Hmono|]. eapply i_cache; eassumption.
      + intros k Hk Hn. apply noted_cons in Hn; [|intros; discriminate]. eapply i_none; eassumption.
      + intros q gq r' Hq. sp q p.
        * intros [(g & pn' & H)|[(g & H)|H]]; try discriminate. injection H as <-.
          eapply ended_mono; [exact Hmono|]. apply (i_ret _ I p gq r Hq). right; left; exists f. exact Hph.
        * intros H. eapply ended_mono; [exact Hmono|]. eapply i_ret; eassumption.
      + intros q gq Hq. sp q p; [discriminate|]. intros H. destruct (i_miss _ I q gq Hq H) as (la & lb & E & Hn).
        rewrite E. eexists (_ :: la), lb. split; [reflexivity|exact Hn].
      + apply start_ok_cons; [discriminate|]. apply (i_log _ I).
      + intros k. cnt.
        destruct (i_count _ I k) as [[H1 H2]|[H1 (q & gq & g & Hq & Hk & Hr)]].
        * left; split; [exact H1|]. intros q gq g Hq Hk. sp q p; [discriminate|]. eapply H2; eassumption.
        * right; split; [exact H1|]. exists q, gq, g. repeat split; auto. rewrite set_other; [exact Hr|congruence].
    - (* wake *)
      assert (L : forall q, leader (set_phase st p (Done r) q) = leader (phase_of st q))
        by (apply leaders_same; [reflexivity|rewrite Hph; reflexivity]).
      constructor; simpl; auto.
      + intros q gq g Hq Hl. rewrite L in Hl. eapply i_leader; eassumption.
      + intros q1 q2 g H1 H2. rewrite L in *. eapply i_uniq; eassumption.
      + intros q gq g Hq. sp q p; [discriminate|]. eapply i_wait; eassumption.
      + intros g k' r' Hf'. eapply ended_mono; [exact Hmono|]. eapply i_fin; eassumption.
      + intros g k' Hf'. destruct (i_act _ I g k' Hf') as (q & gq & H1 & H2 & H3). exists q, gq. rewrite L. auto.
      + exact (i_one _ I).
      + intros k' r' Hk. eapply ended_mono; [exact Hmono|]. eapply i_cache; eassumption.
      + intros k' Hk Hn. apply noted_cons in Hn; [|intros; discriminate]. eapply i_none; eassumption.
      + intros q gq r' Hq. sp q p.
        * intros [(g & pn & H)|[(g & H)|H]]; try discriminate. injection H as <-.
          assert (gq = gr) by congruence; subst gq. eapply ended_mono; [exact Hmono|].
          destruct (i_wait _ I p gr f Hocc Hph) as [r0 Hr0]. rewrite Hf in Hr0. injection Hr0 as -> _.
          eapply i_fin; eassumption.
        * intros H. eapply ended_mono; [exact Hmono|]. eapply i_ret; eassumption.
      + intros q gq Hq. sp q p; [discriminate|]. intros H. destruct (i_miss _ I q gq Hq H) as (la & lb & E & Hn).
        rewrite E. eexists (_ :: la), lb. split; [reflexivity|exact Hn].
      + apply start_ok_cons; [discriminate|]. apply (i_log _ I).
      + intros k'. cnt.
        destruct (i_count _ I k') as [[H1 H2]|[H1 (q & gq & g & Hq & Hk & Hr)]].
        * left; split; [exact H1|]. intros q gq g Hq Hk. sp q p; [discriminate|]. eapply H2; eassumption.
        * right; split; [exact H1|]. exists q, gq, g. repeat split; auto. rewrite set_other; [exact Hr|congruence].
  Qed.

  Theorem inv_run sc : forall st st', inv st -> run gs key sc st = Some st' -> inv st'.
  Proof.
    induction sc as [|[p c] sc IH]; simpl; intros st st' I H; [injection H as <-; exact I|].
    destruct (step gs key p c st) as [st1|] eqn:E; [|discriminate].
    eapply IH; [eapply inv_step; eassumption|exact H].
  Qed.
End Inv.
