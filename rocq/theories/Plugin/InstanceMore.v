(** Progress, hangs and panics of a plugin instance. *)
From Coq Require Import List Bool Arith Lia.
From Verif.Plugin Require Import Instance InstanceSpec InstanceProofs.
Import ListNotations.

Section More.
  Variable V : Type.
  Variable v0 : V.
  Notation state := (state V).
  Notation Inv := (Inv V). Notation shape := (shape V).

  Lemma runs_app (s : state) a b : runs s (a ++ b) = match runs s a with Some s' => runs s' b | None => None end.
  Proof. revert s. induction a as [|ev a IH]; intros s; cbn [runs app]; [reflexivity|]. destruct (step s ev); auto. Qed.

  Definition rank (s : state) (h : tid) : nat :=
    match th s h with
    | InWrite _ w => if existsb (Nat.eqb w) (consumed s) then 5 else 6
    | InRead _ => match plug s with Busy _ => 3 | Writing _ _ => 2 | _ => 1 end
    | _ => 0
    end.

  (** While the plugin lives, the holder of the lock, or the plugin working for it, can take a step. *)
  Lemma holder_step (s : state) h : Inv s -> plug s <> Dead -> lock s = Some h ->
    exists ev s', internal ev /\ step s ev = Some s' /\ plug s' <> Dead /\ (forall x, x <> h -> th s' x = th s x) /\
      ((lock s' = None /\ ended (th s' h)) \/ (lock s' = Some h /\ rank s' h < rank s h)).
  Proof.
    intros I Hp Hl. destruct (alive V s I Hp) as [Hm Hs]. unfold InstanceProofs.shape in Hs. rewrite Hl in Hs. unfold rank.
    destruct (th s h) as [| |o w|r|] eqn:Et; try contradiction.
    - destruct Hs as (Hr & [(Hw & Hni & Hpl)|(Hw & Hin & Hpl)]).
      + exists (Consume w). eexists. split; [exact Logic.I|]. split.
        { cbn [step]. rewrite Hpl, Hw. unfold lookup_write. cbn [find fst]. rewrite Nat.eqb_refl. reflexivity. }
        cbn [plug th lock consumed]. rewrite Et.
        split; [destruct o; discriminate|]. split; [reflexivity|]. right. split; [exact Hl|]. cbn [existsb]. rewrite Nat.eqb_refl. cbn [orb].
        destruct (existsb (Nat.eqb w) (consumed s)) eqn:E; [apply existsb_in in E; contradiction|lia].
      + apply existsb_in in Hin. exists (WriteOk h). eexists. split; [exact Logic.I|]. split.
        { cbn [step]. rewrite Et, Hin. reflexivity. }
        assert (Hcl : closed s = false) by (destruct (closed s) eqn:E; [pose proof (free V s I E); congruence|reflexivity]).
        rewrite Hin. destruct o; cbn [after_write].
        * unfold start_read. rewrite Hcl. cbn [plug th lock]. split; [exact Hp|]. split; [intros x Hx; apply set_th_other, Hx|].
          right. split; [exact Hl|]. rewrite set_th_same. destruct (plug s); lia.
        * destruct (gc_closed s); cbn [finish set_closed set_gc_closed set_panicked plug th lock];
            (split; [exact Hp|]); (split; [intros x Hx; apply set_th_other, Hx|]); left; rewrite set_th_same; cbn; auto.
        * cbn [finish plug th lock]. split; [exact Hp|]. split; [intros x Hx; apply set_th_other, Hx|].
          left. rewrite set_th_same. cbn. auto.
    - destruct Hs as (Hw & [(Hr & Hni & [Hpl|[v Hpl]])|(Hr & [v Hin] & Hpl)]).
      + exists (Answer v0). eexists. split; [exact Logic.I|]. split; [cbn [step]; rewrite Hpl; reflexivity|].
        cbn [plug th lock]. rewrite Et, Hpl. split; [discriminate|]. split; [reflexivity|]. right. split; [exact Hl|lia].
      + exists (Deliver r). eexists. split; [exact Logic.I|]. split.
        { cbn [step]. rewrite Hpl, Hr. cbn [existsb]. rewrite Nat.eqb_refl. reflexivity. }
        cbn [plug th lock]. rewrite Et, Hpl. split; [discriminate|]. split; [reflexivity|]. right. split; [exact Hl|lia].
      + destruct (lookup_got_some V _ _ _ Hin) as [[q v'] Hg]. exists (ReadOk h). eexists. split; [exact Logic.I|].
        split; [cbn [step]; rewrite Et, Hg; reflexivity|]. cbn [finish plug th lock]. split; [exact Hp|].
        split; [intros x Hx; apply set_th_other, Hx|]. left. rewrite set_th_same. cbn. auto.
  Qed.

  Lemma holder_finishes (s : state) h : Inv s -> plug s <> Dead -> lock s = Some h ->
    exists evs s', Forall internal evs /\ runs s evs = Some s' /\ plug s' <> Dead /\ lock s' = None /\ ended (th s' h) /\
      (forall x, x <> h -> th s' x = th s x).
  Proof.
    remember (rank s h) as n eqn:En. revert s En. induction n as [n IH] using lt_wf_ind. intros s En I Hp Hl.
    destruct (holder_step s h I Hp Hl) as (ev & s1 & Hi & Hst & Hp1 & Ho & [[Hl1 He]|[Hl1 Hr]]).
    - exists [ev], s1. split; [auto|]. split; [cbn [runs]; rewrite Hst; reflexivity|]. auto.
    - destruct (IH (rank s1 h)) with (s := s1) as (evs & s2 & Hf & Hrun & Hp2 & Hl2 & He2 & Ho2); auto.
      + subst n. exact Hr.
      + eapply step_inv; eassumption.
      + exists (ev :: evs), s2. split; [constructor; assumption|]. split; [cbn [runs]; rewrite Hst; exact Hrun|].
        split; [exact Hp2|]. split; [exact Hl2|]. split; [exact He2|].
        intros x Hx. rewrite Ho2 by exact Hx. apply Ho, Hx.
  Qed.

  Lemma pending_finishes (s : state) t : Inv s -> plug s <> Dead -> pending (th s t) ->
    exists evs s', Forall internal evs /\ runs s evs = Some s' /\ ended (th s' t).
  Proof.
    intros I Hp Ht.
    assert (K : forall s, Inv s -> plug s <> Dead -> lock s = None -> pending (th s t) ->
                exists evs s', Forall internal evs /\ runs s evs = Some s' /\ ended (th s' t)).
    { clear s I Hp Ht. intros s I Hp Hl Ht. destruct (th s t) as [|o|o w|r|] eqn:Et; try contradiction.
      - destruct (closed s) eqn:Ec.
        + exists [Acquire t]. eexists. split; [repeat constructor|]. split; [cbn [runs step]; rewrite Et, Hl, Ec; reflexivity|].
          destruct o; cbn [after_write]; [unfold start_read; rewrite Ec|destruct (gc_closed s)|];
            cbn [finish set_closed set_gc_closed set_panicked th]; rewrite set_th_same; exact Logic.I.
        + destruct (step s (Acquire t)) as [s1|] eqn:Est; [|cbn [step] in Est; rewrite Et, Hl, Ec in Est; discriminate].
          assert (I1 : Inv s1) by (eapply step_inv; eassumption).
          assert (Hl1 : lock s1 = Some t /\ plug s1 = plug s).
          { cbn [step] in Est. rewrite Et, Hl, Ec in Est. injection Est as <-. split; reflexivity. }
          destruct (holder_finishes s1 t I1) as (evs & s2 & Hf & Hrun & _ & _ & He & _); [destruct Hl1; congruence|apply Hl1|].
          exists (Acquire t :: evs), s2. split; [constructor; [exact Logic.I|exact Hf]|]. split; [|exact He].
          cbn [runs]. rewrite Est. exact Hrun.
      - pose proof (holder V s I t). rewrite Et in H. cbn in H. rewrite (H Logic.I) in Hl. discriminate.
      - pose proof (holder V s I t). rewrite Et in H. cbn in H. rewrite (H Logic.I) in Hl. discriminate. }
    destruct (lock s) as [h|] eqn:Hl; [|apply K; assumption].
    destruct (holder_finishes s h I Hp Hl) as (evs & s1 & Hf & Hrun & Hp1 & Hl1 & He & Ho).
    destruct (Nat.eq_dec t h) as [->|Hn]; [exists evs, s1; auto|].
    destruct (K s1) as (evs2 & s2 & Hf2 & Hrun2 & He2); auto.
    - eapply runs_inv; eassumption.
    - rewrite Ho by exact Hn. exact Ht.
    - exists (evs ++ evs2), s2. split; [apply Forall_app; auto|]. split; [|exact He2]. rewrite runs_app, Hrun. exact Hrun2.
  Qed.

  (** No deadlock as long as recvContent has not taken the plugin's exit. *)
  Lemma no_deadlock (s : state) t : Inv s -> drained s = false -> pending (th s t) ->
    exists ev s', internal ev /\ step s ev = Some s'.
  Proof.
    intros I Hd Ht. destruct (lock s) as [h|] eqn:Hl.
    - destruct (plug s) eqn:Hp;
        try (destruct (holder_step s h I) as (ev & s' & H1 & H2 & _); [congruence|exact Hl|exists ev, s'; auto]; fail).
      assert (Hm : exists e, mod_err s = Some e).
      { destruct (mod_err s) as [e|] eqn:E; [eauto|]. destruct (dead V s I Hp E) as [H|H]; [congruence|].
        pose proof (free V s I H). congruence. }
      destruct Hm as [e He]. pose proof (locked V s I h Hl) as Ha. destruct (th s h) as [| |o w|r|] eqn:Eh; try contradiction.
      + exists (WriteErr h). eexists. split; [exact Logic.I|]. cbn [step]. rewrite Eh, He. reflexivity.
      + exists (ReadErr h). eexists. split; [exact Logic.I|]. cbn [step]. rewrite Eh, He. reflexivity.
    - destruct (th s t) as [|o|o w|r|] eqn:Et; try contradiction.
      + exists (Acquire t). destruct (closed s) eqn:Ec; eexists; (split; [exact Logic.I|]); cbn [step]; rewrite Et, Hl, Ec; reflexivity.
      + pose proof (holder V s I t). rewrite Et in H. cbn in H. rewrite (H Logic.I) in Hl. discriminate.
      + pose proof (holder V s I t). rewrite Et in H. cbn in H. rewrite (H Logic.I) in Hl. discriminate.
  Qed.

  (** A write that nobody will ever read, with the lock held. *)
  Definition stuck (s : state) (h : tid) : Prop :=
    Inv s /\ plug s = Dead /\ mod_err s = None /\ lock s = Some h /\ exists o w, th s h = InWrite o w /\ ~ In w (consumed s).
  Lemma stuck_step (s s' : state) h ev : stuck s h -> step s ev = Some s' ->
    stuck s' h /\ (forall x o, th s x = Waiting o -> th s' x = Waiting o).
  Proof.
    intros (I & Hp & Hm & Hl & o & w & Et & Hw) H. assert (I' : Inv s') by (eapply step_inv; eassumption).
    destruct ev as [t o'| | |t|t|t|t|t|w'|v|r|e]; cbn [step] in H.
    - destruct (th s t) eqn:E; try discriminate H. destruct o'; try discriminate H; destruct t as [|t]; try discriminate H; injection H as <-;
      (split; [split; [exact I'|]; cbn [plug mod_err lock th consumed]; repeat split; auto; exists o, w;
        rewrite set_th_other by congruence; auto|intros x o2 Hx; cbn [th]; rewrite set_th_other by congruence; exact Hx]).
    - destruct (gc_closed s); injection H as <-; (split; [split; [exact I'|]; cbn [set_panicked plug mod_err lock th consumed]; repeat split; auto; exists o, w; auto|]); auto.
    - destruct (th s 0) eqn:E; try discriminate H. destruct (gc_full s); [|discriminate H]. injection H as <-.
      split; [split; [exact I'|]; cbn [plug mod_err lock th consumed]; repeat split; auto; exists o, w;
        rewrite set_th_other by congruence; auto|intros x o2 Hx; cbn [th]; rewrite set_th_other by congruence; exact Hx].
    - rewrite Hl in H. destruct (th s t); discriminate H.
    - rewrite Hm in H. destruct (th s t); discriminate H.
    - destruct (th s t) as [| |o' w'| |] eqn:E; try discriminate H. destruct (existsb _ _) eqn:Ee; [|discriminate H]. apply existsb_in in Ee.
      assert (Ht : lock s = Some t) by (apply (holder V s I); rewrite E; exact Logic.I). congruence.
    - rewrite Hm in H. destruct (th s t); discriminate H.
    - destruct (th s t) as [| | |r|] eqn:E; try discriminate H.
      assert (Ht : lock s = Some t) by (apply (holder V s I); rewrite E; exact Logic.I). congruence.
    - rewrite Hp in H. discriminate H.
    - rewrite Hp in H. discriminate H.
    - rewrite Hp in H. discriminate H.
    - rewrite Hp in H. discriminate H.
  Qed.
  Lemma stuck_runs (s s' : state) h evs : stuck s h -> runs s evs = Some s' ->
    stuck s' h /\ (forall x o, th s x = Waiting o -> th s' x = Waiting o).
  Proof.
    revert s. induction evs as [|ev evs IH]; intros s Hs; cbn [runs]; [intros [= <-]; auto|].
    destruct (step s ev) as [s1|] eqn:E; [|discriminate]. intros H.
    destruct (stuck_step _ _ _ _ Hs E) as [H1 H2]. destruct (IH s1 H1 H) as [H3 H4]. split; [exact H3|]. eauto.
  Qed.
  Lemma stuck_hangs (s : state) h : stuck s h ->
    hangs s h /\ (forall x o, th s x = Waiting o -> hangs s x).
  Proof.
    intros Hs. split; [split|].
    - destruct Hs as (_ & _ & _ & _ & o & w & Et & _). rewrite Et. exact Logic.I.
    - intros evs s' H. destruct (stuck_runs _ _ _ _ Hs H) as [(_ & _ & _ & _ & o & w & Et & _) _]. rewrite Et. exact Logic.I.
    - intros x o Hx. split; [rewrite Hx; exact Logic.I|]. intros evs s' H. destruct (stuck_runs _ _ _ _ Hs H) as [_ Hw].
      rewrite (Hw x o Hx). exact Logic.I.
  Qed.

  (** Panics. *)
  Record PInv (evs : list (event V)) (s : state) : Prop := {
    p_closing : forall t, th s t = Waiting OClose \/ (exists w, th s t = InWrite OClose w) -> In (Start t OClose) evs;
    p_gc : gc_closed s = true -> exists t e, In (Start t OClose) evs /\ th s t = Finished e;
    p_panic : panicked s = true -> closed_twice evs \/ gc_after_close evs
  }.
  Lemma closed_twice_app (a b : list (event V)) : closed_twice a -> closed_twice (a ++ b).
  Proof. intros (t1 & t2 & H & H1 & H2). exists t1, t2. rewrite !in_app_iff. auto. Qed.
  Lemma gc_after_close_app (a b : list (event V)) : gc_after_close a -> gc_after_close (a ++ b).
  Proof. intros (pre & post & t & -> & H). exists pre, (post ++ b), t. split; [|exact H]. rewrite <- app_assoc. reflexivity. Qed.

  (** A thread that was not closing before and leaves. *)
  Lemma pinv_mono (evs : list (event V)) ev s s' : PInv evs s ->
    (forall t, th s' t = Waiting OClose \/ (exists w, th s' t = InWrite OClose w) ->
       ev = Start t OClose \/ th s t = Waiting OClose \/ (exists w, th s t = InWrite OClose w)) ->
    (forall t e, th s t = Finished e -> th s' t = Finished e) ->
    (gc_closed s' = true -> gc_closed s = true \/
       exists t e, (th s t = Waiting OClose \/ exists w, th s t = InWrite OClose w) /\ th s' t = Finished e) ->
    (panicked s' = true -> panicked s = true \/ (gc_closed s = true /\
       (ev = CallGC \/ exists t, th s t = Waiting OClose \/ exists w, th s t = InWrite OClose w))) ->
    PInv (evs ++ [ev]) s'.
  Proof.
    intros I H1 H2 H3 H4. split.
    - intros t Ht. rewrite in_app_iff. destruct (H1 t Ht) as [->|H]; [right; left; reflexivity|left; exact (p_closing _ _ I t H)].
    - intros Hg. destruct (H3 Hg) as [H|(t & e & Ht & He)].
      + destruct (p_gc _ _ I H) as (t & e & Hin & He). exists t, e. rewrite in_app_iff. auto.
      + exists t, e. rewrite in_app_iff. split; [left; exact (p_closing _ _ I t Ht)|exact He].
    - intros Hp. destruct (H4 Hp) as [H|[Hg [->|[t Ht]]]].
      + destruct (p_panic _ _ I H) as [Hc|Hc]; [left; apply closed_twice_app, Hc|right; apply gc_after_close_app, Hc].
      + right. destruct (p_gc _ _ I Hg) as (t & e & Hin & _). exists evs, [], t. auto.
      + left. destruct (p_gc _ _ I Hg) as (t1 & e & Hin & He). exists t1, t. split; [|split].
        * intros <-. rewrite He in Ht. destruct Ht as [Ht|[w Ht]]; discriminate.
        * rewrite in_app_iff. auto.
        * rewrite in_app_iff. left. exact (p_closing _ _ I t Ht).
  Qed.

  Lemma finish_th_fin (s : state) t p x e : th s t <> Finished e \/ x <> t -> th s x = Finished e -> set_th (th s) t p x = Finished e.
  Proof. intros H Hx. rewrite set_th_other; [exact Hx|]. intros ->. destruct H; congruence. Qed.

  Lemma pinv_step (evs : list (event V)) ev s s' : PInv evs s -> step s ev = Some s' -> PInv (evs ++ [ev]) s'.
  Proof.
    intros I H. eapply pinv_mono; [exact I| | | |].
    - intros x Hx. destruct ev as [t o| | |t|t|t|t|t|w'|v|r|e]; cbn [step] in H.
      + destruct (th s t) eqn:E; try discriminate H. destruct o; try discriminate H; destruct t as [|t]; try discriminate H; injection H as <-;
          cbn [th] in Hx; (destruct (Nat.eq_dec x (S t)) as [->|Hn]; [rewrite set_th_same in Hx|rewrite set_th_other in Hx by exact Hn; auto]);
          destruct Hx as [Hx|[w Hx]]; try discriminate Hx; auto.
      + destruct (gc_closed s); injection H as <-; cbn [set_panicked th] in Hx; auto.
      + destruct (th s 0) eqn:E; try discriminate H. destruct (gc_full s); [|discriminate H]. injection H as <-. cbn [th] in Hx.
        destruct (Nat.eq_dec x 0) as [->|Hn]; [rewrite set_th_same in Hx|rewrite set_th_other in Hx by exact Hn; auto].
        destruct Hx as [Hx|[w Hx]]; discriminate Hx.
      + destruct (th s t) as [|o| | |] eqn:E; try discriminate H. destruct (lock s); try discriminate H.
        destruct (Nat.eq_dec x t) as [->|Hn].
        * destruct (closed s) eqn:Ec; injection H as <-.
          -- destruct o; cbn [after_write] in Hx; [unfold start_read in Hx; rewrite Ec in Hx|destruct (gc_closed s)|];
               cbn [finish set_closed set_gc_closed set_panicked th] in Hx; rewrite set_th_same in Hx; destruct Hx as [Hx|[w Hx]]; discriminate Hx.
          -- cbn [th] in Hx. rewrite set_th_same in Hx. destruct Hx as [Hx|[w Hx]]; [discriminate Hx|]. injection Hx as -> _. auto.
        * assert (Eo : th s' x = th s x).
          { destruct (closed s) eqn:Ec; injection H as <-; [|apply set_th_other, Hn].
            destruct o; cbn [after_write]; [unfold start_read; rewrite Ec|destruct (gc_closed s)|];
              cbn [finish set_closed set_gc_closed set_panicked th]; apply set_th_other, Hn. }
          rewrite Eo in Hx. auto.
      + destruct (th s t) as [| |o w| |] eqn:E; try discriminate H. destruct (mod_err s) as [e|]; try discriminate H. injection H as <-.
        destruct (Nat.eq_dec x t) as [->|Hn].
        * destruct o; cbn [after_write] in Hx;
            [destruct e; [|unfold start_read in Hx; cbn [closed set_closed] in Hx]
            |destruct e; [|cbn [gc_closed set_closed take_err] in Hx; destruct (gc_closed s)]|];
            cbn [finish set_closed set_gc_closed set_panicked take_err th] in Hx; rewrite set_th_same in Hx; destruct Hx as [Hx|[w' Hx]]; discriminate Hx.
        * assert (Eo : th (after_write (set_closed (take_err s)) t o e) x = th s x).
          { destruct o; cbn [after_write];
            [destruct e; [|unfold start_read; cbn [closed set_closed]]
            |destruct e; [|cbn [gc_closed set_closed take_err]; destruct (gc_closed s)]|];
            cbn [finish set_closed set_gc_closed set_panicked take_err th]; apply set_th_other, Hn. }
          rewrite Eo in Hx. auto.
      + destruct (th s t) as [| |o w| |] eqn:E; try discriminate H. destruct (existsb _ _); [|discriminate H]. injection H as <-.
        destruct (Nat.eq_dec x t) as [->|Hn].
        * destruct o; cbn [after_write] in Hx; [unfold start_read in Hx; destruct (closed s)|destruct (gc_closed s)|];
            cbn [finish set_closed set_gc_closed set_panicked th] in Hx; rewrite set_th_same in Hx; destruct Hx as [Hx|[w' Hx]]; discriminate Hx.
        * assert (Eo : th (after_write s t o false) x = th s x).
          { destruct o; cbn [after_write]; [unfold start_read; destruct (closed s)|destruct (gc_closed s)|];
            cbn [finish set_closed set_gc_closed set_panicked th]; apply set_th_other, Hn. }
          rewrite Eo in Hx. auto.
      + destruct (th s t) eqn:E; try discriminate H. destruct (mod_err s); try discriminate H. injection H as <-.
        cbn [finish set_drained take_err th] in Hx. destruct (Nat.eq_dec x t) as [->|Hn];
          [rewrite set_th_same in Hx; destruct Hx as [Hx|[w Hx]]; discriminate Hx|rewrite set_th_other in Hx by exact Hn; auto].
      + destruct (th s t) eqn:E; try discriminate H. destruct (lookup_got r (got s)) as [[q v]|]; [|discriminate H]. injection H as <-.
        cbn [finish th] in Hx. destruct (Nat.eq_dec x t) as [->|Hn];
          [rewrite set_th_same in Hx; destruct Hx as [Hx|[w Hx]]; discriminate Hx|rewrite set_th_other in Hx by exact Hn; auto].
      + destruct (plug s); try discriminate H. destruct (lookup_write w' (writes s)); [|discriminate H]. injection H as <-. auto.
      + destruct (plug s); try discriminate H. injection H as <-. auto.
      + destruct (plug s); try discriminate H. destruct (existsb _ _); [|discriminate H]. injection H as <-. auto.
      + destruct (plug s); try discriminate H; injection H as <-; auto.
    - intros x e0 Hx. destruct ev as [t o| | |t|t|t|t|t|w'|v|r|e]; cbn [step] in H.
      + destruct (th s t) eqn:E; try discriminate H. destruct o; try discriminate H; destruct t as [|t]; try discriminate H; injection H as <-;
          cbn [th]; rewrite set_th_other by congruence; exact Hx.
      + destruct (gc_closed s); injection H as <-; exact Hx.
      + destruct (th s 0) eqn:E; try discriminate H. destruct (gc_full s); [|discriminate H]. injection H as <-. cbn [th].
        rewrite set_th_other by congruence. exact Hx.
      + destruct (th s t) as [|o| | |] eqn:E; try discriminate H. destruct (lock s); try discriminate H.
        destruct (closed s) eqn:Ec; injection H as <-; [|cbn [th]; rewrite set_th_other by congruence; exact Hx].
        destruct o; cbn [after_write]; [unfold start_read; rewrite Ec|destruct (gc_closed s)|];
          cbn [finish set_closed set_gc_closed set_panicked th]; rewrite set_th_other by congruence; exact Hx.
      + destruct (th s t) as [| |o w| |] eqn:E; try discriminate H. destruct (mod_err s) as [e|]; try discriminate H. injection H as <-.
        destruct o; cbn [after_write];
            [destruct e; [|unfold start_read; cbn [closed set_closed]]
            |destruct e; [|cbn [gc_closed set_closed take_err]; destruct (gc_closed s)]|];
            cbn [finish set_closed set_gc_closed set_panicked take_err th]; rewrite set_th_other by congruence; exact Hx.
      + destruct (th s t) as [| |o w| |] eqn:E; try discriminate H. destruct (existsb _ _); [|discriminate H]. injection H as <-.
        destruct o; cbn [after_write]; [unfold start_read; destruct (closed s)|destruct (gc_closed s)|];
            cbn [finish set_closed set_gc_closed set_panicked th]; rewrite set_th_other by congruence; exact Hx.
      + destruct (th s t) eqn:E; try discriminate H. destruct (mod_err s); try discriminate H. injection H as <-.
        cbn [finish set_drained take_err th]. rewrite set_th_other by congruence. exact Hx.
      + destruct (th s t) eqn:E; try discriminate H. destruct (lookup_got r (got s)) as [[q v]|]; [|discriminate H]. injection H as <-.
        cbn [finish th]. rewrite set_th_other by congruence. exact Hx.
      + destruct (plug s); try discriminate H. destruct (lookup_write w' (writes s)); [|discriminate H]. injection H as <-. exact Hx.
      + destruct (plug s); try discriminate H. injection H as <-. exact Hx.
      + destruct (plug s); try discriminate H. destruct (existsb _ _); [|discriminate H]. injection H as <-. exact Hx.
      + destruct (plug s); try discriminate H; injection H as <-; exact Hx.
    - intros Hg. destruct ev as [t o| | |t|t|t|t|t|w'|v|r|e]; cbn [step] in H.
      + destruct (th s t) eqn:E; try discriminate H. destruct o; try discriminate H; destruct t as [|t]; try discriminate H; injection H as <-; auto.
      + destruct (gc_closed s) eqn:E; injection H as <-; cbn [set_panicked gc_closed] in Hg; auto.
      + destruct (th s 0) eqn:E; try discriminate H. destruct (gc_full s); [|discriminate H]. injection H as <-. auto.
      + destruct (th s t) as [|o| | |] eqn:E; try discriminate H. destruct (lock s); try discriminate H.
        destruct (closed s) eqn:Ec; injection H as <-; [|auto].
        destruct o; cbn [after_write] in *; [unfold start_read in Hg; rewrite Ec in Hg; auto| |auto].
        destruct (gc_closed s) eqn:Eg; [auto|]. right. exists t, Closed. cbn [finish set_closed set_gc_closed th]. rewrite set_th_same. auto.
      + destruct (th s t) as [| |o w| |] eqn:E; try discriminate H. destruct (mod_err s) as [e|]; try discriminate H. injection H as <-.
        destruct o; cbn [after_write] in *; [destruct e; auto| |auto].
        destruct e; [auto|]. cbn [gc_closed set_closed take_err] in *. destruct (gc_closed s) eqn:Eg; [auto|]. right.
        exists t, Closed. cbn [finish set_closed set_gc_closed take_err th]. rewrite set_th_same. eauto.
      + destruct (th s t) as [| |o w| |] eqn:E; try discriminate H. destruct (existsb _ _); [|discriminate H]. injection H as <-.
        destruct o; cbn [after_write] in *; [unfold start_read in Hg; destruct (closed s); auto| |auto].
        destruct (gc_closed s) eqn:Eg; [auto|]. right. exists t, Closed. cbn [finish set_closed set_gc_closed th]. rewrite set_th_same. eauto.
      + destruct (th s t) eqn:E; try discriminate H. destruct (mod_err s); try discriminate H. injection H as <-. auto.
      + destruct (th s t) eqn:E; try discriminate H. destruct (lookup_got r (got s)) as [[q v]|]; [|discriminate H]. injection H as <-. auto.
      + destruct (plug s); try discriminate H. destruct (lookup_write w' (writes s)); [|discriminate H]. injection H as <-. auto.
      + destruct (plug s); try discriminate H. injection H as <-. auto.
      + destruct (plug s); try discriminate H. destruct (existsb _ _); [|discriminate H]. injection H as <-. auto.
      + destruct (plug s); try discriminate H; injection H as <-; auto.
    - intros Hp. destruct ev as [t o| | |t|t|t|t|t|w'|v|r|e]; cbn [step] in H.
      + destruct (th s t) eqn:E; try discriminate H. destruct o; try discriminate H; destruct t as [|t]; try discriminate H; injection H as <-; auto.
      + destruct (gc_closed s) eqn:E; injection H as <-; auto.
      + destruct (th s 0) eqn:E; try discriminate H. destruct (gc_full s); [|discriminate H]. injection H as <-. auto.
      + destruct (th s t) as [|o| | |] eqn:E; try discriminate H. destruct (lock s); try discriminate H.
        destruct (closed s) eqn:Ec; injection H as <-; [|auto].
        destruct o; cbn [after_write] in *; [unfold start_read in Hp; rewrite Ec in Hp; auto| |auto].
        destruct (gc_closed s) eqn:Eg; [|auto]. right. split; [reflexivity|]. right. exists t. auto.
      + destruct (th s t) as [| |o w| |] eqn:E; try discriminate H. destruct (mod_err s) as [e|]; try discriminate H. injection H as <-.
        destruct o; cbn [after_write] in *; [destruct e; auto| |auto].
        destruct e; [auto|]. cbn [gc_closed set_closed take_err] in *. destruct (gc_closed s) eqn:Eg; [|auto]. right. split; [reflexivity|].
        right. exists t. eauto.
      + destruct (th s t) as [| |o w| |] eqn:E; try discriminate H. destruct (existsb _ _); [|discriminate H]. injection H as <-.
        destruct o; cbn [after_write] in *; [unfold start_read in Hp; destruct (closed s); auto| |auto].
        destruct (gc_closed s) eqn:Eg; [|auto]. right. split; [reflexivity|]. right. exists t. eauto.
      + destruct (th s t) eqn:E; try discriminate H. destruct (mod_err s); try discriminate H. injection H as <-. auto.
      + destruct (th s t) eqn:E; try discriminate H. destruct (lookup_got r (got s)) as [[q v]|]; [|discriminate H]. injection H as <-. auto.
      + destruct (plug s); try discriminate H. destruct (lookup_write w' (writes s)); [|discriminate H]. injection H as <-. auto.
      + destruct (plug s); try discriminate H. injection H as <-. auto.
      + destruct (plug s); try discriminate H. destruct (existsb _ _); [|discriminate H]. injection H as <-. auto.
      + destruct (plug s); try discriminate H; injection H as <-; auto.
  Qed.

  Lemma pinv_runs evs (s : state) : runs init evs = Some s -> PInv evs s.
  Proof.
    revert s. induction evs as [|ev evs IH] using rev_ind; intros s.
    - cbn [runs]. intros [= <-]. split; cbn; try discriminate. intros t [H|[w H]]; discriminate.
    - rewrite runs_app. destruct (runs init evs) as [s1|]; [|discriminate]. cbn [runs].
      destruct (step s1 ev) as [s2|] eqn:E; [|discriminate]. intros [= <-]. eapply pinv_step; eauto.
  Qed.

  (** closed never becomes false again. *)
  Lemma after_write_closed (s : state) t o e : closed s = true -> closed (after_write s t o e) = true.
  Proof.
    intros H. destruct o; cbn [after_write]; [destruct e; [exact H|unfold start_read; rewrite H; exact H]| |exact H].
    destruct e; [reflexivity|]. destruct (gc_closed s); reflexivity.
  Qed.
  Lemma closed_stays (s s' : state) ev : closed s = true -> step s ev = Some s' -> closed s' = true.
  Proof.
    intros Hc H. destruct ev as [t o| | |t|t|t|t|t|w'|v|r|e]; cbn [step] in H.
    - destruct (th s t) eqn:E; try discriminate H. destruct o; try discriminate H; destruct t as [|t]; try discriminate H; injection H as <-; exact Hc.
    - destruct (gc_closed s); injection H as <-; exact Hc.
    - destruct (th s 0) eqn:E; try discriminate H. destruct (gc_full s); [|discriminate H]. injection H as <-. exact Hc.
    - destruct (th s t) as [|o| | |] eqn:E; try discriminate H. destruct (lock s); try discriminate H. rewrite Hc in H. injection H as <-.
      apply after_write_closed, Hc.
    - destruct (th s t) as [| |o w| |] eqn:E; try discriminate H. destruct (mod_err s) as [e|]; try discriminate H. injection H as <-.
      apply after_write_closed. reflexivity.
    - destruct (th s t) as [| |o w| |] eqn:E; try discriminate H. destruct (existsb _ _); [|discriminate H]. injection H as <-.
      apply after_write_closed, Hc.
    - destruct (th s t) eqn:E; try discriminate H. destruct (mod_err s); try discriminate H. injection H as <-. exact Hc.
    - destruct (th s t) eqn:E; try discriminate H. destruct (lookup_got r (got s)) as [[q v]|]; [|discriminate H]. injection H as <-. exact Hc.
    - destruct (plug s); try discriminate H. destruct (lookup_write w' (writes s)); [|discriminate H]. injection H as <-. exact Hc.
    - destruct (plug s); try discriminate H. injection H as <-. exact Hc.
    - destruct (plug s); try discriminate H. destruct (existsb _ _); [|discriminate H]. injection H as <-. exact Hc.
    - destruct (plug s); try discriminate H; injection H as <-; exact Hc.
  Qed.
End More.
