(** Invariant of a plugin instance. *)
From Coq Require Import List Bool Arith Lia.
From Verif.Plugin Require Import Instance.
Import ListNotations.

Section Proofs.
  Variable V : Type.
  Notation state := (state V).

  Definition active (p : pc V) : Prop := match p with InWrite _ _ | InRead _ => True | _ => False end.

  Definition shape (s : state) : Prop :=
    match lock s with
    | None => writes s = [] /\ readers s = [] /\ (plug s = Reading \/ (plug s = Exiting /\ closed s = true))
    | Some t =>
        match th s t with
        | InWrite o w =>
            readers s = [] /\
            ((writes s = [(w, cmd_of t o)] /\ ~ In w (consumed s) /\ plug s = Reading) \/
             (writes s = [] /\ In w (consumed s) /\
              match o with
              | OCall => plug s = Busy t \/ (exists v, plug s = Writing t v)
              | OClose => plug s = Exiting
              | OGc => plug s = Reading
              end))
        | InRead r =>
            writes s = [] /\
            ((readers s = [r] /\ (forall x, ~ In (r, x) (got s)) /\ (plug s = Busy t \/ exists v, plug s = Writing t v)) \/
             (readers s = [] /\ (exists v, In (r, (t, v)) (got s)) /\ plug s = Reading))
        | _ => False
        end
    end.

  Record Inv (s : state) : Prop := {
    holder : forall t, active (th s t) -> lock s = Some t;
    locked : forall t, lock s = Some t -> active (th s t);
    fresh_w : forall w c, In (w, c) (writes s) -> w < next_w s;
    fresh_c : forall w, In w (consumed s) -> w < next_w s;
    fresh_r : forall r, In r (readers s) -> r < next_r s;
    fresh_g : forall r x, In (r, x) (got s) -> r < next_r s;
    own : forall t r q v, th s t = InRead r -> In (r, (q, v)) (got s) -> q = t;
    fin : forall t q v, th s t = Finished (Response q v) -> q = t;
    free : closed s = true -> lock s = None;
    alive : plug s <> Dead -> mod_err s = None /\ shape s;
    dead : plug s = Dead -> mod_err s = None -> drained s = true \/ closed s = true
  }.

  Lemma lookup_got_in r (l : list (nat * (tid * V))) x : lookup_got r l = Some x -> In (r, x) l.
  Proof.
    unfold lookup_got. destruct (find _ l) as [[r' y]|] eqn:E; [|discriminate]. cbn. intros [= ->].
    apply find_some in E as [Hin Hr]. cbn in Hr. apply Nat.eqb_eq in Hr. subst. exact Hin.
  Qed.
  Lemma lookup_got_some r (l : list (nat * (tid * V))) x : In (r, x) l -> exists y, lookup_got r l = Some y.
  Proof.
    unfold lookup_got. intros H. destruct (find (fun y => Nat.eqb (fst y) r) l) eqn:E; [cbn; eauto|].
    exfalso. pose proof (find_none _ _ E _ H) as Hn. cbn in Hn. rewrite Nat.eqb_refl in Hn. discriminate.
  Qed.
  Lemma existsb_in n l : existsb (Nat.eqb n) l = true <-> In n l.
  Proof.
    rewrite existsb_exists. split.
    - intros (x & Hx & E). apply Nat.eqb_eq in E. subst. exact Hx.
    - intros H. exists n. split; [exact H|apply Nat.eqb_refl].
  Qed.

  Lemma set_th_same (f : tid -> pc V) t p : set_th f t p t = p.
  Proof. unfold set_th. rewrite Nat.eqb_refl. reflexivity. Qed.
  Lemma set_th_other (f : tid -> pc V) t p x : x <> t -> set_th f t p x = f x.
  Proof. unfold set_th. intros H. destruct (Nat.eqb_spec x t); [contradiction|reflexivity]. Qed.

  Lemma inv_init : Inv init.
  Proof.
    split; cbn; try contradiction; try discriminate; try tauto.
  Qed.

  (** Thread [t], which is not in a critical section afterwards, leaves; the rest keeps what the invariant needs. *)
  Lemma finish_inv (s : state) t p : Inv s ->
    (lock s = None \/ lock s = Some t) -> ~ active p -> (forall q v, p = Finished (Response q v) -> q = t) ->
    (plug s <> Dead -> writes s = [] /\ readers s = [] /\ (plug s = Reading \/ (plug s = Exiting /\ closed s = true))) ->
    Inv (finish s t p).
  Proof.
    intros I Hl Hp Hq Hs. assert (Hnone : forall x, x <> t -> ~ active (th s x)).
    { intros x Hx Ha. pose proof (holder s I x Ha). destruct Hl as [Hl|Hl]; congruence. }
    split; cbn [finish th lock closed gc_full gc_closed mod_err next_w next_r writes consumed readers got plug panicked drained].
    - intros x Ha. exfalso. destruct (Nat.eq_dec x t) as [->|Hx].
      + rewrite set_th_same in Ha. contradiction.
      + rewrite set_th_other in Ha by exact Hx. exact (Hnone x Hx Ha).
    - discriminate.
    - apply (fresh_w s I).
    - apply (fresh_c s I).
    - apply (fresh_r s I).
    - apply (fresh_g s I).
    - intros x r q v Hx. destruct (Nat.eq_dec x t) as [->|Hn].
      + rewrite set_th_same in Hx. subst p. exfalso. apply Hp. exact Logic.I.
      + rewrite set_th_other in Hx by exact Hn. exfalso. apply (Hnone x Hn). rewrite Hx. exact Logic.I.
    - intros x q v. destruct (Nat.eq_dec x t) as [->|Hn].
      + rewrite set_th_same. apply Hq.
      + rewrite set_th_other by exact Hn. apply (fin s I).
    - reflexivity.
    - intros Hpl. split; [apply (alive s I Hpl)|]. unfold shape. cbn [finish lock writes readers plug closed]. exact (Hs Hpl).
    - apply (dead s I).
  Qed.

  Lemma inv_weaken_flags (s s' : state) : Inv s ->
    th s' = th s -> lock s' = lock s -> mod_err s' = mod_err s -> next_w s' = next_w s -> next_r s' = next_r s ->
    writes s' = writes s -> consumed s' = consumed s -> readers s' = readers s -> got s' = got s -> plug s' = plug s ->
    drained s' = drained s -> closed s' = closed s -> Inv s'.
  Proof.
    intros I E1 E2 E3 E4 E5 E6 E7 E8 E9 E10 E11 E12. destruct I.
    split; rewrite ?E1, ?E2, ?E3, ?E4, ?E5, ?E6, ?E7, ?E8, ?E9, ?E10, ?E11, ?E12; auto.
    intros Hp. destruct (alive0 Hp) as [H1 H2]. split; [exact H1|].
    unfold shape in *. rewrite ?E1, ?E2, ?E3, ?E4, ?E5, ?E6, ?E7, ?E8, ?E9, ?E10, ?E11, ?E12. exact H2.
  Qed.

  (** closed may be set when the lock is about to be released. *)
  Lemma finish_closed_inv (s : state) t p : Inv s ->
    (lock s = None \/ lock s = Some t) -> ~ active p -> (forall q v, p = Finished (Response q v) -> q = t) ->
    (plug s <> Dead -> writes s = [] /\ readers s = [] /\ (plug s = Reading \/ plug s = Exiting)) ->
    Inv (finish (set_closed s) t p).
  Proof.
    intros I Hl Hp Hq Hs. assert (Hnone : forall x, x <> t -> ~ active (th s x)).
    { intros x Hx Ha. pose proof (holder s I x Ha). destruct Hl as [Hl|Hl]; congruence. }
    split; cbn [finish set_closed th lock closed gc_full gc_closed mod_err next_w next_r writes consumed readers got plug panicked drained].
    - intros x Ha. exfalso. destruct (Nat.eq_dec x t) as [->|Hx].
      + rewrite set_th_same in Ha. contradiction.
      + rewrite set_th_other in Ha by exact Hx. exact (Hnone x Hx Ha).
    - discriminate.
    - apply (fresh_w s I).
    - apply (fresh_c s I).
    - apply (fresh_r s I).
    - apply (fresh_g s I).
    - intros x r q v Hx. destruct (Nat.eq_dec x t) as [->|Hn].
      + rewrite set_th_same in Hx. subst p. exfalso. apply Hp. exact Logic.I.
      + rewrite set_th_other in Hx by exact Hn. exfalso. apply (Hnone x Hn). rewrite Hx. exact Logic.I.
    - intros x q v. destruct (Nat.eq_dec x t) as [->|Hn].
      + rewrite set_th_same. apply Hq.
      + rewrite set_th_other by exact Hn. apply (fin s I).
    - reflexivity.
    - intros Hpl. split; [apply (alive s I Hpl)|]. unfold shape.
      cbn [finish set_closed lock writes readers plug closed]. destruct (Hs Hpl) as (H1 & H2 & [H3|H3]); auto.
    - intros H1 H2. right. reflexivity.
  Qed.

  (** The value of instanceModErrCh is only there if the plugin is dead. *)
  Lemma err_dead (s : state) e : Inv s -> mod_err s = Some e -> plug s = Dead.
  Proof.
    intros I He. destruct (plug s) eqn:E; try reflexivity; destruct (alive s I) as [H _]; congruence.
  Qed.

  Lemma step_inv (s s' : state) ev : Inv s -> step s ev = Some s' -> Inv s'.
  Proof.
    intros I H. destruct ev as [t o| | |t|t|t|t|t|w|v|r|e]; cbn [step] in H.
    - (* Start *)
      destruct (th s t) eqn:Et; try discriminate H. destruct o; try discriminate H; destruct t as [|t]; try discriminate H;
      injection H as <-;
      (assert (Hna : lock s <> Some (S t)) by (intros E; pose proof (locked s I _ E) as Ha; rewrite Et in Ha; exact Ha));
      (split; cbn [th lock closed gc_full gc_closed mod_err next_w next_r writes consumed readers got plug panicked drained];
      [ intros x Ha; destruct (Nat.eq_dec x (S t)) as [->|Hx];
          [rewrite set_th_same in Ha; contradiction|rewrite set_th_other in Ha by exact Hx; apply (holder s I), Ha]
      | intros x Hx; destruct (Nat.eq_dec x (S t)) as [->|Hn]; [contradiction|rewrite set_th_other by exact Hn; apply (locked s I), Hx]
      | apply (fresh_w s I) | apply (fresh_c s I) | apply (fresh_r s I) | apply (fresh_g s I)
      | intros x r q v Hx; destruct (Nat.eq_dec x (S t)) as [->|Hn];
          [rewrite set_th_same in Hx; discriminate|rewrite set_th_other in Hx by exact Hn; apply (own s I), Hx]
      | intros x q v; destruct (Nat.eq_dec x (S t)) as [->|Hn];
          [rewrite set_th_same; discriminate|rewrite set_th_other by exact Hn; apply (fin s I)]
      | apply (free s I)
      | intros Hp; destruct (alive s I Hp) as [H1 H2]; split; [exact H1|]; unfold shape in *;
          cbn [th lock closed gc_full gc_closed mod_err next_w next_r writes consumed readers got plug panicked drained];
          destruct (lock s) as [h|] eqn:El; [|exact H2]; rewrite set_th_other by (intros ->; apply Hna; reflexivity); exact H2
      | apply (dead s I) ]).
    - (* CallGC *)
      destruct (gc_closed s); injection H as <-; eapply inv_weaken_flags; eauto.
    - (* Dequeue *)
      destruct (th s 0) eqn:Et; try discriminate H. destruct (gc_full s); [|discriminate H]. injection H as <-.
      assert (Hna : lock s <> Some 0) by (intros E; pose proof (locked s I _ E) as Ha; rewrite Et in Ha; exact Ha).
      split; cbn [th lock closed gc_full gc_closed mod_err next_w next_r writes consumed readers got plug panicked drained];
      [ intros x Ha; destruct (Nat.eq_dec x 0) as [->|Hx];
          [rewrite set_th_same in Ha; contradiction|rewrite set_th_other in Ha by exact Hx; apply (holder s I), Ha]
      | intros x Hx; destruct (Nat.eq_dec x 0) as [->|Hn]; [contradiction|rewrite set_th_other by exact Hn; apply (locked s I), Hx]
      | apply (fresh_w s I) | apply (fresh_c s I) | apply (fresh_r s I) | apply (fresh_g s I)
      | intros x r q v Hx; destruct (Nat.eq_dec x 0) as [->|Hn];
          [rewrite set_th_same in Hx; discriminate|rewrite set_th_other in Hx by exact Hn; apply (own s I), Hx]
      | intros x q v; destruct (Nat.eq_dec x 0) as [->|Hn];
          [rewrite set_th_same; discriminate|rewrite set_th_other by exact Hn; apply (fin s I)]
      | apply (free s I)
      | intros Hp; destruct (alive s I Hp) as [H1 H2]; split; [exact H1|]; unfold shape in *;
          cbn [th lock closed gc_full gc_closed mod_err next_w next_r writes consumed readers got plug panicked drained];
          destruct (lock s) as [h|] eqn:El; [|exact H2]; rewrite set_th_other by (intros ->; apply Hna; reflexivity); exact H2
      | apply (dead s I) ].
    - (* Acquire *)
      destruct (th s t) as [|o| | |] eqn:Et; try discriminate H. destruct (lock s) eqn:El; try discriminate H.
      assert (Hnone : forall x, ~ active (th s x)) by (intros x Ha; pose proof (holder s I x Ha); congruence).
      destruct (closed s) eqn:Ec; injection H as <-.
      + assert (Hsh : plug s <> Dead -> writes s = [] /\ readers s = [] /\ (plug s = Reading \/ (plug s = Exiting /\ closed s = true))).
        { intros Hp. destruct (alive s I Hp) as [_ H2]. unfold shape in H2. rewrite El in H2. exact H2. }
        assert (Hsh' : plug s <> Dead -> writes s = [] /\ readers s = [] /\ (plug s = Reading \/ plug s = Exiting)).
        { intros Hp. destruct (Hsh Hp) as (H1 & H2 & [H3|[H3 _]]); auto. }
        destruct o; cbn [after_write].
        * unfold start_read. rewrite Ec. apply finish_inv; auto; discriminate.
        * destruct (gc_closed s).
          -- apply finish_closed_inv; try discriminate; auto. eapply inv_weaken_flags; eauto.
          -- apply finish_closed_inv; try discriminate; auto. eapply inv_weaken_flags; eauto.
        * apply finish_inv; auto; discriminate.
      + split; cbn [th lock closed gc_full gc_closed mod_err next_w next_r writes consumed readers got plug panicked drained].
        * intros x Ha. destruct (Nat.eq_dec x t) as [->|Hx]; [reflexivity|].
          rewrite set_th_other in Ha by exact Hx. exfalso. exact (Hnone x Ha).
        * intros x [= <-]. rewrite set_th_same. exact Logic.I.
        * intros w c [[= <- <-]|Hin]; [lia|]. apply (fresh_w s I) in Hin. lia.
        * intros w Hin. apply (fresh_c s I) in Hin. lia.
        * apply (fresh_r s I).
        * apply (fresh_g s I).
        * intros x r q v Hx. destruct (Nat.eq_dec x t) as [->|Hn].
          -- rewrite set_th_same in Hx. discriminate.
          -- rewrite set_th_other in Hx by exact Hn. apply (own s I), Hx.
        * intros x q v. destruct (Nat.eq_dec x t) as [->|Hn].
          -- rewrite set_th_same. discriminate.
          -- rewrite set_th_other by exact Hn. apply (fin s I).
        * congruence.
        * intros Hp. destruct (alive s I Hp) as [H1 H2]. split; [exact H1|]. unfold shape in *.
          cbn [th lock closed gc_full gc_closed mod_err next_w next_r writes consumed readers got plug panicked drained].
          rewrite set_th_same. rewrite El in H2. destruct H2 as (H2 & H3 & H4). split; [exact H3|]. left.
          rewrite H2. split; [reflexivity|]. split.
          -- intros Hin. apply (fresh_c s I) in Hin. lia.
          -- destruct H4 as [H4|[_ H4]]; [exact H4|congruence].
        * intros H1 H2. destruct (dead s I H1 H2) as [H3|H3]; [auto|congruence].
    - (* WriteErr *)
      destruct (th s t) as [| |o w| |] eqn:Et; try discriminate H. destruct (mod_err s) as [e|] eqn:Ee; [|discriminate H].
      injection H as <-. pose proof (err_dead s e I Ee) as Hd.
      assert (Hl : lock s = Some t) by (apply (holder s I); rewrite Et; exact Logic.I).
      (* the error is taken, the lock kept: not an invariant state by itself, so treat the endings one by one *)
      assert (Hnone : forall x, x <> t -> ~ active (th s x)).
      { intros x Hx Ha. pose proof (holder s I x Ha). congruence. }
      assert (G : forall (s1 : state) p, ~ active p -> (forall q v, p <> Finished (Response q v)) ->
        th s1 = th s -> next_w s1 = next_w s -> next_r s1 = next_r s -> writes s1 = writes s -> consumed s1 = consumed s ->
        readers s1 = readers s -> got s1 = got s -> plug s1 = plug s -> closed s1 = true -> Inv (finish s1 t p)).
      { intros s1 p Hp Hq E1 E2 E3 E4 E5 E6 E7 E8 E9.
        split; cbn [finish th lock closed gc_full gc_closed mod_err next_w next_r writes consumed readers got plug panicked drained];
          rewrite ?E1, ?E2, ?E3, ?E4, ?E5, ?E6, ?E7, ?E8, ?E9.
        - intros x Ha. exfalso. destruct (Nat.eq_dec x t) as [->|Hx].
          + rewrite set_th_same in Ha. contradiction.
          + rewrite set_th_other in Ha by exact Hx. exact (Hnone x Hx Ha).
        - discriminate.
        - apply (fresh_w s I).
        - apply (fresh_c s I).
        - apply (fresh_r s I).
        - apply (fresh_g s I).
        - intros x r q v Hx. destruct (Nat.eq_dec x t) as [->|Hn].
          + rewrite set_th_same in Hx. subst p. exfalso. apply Hp. exact Logic.I.
          + rewrite set_th_other in Hx by exact Hn. exfalso. apply (Hnone x Hn). rewrite Hx. exact Logic.I.
        - intros x q v. destruct (Nat.eq_dec x t) as [->|Hn].
          + rewrite set_th_same. intros E. exfalso. exact (Hq _ _ E).
          + rewrite set_th_other by exact Hn. apply (fin s I).
        - reflexivity.
        - intros Hpl. congruence.
        - auto. }
      destruct o; cbn [after_write].
      + destruct e; [|unfold start_read; cbn [set_closed take_err closed]]; apply G; try reflexivity; try discriminate; intros [].
      + destruct e; [|cbn [set_closed take_err gc_closed]; destruct (gc_closed s)]; apply G; try reflexivity; try discriminate; intros [].
      + apply G; try reflexivity; try discriminate; intros [].
    - (* WriteOk *)
      destruct (th s t) as [| |o w| |] eqn:Et; try discriminate H.
      destruct (existsb (Nat.eqb w) (consumed s)) eqn:Ew; [|discriminate H]. injection H as <-. apply existsb_in in Ew.
      assert (Hl : lock s = Some t) by (apply (holder s I); rewrite Et; exact Logic.I).
      assert (Hcl : closed s = false) by (destruct (closed s) eqn:E; [pose proof (free s I E); congruence|reflexivity]).
      assert (Hsh : plug s <> Dead -> writes s = [] /\ readers s = [] /\ match o with
              | OCall => plug s = Busy t \/ (exists v, plug s = Writing t v)
              | OClose => plug s = Exiting
              | OGc => plug s = Reading
              end).
      { intros Hp. destruct (alive s I Hp) as [_ H2]. unfold shape in H2. rewrite Hl, Et in H2.
        destruct H2 as (Hr & [(_ & Hni & _)|(Hw & _ & Hpl)]); [contradiction|auto]. }
      destruct o; cbn [after_write].
      + unfold start_read. rewrite Hcl.
        assert (Hnone : forall x, x <> t -> ~ active (th s x)).
        { intros x Hx Ha. pose proof (holder s I x Ha). congruence. }
        split; cbn [th lock closed gc_full gc_closed mod_err next_w next_r writes consumed readers got plug panicked drained].
        * intros x Ha. destruct (Nat.eq_dec x t) as [->|Hx]; [exact Hl|].
          rewrite set_th_other in Ha by exact Hx. exfalso. exact (Hnone x Hx Ha).
        * intros x Hx. rewrite Hl in Hx. injection Hx as <-. rewrite set_th_same. exact Logic.I.
        * apply (fresh_w s I).
        * apply (fresh_c s I).
        * intros r [<-|Hin]; [lia|]. apply (fresh_r s I) in Hin. lia.
        * intros r x Hin. apply (fresh_g s I) in Hin. lia.
        * intros x r q v Hx. destruct (Nat.eq_dec x t) as [->|Hn].
          -- rewrite set_th_same in Hx. injection Hx as <-. intros Hin. apply (fresh_g s I) in Hin. lia.
          -- rewrite set_th_other in Hx by exact Hn. apply (own s I), Hx.
        * intros x q v. destruct (Nat.eq_dec x t) as [->|Hn].
          -- rewrite set_th_same. discriminate.
          -- rewrite set_th_other by exact Hn. apply (fin s I).
        * congruence.
        * intros Hp. destruct (alive s I Hp) as [H1 _]. split; [exact H1|]. unfold shape.
          cbn [th lock closed gc_full gc_closed mod_err next_w next_r writes consumed readers got plug panicked drained].
          rewrite Hl, set_th_same. destruct (Hsh Hp) as (H2 & H3 & H4). split; [exact H2|]. left. rewrite H3.
          split; [reflexivity|]. split; [|exact H4]. intros x Hin. apply (fresh_g s I) in Hin. lia.
        * intros H1 H2. destruct (dead s I H1 H2) as [H3|H3]; [auto|congruence].
      + assert (Hsh' : plug s <> Dead -> writes s = [] /\ readers s = [] /\ (plug s = Reading \/ plug s = Exiting)).
        { intros Hp. destruct (Hsh Hp) as (H1 & H2 & H3). auto. }
        destruct (gc_closed s); apply finish_closed_inv; try discriminate; auto; eapply inv_weaken_flags; eauto.
      + apply finish_inv; auto; try discriminate. intros Hp. destruct (Hsh Hp) as (H1 & H2 & H3). auto.
    - (* ReadErr *)
      destruct (th s t) as [| | |r|] eqn:Et; try discriminate H. destruct (mod_err s) as [e|] eqn:Ee; [|discriminate H].
      injection H as <-. pose proof (err_dead s e I Ee) as Hd.
      assert (Hl : lock s = Some t) by (apply (holder s I); rewrite Et; exact Logic.I).
      assert (Hnone : forall x, x <> t -> ~ active (th s x)).
      { intros x Hx Ha. pose proof (holder s I x Ha). congruence. }
      split; cbn [finish set_drained take_err th lock closed gc_full gc_closed mod_err next_w next_r writes consumed readers got plug panicked drained].
      + intros x Ha. exfalso. destruct (Nat.eq_dec x t) as [->|Hx].
        * rewrite set_th_same in Ha. contradiction.
        * rewrite set_th_other in Ha by exact Hx. exact (Hnone x Hx Ha).
      + discriminate.
      + apply (fresh_w s I).
      + apply (fresh_c s I).
      + apply (fresh_r s I).
      + apply (fresh_g s I).
      + intros x r' q v Hx. destruct (Nat.eq_dec x t) as [->|Hn].
        * rewrite set_th_same in Hx. discriminate.
        * rewrite set_th_other in Hx by exact Hn. exfalso. apply (Hnone x Hn). rewrite Hx. exact Logic.I.
      + intros x q v. destruct (Nat.eq_dec x t) as [->|Hn].
        * rewrite set_th_same. discriminate.
        * rewrite set_th_other by exact Hn. apply (fin s I).
      + reflexivity.
      + congruence.
      + auto.
    - (* ReadOk *)
      destruct (th s t) as [| | |r|] eqn:Et; try discriminate H. destruct (lookup_got r (got s)) as [[q v]|] eqn:Eg; [|discriminate H].
      injection H as <-. apply lookup_got_in in Eg.
      assert (Hl : lock s = Some t) by (apply (holder s I); rewrite Et; exact Logic.I).
      apply finish_inv; auto.
      + intros q' v' [= <- <-]. exact (own s I t r q v Et Eg).
      + intros Hp. destruct (alive s I Hp) as [_ H2]. unfold shape in H2. rewrite Hl, Et in H2.
        destruct H2 as (Hw & [(Hr & Hni & _)|(Hr & _ & Hpl)]); [exfalso; exact (Hni _ Eg)|auto].
    - (* Consume *)
      destruct (plug s) eqn:Ep; try discriminate H. destruct (lookup_write w (writes s)) as [c|] eqn:Ew; [|discriminate H].
      injection H as <-. destruct (alive s I) as [Hm Hsh]; [congruence|].
      unfold shape in Hsh. destruct (lock s) as [t|] eqn:El.
      2: { destruct Hsh as (Hw & _). rewrite Hw in Ew. discriminate Ew. }
      destruct (th s t) as [| |o w'|r|] eqn:Et; try contradiction.
      2: { destruct Hsh as (Hw & _). rewrite Hw in Ew. discriminate Ew. }
      destruct Hsh as (Hr & [(Hw & Hni & _)|(Hw & _)]); [|rewrite Hw in Ew; discriminate Ew].
      rewrite Hw in Ew. unfold lookup_write in Ew. cbn [find fst] in Ew.
      destruct (Nat.eqb w' w) eqn:Eww; [|discriminate Ew]. apply Nat.eqb_eq in Eww. subst w'. cbn in Ew. injection Ew as <-.
      assert (Hcl : closed s = false) by (destruct (closed s) eqn:E; [pose proof (free s I E); congruence|reflexivity]).
      split; cbn [th lock closed gc_full gc_closed mod_err next_w next_r writes consumed readers got plug panicked drained].
      + intros x Ha. rewrite <- El. apply (holder s I), Ha.
      + intros x Hx. apply (locked s I). congruence.
      + intros w0 c0 Hin. apply filter_In in Hin as [Hin _]. apply (fresh_w s I) in Hin. exact Hin.
      + intros w0 [<-|Hin]; [|apply (fresh_c s I), Hin]. apply (fresh_w s I w (cmd_of t o)). rewrite Hw. left. reflexivity.
      + apply (fresh_r s I).
      + apply (fresh_g s I).
      + apply (own s I).
      + apply (fin s I).
      + congruence.
      + intros _. split; [exact Hm|]. unfold shape.
        cbn [th lock closed gc_full gc_closed mod_err next_w next_r writes consumed readers got plug panicked drained].
        rewrite Et. split; [exact Hr|]. right. rewrite Hw. cbn [filter fst]. rewrite Nat.eqb_refl. cbn [negb].
        split; [reflexivity|]. split; [left; reflexivity|]. destruct o; cbn [cmd_of]; auto.
      + destruct o; discriminate.
    - (* Answer *)
      destruct (plug s) as [|q| | |] eqn:Ep; try discriminate H. injection H as <-. destruct (alive s I) as [Hm Hsh]; [congruence|].
      split; cbn [th lock closed gc_full gc_closed mod_err next_w next_r writes consumed readers got plug panicked drained];
        try apply I.
      + intros _. split; [exact Hm|]. unfold shape in *.
        cbn [th lock closed gc_full gc_closed mod_err next_w next_r writes consumed readers got plug panicked drained].
        rewrite Ep in Hsh. destruct (lock s) as [t|].
        * destruct (th s t) as [| |o w|r|]; try contradiction.
          -- destruct Hsh as (Hr & [(_ & _ & Hp)|(Hw & Hin & Hp)]); [discriminate Hp|]. split; [exact Hr|]. right.
             split; [exact Hw|]. split; [exact Hin|]. destruct o; try discriminate Hp.
             destruct Hp as [[= <-]|[v' Hp]]; [right; eauto|discriminate Hp].
          -- destruct Hsh as (Hw & [(Hr & Hn & Hp)|(_ & _ & Hp)]); [|discriminate Hp]. split; [exact Hw|]. left.
             split; [exact Hr|]. split; [exact Hn|]. destruct Hp as [[= <-]|[v' Hp]]; [right; eauto|discriminate Hp].
        * destruct Hsh as (_ & _ & [Hp|[Hp _]]); discriminate Hp.
      + discriminate.
    - (* Deliver *)
      destruct (plug s) as [| |q v| |] eqn:Ep; try discriminate H. destruct (existsb (Nat.eqb r) (readers s)) eqn:Er; [|discriminate H].
      injection H as <-. apply existsb_in in Er. destruct (alive s I) as [Hm Hsh]; [congruence|].
      unfold shape in Hsh. rewrite Ep in Hsh. destruct (lock s) as [t|] eqn:El.
      2: { destruct Hsh as (_ & _ & [Hp|[Hp _]]); discriminate Hp. }
      destruct (th s t) as [| |o w|r'|] eqn:Et; try contradiction.
      1: { destruct Hsh as (Hr & _). rewrite Hr in Er. destruct Er. }
      destruct Hsh as (Hw & [(Hr & Hn & Hp)|(_ & _ & Hp)]); [|discriminate Hp].
      rewrite Hr in Er. destruct Er as [<-|[]]. destruct Hp as [Hp|[v' [= -> <-]]]; [discriminate Hp|].
      assert (Hcl : closed s = false) by (destruct (closed s) eqn:E; [pose proof (free s I E); congruence|reflexivity]).
      split; cbn [th lock closed gc_full gc_closed mod_err next_w next_r writes consumed readers got plug panicked drained].
      + intros x Ha. rewrite <- El. apply (holder s I), Ha.
      + intros x Hx. apply (locked s I). congruence.
      + apply (fresh_w s I).
      + apply (fresh_c s I).
      + intros x Hin. apply filter_In in Hin as [Hin _]. apply (fresh_r s I), Hin.
      + intros x y [[= <- <-]|Hin]; [|apply (fresh_g s I) in Hin; exact Hin]. apply (fresh_r s I). rewrite Hr. left. reflexivity.
      + intros x r q v' Hx [[= <- <- <-]|Hin]; [|exact (own s I _ _ _ _ Hx Hin)].
        assert (Hlx : lock s = Some x) by (apply (holder s I); rewrite Hx; exact Logic.I). congruence.
      + apply (fin s I).
      + congruence.
      + intros _. split; [exact Hm|]. unfold shape.
        cbn [th lock closed gc_full gc_closed mod_err next_w next_r writes consumed readers got plug panicked drained].
        rewrite Et. split; [exact Hw|]. right. rewrite Hr. cbn [filter]. rewrite Nat.eqb_refl. cbn [negb].
        split; [reflexivity|]. split; [exists v; left; reflexivity|reflexivity].
      + discriminate.
    - (* Die *)
      assert (Hs' : s' = {| th := th s; lock := lock s; closed := closed s; gc_full := gc_full s; gc_closed := gc_closed s;
                       mod_err := Some e; next_w := next_w s; next_r := next_r s; writes := writes s;
                       consumed := consumed s; readers := readers s; got := got s; plug := Dead; panicked := panicked s;
                       drained := drained s |}) by (destruct (plug s); congruence).
      subst s'. clear H.
      split; cbn [th lock closed gc_full gc_closed mod_err next_w next_r writes consumed readers got plug panicked drained];
        try apply I; congruence.
  Qed.

  Lemma runs_inv (s s' : state) evs : Inv s -> runs s evs = Some s' -> Inv s'.
  Proof.
    revert s. induction evs as [|ev evs IH]; intros s I; cbn [runs]; [intros [= <-]; exact I|].
    destruct (step s ev) as [s1|] eqn:E; [|discriminate]. apply IH. eapply step_inv; eassumption.
  Qed.
  Lemma reachable_inv (s : state) : reachable s -> Inv s.
  Proof. intros [evs H]. eapply runs_inv; [apply inv_init|exact H]. Qed.
End Proofs.
