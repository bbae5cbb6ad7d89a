(** * Proofs about the builders of locations *)

From Coq Require Import String List Arith Bool Lia.
Import ListNotations.
Local Open Scope string_scope.
Local Open Scope list_scope.

From Verif.Builders Require Import Model Spec.

(** ** Trees *)

Fixpoint tree_size (t : tree) : nat :=
  match t with
  | Node _ ks =>
      S ((fix go (ks : list (string * tree)) :=
            match ks with [] => 0 | (_, t') :: ks' => tree_size t' + go ks' end) ks)
  end.

Definition tree_ind' (P : tree -> Prop)
  (H : forall x ks, Forall (fun k => P (snd k)) ks -> P (Node x ks)) :
  forall t, P t :=
  fix F (t : tree) : P t :=
    match t with
    | Node x ks =>
        H x ks ((fix G (ks : list (string * tree)) : Forall (fun k => P (snd k)) ks :=
                   match ks with
                   | [] => Forall_nil _
                   | (l, t') :: ks' => Forall_cons (l, t') (F t') (G ks')
                   end) ks)
    end.

Fixpoint clone_kids (ks : list (string * tree)) : list (string * tree) :=
  match ks with
  | [] => []
  | (l, t') :: ks' =>
      if is_left_out l then clone_kids ks' else (l, clone t') :: clone_kids ks'
  end.

Lemma clone_eq : forall x ks, clone (Node x ks) = Node x (clone_kids ks).
Proof.
  intros x ks. reflexivity.
Qed.

Lemma clone_kids_len : forall ks, List.length (clone_kids ks) <= List.length ks.
Proof.
  induction ks as [| [l t] ks IH]; [apply le_n |]. cbn [clone_kids].
  destruct (is_left_out l); cbn [List.length]; lia.
Qed.

Lemma clean_kids : forall x ks,
  clone (Node x ks) = Node x ks ->
  forall l t, In (l, t) ks -> is_left_out l = false /\ clone t = t.
Proof.
  intros x ks H l t Hin. rewrite clone_eq in H. injection H as H.
  revert H Hin. induction ks as [| [l' t'] ks IH]; [intros _ [] |].
  cbn [clone_kids]. destruct (is_left_out l') eqn:E.
  - intros H. exfalso. pose proof (clone_kids_len ks) as L.
    rewrite H in L. cbn [List.length] in L. lia.
  - intros H. injection H as H1 H2. intros [Heq | Hin].
    + injection Heq as <- <-. split; [exact E | exact H1].
    + apply IH; assumption.
Qed.

Lemma clean_build : forall x ks,
  (forall l t, In (l, t) ks -> is_left_out l = false /\ clone t = t) ->
  clone (Node x ks) = Node x ks.
Proof.
  intros x ks H. rewrite clone_eq. f_equal.
  induction ks as [| [l t] ks IH]; [reflexivity |]. cbn [clone_kids].
  destruct (H l t (or_introl eq_refl)) as [H1 H2]. rewrite H1, H2. f_equal.
  apply IH. intros l' t' Hin. apply H. right. exact Hin.
Qed.

Lemma clone_idem : forall t, clone (clone t) = clone t.
Proof.
  induction t as [x ks IH] using tree_ind'. rewrite clone_eq.
  apply clean_build. induction ks as [| [l t] ks IHk]; [intros l t [] |].
  inversion IH as [| ? ? Ht Hks]; subst. cbn [clone_kids].
  destruct (is_left_out l) eqn:E; [apply IHk; exact Hks |].
  intros l' t' [Heq | Hin].
  - injection Heq as <- <-. split; [exact E | exact Ht].
  - apply (IHk Hks l' t' Hin).
Qed.

Lemma kid_put_kid : forall l t ks l',
  kid l' (put_kid l t ks) = if String.eqb l' l then Some t else kid l' ks.
Proof.
  intros l t ks l'. induction ks as [| [k u] ks IH].
  - reflexivity.
  - cbn [put_kid]. destruct (String.eqb l k) eqn:E.
    + apply String.eqb_eq in E. subst k. cbn [kid].
      destruct (String.eqb l' l) eqn:F; reflexivity.
    + cbn [kid]. destruct (String.eqb l' k) eqn:F.
      * apply String.eqb_eq in F. subst k. rewrite String.eqb_sym, E. reflexivity.
      * exact IH.
Qed.

Lemma kid_in : forall l ks t, kid l ks = Some t -> In (l, t) ks.
Proof.
  intros l ks t. induction ks as [| [k u] ks IH]; [discriminate |]. cbn [kid].
  destruct (String.eqb l k) eqn:E.
  - apply String.eqb_eq in E. subst k. intros H. injection H as <-. left. reflexivity.
  - intros H. right. exact (IH H).
Qed.

Lemma in_put_kid : forall l t ks l' t',
  In (l', t') (put_kid l t ks) -> (l', t') = (l, t) \/ In (l', t') ks.
Proof.
  intros l t ks l' t'. induction ks as [| [k u] ks IH].
  - intros [H | []]. left. symmetry. exact H.
  - cbn [put_kid]. destruct (String.eqb l k) eqn:E.
    + apply String.eqb_eq in E. subst k. intros [H | H].
      * left. symmetry. exact H.
      * right. right. exact H.
    + intros [H | H]; [right; left; exact H |].
      destruct (IH H) as [H1 | H1]; [left; exact H1 | right; right; exact H1].
Qed.

Lemma clean_put : forall p t l n,
  clone t = t -> clone n = n -> is_left_out l = false -> clone (put t p l n) = put t p l n.
Proof.
  induction p as [| k p IH]; intros [x ks] l n Ht Hn Hl; cbn [put text_of kids_of].
  - apply clean_build. intros l' t' Hin. destruct (in_put_kid _ _ _ _ _ Hin) as [H | H].
    + injection H as -> ->. split; assumption.
    + exact (clean_kids x ks Ht l' t' H).
  - destruct (kid k ks) as [u |] eqn:E; [| exact Ht].
    apply clean_build. intros l' t' Hin. destruct (in_put_kid _ _ _ _ _ Hin) as [H | H].
    + injection H as -> ->. destruct (clean_kids x ks Ht k u (kid_in _ _ _ E)) as [H1 H2].
      split; [exact H1 |]. apply IH; assumption.
    + exact (clean_kids x ks Ht l' t' H).
Qed.

Lemma get_app : forall p t q,
  get t (p ++ q) = match get t p with Some t' => get t' q | None => None end.
Proof.
  induction p as [| l p IH]; intros t q; [reflexivity |]. cbn [app get].
  destruct (kid l (kids_of t)); [apply IH | reflexivity].
Qed.

Lemma tsays_nil : forall t, tsays t [] = Some (text_of t).
Proof. reflexivity. Qed.

Lemma tsays_cons : forall t k q,
  tsays t (k :: q) = match kid k (kids_of t) with Some u => tsays u q | None => None end.
Proof.
  intros t k q. unfold tsays. cbn [get]. destruct (kid k (kids_of t)); reflexivity.
Qed.

Lemma put_says : forall p t l x q,
  get t p <> None ->
  tsays (put t p l (Node x [])) q = now (tsays t) (p ++ [l]) x q.
Proof.
  induction p as [| k p IH]; intros t l x q Hp; cbn [put app].
  - unfold now. destruct q as [| k q].
    + cbn [starts]. reflexivity.
    + rewrite tsays_cons. cbn [kids_of]. rewrite kid_put_kid.
      cbn [starts]. rewrite (String.eqb_sym l k).
      destruct (String.eqb k l) eqn:E; cbn [andb].
      * destruct q as [| a q]; reflexivity.
      * rewrite tsays_cons. reflexivity.
  - cbn [get] in Hp. destruct (kid k (kids_of t)) as [u |] eqn:E;
      [| exfalso; apply Hp; reflexivity].
    unfold now. destruct q as [| k' q].
    + cbn [starts]. rewrite !tsays_nil. reflexivity.
    + rewrite !tsays_cons. cbn [kids_of]. rewrite kid_put_kid. cbn [starts].
      rewrite (String.eqb_sym k k'). destruct (String.eqb k' k) eqn:F; cbn [andb].
      * apply String.eqb_eq in F. subst k'. rewrite (IH u l x q Hp). unfold now.
        rewrite E. cbn [List.length]. reflexivity.
      * reflexivity.
Qed.

Lemma put_there : forall p t l n, get t p <> None -> get (put t p l n) (p ++ [l]) = Some n.
Proof.
  induction p as [| k p IH]; intros t l n Hp; cbn [put app get].
  - cbn [kids_of]. rewrite kid_put_kid, String.eqb_refl. reflexivity.
  - cbn [get] in Hp. destruct (kid k (kids_of t)) as [u |] eqn:E;
      [| exfalso; apply Hp; reflexivity].
    cbn [kids_of]. rewrite kid_put_kid, String.eqb_refl. apply IH. exact Hp.
Qed.

Lemma put_keeps_parent : forall p t l n, get t p <> None -> get (put t p l n) p <> None.
Proof.
  induction p as [| k p IH]; intros t l n Hp; [discriminate |]. cbn [put get].
  cbn [get] in Hp. destruct (kid k (kids_of t)) as [u |] eqn:E;
    [| exfalso; apply Hp; reflexivity].
  cbn [kids_of]. rewrite kid_put_kid, String.eqb_refl. apply IH. exact Hp.
Qed.

Lemma now_ext : forall f g p x q, (forall q, f q = g q) -> now f p x q = now g p x q.
Proof. intros f g p x q H. unfold now. rewrite H. reflexivity. Qed.

(** ** Heaps *)

Lemma nth_last : forall (A : Type) (h : list A) t, nth_error (h ++ [t]) (List.length h) = Some t.
Proof. intros A h t. rewrite nth_error_app2 by lia. rewrite Nat.sub_diag. reflexivity. Qed.

Lemma nth_grow : forall (A : Type) (h : list A) t i y,
  nth_error h i = Some y -> nth_error (h ++ [t]) i = Some y.
Proof.
  intros A h t i y H. rewrite nth_error_app1; [exact H |].
  apply nth_error_Some. rewrite H. discriminate.
Qed.

Lemma set_last : forall h t t', set_nth (List.length h) t' (h ++ [t]) = h ++ [t'].
Proof. induction h as [| a h IH]; intros t t'; [reflexivity |]. cbn. f_equal. apply IH. Qed.

(** The selectors that only follow fields. *)
Fixpoint sel_path (s : sel) : option path :=
  match s with
  | SRoot => Some []
  | SSub s' l => match sel_path s' with Some p => Some (p ++ [l]) | None => None end
  | _ => None
  end.

Lemma find_path : forall s p r h t,
  sel_path s = Some p -> nth_error h r = Some t -> get t p <> None ->
  find s r h = (h, Some (r, p)).
Proof.
  induction s as [| s IH l | l x | r' s IH]; intros p r h t Hs Ht Hp; cbn [sel_path] in Hs.
  - injection Hs as <-. reflexivity.
  - destruct (sel_path s) as [p' |] eqn:E; [| discriminate Hs]. injection Hs as <-.
    cbn [find]. rewrite (IH p' r h t eq_refl Ht).
    + rewrite Ht. destruct (get t (p' ++ [l])); [reflexivity | exfalso; apply Hp; reflexivity].
    + rewrite get_app in Hp. destruct (get t p'); [discriminate | exact Hp].
  - discriminate Hs.
  - discriminate Hs.
Qed.

Lemma with_free : forall b l x h t p,
  nth_error h (b_root b) = Some t -> clone t = t ->
  sel_path (b_sel b) = Some p -> get t p <> None ->
  with_field b l x h = Some (h ++ [put t p l (Node x [])], List.length h).
Proof.
  intros b l x h t p Ht Hc Hs Hp. unfold with_field. rewrite Ht, Hc.
  rewrite (find_path _ p _ _ t Hs (nth_last _ h t) Hp).
  rewrite nth_last, set_last. reflexivity.
Qed.

Lemma with_later : forall b l0 x0 l x h t,
  nth_error h (b_root b) = Some t -> clone t = t -> b_sel b = SLazy l0 x0 ->
  with_field b l x h
  = Some (h ++ [put (put t [] l0 (Node x0 [])) [l0] l (Node x [])], List.length h).
Proof.
  intros b l0 x0 l x h t Ht Hc Hs. unfold with_field. rewrite Ht, Hc, Hs.
  cbn [find]. rewrite nth_last, set_last, nth_last, set_last. reflexivity.
Qed.

(** ** The invariant *)

Definition ok (h : heap) (b : builder) (v : value) (u : use) : Prop :=
  exists t,
    nth_error h (b_root b) = Some t /\
    (forall q, tsays t q = v_says v q) /\
    match u with
    | Free => clone t = t /\ sel_path (b_sel b) = Some (v_at v) /\
              get t (v_at v) <> None /\ v_later v = None
    | Later => clone t = t /\ exists l x, b_sel b = SLazy l x /\ v_at v = [l] /\
               v_later v = Some x /\ is_left_out l = false
    | Last => True
    end.

Definition all_ok (st : state) (vs : list value) (us : list use) : Prop :=
  List.length (st_builders st) = List.length vs /\
  List.length us = List.length vs /\
  forall i b v u,
    nth_error (st_builders st) i = Some b -> nth_error vs i = Some v ->
    nth_error us i = Some u -> ok (st_heap st) b v u.

Lemma ok_grow : forall h t b v u, ok h b v u -> ok (h ++ [t]) b v u.
Proof.
  intros h t b v u (t0 & H & R). exists t0. split; [apply nth_grow; exact H | exact R].
Qed.

Lemma all_ok_push : forall st vs us t b v u,
  all_ok st vs us -> ok (st_heap st ++ [t]) b v u ->
  all_ok {| st_heap := st_heap st ++ [t]; st_builders := st_builders st ++ [b] |}
         (vs ++ [v]) (us ++ [u]).
Proof.
  intros st vs us t b v u (L1 & L2 & H) Hb. split; [| split].
  - cbn [st_builders]. rewrite !app_length, L1. reflexivity.
  - rewrite !app_length, L2. reflexivity.
  - cbn [st_builders st_heap]. intros i b' v' u' Hb' Hv' Hu'.
    destruct (Nat.lt_ge_cases i (List.length vs)) as [Hlt | Hge].
    + rewrite nth_error_app1 in Hb' by lia. rewrite nth_error_app1 in Hv' by lia.
      rewrite nth_error_app1 in Hu' by lia. apply ok_grow. apply (H i); assumption.
    + rewrite nth_error_app2 in Hb' by lia. rewrite nth_error_app2 in Hv' by lia.
      rewrite nth_error_app2 in Hu' by lia. rewrite L1 in Hb'. rewrite L2 in Hu'.
      destruct (i - List.length vs) as [| n].
      * cbn in Hb', Hv', Hu'. injection Hb' as <-. injection Hv' as <-.
        injection Hu' as <-. exact Hb.
      * destruct n; discriminate Hb'.
Qed.

Lemma volatile_left_out : forall l, volatile l = is_left_out l.
Proof. reflexivity. Qed.

Lemma at_i : forall st vs us i b,
  all_ok st vs us -> nth_error (st_builders st) i = Some b ->
  exists v u, nth_error vs i = Some v /\ nth_error us i = Some u /\ ok (st_heap st) b v u.
Proof.
  intros st vs us i b (L1 & L2 & H) Hb.
  assert (Hi : i < List.length (st_builders st)) by (apply nth_error_Some; rewrite Hb; discriminate).
  destruct (nth_error vs i) as [v |] eqn:Ev; [| apply nth_error_None in Ev; lia].
  destruct (nth_error us i) as [u |] eqn:Eu; [| apply nth_error_None in Eu; lia].
  exists v, u. repeat split. apply (H i); assumption.
Qed.

Lemma none_i : forall st vs us i,
  all_ok st vs us -> nth_error (st_builders st) i = None ->
  nth_error vs i = None /\ nth_error us i = None.
Proof.
  intros st vs us i (L1 & L2 & H) Hb. apply nth_error_None in Hb.
  split; apply nth_error_None; lia.
Qed.

(** A write through a usable builder. *)
Lemma write_ok : forall h b v u l x u',
  ok h b v u -> after u l = Some u' ->
  exists t, with_field b l x h = Some (h ++ [t], List.length h) /\
    (forall q, tsays t q = now (wake v) (v_at v ++ [l]) x q) /\
    match u with
    | Free => sel_path (b_sel b) = Some (v_at v) /\ get t (v_at v) <> None /\
              get t (v_at v ++ [l]) <> None /\ (is_left_out l = false -> clone t = t)
    | _ => True
    end.
Proof.
  intros h b v u l x u' (t & Ht & Hsay & Hu) Ha. destruct u.
  - destruct Hu as (Hc & Hs & Hp & Hl).
    exists (put t (v_at v) l (Node x [])). split; [apply with_free; assumption |]. split.
    + intros q. rewrite (put_says _ t l x q Hp). unfold wake. rewrite Hl.
      apply now_ext. exact Hsay.
    + repeat split.
      * exact Hs.
      * apply put_keeps_parent. exact Hp.
      * rewrite (put_there _ t l _ Hp). discriminate.
      * intros Hv. apply clean_put; [exact Hc | reflexivity | exact Hv].
  - destruct Hu as (Hc & l0 & x0 & Hs & Hat & Hlat & _).
    exists (put (put t [] l0 (Node x0 [])) [l0] l (Node x [])).
    split; [apply with_later; assumption |]. split; [| exact I].
    intros q. rewrite put_says.
    + unfold wake. rewrite Hlat, Hat. apply now_ext. intros q'.
      rewrite put_says by discriminate. cbn [app]. apply now_ext. exact Hsay.
    + change [l0] with ([] ++ [l0]). rewrite put_there by discriminate. discriminate.
  - discriminate Ha.
Qed.

Lemma step_ok : forall o st vs us us',
  all_ok st vs us -> careful1 us o = Some us' ->
  exists st', step st o = Some st' /\ all_ok st' (made vs o) us'.
Proof.
  intros o st vs us us' Hall Hc. destruct o as [file | i l x | i l x | i x | i l x].
  - cbn [careful1] in Hc. injection Hc as <-. cbn [step push new_builder made].
    eexists. split; [reflexivity |]. apply all_ok_push; [exact Hall |].
    exists (Node file []). cbn [b_root]. split; [apply nth_last |]. split.
    + intros q. cbn [v_says]. unfold now. destruct q; reflexivity.
    + repeat split. discriminate.
  - cbn [careful1] in Hc. cbn [step made].
    destruct (nth_error (st_builders st) i) as [b |] eqn:Eb.
    + destruct (at_i _ _ _ _ _ Hall Eb) as (v & u & Ev & Eu & Hok).
      rewrite Ev. rewrite Eu in Hc. destruct (after u l) as [u' |] eqn:Ea; [| discriminate Hc].
      injection Hc as <-.
      destruct (write_ok _ _ _ _ l x u' Hok Ea) as (t & Hw & Hsay & Hu).
      unfold enter. rewrite Hw. cbn [push]. eexists. split; [reflexivity |].
      apply all_ok_push; [exact Hall |]. exists t. cbn [b_root].
      split; [apply nth_last |]. split; [intros q; rewrite Hsay; reflexivity |].
      destruct u; cbn [after] in Ea; try discriminate Ea; injection Ea as <-; try exact I.
      rewrite volatile_left_out. destruct (is_left_out l) eqn:E; [exact I |].
      destruct Hu as (Hs & Hp & Hp' & Hcl). cbn [b_sel sel_path v_at v_later].
      rewrite Hs. repeat split; [apply Hcl; reflexivity | exact Hp'].
    + destruct (none_i _ _ _ _ Hall Eb) as [Ev Eu]. rewrite Ev. rewrite Eu in Hc.
      injection Hc as <-. eexists. split; [reflexivity | exact Hall].
  - cbn [careful1] in Hc. cbn [step made].
    destruct (nth_error (st_builders st) i) as [b |] eqn:Eb.
    + destruct (at_i _ _ _ _ _ Hall Eb) as (v & u & Ev & Eu & Hok).
      rewrite Ev. rewrite Eu in Hc. destruct (after u l) as [u' |] eqn:Ea; [| discriminate Hc].
      injection Hc as <-.
      destruct (write_ok _ _ _ _ l x u' Hok Ea) as (t & Hw & Hsay & Hu).
      unfold flag. rewrite Hw. cbn [push]. eexists. split; [reflexivity |].
      apply all_ok_push; [exact Hall |]. exists t. cbn [b_root].
      split; [apply nth_last |]. split; [intros q; rewrite Hsay; reflexivity |].
      destruct u; cbn [after] in Ea; try discriminate Ea; injection Ea as <-; try exact I.
      rewrite volatile_left_out. destruct (is_left_out l) eqn:E; [exact I |].
      destruct Hu as (Hs & Hp & Hp' & Hcl). cbn [b_sel sel_path v_at v_later].
      rewrite Hs. repeat split; [apply Hcl; reflexivity | exact Hp].
    + destruct (none_i _ _ _ _ Hall Eb) as [Ev Eu]. rewrite Ev. rewrite Eu in Hc.
      injection Hc as <-. eexists. split; [reflexivity | exact Hall].
  - cbn [careful1] in Hc. cbn [step made].
    destruct (nth_error (st_builders st) i) as [b |] eqn:Eb.
    + destruct (at_i _ _ _ _ _ Hall Eb) as (v & u & Ev & Eu & Hok).
      rewrite Ev. rewrite Eu in Hc. destruct u; try discriminate Hc. injection Hc as <-.
      destruct (write_ok _ _ _ _ "Env.Var" x Free Hok eq_refl) as (t & Hw & Hsay & Hu).
      unfold enter_var. rewrite Hw. cbn [push]. eexists. split; [reflexivity |].
      apply all_ok_push; [exact Hall |]. exists t. cbn [b_root].
      split; [apply nth_last |]. split; [intros q; rewrite Hsay; reflexivity | exact I].
    + destruct (none_i _ _ _ _ Hall Eb) as [Ev Eu]. rewrite Ev. rewrite Eu in Hc.
      injection Hc as <-. eexists. split; [reflexivity | exact Hall].
  - cbn [careful1] in Hc. cbn [step made].
    destruct (nth_error (st_builders st) i) as [b |] eqn:Eb.
    + destruct (at_i _ _ _ _ _ Hall Eb) as (v & u & Ev & Eu & Hok).
      rewrite Ev. rewrite Eu in Hc. destruct Hok as (t & Ht & Hsay & Hu).
      unfold to_lazy. rewrite Ht.
      assert (Hcl : u = Last \/ clone t = t)
        by (destruct u; [right; apply Hu | right; apply Hu | left; reflexivity]).
      assert (Hvol : volatile l = false /\ us' = us ++ [Later] /\ u <> Last).
      { destruct u; [| | discriminate Hc]; destruct (volatile l); try discriminate Hc;
          injection Hc as <-; repeat split; discriminate. }
      destruct Hvol as (Hvol & -> & Hnl).
      destruct Hcl as [-> | Hcl]; [exfalso; apply Hnl; reflexivity |].
      rewrite Hcl. cbn [push]. eexists. split; [reflexivity |].
      apply all_ok_push; [exact Hall |]. exists t. cbn [b_root].
      split; [apply nth_last |]. split; [exact Hsay |].
      split; [exact Hcl |]. exists l, x. repeat split. exact Hvol.
    + destruct (none_i _ _ _ _ Hall Eb) as [Ev Eu]. rewrite Ev. rewrite Eu in Hc.
      injection Hc as <-. eexists. split; [reflexivity | exact Hall].
Qed.

Lemma run_ok : forall ops st vs us,
  all_ok st vs us -> careful us ops ->
  exists st' us', run st ops = Some st' /\ all_ok st' (fold_left made ops vs) us'.
Proof.
  induction ops as [| o ops IH]; intros st vs us Hall Hc.
  - exists st, us. split; [reflexivity | exact Hall].
  - cbn [careful] in Hc. destruct (careful1 us o) as [us1 |] eqn:E; [| destruct Hc].
    destruct (step_ok o st vs us us1 Hall E) as (st1 & Hs & Hall1).
    cbn [run fold_left]. rewrite Hs. exact (IH st1 _ us1 Hall1 Hc).
Qed.

Lemma start_ok : all_ok start [] [].
Proof.
  split; [reflexivity |]. split; [reflexivity |]. intros i b v u H. destruct i; discriminate H.
Qed.

Lemma said_meant : forall st vs us i q,
  all_ok st vs us ->
  said st i q = match nth_error vs i with Some v => v_says v q | None => None end.
Proof.
  intros st vs us i q Hall. unfold said.
  destruct (nth_error (st_builders st) i) as [b |] eqn:Eb.
  - destruct (at_i _ _ _ _ _ Hall Eb) as (v & u & Ev & Eu & t & Ht & Hsay & _).
    rewrite Ev. unfold location. rewrite Ht. rewrite <- Hsay. reflexivity.
  - destruct (none_i _ _ _ _ Hall Eb) as [Ev _]. rewrite Ev. reflexivity.
Qed.

(** ** Builders that are made from a lazy one *)

Lemma find_lazy_sub : forall l0 x0 l r h t,
  nth_error h r = Some t ->
  exists h', find (SSub (SLazy l0 x0) l) r h = (h', None).
Proof.
  intros l0 x0 l r h t Ht. cbn [find]. rewrite Ht.
  assert (Hr : r < List.length h) by (apply nth_error_Some; rewrite Ht; discriminate).
  assert (Hset : forall (h : heap) r t', r < List.length h ->
             nth_error (set_nth r t' h) r = Some t').
  { clear. induction h as [| a h IH]; intros r t' Hr; [cbn in Hr; lia |].
    destruct r; [reflexivity |]. cbn. apply IH. cbn in Hr. lia. }
  rewrite Hset by exact Hr.
  assert (Hg : get (put t [] l0 (Node x0 [])) ([l0] ++ [l]) = None).
  { cbn [put app get kids_of]. rewrite kid_put_kid, String.eqb_refl. reflexivity. }
  rewrite Hg. eexists. reflexivity.
Qed.

Lemma with_lazy_sub : forall b l0 x0 l l' x' h,
  b_sel b = SSub (SLazy l0 x0) l -> with_field b l' x' h = None.
Proof.
  intros b l0 x0 l l' x' h Hs. unfold with_field.
  destruct (nth_error h (b_root b)) as [t |]; [| reflexivity]. rewrite Hs.
  destruct (find_lazy_sub l0 x0 l (List.length h) (h ++ [clone t]) _ (nth_last _ h (clone t)))
    as (h' & Hf).
  rewrite Hf. reflexivity.
Qed.

(** ** resolveMessage *)

(** A builder through which one may write any number of times, without lost
    parts. *)
Definition roomy (h : heap) (b : builder) : Prop :=
  exists t p, nth_error h (b_root b) = Some t /\ clone t = t /\
              sel_path (b_sel b) = Some p /\ get t p <> None.

Lemma roomy_grow : forall h h' b, roomy h b -> roomy (h ++ h') b.
Proof.
  intros h h' b (t & p & Ht & R). exists t, p. split; [| exact R].
  rewrite nth_error_app1; [exact Ht |]. apply nth_error_Some. rewrite Ht. discriminate.
Qed.

Lemma enter_roomy : forall h b l x,
  roomy h b -> is_left_out l = false ->
  exists t b', enter b l x h = Some (h ++ [t], b') /\ roomy (h ++ [t]) b' /\
    exists t0 p, nth_error h (b_root b) = Some t0 /\ sel_path (b_sel b) = Some p /\
                 t = put t0 p l (Node x []) /\ get t0 p <> None /\
                 b' = {| b_root := List.length h; b_sel := SSub (b_sel b) l |}.
Proof.
  intros h b l x (t0 & p & Ht & Hc & Hs & Hp) Hl.
  exists (put t0 p l (Node x [])), {| b_root := List.length h; b_sel := SSub (b_sel b) l |}.
  unfold enter. rewrite (with_free b l x h t0 p Ht Hc Hs Hp). split; [reflexivity |].
  split.
  - exists (put t0 p l (Node x [])), (p ++ [l]). cbn [b_root b_sel sel_path]. rewrite Hs.
    split; [apply nth_last |]. split; [apply clean_put; [exact Hc | reflexivity | exact Hl] |].
    split; [reflexivity |]. rewrite put_there by exact Hp. discriminate.
  - exists t0, p. repeat split; assumption.
Qed.

Lemma values_roomy : forall vs b h,
  roomy h b -> exists h' r, resolve_values b vs h = Some (h ++ h', r).
Proof.
  induction vs as [| v vs IH]; intros b h Hr.
  - exists [], []. cbn. rewrite app_nil_r. reflexivity.
  - cbn [resolve_values].
    destruct (enter_roomy h b "Enum.Value" v Hr eq_refl) as (t & b1 & He & _). rewrite He.
    destruct (IH b (h ++ [t]) (roomy_grow _ _ _ Hr)) as (h' & r & Hv). rewrite Hv.
    rewrite <- app_assoc. eexists _, _. reflexivity.
Qed.

Lemma enums_roomy : forall es b name h,
  roomy h b -> exists h' r, resolve_enums b name es h = Some (h ++ h', r).
Proof.
  induction es as [| [e vs] es IH]; intros b name h Hr.
  - exists [], []. cbn. rewrite app_nil_r. reflexivity.
  - cbn [resolve_enums].
    destruct (enter_roomy h b "Message.Enum" name Hr eq_refl) as (t & b1 & He & Hr1 & _).
    rewrite He. destruct (values_roomy vs b1 _ Hr1) as (h1 & r1 & Hv). rewrite Hv.
    rewrite <- app_assoc.
    destruct (IH b name (h ++ [t] ++ h1) (roomy_grow _ _ _ Hr)) as (h2 & r2 & H2).
    rewrite H2. rewrite <- app_assoc. eexists _, _. reflexivity.
Qed.

Lemma option_roomy : forall bad b h,
  roomy h b -> exists h' r, resolve_option b bad h = Some (h ++ h', r).
Proof.
  intros [|] b h Hr; unfold resolve_option.
  - destruct (enter_roomy h b "Message.Option" "" Hr eq_refl) as (t & b1 & He & _).
    rewrite He. eexists _, _. reflexivity.
  - exists [], []. rewrite app_nil_r. reflexivity.
Qed.

Lemma oneofs_roomy : forall os b h,
  roomy h b -> exists h' r, resolve_oneofs b os h = Some (h ++ h', r).
Proof.
  induction os as [| [o bad] os IH]; intros b h Hr.
  - exists [], []. cbn. rewrite app_nil_r. reflexivity.
  - cbn [resolve_oneofs].
    destruct (enter_roomy h b "Message.Oneof" o Hr eq_refl) as (t & b1 & He & _).
    rewrite He. destruct (IH b (h ++ [t]) (roomy_grow _ _ _ Hr)) as (h' & r & Hv).
    rewrite Hv. rewrite <- app_assoc. eexists _, _. reflexivity.
Qed.

Lemma fields_roomy : forall fs b h,
  roomy h b -> exists h', resolve_fields b fs h = Some (h ++ h').
Proof.
  induction fs as [| f fs IH]; intros b h Hr.
  - exists []. cbn. rewrite app_nil_r. reflexivity.
  - cbn [resolve_fields].
    destruct (enter_roomy h b "Message.Field" f Hr eq_refl) as (t & b1 & He & _).
    rewrite He. destruct (IH b (h ++ [t]) (roomy_grow _ _ _ Hr)) as (h' & Hv).
    rewrite Hv. rewrite <- app_assoc. eexists. reflexivity.
Qed.

Fixpoint resolve_nested (b : builder) (name : string) (ms : list mdef) (h : heap)
  : option (heap * report) :=
  match ms with
  | [] => Some (h, [])
  | (M n _ _ _ _ _) as m' :: ms' =>
      match enter b "Message.NestedMessage" name h with
      | Some (h1, b1) =>
          match resolve_message b1 (name ++ "." ++ n)%string m' h1 with
          | Some (h2, r1) =>
              match resolve_nested b name ms' h2 with
              | Some (h3, r2) => Some (h3, r1 ++ r2)
              | None => None
              end
          | None => None
          end
      | None => None
      end
  end.

Lemma resolve_message_eq : forall b name n nested enums bad oneofs fields h,
  resolve_message b name (M n nested enums bad oneofs fields) h =
  match resolve_nested b name nested h with
  | None => None
  | Some (h1, r1) =>
      match resolve_enums b name enums h1 with
      | None => None
      | Some (h2, r2) =>
          match resolve_option b bad h2 with
          | None => None
          | Some (h3, r3) =>
              match resolve_oneofs b oneofs h3 with
              | None => None
              | Some (h4, r4) =>
                  match resolve_fields b fields h4 with
                  | None => None
                  | Some h5 => Some (h5, r1 ++ r2 ++ r3 ++ r4)
                  end
              end
          end
      end
  end.
Proof.
  intros b name n nested enums bad oneofs fields h. cbn [resolve_message].
  match goal with |- match ?f nested h with _ => _ end = _ =>
    assert (E : forall ms h, f ms h = resolve_nested b name ms h) end.
  { clear. induction ms as [| [n' a1 a2 a3 a4 a5] ms IH]; intros h; [reflexivity |].
    cbn [resolve_nested]. destruct (enter b "Message.NestedMessage" name h) as [[h1 b1] |];
      [| reflexivity].
    destruct (resolve_message b1 (name ++ "." ++ n')%string (M n' a1 a2 a3 a4 a5) h1)
      as [[h2 r1] |]; [| reflexivity].
    rewrite IH. reflexivity. }
  rewrite E. reflexivity.
Qed.

Definition mdef_ind' (P : mdef -> Prop)
  (H : forall n nested enums bad oneofs fields,
     Forall P nested -> P (M n nested enums bad oneofs fields)) : forall m, P m :=
  fix F (m : mdef) : P m :=
    match m with
    | M n nested enums bad oneofs fields =>
        H n nested enums bad oneofs fields
          ((fix G (ms : list mdef) : Forall P ms :=
              match ms with
              | [] => Forall_nil _
              | m' :: ms' => Forall_cons m' (F m') (G ms')
              end) nested)
    end.

Lemma message_roomy : forall m b name h,
  roomy h b -> exists h' r, resolve_message b name m h = Some (h ++ h', r).
Proof.
  induction m as [n nested enums bad oneofs fields IH] using mdef_ind'.
  intros b name h Hr. rewrite resolve_message_eq.
  assert (HN : exists h' r, resolve_nested b name nested h = Some (h ++ h', r)).
  { revert h Hr. induction IH as [| m ms Hm Hms IHms]; intros h Hr.
    - exists [], []. cbn. rewrite app_nil_r. reflexivity.
    - cbn [resolve_nested]. destruct m as [n' a1 a2 a3 a4 a5].
      destruct (enter_roomy h b "Message.NestedMessage" name Hr eq_refl)
        as (t & b1 & He & Hr1 & _).
      rewrite He.
      destruct (Hm b1 (name ++ "." ++ n')%string _ Hr1) as (h1 & r1 & H1). rewrite H1.
      rewrite <- app_assoc.
      destruct (IHms (h ++ [t] ++ h1) (roomy_grow _ _ _ Hr)) as (h2 & r2 & H2).
      rewrite H2. rewrite <- app_assoc. eexists _, _. reflexivity. }
  destruct HN as (h1 & r1 & H1). rewrite H1.
  destruct (enums_roomy enums b name (h ++ h1) (roomy_grow _ _ _ Hr)) as (h2 & r2 & H2).
  rewrite H2. rewrite <- app_assoc.
  destruct (option_roomy bad b (h ++ h1 ++ h2) (roomy_grow _ _ _ Hr)) as (h3 & r3 & H3).
  rewrite H3. rewrite <- app_assoc.
  destruct (oneofs_roomy oneofs b (h ++ (h1 ++ h2) ++ h3) (roomy_grow _ _ _ Hr)) as (h4 & r4 & H4).
  rewrite H4. rewrite <- app_assoc.
  destruct (fields_roomy fields b (h ++ ((h1 ++ h2) ++ h3) ++ h4) (roomy_grow _ _ _ Hr)) as (h5 & H5).
  rewrite H5. rewrite <- app_assoc. eexists _, _. reflexivity.
Qed.

(** *** With a lazy builder *)

Definition lazy_b (h : heap) (b : builder) : Prop :=
  exists t l x, nth_error h (b_root b) = Some t /\ b_sel b = SLazy l x.

Lemma lazy_grow : forall h h' b, lazy_b h b -> lazy_b (h ++ h') b.
Proof.
  intros h h' b (t & l & x & Ht & R). exists t, l, x. split; [| exact R].
  rewrite nth_error_app1; [exact Ht |]. apply nth_error_Some. rewrite Ht. discriminate.
Qed.

Lemma enter_lazy : forall h b l x,
  lazy_b h b ->
  exists t b' l0 x0, enter b l x h = Some (h ++ [t], b') /\
    b_sel b' = SSub (SLazy l0 x0) l.
Proof.
  intros h b l x (t & l0 & x0 & Ht & Hs). unfold enter, with_field. rewrite Ht, Hs.
  cbn [find]. rewrite nth_last, set_last, nth_last, set_last.
  eexists _, _, l0, x0. split; reflexivity.
Qed.

Definition spent (b : builder) : Prop := exists l0 x0 l, b_sel b = SSub (SLazy l0 x0) l.

Lemma enter_spent : forall b l x h, spent b -> enter b l x h = None.
Proof.
  intros b l x h (l0 & x0 & l1 & Hs). unfold enter.
  rewrite (with_lazy_sub b l0 x0 l1 l x h Hs). reflexivity.
Qed.

Lemma message_spent : forall m b name h,
  spent b ->
  (has_parts m -> resolve_message b name m h = None) /\
  (~ has_parts m -> resolve_message b name m h = Some (h, [])).
Proof.
  intros [n nested enums bad oneofs fields] b name h Hs. rewrite resolve_message_eq.
  unfold has_parts.
  destruct nested as [| [n' a1 a2 a3 a4 a5] nested].
  2:{ cbn [resolve_nested]. rewrite (enter_spent _ _ _ _ Hs). split; [reflexivity |].
      intros H. exfalso. apply H. left. discriminate. }
  cbn [resolve_nested]. destruct enums as [| [e vs] enums].
  2:{ cbn [resolve_enums]. rewrite (enter_spent _ _ _ _ Hs). split; [reflexivity |].
      intros H. exfalso. apply H. right. left. discriminate. }
  cbn [resolve_enums]. unfold resolve_option. destruct bad.
  { rewrite (enter_spent _ _ _ _ Hs). split; [reflexivity |].
    intros H. exfalso. apply H. right. right. left. reflexivity. }
  destruct oneofs as [| [o ob] oneofs].
  2:{ cbn [resolve_oneofs]. rewrite (enter_spent _ _ _ _ Hs). split; [reflexivity |].
      intros H. exfalso. apply H. right. right. right. left. discriminate. }
  cbn [resolve_oneofs]. destruct fields as [| f fields].
  2:{ cbn [resolve_fields]. rewrite (enter_spent _ _ _ _ Hs). split; [reflexivity |].
      intros H. exfalso. apply H. right. right. right. right. discriminate. }
  cbn [resolve_fields]. split; [| reflexivity].
  intros [H | [H | [H | [H | H]]]]; try (exfalso; apply H; reflexivity). discriminate H.
Qed.

Lemma has_parts_dec : forall m, has_parts m \/ ~ has_parts m.
Proof.
  intros [n nested enums bad oneofs fields]. unfold has_parts.
  destruct nested; [| left; left; discriminate].
  destruct enums; [| left; right; left; discriminate].
  destruct bad; [left; right; right; left; reflexivity |].
  destruct oneofs; [| left; right; right; right; left; discriminate].
  destruct fields; [| left; right; right; right; right; discriminate].
  right. intros [H | [H | [H | [H | H]]]]; try (apply H; reflexivity). discriminate H.
Qed.

Lemma nested_lazy : forall ms b name h,
  lazy_b h b ->
  ((exists n, In n ms /\ has_parts n) /\ resolve_nested b name ms h = None) \/
  (~ (exists n, In n ms /\ has_parts n) /\
   exists h' r, resolve_nested b name ms h = Some (h ++ h', r)).
Proof.
  induction ms as [| m ms IH]; intros b name h Hl.
  - right. split; [intros (n & [] & _) |]. exists [], []. cbn. rewrite app_nil_r. reflexivity.
  - cbn [resolve_nested]. destruct m as [n' a1 a2 a3 a4 a5].
    destruct (enter_lazy h b "Message.NestedMessage" name Hl) as (t & b1 & l0 & x0 & He & Hs).
    rewrite He.
    assert (Hsp : spent b1) by (exists l0, x0, "Message.NestedMessage"; exact Hs).
    destruct (message_spent (M n' a1 a2 a3 a4 a5) b1 (name ++ "." ++ n')%string (h ++ [t]) Hsp)
      as [Hbad Hgood].
    destruct (has_parts_dec (M n' a1 a2 a3 a4 a5)) as [Hp | Hp].
    + left. rewrite (Hbad Hp). split; [| reflexivity].
      eexists. split; [left; reflexivity | exact Hp].
    + rewrite (Hgood Hp).
      destruct (IH b name (h ++ [t]) (lazy_grow _ _ _ Hl)) as [[Hex E] | [Hno (h' & r & E)]].
      * left. rewrite E. split; [| reflexivity].
        destruct Hex as (n & Hin & Hn). exists n. split; [right; exact Hin | exact Hn].
      * right. rewrite E. split.
        -- intros (n & [<- | Hin] & Hn); [exact (Hp Hn) |]. apply Hno. exists n. split; assumption.
        -- rewrite <- app_assoc. eexists _, _. reflexivity.
Qed.

Lemma enums_lazy : forall es b name h,
  lazy_b h b ->
  ((exists e vs, In (e, vs) es /\ vs <> []) /\ resolve_enums b name es h = None) \/
  (~ (exists e vs, In (e, vs) es /\ vs <> []) /\
   exists h' r, resolve_enums b name es h = Some (h ++ h', r)).
Proof.
  induction es as [| [e vs] es IH]; intros b name h Hl.
  - right. split; [intros (e & vs & [] & _) |]. exists [], []. cbn. rewrite app_nil_r. reflexivity.
  - cbn [resolve_enums].
    destruct (enter_lazy h b "Message.Enum" name Hl) as (t & b1 & l0 & x0 & He & Hs).
    rewrite He.
    assert (Hsp : spent b1) by (exists l0, x0, "Message.Enum"; exact Hs).
    destruct vs as [| v vs].
    + cbn [resolve_values].
      destruct (IH b name (h ++ [t]) (lazy_grow _ _ _ Hl)) as [[Hex E] | [Hno (h' & r & E)]].
      * left. rewrite E. split; [| reflexivity].
        destruct Hex as (e' & vs' & Hin & Hn). exists e', vs'. split; [right; exact Hin | exact Hn].
      * right. rewrite E. split.
        -- intros (e' & vs' & [Heq | Hin] & Hn).
           ++ injection Heq as <- <-. apply Hn. reflexivity.
           ++ apply Hno. exists e', vs'. split; assumption.
        -- rewrite <- app_assoc. eexists _, _. reflexivity.
    + left. cbn [resolve_values]. rewrite (enter_spent _ _ _ _ Hsp). split; [| reflexivity].
      exists e, (v :: vs). split; [left; reflexivity | discriminate].
Qed.

Lemma oneofs_lazy : forall os b h,
  lazy_b h b -> exists h' r, resolve_oneofs b os h = Some (h ++ h', r).
Proof.
  induction os as [| [o bad] os IH]; intros b h Hr.
  - exists [], []. cbn. rewrite app_nil_r. reflexivity.
  - cbn [resolve_oneofs].
    destruct (enter_lazy h b "Message.Oneof" o Hr) as (t & b1 & l0 & x0 & He & _).
    rewrite He. destruct (IH b (h ++ [t]) (lazy_grow _ _ _ Hr)) as (h' & r & Hv).
    rewrite Hv. rewrite <- app_assoc. eexists _, _. reflexivity.
Qed.

Lemma fields_lazy : forall fs b h,
  lazy_b h b -> exists h', resolve_fields b fs h = Some (h ++ h').
Proof.
  induction fs as [| f fs IH]; intros b h Hr.
  - exists []. cbn. rewrite app_nil_r. reflexivity.
  - cbn [resolve_fields].
    destruct (enter_lazy h b "Message.Field" f Hr) as (t & b1 & l0 & x0 & He & _).
    rewrite He. destruct (IH b (h ++ [t]) (lazy_grow _ _ _ Hr)) as (h' & Hv).
    rewrite Hv. rewrite <- app_assoc. eexists. reflexivity.
Qed.

Lemma message_lazy : forall m b name h,
  lazy_b h b ->
  (two_levels m /\ resolve_message b name m h = None) \/
  (~ two_levels m /\ exists h' r, resolve_message b name m h = Some (h ++ h', r)).
Proof.
  intros [n nested enums bad oneofs fields] b name h Hl. rewrite resolve_message_eq.
  unfold two_levels. cbn [nested_of has_bad_value].
  destruct (nested_lazy nested b name h Hl) as [[Hex E] | [Hno (h1 & r1 & E)]]; rewrite E.
  - left. split; [left; exact Hex | reflexivity].
  - destruct (enums_lazy enums b name (h ++ h1) (lazy_grow _ _ _ Hl))
      as [[Hex E2] | [Hno2 (h2 & r2 & E2)]]; rewrite E2.
    + left. split; [right; exact Hex | reflexivity].
    + right. split; [intros [H | H]; [exact (Hno H) | exact (Hno2 H)] |].
      rewrite <- app_assoc.
      assert (HO : exists h' r, resolve_option b bad (h ++ h1 ++ h2)
                                = Some ((h ++ h1 ++ h2) ++ h', r)).
      { unfold resolve_option. destruct bad.
        - destruct (enter_lazy (h ++ h1 ++ h2) b "Message.Option" "" (lazy_grow _ _ _ Hl))
            as (t & b1 & l0 & x0 & He & _).
          rewrite He. eexists _, _. reflexivity.
        - exists [], []. rewrite app_nil_r. reflexivity. }
      destruct HO as (h3 & r3 & E3). rewrite E3. rewrite <- app_assoc.
      destruct (oneofs_lazy oneofs b (h ++ (h1 ++ h2) ++ h3) (lazy_grow _ _ _ Hl))
        as (h4 & r4 & E4).
      rewrite E4. rewrite <- app_assoc.
      destruct (fields_lazy fields b (h ++ ((h1 ++ h2) ++ h3) ++ h4) (lazy_grow _ _ _ Hl))
        as (h5 & E5).
      rewrite E5. rewrite <- app_assoc. eexists _, _. reflexivity.
Qed.

(** ** Plain programs *)

Definition uses1 (a : option (list use)) (o : op) : option (list use) :=
  match a with Some u => careful1 u o | None => None end.

Lemma plain_careful : forall ops us,
  Forall plain ops -> Forall (fun u => u = Free) us ->
  exists us', fold_left uses1 ops (Some us)
  = Some us' /\ careful us ops /\ Forall (fun u => u = Free) us'.
Proof.
  induction ops as [| o ops IH]; intros us Hp Hu.
  - exists us. repeat split; assumption.
  - inversion Hp as [| ? ? Ho Hops]; subst.
    assert (E : exists us1, careful1 us o = Some us1 /\ Forall (fun u => u = Free) us1).
    { destruct o as [file | i l x | i l x | i x | i l x]; cbn [plain] in Ho; try contradiction.
      - eexists. split; [reflexivity |]. apply Forall_app. split; [exact Hu |].
        constructor; [reflexivity | constructor].
      - cbn [careful1]. destruct (nth_error us i) as [u |] eqn:E.
        + rewrite Forall_forall in Hu. rewrite (Hu u (nth_error_In _ _ E)). cbn [after].
          rewrite Ho. eexists. split; [reflexivity |]. apply Forall_app.
          split; [apply Forall_forall; exact Hu |]. constructor; [reflexivity | constructor].
        + eexists. split; [reflexivity | exact Hu].
      - cbn [careful1]. destruct (nth_error us i) as [u |] eqn:E.
        + rewrite Forall_forall in Hu. rewrite (Hu u (nth_error_In _ _ E)). cbn [after].
          rewrite Ho. eexists. split; [reflexivity |]. apply Forall_app.
          split; [apply Forall_forall; exact Hu |]. constructor; [reflexivity | constructor].
        + eexists. split; [reflexivity | exact Hu]. }
    destruct E as (us1 & E1 & Hu1). destruct (IH us1 Hops Hu1) as (us' & F & C & U).
    exists us'. cbn [fold_left careful uses1]. rewrite E1. repeat split; assumption.
Qed.

Lemma run_ok_uses : forall ops st vs us us',
  all_ok st vs us -> 
  fold_left uses1 ops (Some us) = Some us' ->
  exists st', run st ops = Some st' /\ all_ok st' (fold_left made ops vs) us'.
Proof.
  induction ops as [| o ops IH]; intros st vs us us' Hall Hc.
  - cbn in Hc. injection Hc as <-. exists st. split; [reflexivity | exact Hall].
  - cbn [fold_left uses1] in Hc. destruct (careful1 us o) as [us1 |] eqn:E.
    + destruct (step_ok o st vs us us1 Hall E) as (st1 & Hs & Hall1).
      cbn [run fold_left]. rewrite Hs. exact (IH st1 _ us1 us' Hall1 Hc).
    + exfalso. revert Hc. clear. induction ops as [| o' ops IH]; [discriminate | exact IH].
Qed.

Lemma plain_roomy : forall ops st i b,
  Forall plain ops -> run start ops = Some st -> nth_error (st_builders st) i = Some b ->
  roomy (st_heap st) b.
Proof.
  intros ops st i b Hp Hr Hb.
  destruct (plain_careful ops [] Hp (Forall_nil _)) as (us' & F & C & U).
  destruct (run_ok_uses ops start [] [] us' start_ok F) as (st' & Hr' & Hall).
  rewrite Hr in Hr'. injection Hr' as <-.
  destruct (at_i _ _ _ _ _ Hall Hb) as (v & u & Ev & Eu & t & Ht & Hsay & Hu).
  rewrite Forall_forall in U. rewrite (U u (nth_error_In _ _ Eu)) in Hu.
  destruct Hu as (Hc & Hs & Hg & _). exists t, (v_at v). repeat split; assumption.
Qed.

Lemma free_at : forall ops i o v,
  careful [] (ops ++ [o]) -> nth_error (meant ops) i = Some v ->
  (forall us, nth_error us i <> None -> careful1 us o <> None -> nth_error us i = Some Free) ->
  exists st b, run start ops = Some st /\ nth_error (st_builders st) i = Some b /\
               ok (st_heap st) b v Free.
Proof.
  intros ops i o v Hc Hv Hfree.
  assert (G : forall ops us vs st, all_ok st vs us -> careful us (ops ++ [o]) ->
     exists st' us', run st ops = Some st' /\ all_ok st' (fold_left made ops vs) us' /\
                     careful us' [o]).
  { clear. induction ops as [| o' ops IH]; intros us vs st Hall Hc.
    - exists st, us. split; [reflexivity |]. split; [exact Hall | exact Hc].
    - cbn [app careful] in Hc. destruct (careful1 us o') as [us1 |] eqn:E; [| destruct Hc].
      destruct (step_ok o' st vs us us1 Hall E) as (st1 & Hs & Hall1).
      cbn [run fold_left]. rewrite Hs. exact (IH us1 _ st1 Hall1 Hc). }
  destruct (G ops [] [] start start_ok Hc) as (st & us & Hr & (L1 & L2 & Hall) & Hlast).
  fold (meant ops) in *.
  assert (Hi : i < List.length (meant ops)) by (apply nth_error_Some; rewrite Hv; discriminate).
  assert (Hu : nth_error us i = Some Free).
  { apply Hfree.
    - apply nth_error_Some. rewrite L2. exact Hi.
    - cbn [careful] in Hlast. destruct (careful1 us o); [discriminate | destruct Hlast]. }
  destruct (nth_error (st_builders st) i) as [b |] eqn:Eb;
    [| apply nth_error_None in Eb; lia].
  exists st, b. split; [exact Hr |]. split; [exact Eb |]. apply (Hall i); assumption.
Qed.

Lemma run_app : forall ops more st,
  run st (ops ++ more) = match run st ops with Some st' => run st' more | None => None end.
Proof.
  induction ops as [| o ops IH]; intros more st; [reflexivity |]. cbn [app run].
  destruct (step st o); [apply IH | reflexivity].
Qed.

Lemma builders_count : forall ops st vs us,
  all_ok st vs us -> careful us ops ->
  forall st', run st ops = Some st' ->
  List.length (st_builders st') = List.length (fold_left made ops vs).
Proof.
  intros ops st vs us Hall Hc st' Hr.
  destruct (run_ok ops st vs us Hall Hc) as (st1 & us1 & Hr1 & L & _).
  rewrite Hr in Hr1. injection Hr1 as <-. exact L.
Qed.

Lemma starts_len : forall p q, starts p q = true -> List.length p <= List.length q.
Proof.
  induction p as [| a p IH]; intros q H; [cbn; lia |]. destruct q as [| b q]; [discriminate H |].
  cbn [starts] in H. apply andb_true_iff in H. destruct H as [_ H]. apply IH in H. cbn. lia.
Qed.

Lemma starts_refl : forall p, starts p p = true.
Proof.
  induction p as [| a p IH]; [reflexivity |]. cbn [starts]. rewrite String.eqb_refl. exact IH.
Qed.

Lemma starts_app : forall p q, starts p (p ++ q) = true.
Proof.
  induction p as [| a p IH]; intros q; [reflexivity |]. cbn [starts app].
  rewrite String.eqb_refl. apply IH.
Qed.

Lemma starts_sibling : forall p a b, a <> b -> starts (p ++ [a]) (p ++ [b]) = false.
Proof.
  induction p as [| k p IH]; intros a b H.
  - cbn. apply String.eqb_neq in H. rewrite H. reflexivity.
  - cbn [app starts]. rewrite String.eqb_refl. apply IH. exact H.
Qed.

Lemma made_keeps : forall vs o, exists more, made vs o = vs ++ more.
Proof.
  intros vs o. destruct o as [file | i l x | i l x | i x | i l x]; cbn [made];
    try (destruct (nth_error vs i); [| exists []; rewrite app_nil_r; reflexivity]);
    eexists; reflexivity.
Qed.

Lemma meant_keeps : forall ops vs, exists more, fold_left made ops vs = vs ++ more.
Proof.
  induction ops as [| o ops IH]; intros vs.
  - exists []. rewrite app_nil_r. reflexivity.
  - cbn [fold_left]. destruct (made_keeps vs o) as (m1 & E1). rewrite E1.
    destruct (IH (vs ++ m1)) as (m2 & E2). rewrite E2, <- app_assoc. eexists. reflexivity.
Qed.

Lemma careful_app : forall ops more us, careful us (ops ++ more) -> careful us ops.
Proof.
  induction ops as [| o ops IH]; intros more us H; [exact I |]. cbn [app careful] in *.
  destruct (careful1 us o); [exact (IH _ _ H) | exact H].
Qed.

(** Every builder points to a tree. *)
Definition pointed (st : state) : Prop :=
  forall i b, nth_error (st_builders st) i = Some b -> nth_error (st_heap st) (b_root b) <> None.

Lemma set_len : forall (h : heap) r t, List.length (set_nth r t h) = List.length h.
Proof.
  induction h as [| a h IH]; intros r t; [destruct r; reflexivity |].
  destruct r; cbn; [reflexivity | f_equal; apply IH].
Qed.

Lemma find_len : forall s r h h' o, find s r h = (h', o) -> List.length h' = List.length h.
Proof.
  induction s as [| s IH l | l x | r' s IH]; intros r h h' o H; cbn [find] in H.
  - injection H as <- _. reflexivity.
  - destruct (find s r h) as [h1 [[r1 p1] |]] eqn:E.
    + apply IH in E. destruct (nth_error h1 r1); [destruct (get t (p1 ++ [l])) |];
        injection H as <- _; exact E.
    + injection H as <- _. exact (IH _ _ _ _ E).
  - destruct (nth_error h r); injection H as <- _; [apply set_len | reflexivity].
  - exact (IH _ _ _ _ H).
Qed.

Lemma with_len : forall b l x h h' r,
  with_field b l x h = Some (h', r) -> List.length h' = S (List.length h) /\ r = List.length h.
Proof.
  intros b l x h h' r H. unfold with_field in H.
  destruct (nth_error h (b_root b)) as [t |]; [| discriminate H].
  destruct (find (b_sel b) (List.length h) (h ++ [clone t])) as [h1 [[r1 p1] |]] eqn:E;
    [| discriminate H].
  apply find_len in E. rewrite app_length in E. cbn in E.
  destruct (nth_error h1 r1); [| discriminate H]. injection H as <- <-.
  rewrite set_len. split; [lia | reflexivity].
Qed.

Lemma step_pointed : forall st o st', pointed st -> step st o = Some st' -> pointed st'.
Proof.
  intros st o st' Hp H.
  assert (G : forall h b, push st (Some (h, b)) = Some st' ->
            List.length h = S (List.length (st_heap st)) -> b_root b = List.length (st_heap st) ->
            pointed st').
  { intros h b E Hl Hb. cbn [push] in E. injection E as <-. intros i b' Hi.
    cbn [st_builders st_heap] in *. apply nth_error_Some. rewrite Hl.
    destruct (Nat.lt_ge_cases i (List.length (st_builders st))) as [Hlt | Hge].
    - rewrite nth_error_app1 in Hi by exact Hlt. apply Hp in Hi. apply nth_error_Some in Hi. lia.
    - rewrite nth_error_app2 in Hi by exact Hge.
      destruct (i - List.length (st_builders st)) as [| [| n]]; cbn in Hi;
        [injection Hi as <-; lia | discriminate Hi | discriminate Hi]. }
  destruct o as [file | i l x | i l x | i x | i l x]; cbn [step] in H.
  - unfold new_builder in H. apply (G _ _ H); [rewrite app_length; cbn; lia | reflexivity].
  - destruct (nth_error (st_builders st) i) as [b |]; [| injection H as <-; exact Hp].
    unfold enter in H. destruct (with_field b l x (st_heap st)) as [[h r] |] eqn:E; [| discriminate H].
    apply with_len in E. destruct E as [E1 E2]. apply (G _ _ H); [exact E1 | exact E2].
  - destruct (nth_error (st_builders st) i) as [b |]; [| injection H as <-; exact Hp].
    unfold flag in H. destruct (with_field b l x (st_heap st)) as [[h r] |] eqn:E; [| discriminate H].
    apply with_len in E. destruct E as [E1 E2]. apply (G _ _ H); [exact E1 | exact E2].
  - destruct (nth_error (st_builders st) i) as [b |]; [| injection H as <-; exact Hp].
    unfold enter_var in H.
    destruct (with_field b "Env.Var" x (st_heap st)) as [[h r] |] eqn:E; [| discriminate H].
    apply with_len in E. destruct E as [E1 E2]. apply (G _ _ H); [exact E1 | exact E2].
  - destruct (nth_error (st_builders st) i) as [b |]; [| injection H as <-; exact Hp].
    unfold to_lazy in H. destruct (nth_error (st_heap st) (b_root b)); [| discriminate H].
    apply (G _ _ H); [rewrite app_length; cbn; lia | reflexivity].
Qed.

Lemma run_pointed : forall ops st st', pointed st -> run st ops = Some st' -> pointed st'.
Proof.
  induction ops as [| o ops IH]; intros st st' Hp H.
  - injection H as <-. exact Hp.
  - cbn [run] in H. destruct (step st o) as [st1 |] eqn:E; [| discriminate H].
    exact (IH st1 st' (step_pointed _ _ _ Hp E) H).
Qed.

Lemma start_pointed : pointed start.
Proof. intros i b H. destruct i; discriminate H. Qed.

(** ** Lost parts *)

Lemma kid_clone : forall l ks,
  kid l (clone_kids ks)
  = if is_left_out l then None
    else match kid l ks with Some t => Some (clone t) | None => None end.
Proof.
  intros l ks. induction ks as [| [k t] ks IH].
  - cbn [clone_kids kid]. destruct (is_left_out l); reflexivity.
  - cbn [clone_kids kid]. destruct (String.eqb l k) eqn:E.
    + apply String.eqb_eq in E. subst k. destruct (is_left_out l) eqn:F.
      * rewrite IH. reflexivity.
      * cbn [kid]. rewrite String.eqb_refl. reflexivity.
    + destruct (is_left_out k); [exact IH |]. cbn [kid]. rewrite E. exact IH.
Qed.

Lemma clone_get : forall p t,
  (forall l, In l p -> is_left_out l = false) ->
  get (clone t) p = match get t p with Some u => Some (clone u) | None => None end.
Proof.
  induction p as [| l p IH]; intros [x ks] H; [reflexivity |].
  rewrite clone_eq. cbn [get kids_of]. rewrite kid_clone.
  rewrite (H l (or_introl eq_refl)). destruct (kid l ks) as [u |]; [| reflexivity].
  apply IH. intros l' Hin. apply H. right. exact Hin.
Qed.

Lemma clean_path : forall p t,
  clone t = t -> get t p <> None -> forall l, In l p -> is_left_out l = false.
Proof.
  induction p as [| k p IH]; intros [x ks] Hc Hp l Hin; [destruct Hin |].
  cbn [get kids_of] in Hp. destruct (kid k ks) as [u |] eqn:E; [| exfalso; apply Hp; reflexivity].
  destruct (clean_kids x ks Hc k u (kid_in _ _ _ E)) as [H1 H2].
  destruct Hin as [<- | Hin]; [exact H1 |]. exact (IH u H2 Hp l Hin).
Qed.

Lemma clone_lost : forall p t l, is_left_out l = true -> get (clone t) (p ++ [l]) = None.
Proof.
  induction p as [| k p IH]; intros [x ks] l Hl; rewrite clone_eq; cbn [app get kids_of];
    rewrite kid_clone.
  - rewrite Hl. reflexivity.
  - destruct (is_left_out k); [reflexivity |]. destruct (kid k ks) as [u |]; [| reflexivity].
    apply IH. exact Hl.
Qed.

(** ** What the reports of resolveMessage say *)

(** The part at [q] is not below [p]. *)
Definition apart (p q : path) : Prop := starts p q = true -> q = p.

Lemma apart_put : forall t0 p l n q,
  get t0 p <> None -> apart p q ->
  tsays (put t0 p l (Node n [])) q = tsays t0 q.
Proof.
  intros t0 p l n q Hp Ha. rewrite put_says by exact Hp. unfold now.
  destruct (starts (p ++ [l]) q) eqn:E; [| reflexivity]. exfalso.
  assert (S : starts p q = true).
  { clear - E. revert q E. induction p as [| a p IH]; intros q E; [reflexivity |].
    destruct q as [| b q]; [discriminate E |]. cbn [app starts] in *.
    apply andb_true_iff in E. destruct E as [E1 E2]. rewrite E1. cbn. exact (IH q E2). }
  apply Ha in S. subst q. apply starts_len in E. rewrite app_length in E. cbn in E. lia.
Qed.

Definition keeps (b : builder) (h : heap) (rep : report) : Prop :=
  forall t0 p q r, nth_error h (b_root b) = Some t0 -> sel_path (b_sel b) = Some p ->
    apart p q -> In r rep -> tsays r q = tsays t0 q.

Lemma apart_below : forall p l q, apart p q -> apart (p ++ [l]) q.
Proof.
  intros p l q Ha E. exfalso.
  assert (S : starts p q = true).
  { clear - E. revert q E. induction p as [| a p IH]; intros q E; [reflexivity |].
    destruct q as [| b q]; [discriminate E |]. cbn [app starts] in *.
    apply andb_true_iff in E. destruct E as [E1 E2]. rewrite E1. cbn. exact (IH q E2). }
  apply Ha in S. subst q. apply starts_len in E. rewrite app_length in E. cbn in E. lia.
Qed.

Lemma enter_keeps : forall h b l x h' b' rep,
  roomy h b -> is_left_out l = false -> enter b l x h = Some (h', b') ->
  keeps b' h' rep -> keeps b h rep.
Proof.
  intros h b l x h' b' rep Hr Hl He Hk t0 p q r Ht Hs Ha Hin.
  destruct (enter_roomy h b l x Hr Hl) as (t & b1 & He' & Hr' & t1 & p1 & Ht1 & Hs1 & -> & Hp & ->).
  rewrite He in He'. injection He' as -> ->.
  rewrite Ht in Ht1. injection Ht1 as <-. rewrite Hs in Hs1. injection Hs1 as <-.
  assert (Hsp : sel_path (SSub (b_sel b) l) = Some (p ++ [l])) by (cbn; rewrite Hs; reflexivity).
  rewrite (Hk _ (p ++ [l]) q r (nth_last _ h _) Hsp (apart_below _ _ _ Ha) Hin).
  apply apart_put; assumption.
Qed.

Lemma say_keeps : forall b h, keeps b h (say b h).
Proof.
  intros b h t0 p q r Ht Hs Ha Hin. unfold say, location in Hin. rewrite Ht in Hin.
  destruct Hin as [<- | []]. reflexivity.
Qed.

Lemma keeps_grow : forall b h h' rep, roomy h b -> keeps b (h ++ h') rep -> keeps b h rep.
Proof.
  intros b h h' rep Hr Hk t0 p q r Ht. apply Hk.
  rewrite nth_error_app1; [exact Ht |]. apply nth_error_Some. rewrite Ht. discriminate.
Qed.

Lemma keeps_app : forall b h r1 r2, keeps b h r1 -> keeps b h r2 -> keeps b h (r1 ++ r2).
Proof.
  intros b h r1 r2 H1 H2 t0 p q r Ht Hs Ha Hin. apply in_app_or in Hin.
  destruct Hin as [Hin | Hin]; [apply (H1 t0 p) | apply (H2 t0 p)]; assumption.
Qed.

Lemma keeps_nil : forall b h, keeps b h [].
Proof. intros b h t0 p q r _ _ _ []. Qed.

Lemma values_keep : forall vs b h h' rep,
  roomy h b -> resolve_values b vs h = Some (h', rep) -> keeps b h rep.
Proof.
  induction vs as [| v vs IH]; intros b h h' rep Hr H; cbn [resolve_values] in H.
  - injection H as _ <-. apply keeps_nil.
  - destruct (enter_roomy h b "Enum.Value" v Hr eq_refl) as (t & b1 & He & _).
    rewrite He in H.
    destruct (resolve_values b vs (h ++ [t])) as [[h2 r] |] eqn:E; [| discriminate H].
    injection H as _ <-. apply keeps_app.
    + refine (enter_keeps _ _ _ _ _ _ _ Hr _ He _); [reflexivity |]. apply say_keeps.
    + apply (keeps_grow _ _ [t] _ Hr). exact (IH _ _ _ _ (roomy_grow _ _ _ Hr) E).
Qed.

Lemma enums_keep : forall es b name h h' rep,
  roomy h b -> resolve_enums b name es h = Some (h', rep) -> keeps b h rep.
Proof.
  induction es as [| [e vs] es IH]; intros b name h h' rep Hr H; cbn [resolve_enums] in H.
  - injection H as _ <-. apply keeps_nil.
  - destruct (enter_roomy h b "Message.Enum" name Hr eq_refl) as (t & b1 & He & Hr1 & _).
    rewrite He in H. destruct (values_roomy vs b1 _ Hr1) as (h1 & r1 & Hv). rewrite Hv in H.
    destruct (resolve_enums b name es ((h ++ [t]) ++ h1)) as [[h2 r] |] eqn:E; [| discriminate H].
    injection H as _ <-. apply keeps_app.
    + refine (enter_keeps _ _ _ _ _ _ _ Hr _ He _); [reflexivity |]. exact (values_keep _ _ _ _ _ Hr1 Hv).
    + rewrite <- app_assoc in E. apply (keeps_grow _ _ ([t] ++ h1) _ Hr).
      exact (IH _ _ _ _ _ (roomy_grow _ _ _ Hr) E).
Qed.

Lemma option_keep : forall bad b h h' rep,
  roomy h b -> resolve_option b bad h = Some (h', rep) -> keeps b h rep.
Proof.
  intros [|] b h h' rep Hr H; unfold resolve_option in H.
  - destruct (enter_roomy h b "Message.Option" "" Hr eq_refl) as (t & b1 & He & _).
    rewrite He in H. injection H as _ <-.
    refine (enter_keeps _ _ _ _ _ _ _ Hr _ He _); [reflexivity |]. apply say_keeps.
  - injection H as _ <-. apply keeps_nil.
Qed.

Lemma oneofs_keep : forall os b h h' rep,
  roomy h b -> resolve_oneofs b os h = Some (h', rep) -> keeps b h rep.
Proof.
  induction os as [| [o bad] os IH]; intros b h h' rep Hr H; cbn [resolve_oneofs] in H.
  - injection H as _ <-. apply keeps_nil.
  - destruct (enter_roomy h b "Message.Oneof" o Hr eq_refl) as (t & b1 & He & _).
    rewrite He in H.
    destruct (resolve_oneofs b os (h ++ [t])) as [[h2 r] |] eqn:E; [| discriminate H].
    injection H as _ <-. apply keeps_app.
    + refine (enter_keeps _ _ _ _ _ _ _ Hr _ He _); [reflexivity |]. destruct bad; [apply say_keeps | apply keeps_nil].
    + apply (keeps_grow _ _ [t] _ Hr). exact (IH _ _ _ _ (roomy_grow _ _ _ Hr) E).
Qed.

Lemma message_keep : forall m b name h h' rep,
  roomy h b -> resolve_message b name m h = Some (h', rep) -> keeps b h rep.
Proof.
  induction m as [n nested enums bad oneofs fields IH] using mdef_ind'.
  intros b name h h' rep Hr H. rewrite resolve_message_eq in H.
  assert (HN : exists h1 r1, resolve_nested b name nested h = Some (h ++ h1, r1) /\
                             keeps b h r1).
  { clear H. revert h Hr. induction IH as [| m ms Hm Hms IHms]; intros h Hr.
    - exists [], []. cbn. rewrite app_nil_r. split; [reflexivity | apply keeps_nil].
    - cbn [resolve_nested]. destruct m as [n' a1 a2 a3 a4 a5].
      destruct (enter_roomy h b "Message.NestedMessage" name Hr eq_refl)
        as (t & b1 & He & Hr1 & _).
      rewrite He.
      destruct (message_roomy (M n' a1 a2 a3 a4 a5) b1 (name ++ "." ++ n')%string _ Hr1)
        as (h1 & r1 & H1).
      rewrite H1. rewrite <- app_assoc.
      destruct (IHms (h ++ [t] ++ h1) (roomy_grow _ _ _ Hr)) as (h2 & r2 & H2 & K2).
      rewrite H2. rewrite <- app_assoc. eexists _, _. split; [reflexivity |].
      apply keeps_app.
      + refine (enter_keeps _ _ _ _ _ _ _ Hr _ He _); [reflexivity |]. exact (Hm _ _ _ _ _ Hr1 H1).
      + exact (keeps_grow _ _ _ _ Hr K2). }
  destruct HN as (h1 & r1 & H1 & K1). rewrite H1 in H.
  pose proof (roomy_grow h h1 b Hr) as R1.
  destruct (enums_roomy enums b name (h ++ h1) R1) as (h2 & r2 & H2).
  rewrite H2 in H. pose proof (enums_keep _ _ _ _ _ _ R1 H2) as K2.
  pose proof (roomy_grow _ h2 b R1) as R2.
  destruct (option_roomy bad b _ R2) as (h3 & r3 & H3).
  rewrite H3 in H. pose proof (option_keep _ _ _ _ _ R2 H3) as K3.
  pose proof (roomy_grow _ h3 b R2) as R3.
  destruct (oneofs_roomy oneofs b _ R3) as (h4 & r4 & H4).
  rewrite H4 in H. pose proof (oneofs_keep _ _ _ _ _ R3 H4) as K4.
  destruct (resolve_fields b fields (((h ++ h1) ++ h2) ++ h3 ++ h4)) as [h5 |] eqn:E5.
  - rewrite <- app_assoc in H. rewrite E5 in H. injection H as _ <-.
    apply keeps_app; [exact K1 |]. apply keeps_app; [exact (keeps_grow _ _ _ _ Hr K2) |].
    apply keeps_app.
    + exact (keeps_grow _ _ _ _ Hr (keeps_grow _ _ _ _ R1 K3)).
    + exact (keeps_grow _ _ _ _ Hr (keeps_grow _ _ _ _ R1 (keeps_grow _ _ _ _ R2 K4))).
  - rewrite <- app_assoc in H. rewrite E5 in H. discriminate H.
Qed.

(** A report does not speak of nested messages, or speaks of one called
    [name]. *)
Definition named (p : path) (name : string) (rep : report) : Prop :=
  forall t, In t rep ->
    tsays t (p ++ ["Message.NestedMessage"]) = None \/
    tsays t (p ++ ["Message.NestedMessage"]) = Some name.

Lemma named_app : forall p name r1 r2, named p name r1 -> named p name r2 -> named p name (r1 ++ r2).
Proof.
  intros p name r1 r2 H1 H2 t Hin. apply in_app_or in Hin.
  destruct Hin; [apply H1 | apply H2]; assumption.
Qed.

Lemma named_nil : forall p name, named p name [].
Proof. intros p name t []. Qed.

(** The tree of [b] says nothing about a nested message of its part. *)
Definition silent (h : heap) (b : builder) (p : path) : Prop :=
  exists t0, nth_error h (b_root b) = Some t0 /\ sel_path (b_sel b) = Some p /\
             tsays t0 (p ++ ["Message.NestedMessage"]) = None.

Lemma silent_grow : forall h h' b p, silent h b p -> silent (h ++ h') b p.
Proof.
  intros h h' b p (t0 & Ht & R). exists t0. split; [| exact R].
  rewrite nth_error_app1; [exact Ht |]. apply nth_error_Some. rewrite Ht. discriminate.
Qed.

Lemma enter_other : forall h b p l x h' b' rep name,
  roomy h b -> silent h b p -> is_left_out l = false -> l <> "Message.NestedMessage" ->
  enter b l x h = Some (h', b') -> keeps b' h' rep -> named p name rep.
Proof.
  intros h b p l x h' b' rep name Hr (t0 & Ht & Hs & Hn) Hl Hne He Hk t Hin. left.
  destruct (enter_roomy h b l x Hr Hl) as (t1 & b1 & He' & Hr' & t2 & p2 & Ht2 & Hs2 & -> & Hp & ->).
  rewrite He in He'. injection He' as -> ->.
  rewrite Ht in Ht2. injection Ht2 as <-. rewrite Hs in Hs2. injection Hs2 as <-.
  assert (Hsp : sel_path (SSub (b_sel b) l) = Some (p ++ [l])) by (cbn; rewrite Hs; reflexivity).
  assert (Ha : apart (p ++ [l]) (p ++ ["Message.NestedMessage"])).
  { intros E. rewrite (starts_sibling p _ _ Hne) in E. discriminate E. }
  rewrite (Hk _ (p ++ [l]) _ t (nth_last _ h _) Hsp Ha Hin).
  rewrite put_says by exact Hp. unfold now. rewrite (starts_sibling p _ _ Hne). exact Hn.
Qed.

Lemma enter_nested : forall h b p name h' b' rep,
  roomy h b -> sel_path (b_sel b) = Some p ->
  enter b "Message.NestedMessage" name h = Some (h', b') -> keeps b' h' rep -> named p name rep.
Proof.
  intros h b p name h' b' rep Hr Hs He Hk t Hin. right.
  destruct (enter_roomy h b "Message.NestedMessage" name Hr eq_refl)
    as (t1 & b1 & He' & Hr' & t2 & p2 & Ht2 & Hs2 & -> & Hp & ->).
  rewrite He in He'. injection He' as -> ->.
  rewrite Hs in Hs2. injection Hs2 as <-.
  set (l := "Message.NestedMessage") in *.
  assert (Hsp : sel_path (SSub (b_sel b) l) = Some (p ++ [l])) by (cbn; rewrite Hs; reflexivity).
  assert (Ha : apart (p ++ [l]) (p ++ [l])) by (intros _; reflexivity).
  rewrite (Hk _ (p ++ [l]) _ t (nth_last _ h _) Hsp Ha Hin).
  unfold tsays. rewrite put_there by exact Hp. reflexivity.
Qed.

Lemma enums_named : forall es b p name n h h' rep,
  roomy h b -> silent h b p -> resolve_enums b n es h = Some (h', rep) -> named p name rep.
Proof.
  induction es as [| [e vs] es IH]; intros b p name n h h' rep Hr Hq H; cbn [resolve_enums] in H.
  - injection H as _ <-. apply named_nil.
  - destruct (enter_roomy h b "Message.Enum" n Hr eq_refl) as (t & b1 & He & Hr1 & _).
    rewrite He in H. destruct (values_roomy vs b1 _ Hr1) as (h1 & r1 & Hv). rewrite Hv in H.
    destruct (resolve_enums b n es ((h ++ [t]) ++ h1)) as [[h2 r] |] eqn:E; [| discriminate H].
    injection H as _ <-. apply named_app.
    + refine (enter_other h b p "Message.Enum" n _ _ _ name Hr Hq eq_refl _ He _); [intros Habs; discriminate Habs |].
      exact (values_keep _ _ _ _ _ Hr1 Hv).
    + rewrite <- app_assoc in E.
      exact (IH _ _ _ _ _ _ _ (roomy_grow _ _ _ Hr) (silent_grow _ _ _ _ Hq) E).
Qed.

Lemma option_named : forall bad b p name h h' rep,
  roomy h b -> silent h b p -> resolve_option b bad h = Some (h', rep) -> named p name rep.
Proof.
  intros [|] b p name h h' rep Hr Hq H; unfold resolve_option in H.
  - destruct (enter_roomy h b "Message.Option" "" Hr eq_refl) as (t & b1 & He & _).
    rewrite He in H. injection H as _ <-.
    refine (enter_other h b p "Message.Option" "" _ _ _ name Hr Hq eq_refl _ He _); [intros Habs; discriminate Habs |].
    apply say_keeps.
  - injection H as _ <-. apply named_nil.
Qed.

Lemma oneofs_named : forall os b p name h h' rep,
  roomy h b -> silent h b p -> resolve_oneofs b os h = Some (h', rep) -> named p name rep.
Proof.
  induction os as [| [o bad] os IH]; intros b p name h h' rep Hr Hq H; cbn [resolve_oneofs] in H.
  - injection H as _ <-. apply named_nil.
  - destruct (enter_roomy h b "Message.Oneof" o Hr eq_refl) as (t & b1 & He & _).
    rewrite He in H.
    destruct (resolve_oneofs b os (h ++ [t])) as [[h2 r] |] eqn:E; [| discriminate H].
    injection H as _ <-. apply named_app.
    + refine (enter_other h b p "Message.Oneof" o _ _ _ name Hr Hq eq_refl _ He _); [intros Habs; discriminate Habs |].
      destruct bad; [apply say_keeps | apply keeps_nil].
    + exact (IH _ _ _ _ _ _ (roomy_grow _ _ _ Hr) (silent_grow _ _ _ _ Hq) E).
Qed.

Lemma nested_all_named : forall ms b p name h,
  roomy h b -> sel_path (b_sel b) = Some p ->
  exists h' r, resolve_nested b name ms h = Some (h ++ h', r) /\ named p name r.
Proof.
  induction ms as [| m ms IH]; intros b p name h Hr Hs.
  - exists [], []. cbn. rewrite app_nil_r. split; [reflexivity | apply named_nil].
  - cbn [resolve_nested]. destruct m as [n' a1 a2 a3 a4 a5].
    destruct (enter_roomy h b "Message.NestedMessage" name Hr eq_refl)
      as (t & b1 & He & Hr1 & _).
    rewrite He.
    destruct (message_roomy (M n' a1 a2 a3 a4 a5) b1 (name ++ "." ++ n')%string _ Hr1)
      as (h1 & r1 & H1).
    rewrite H1. rewrite <- app_assoc.
    destruct (IH b p name (h ++ [t] ++ h1) (roomy_grow _ _ _ Hr) Hs) as (h2 & r2 & H2 & K2).
    rewrite H2. rewrite <- app_assoc. eexists _, _. split; [reflexivity |].
    apply named_app; [| exact K2].
    apply (enter_nested h b p name _ _ _ Hr Hs He). exact (message_keep _ _ _ _ _ _ Hr1 H1).
Qed.

Lemma nested_named : forall m file name h rep t,
  let hp := [Node file []; Node file [("Location.Message", Node name [])]] in
  let b := {| b_root := 1; b_sel := SSub SRoot "Location.Message" |} in
  roomy hp b -> resolve_message b name m hp = Some (h, rep) -> In t rep ->
  tsays t ["Location.Message"; "Message.NestedMessage"] = None \/
  tsays t ["Location.Message"; "Message.NestedMessage"] = Some name.
Proof.
  intros m file name h rep t hp b Hr H.
  change ["Location.Message"; "Message.NestedMessage"]
    with (["Location.Message"] ++ ["Message.NestedMessage"]).
  revert t. change (named ["Location.Message"] name rep).
  destruct m as [n nested enums bad oneofs fields]. rewrite resolve_message_eq in H.
  assert (Hs : sel_path (b_sel b) = Some ["Location.Message"]) by reflexivity.
  assert (Hq : silent hp b ["Location.Message"]).
  { exists (Node file [("Location.Message", Node name [])]). repeat split. }
  clearbody hp b.
  destruct (nested_all_named nested b _ name hp Hr Hs) as (h1 & r1 & H1 & N1).
  rewrite H1 in H. pose proof (roomy_grow hp h1 b Hr) as R1. pose proof (silent_grow hp h1 b _ Hq) as Q1.
  destruct (resolve_enums b name enums (hp ++ h1)) as [[h2' r2] |] eqn:E2; [| discriminate H].
  destruct (enums_roomy enums b name _ R1) as (h2 & r2' & E2'). rewrite E2 in E2'.
  injection E2' as -> <-.
  pose proof (enums_named _ _ _ name _ _ _ _ R1 Q1 E2) as N2.
  pose proof (roomy_grow _ h2 b R1) as R2. pose proof (silent_grow _ h2 b _ Q1) as Q2.
  destruct (resolve_option b bad ((hp ++ h1) ++ h2)) as [[h3' r3] |] eqn:E3; [| discriminate H].
  destruct (option_roomy bad b _ R2) as (h3 & r3' & E3'). rewrite E3 in E3'. injection E3' as -> <-.
  pose proof (option_named _ _ _ name _ _ _ R2 Q2 E3) as N3.
  pose proof (roomy_grow _ h3 b R2) as R3. pose proof (silent_grow _ h3 b _ Q2) as Q3.
  destruct (resolve_oneofs b oneofs (((hp ++ h1) ++ h2) ++ h3)) as [[h4' r4] |] eqn:E4; [| discriminate H].
  pose proof (oneofs_named _ _ _ name _ _ _ R3 Q3 E4) as N4.
  destruct (resolve_fields b fields h4') as [h5 |]; [| discriminate H].
  injection H as _ <-.
  apply named_app; [exact N1 |]. apply named_app; [exact N2 |]. apply named_app; [exact N3 | exact N4].
Qed.

(** ** Every error is reported *)

Lemma say_one : forall h b l x h' b',
  roomy h b -> is_left_out l = false -> enter b l x h = Some (h', b') ->
  List.length (say b' h') = 1.
Proof.
  intros h b l x h' b' Hr Hl He.
  destruct (enter_roomy h b l x Hr Hl) as (t & b1 & He' & (t1 & p1 & Ht & _) & _).
  rewrite He in He'. injection He' as -> ->. unfold say, location. rewrite Ht. reflexivity.
Qed.

Lemma values_count : forall vs b h h' rep,
  roomy h b -> resolve_values b vs h = Some (h', rep) -> List.length rep = List.length vs.
Proof.
  induction vs as [| v vs IH]; intros b h h' rep Hr H; cbn [resolve_values] in H.
  - injection H as _ <-. reflexivity.
  - destruct (enter_roomy h b "Enum.Value" v Hr eq_refl) as (t & b1 & He & _).
    rewrite He in H.
    destruct (resolve_values b vs (h ++ [t])) as [[h2 r] |] eqn:E; [| discriminate H].
    injection H as _ <-. rewrite app_length.
    rewrite (say_one h b "Enum.Value" v (h ++ [t]) b1 Hr eq_refl He).
    rewrite (IH _ _ _ _ (roomy_grow _ _ _ Hr) E). reflexivity.
Qed.

Lemma enums_count : forall es b name h h' rep,
  roomy h b -> resolve_enums b name es h = Some (h', rep) ->
  List.length rep = list_sum (map (fun e => List.length (snd e)) es).
Proof.
  induction es as [| [e vs] es IH]; intros b name h h' rep Hr H; cbn [resolve_enums] in H.
  - injection H as _ <-. reflexivity.
  - destruct (enter_roomy h b "Message.Enum" name Hr eq_refl) as (t & b1 & He & Hr1 & _).
    rewrite He in H. destruct (values_roomy vs b1 _ Hr1) as (h1 & r1 & Hv). rewrite Hv in H.
    destruct (resolve_enums b name es ((h ++ [t]) ++ h1)) as [[h2 r] |] eqn:E; [| discriminate H].
    injection H as _ <-. rewrite app_length, (values_count _ _ _ _ _ Hr1 Hv).
    rewrite <- app_assoc in E. rewrite (IH _ _ _ _ _ (roomy_grow _ _ _ Hr) E). reflexivity.
Qed.

Lemma option_count : forall bad b h h' rep,
  roomy h b -> resolve_option b bad h = Some (h', rep) ->
  List.length rep = if bad then 1 else 0.
Proof.
  intros [|] b h h' rep Hr H; unfold resolve_option in H.
  - destruct (enter b "Message.Option" "" h) as [[h1 b1] |] eqn:He; [| discriminate H].
    injection H as _ <-. exact (say_one h b "Message.Option" "" h1 b1 Hr eq_refl He).
  - injection H as _ <-. reflexivity.
Qed.

Lemma oneofs_count : forall os b h h' rep,
  roomy h b -> resolve_oneofs b os h = Some (h', rep) ->
  List.length rep = List.length (filter snd os).
Proof.
  induction os as [| [o bad] os IH]; intros b h h' rep Hr H; cbn [resolve_oneofs] in H.
  - injection H as _ <-. reflexivity.
  - destruct (enter_roomy h b "Message.Oneof" o Hr eq_refl) as (t & b1 & He & _).
    rewrite He in H.
    destruct (resolve_oneofs b os (h ++ [t])) as [[h2 r] |] eqn:E; [| discriminate H].
    injection H as _ <-. rewrite app_length, (IH _ _ _ _ (roomy_grow _ _ _ Hr) E).
    cbn [filter snd]. destruct bad; [| reflexivity].
    rewrite (say_one h b "Message.Oneof" o (h ++ [t]) b1 Hr eq_refl He). reflexivity.
Qed.

Lemma message_count : forall m b name h h' rep,
  roomy h b -> resolve_message b name m h = Some (h', rep) -> List.length rep = unreadable m.
Proof.
  induction m as [n nested enums bad oneofs fields IH] using mdef_ind'.
  intros b name h h' rep Hr H. rewrite resolve_message_eq in H.
  assert (HN : exists h1 r1, resolve_nested b name nested h = Some (h ++ h1, r1) /\
                             List.length r1 = list_sum (map unreadable nested)).
  { clear H. revert h Hr. induction IH as [| m ms Hm Hms IHms]; intros h Hr.
    - exists [], []. cbn. rewrite app_nil_r. split; reflexivity.
    - cbn [resolve_nested]. destruct m as [n' a1 a2 a3 a4 a5].
      destruct (enter_roomy h b "Message.NestedMessage" name Hr eq_refl)
        as (t & b1 & He & Hr1 & _).
      rewrite He.
      destruct (message_roomy (M n' a1 a2 a3 a4 a5) b1 (name ++ "." ++ n')%string _ Hr1)
        as (h1 & r1 & H1).
      rewrite H1. rewrite <- app_assoc.
      destruct (IHms (h ++ [t] ++ h1) (roomy_grow _ _ _ Hr)) as (h2 & r2 & H2 & K2).
      rewrite H2. rewrite <- app_assoc. eexists _, _. split; [reflexivity |].
      rewrite app_length, (Hm _ _ _ _ _ Hr1 H1), K2. reflexivity. }
  destruct HN as (h1 & r1 & H1 & K1). rewrite H1 in H.
  pose proof (roomy_grow h h1 b Hr) as R1.
  destruct (enums_roomy enums b name (h ++ h1) R1) as (h2 & r2 & H2).
  rewrite H2 in H. pose proof (enums_count _ _ _ _ _ _ R1 H2) as K2.
  pose proof (roomy_grow _ h2 b R1) as R2.
  destruct (option_roomy bad b _ R2) as (h3 & r3 & H3).
  rewrite H3 in H. pose proof (option_count _ _ _ _ _ R2 H3) as K3.
  pose proof (roomy_grow _ h3 b R2) as R3.
  destruct (oneofs_roomy oneofs b _ R3) as (h4 & r4 & H4).
  rewrite H4 in H. pose proof (oneofs_count _ _ _ _ _ R3 H4) as K4.
  match type of H with match ?e with _ => _ end = _ => destruct e as [h5 |]; [| discriminate H] end.
  injection H as _ <-. cbn [unreadable]. rewrite !app_length, K1, K2, K3, K4. lia.
Qed.
