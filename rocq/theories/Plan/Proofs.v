From Coq Require Import String List Arith Bool Lia Permutation.
From Verif.Base Require Import Sort SortProofs.
From Verif.Graph Require Import Dfs Spec Proofs.
From Verif.Plan Require Import Model Spec GraphProofs.
Import ListNotations.

Lemma map_opt_ext {A B} (f f' : A -> option B) l ys :
  (forall x y, In x l -> f x = Some y -> f' x = Some y) ->
  map_opt f l = Some ys -> map_opt f' l = Some ys.
Proof.
  revert ys; induction l as [|a l IH]; intros ys H; simpl; [auto|].
  destruct (f a) as [y|] eqn:E; [|discriminate].
  destruct (map_opt f l) as [ys'|]; [|discriminate].
  intros [= <-]. rewrite (H a y (or_introl eq_refl) E), (IH ys').
  - reflexivity.
  - intros x z Hx; apply H; right; exact Hx.
  - reflexivity.
Qed.

Lemma map_opt_some {A B} (f : A -> option B) l :
  (forall x, In x l -> exists y, f x = Some y) -> exists ys, map_opt f l = Some ys.
Proof.
  induction l as [|a l IH]; intros H; simpl; [eauto|].
  destruct (H a (or_introl eq_refl)) as [y ->].
  destruct IH as [ys ->]; [intros x Hx; apply H; right; exact Hx|eauto].
Qed.

Lemma map_opt_F2 {A B} (f : A -> option B) l ys :
  map_opt f l = Some ys <-> Forall2 (fun x y => f x = Some y) l ys.
Proof.
  revert ys; induction l as [|a l IH]; intros ys; simpl.
  - split; [intros [= <-]; constructor|intros H; inversion H; reflexivity].
  - split.
    + destruct (f a) eqn:E; [|discriminate]. destruct (map_opt f l) eqn:E2; [|discriminate].
      intros [= <-]. constructor; [exact E|]. apply IH; reflexivity.
    + intros H; inversion H as [|? y ? ys' H1 H2]; subst. rewrite H1.
      apply IH in H2. rewrite H2. reflexivity.
Qed.

Lemma F2_in_l {A B} (R : A -> B -> Prop) l ys x :
  Forall2 R l ys -> In x l -> exists y, In y ys /\ R x y.
Proof.
  induction 1; simpl; [tauto|]. intros [->|H']; [eauto|]. destruct (IHForall2 H') as (z & ? & ?); eauto.
Qed.
Lemma F2_in_r {A B} (R : A -> B -> Prop) l ys y :
  Forall2 R l ys -> In y ys -> exists x, In x l /\ R x y.
Proof.
  induction 1; simpl; [tauto|]. intros [->|H']; [eauto|]. destruct (IHForall2 H') as (z & ? & ?); eauto.
Qed.

Section G.
  Variable g : graph.
  Variable key : nat -> string.

  Lemma leaves_mono f f' x l : f <= f' -> leaves g f x = Some l -> leaves g f' x = Some l.
  Proof.
    revert f' x l; induction f as [|f IH]; intros f' x l Hle; [discriminate|].
    destruct f' as [|f']; [lia|]. cbn [leaves].
    destruct (children g x) as [|c cs]; [auto|].
    destruct (map_opt (leaves g f) (c :: cs)) as [ls|] eqn:E; [|discriminate].
    intros H. assert (E' : map_opt (leaves g f') (c :: cs) = Some ls).
    { eapply map_opt_ext; [|exact E]. intros; apply IH; [lia|assumption]. }
    rewrite E'. exact H.
  Qed.

  Lemma mk_group_mono f f' x gr :
    f <= f' -> mk_group g key f x = Some gr -> mk_group g key f' x = Some gr.
  Proof.
    revert f' x gr; induction f as [|f IH]; intros f' x gr Hle; [discriminate|].
    destruct f' as [|f']; [lia|]. cbn [mk_group].
    destruct (parents g x) as [|p [|p2 ps]]; [auto| |].
    - destruct (mk_group g key f p) eqn:E; [|discriminate].
      rewrite (IH f' p _ ltac:(lia) E). auto.
    - destruct (map_opt (mk_group g key f) (sort_by key (p :: p2 :: ps))) as [ls|] eqn:E; [|discriminate].
      intros H. assert (E' : map_opt (mk_group g key f') (sort_by key (p :: p2 :: ps)) = Some ls).
      { eapply map_opt_ext; [|exact E]. intros; apply IH; [lia|assumption]. }
      rewrite E'. exact H.
  Qed.

  (** One step of [mk_group] in relational form. *)
  Lemma mk_group_inv f x gr :
    mk_group g key (S f) x = Some gr ->
    (parents g x = [] /\ gr = Seq None x) \/
    (exists p s, parents g x = [p] /\ mk_group g key f p = Some s /\ gr = Seq (Some s) x) \/
    (exists ss, Forall2 (fun p s => mk_group g key f p = Some s) (sort_by key (parents g x)) ss /\
       gr = Conc ss x).
  Proof.
    cbn [mk_group]. destruct (parents g x) as [|p [|p2 ps]].
    - intros [= <-]; auto.
    - destruct (mk_group g key f p) eqn:E; [|discriminate]. intros [= <-]. right; left; eauto.
    - destruct (map_opt _ _) eqn:E; [|discriminate]. intros [= <-]. right; right.
      exists l; split; [apply map_opt_F2, E|reflexivity].
  Qed.

  Lemma mk_group_last f x gr : mk_group g key f x = Some gr -> last_def gr = x.
  Proof.
    destruct f as [|f]; [discriminate|]. intros H.
    apply mk_group_inv in H as [[_ ->]|[(p & s & _ & _ & ->)|(ss & _ & ->)]]; reflexivity.
  Qed.

  Lemma F2_last f ps ss :
    Forall2 (fun p s => mk_group g key f p = Some s) ps ss -> map last_def ss = ps.
  Proof.
    induction 1 as [|p s ps ss H _ IH]; simpl; [reflexivity|].
    rewrite IH, (mk_group_last _ _ _ H). reflexivity.
  Qed.

  (** Every member of a group heads a group of its own. *)
  Lemma mk_group_member f x gr y :
    mk_group g key f x = Some gr -> In y (group_defs gr) ->
    exists gy, mk_group g key f y = Some gy.
  Proof.
    revert x gr y; induction f as [|f IH]; intros x gr y; [discriminate|]. intros H Hy.
    destruct (Nat.eq_dec y x) as [->|Hn]; [eauto|].
    assert (G : exists gy, mk_group g key f y = Some gy).
    { apply mk_group_inv in H as [[_ ->]|[(p & s & _ & Hs & ->)|(ss & HF & ->)]]; simpl in Hy.
      - destruct Hy as [->|[]]; congruence.
      - apply in_app_iff in Hy as [Hy|[->|[]]]; [|congruence]. eapply IH; eassumption.
      - apply in_app_iff in Hy as [Hy|[->|[]]]; [|congruence].
        apply in_concat in Hy as (l & Hl & Hy). apply in_map_iff in Hl as (s & <- & Hs).
        destruct (F2_in_r _ _ _ _ HF Hs) as (p & _ & Hp). eapply IH; eassumption. }
    destruct G as [gy Hgy]. exists gy. eapply mk_group_mono; [|exact Hgy]. lia.
  Qed.

  (** A node that is its own parent never gets a group: the recursion does not end. *)
  Lemma mk_group_self_loop x : In x (parents g x) -> forall f, mk_group g key f x = None.
  Proof.
    intros Hx f; induction f as [|f IH]; [reflexivity|].
    destruct (mk_group g key (S f) x) as [gr|] eqn:E; [|reflexivity]. exfalso.
    apply mk_group_inv in E as [[E _]|[(p & s & E & Hs & _)|(ss & HF & _)]].
    - rewrite E in Hx; destruct Hx.
    - rewrite E in Hx. destruct Hx as [->|[]]; congruence.
    - apply (sort_by_In key) in Hx. destruct (F2_in_l _ _ _ _ HF Hx) as (s & _ & Hs). congruence.
  Qed.

  (** More generally, a node reached through parents from a self loop never gets a group. *)
  Lemma mk_group_parent x p f gr :
    In p (parents g x) -> mk_group g key f x = Some gr -> exists gp, mk_group g key f p = Some gp.
  Proof.
    intros Hp H. destruct f as [|f]; [discriminate|].
    assert (G : exists gp, mk_group g key f p = Some gp).
    { apply mk_group_inv in H as [[E _]|[(q & s & E & Hs & _)|(ss & HF & _)]].
      - rewrite E in Hp; destruct Hp.
      - rewrite E in Hp. destruct Hp as [->|[]]; eauto.
      - apply (sort_by_In key) in Hp. destruct (F2_in_l _ _ _ _ HF Hp) as (s & _ & Hs); eauto. }
    destruct G as [gp G]; exists gp; eapply mk_group_mono; [|exact G]; lia.
  Qed.

  (** From here on: edges go forward and stay below [n], both sides agree. *)
  Variable n : nat.
  Hypothesis Hfw : forall p c, In c (children g p) -> p < c < n.
  Hypothesis Hsym : forall p c, In c (children g p) <-> In p (parents g c).
  Hypothesis Hnd : forall c, NoDup (parents g c).

  Notation rch := (reach (children g)).

  Lemma reach_le a b : rch a b -> a <= b.
  Proof. induction 1; [lia|]. apply Hfw in H0; lia. Qed.

  Lemma acyclic_all t : acyclic_from (children g) t.
  Proof. intros u _ (v & Hv & Hr). apply Hfw in Hv. apply reach_le in Hr. lia. Qed.

  (** A step taken first. *)
  Lemma reach_inv_l a b : rch a b -> a = b \/ exists c, In c (children g a) /\ rch c b.
  Proof.
    induction 1 as [|u v H IH Hv]; [auto|]. right.
    destruct IH as [->|(c & Hc & Hr)].
    - exists v; split; [exact Hv|constructor].
    - exists c; split; [exact Hc|]. econstructor; eassumption.
  Qed.

  Lemma reach_cons a c b : In c (children g a) -> rch c b -> rch a b.
  Proof. intros H. induction 1; [econstructor; [constructor|exact H]|econstructor; eassumption]. Qed.

  Lemma leaves_ok : forall f x, x < n -> n < f + x -> exists l, leaves g f x = Some l /\
    forall y, In y l <-> rch x y /\ children g y = [].
  Proof.
    induction f as [|f IH]; intros x Hx Hf; [lia|]. cbn [leaves].
    destruct (children g x) as [|c cs] eqn:E.
    - exists [x]. split; [reflexivity|]. intros y; split.
      + intros [<-|[]]; split; [constructor|exact E].
      + intros [Hr Hy]. left. apply reach_inv_l in Hr as [H|(c & Hc & _)]; [exact H|].
        rewrite E in Hc; destruct Hc.
    - assert (Hcs : forall z, In z (c :: cs) -> x < z < n) by (intros z Hz; apply Hfw; rewrite E; exact Hz).
      destruct (map_opt_some (leaves g f) (c :: cs)) as [ls Hls].
      { intros z Hz. apply Hcs in Hz as ?. destruct (IH z) as (l & Hl & _); [lia..|eauto]. }
      rewrite Hls. exists (concat ls). split; [reflexivity|].
      apply map_opt_F2 in Hls. intros y; rewrite in_concat; split.
      + intros (l & Hl & Hy). destruct (F2_in_r _ _ _ _ Hls Hl) as (z & Hz & Hlz).
        apply Hcs in Hz as ?. destruct (IH z) as (l' & Hl' & Hiff); [lia..|].
        assert (l' = l) by congruence; subst l'. destruct (proj1 (Hiff y) Hy) as [Hr1 Hr2].
        split; [|exact Hr2]. apply reach_cons with z; [rewrite E; exact Hz|exact Hr1].
      + intros [Hr Hy]. apply reach_inv_l in Hr as [->|(z & Hz & Hrz)]; [congruence|].
        rewrite E in Hz. destruct (F2_in_l _ _ _ _ Hls Hz) as (l & Hl & Hlz).
        exists l; split; [exact Hl|]. apply Hcs in Hz as ?.
        destruct (IH z) as (l' & Hl' & Hiff); [lia..|].
        assert (l' = l) by congruence; subst l'. apply Hiff; auto.
  Qed.

  Notation dep := (fun i j => In i (parents g j)).

  Lemma mk_group_ok : forall f x, x < f -> exists gr, mk_group g key f x = Some gr /\
    waits dep gr /\ forall y, In y (group_defs gr) <-> rch y x.
  Proof.
    induction f as [|f IH]; intros x Hx; [lia|].
    assert (Hps : forall p, In p (parents g x) -> p < f).
    { intros p Hp. apply Hsym, Hfw in Hp. lia. }
    assert (Hr : forall y, rch y x <-> y = x \/ exists p, In p (parents g x) /\ rch y p).
    { intros y; split.
      - intros H. inversion H as [|u v H1 H2]; subst; [auto|]. right; exists u; split; [apply Hsym, H2|exact H1].
      - intros [->|(p & Hp & H)]; [constructor|]. econstructor; [exact H|apply Hsym, Hp]. }
    cbn [mk_group]. destruct (parents g x) as [|p [|p2 ps]] eqn:E.
    - exists (Seq None x). split; [reflexivity|]. split.
      + constructor. intros i Hi. rewrite E in Hi; destruct Hi.
      + intros y; rewrite Hr. simpl. split; [intros [<-|[]]; auto|].
        intros [->|(p & [] & _)]; auto.
    - destruct (IH p) as (s & Hs & Hw & Hd); [apply Hps; left; reflexivity|].
      rewrite Hs. exists (Seq (Some s) x). split; [reflexivity|]. split.
      + constructor; [exact Hw|]. intros i. rewrite (mk_group_last _ _ _ Hs), E. simpl.
        split; [intros [->|[]]; reflexivity|intros ->; auto].
      + intros y; rewrite Hr. simpl. rewrite in_app_iff, Hd. simpl. split.
        * intros [H|[->|[]]]; [right; exists p; auto|auto].
        * intros [->|(q & [->|[]] & H)]; auto.
    - set (qs := sort_by key (p :: p2 :: ps)).
      assert (Hqs : forall q, In q qs <-> In q (p :: p2 :: ps)) by (intros q; apply sort_by_In).
      destruct (map_opt_some (mk_group g key f) qs) as [ss Hss].
      { intros q Hq. apply Hqs in Hq. destruct (IH q) as (s & Hs & _); [apply Hps, Hq|eauto]. }
      rewrite Hss. exists (Conc ss x). split; [reflexivity|].
      apply map_opt_F2 in Hss. pose proof (F2_last _ _ _ Hss) as Hl. split.
      + constructor.
        * apply Forall_forall. intros s Hs. destruct (F2_in_r _ _ _ _ Hss Hs) as (q & Hq & Hqs').
          apply Hqs in Hq. destruct (IH q) as (s' & Hs' & Hw & _); [apply Hps, Hq|]. congruence.
        * rewrite Hl. eapply Permutation_NoDup; [apply Permutation_sym, sort_by_perm|].
          rewrite <- E. apply Hnd.
        * intros i. rewrite Hl, Hqs, E. reflexivity.
      + intros y; rewrite Hr. simpl group_defs. rewrite in_app_iff, in_concat. split.
        * intros [(l & Hl' & Hy)|[->|[]]]; [right|auto].
          apply in_map_iff in Hl' as (s & <- & Hs). destruct (F2_in_r _ _ _ _ Hss Hs) as (q & Hq & Hqs').
          apply Hqs in Hq. exists q; split; [exact Hq|].
          destruct (IH q) as (s' & Hs' & _ & Hd); [apply Hps, Hq|].
          assert (s' = s) by congruence; subst s'. apply Hd, Hy.
        * intros [->|(q & Hq & H)]; [right; left; reflexivity|left].
          apply Hqs in Hq as Hq'. destruct (F2_in_l _ _ _ _ Hss Hq') as (s & Hs & Hqs').
          exists (group_defs s). split; [apply in_map, Hs|].
          destruct (IH q) as (s' & Hs' & _ & Hd); [apply Hps, Hq|].
          assert (s' = s) by congruence; subst s'. apply Hd, H.
  Qed.

  (** Every node lies below some root and above some leaf. *)
  Lemma above_root : forall x, x < n -> exists r, r < n /\ parents g r = [] /\ rch r x.
  Proof.
    intros x. induction x as [x IH] using lt_wf_ind. intros Hx.
    destruct (parents g x) as [|p ps] eqn:E; [exists x; repeat split; [exact Hx|exact E|constructor]|].
    assert (Hp : In x (children g p)) by (apply Hsym; rewrite E; left; reflexivity).
    pose proof (Hfw _ _ Hp). destruct (IH p) as (r & H1 & H2 & H3); [lia..|].
    exists r; repeat split; auto. econstructor; eassumption.
  Qed.

  Lemma below_leaf : forall k x, x < n -> n - x <= k -> exists l, children g l = [] /\ rch x l /\ l < n.
  Proof.
    induction k as [|k IH]; intros x Hx Hk; [lia|].
    destruct (children g x) as [|c cs] eqn:E; [exists x; split; [exact E|split; [constructor|exact Hx]]|].
    assert (Hc : In c (children g x)) by (rewrite E; left; reflexivity).
    pose proof (Hfw _ _ Hc). destruct (IH c) as (l & H1 & H2 & H3); [lia..|].
    exists l; split; [exact H1|]. split; [eapply reach_cons; eassumption|exact H3].
  Qed.
End G.

Lemma roots_In g n r : In r (roots_of g n) <-> r < n /\ parents g r = [].
Proof.
  unfold roots_of. rewrite filter_In, in_seq.
  destruct (parents g r); split; intros [H1 H2]; split; try lia; try reflexivity; discriminate.
Qed.

Lemma depends_forward ds i j : depends ds i j -> i <= j /\ j < length ds.
Proof.
  intros [(di & dj & H1 & H2 & H3 & _)|(di & dj & H1 & H2 & H3 & _)];
    (split; [lia|apply nth_error_Some; congruence]).
Qed.

Lemma depends_self ds i :
  depends ds i i <-> exists d, nth_error ds i = Some d /\ vname d <> EmptyString /\
    In (vname d) (vrefs d) /\ vname d <> iter_name d.
Proof.
  split.
  - intros [(di & dj & H1 & H2 & H3 & H4 & H5 & H6 & _)|(di & dj & H1 & H2 & H3 & _)]; [|lia].
    assert (dj = di) by congruence; subst dj. exists di; auto.
  - intros (d & H1 & H2 & H3 & H4). left. exists d, d. repeat split; auto.
    intros k dk Hk1 Hk2; lia.
Qed.

Lemma depends_strict ds i j : no_self_reference ds -> depends ds i j -> i < j < length ds.
Proof.
  intros H Hd. pose proof (depends_forward _ _ _ Hd). destruct (Nat.eq_dec i j) as [->|]; [|lia].
  apply depends_self in Hd as (d & H1 & H2 & H3 & H4). exfalso. apply H4, H; auto.
  eapply nth_error_In, H1.
Qed.

(** The plan of a definition list without self references. *)
Theorem setup_planned ds :
  no_self_reference ds -> ds <> [] ->
  exists gs, (forall fuel, length ds < fuel -> setup fuel ds = Planned gs) /\
    Forall (waits (depends ds)) gs /\
    (forall i, In i (planned_defs gs) <-> i < length ds) /\
    NoDup (map last_def gs) /\
    (forall i, In i (map last_def gs) <-> i < length ds /\ forall j, ~ depends ds i j).
Proof.
  intros Hns Hne. destruct (build_graph_edges ds) as (Hc & Hp & Hnd & Hndp).
  set (n := length ds) in *.
  assert (Hn : 0 < n) by (unfold n; destruct ds; simpl; [congruence|lia]).
  set (g := build_graph ds) in *.
  assert (Hfw : forall p c, In c (children g p) -> p < c < n).
  { intros p c H. apply Hc in H. apply depends_strict in H; auto. }
  assert (Hsym : forall p c, In c (children g p) <-> In p (parents g c)).
  { intros p c. unfold cedge, pedge in *. rewrite Hc, Hp. reflexivity. }
  set (key := node_key ds). set (rs := roots_of g n).
  assert (Hrs : forall r, In r rs -> r < n) by (intros r Hr; apply roots_In in Hr; tauto).
  destruct (map_opt_some (leaves g (S n)) rs) as [ls Hls].
  { intros r Hr. apply Hrs in Hr. destruct (leaves_ok g n Hfw (S n) r) as (l & Hl & _); [lia..|eauto]. }
  set (us := sort_by key (nodup Nat.eq_dec (concat ls))).
  assert (Hus : forall x, In x us <-> x < n /\ children g x = []).
  { intros x. unfold us. rewrite sort_by_In, nodup_In, in_concat.
    apply map_opt_F2 in Hls. split.
    - intros (l & Hl & Hx). destruct (F2_in_r _ _ _ _ Hls Hl) as (r & Hr & Hlr).
      apply Hrs in Hr. destruct (leaves_ok g n Hfw (S n) r) as (l' & Hl' & Hiff); [lia..|].
      assert (l' = l) by congruence; subst l'. destruct (proj1 (Hiff x) Hx) as [Hx1 Hx2]. split; [|exact Hx2].
      destruct Hx1 as [|u v _ Hv]; [exact Hr|]. apply Hfw in Hv; lia.
    - intros [Hx1 Hx2]. destruct (above_root g n Hfw Hsym x Hx1) as (r & Hr1 & Hr2 & Hr3).
      assert (Hr : In r rs) by (apply roots_In; auto).
      destruct (F2_in_l _ _ _ _ Hls Hr) as (l & Hl & Hlr). exists l; split; [exact Hl|].
      destruct (leaves_ok g n Hfw (S n) r) as (l' & Hl' & Hiff); [lia..|].
      assert (l' = l) by congruence; subst l'. apply Hiff; auto. }
  destruct (map_opt_some (mk_group g key (S n)) us) as [gs Hgs].
  { intros x Hx. apply Hus in Hx as [Hx _].
    destruct (mk_group_ok g key n Hfw Hsym Hndp (S n) x) as (gr & Hgr & _); [lia|eauto]. }
  assert (HF : Forall2 (fun x gr => mk_group g key (S n) x = Some gr) us gs) by (apply map_opt_F2, Hgs).
  pose proof (F2_last g key _ _ _ HF) as Hlast.
  exists gs. repeat apply conj.
  - intros fuel Hf. unfold setup. fold n g rs key.
    destruct rs as [|r0 rs0] eqn:Ers.
    { exfalso. destruct (above_root g n Hfw Hsym 0 Hn) as (r & H1 & H2 & _).
      assert (In r rs) by (apply roots_In; auto). fold rs in Ers. rewrite Ers in H. destruct H. }
    destruct (validate_spec (children g) n fuel (r0 :: rs0)) as [Hv _].
    { intros t c H; apply Hfw in H; lia. }
    { intros r Hr; apply Hrs, Hr. }
    { exact Hf. }
    destruct Hv as [_ Hv]. rewrite Hv by (intros r _; apply (acyclic_all g n Hfw)).
    unfold groups, unique_children.
    assert (E1 : map_opt (leaves g fuel) (r0 :: rs0) = Some ls).
    { eapply map_opt_ext; [|exact Hls]. intros; eapply leaves_mono; [|eassumption]; lia. }
    assert (E2 : map_opt (mk_group g key fuel) us = Some gs).
    { eapply map_opt_ext; [|exact Hgs]. intros; eapply mk_group_mono; [|eassumption]; lia. }
    rewrite E1. fold us. rewrite E2. reflexivity.
  - apply Forall_forall. intros gr Hgr. destruct (F2_in_r _ _ _ _ HF Hgr) as (x & Hx & Hxg).
    apply Hus in Hx as [Hx _].
    destruct (mk_group_ok g key n Hfw Hsym Hndp (S n) x) as (gr' & Hgr' & Hw & _); [lia|].
    assert (gr' = gr) by congruence; subst gr'.
    assert (W : forall gr, waits (fun i j => In i (parents g j)) gr -> waits (depends ds) gr).
    { clear -Hp. fix W 2. intros gr [e H|s e H1 H2|ss e H1 H2 H3].
      - constructor. intros i Hi. apply (H i). apply Hp, Hi.
      - constructor; [apply W, H1|]. intros i. rewrite <- H2. symmetry. apply Hp.
      - constructor; [|exact H2|intros i; rewrite <- H3; symmetry; apply Hp].
        clear H2 H3. induction H1; constructor; [apply W; assumption|assumption]. }
    apply W, Hw.
  - intros i. unfold planned_defs. rewrite in_concat. split.
    + intros (l & Hl & Hi). apply in_map_iff in Hl as (gr & <- & Hgr).
      destruct (F2_in_r _ _ _ _ HF Hgr) as (x & Hx & Hxg). apply Hus in Hx as [Hx _].
      destruct (mk_group_ok g key n Hfw Hsym Hndp (S n) x) as (gr' & Hgr' & _ & Hd); [lia|].
      assert (gr' = gr) by congruence; subst gr'. apply Hd in Hi. apply (reach_le g n Hfw) in Hi. lia.
    + intros Hi. destruct (below_leaf g n Hfw n i Hi) as (x & Hx1 & Hx2 & Hx3); [lia|].
      assert (Hx : In x us) by (apply Hus; auto).
      destruct (F2_in_l _ _ _ _ HF Hx) as (gr & Hgr & Hxg). exists (group_defs gr).
      split; [apply in_map, Hgr|].
      destruct (mk_group_ok g key n Hfw Hsym Hndp (S n) x) as (gr' & Hgr' & _ & Hd); [lia|].
      assert (gr' = gr) by congruence; subst gr'. apply Hd, Hx2.
  - rewrite Hlast. unfold us. eapply Permutation_NoDup; [apply Permutation_sym, sort_by_perm|].
    apply NoDup_nodup.
  - intros i. rewrite Hlast, Hus. split; intros [H1 H2]; (split; [exact H1|]).
    + intros j Hj. apply Hc in Hj. unfold cedge in Hj. rewrite H2 in Hj. destruct Hj.
    + destruct (children g i) as [|c cs] eqn:E; [reflexivity|]. exfalso. apply (H2 c). apply Hc.
      unfold cedge. fold g. rewrite E. left; reflexivity.
Qed.

(** A definition that mentions its own name is in no plan at all. *)
Lemma setup_self_missing ds fuel gs i :
  depends ds i i -> setup fuel ds = Planned gs -> ~ In i (planned_defs gs).
Proof.
  intros Hd Hs Hi. destruct (build_graph_edges ds) as (_ & Hp & _).
  apply Hp in Hd. unfold pedge in Hd. unfold setup in Hs.
  set (g := build_graph ds) in *. destruct (roots_of g (length ds)) as [|r rs]; [discriminate|].
  destruct (validate _ _ _); try discriminate.
  destruct (groups g (node_key ds) fuel (r :: rs)) as [gs'|] eqn:Eg; [|discriminate].
  injection Hs as <-. unfold groups in Eg. destruct (unique_children _ _ _ _) as [us|]; [|discriminate].
  apply map_opt_F2 in Eg. unfold planned_defs in Hi. apply in_concat in Hi as (l & Hl & Hi).
  apply in_map_iff in Hl as (gr & <- & Hgr). destruct (F2_in_r _ _ _ _ Eg Hgr) as (x & _ & Hx).
  destruct (mk_group_member _ _ _ _ _ _ Hx Hi) as [gy Hy].
  rewrite (mk_group_self_loop g (node_key ds) i Hd) in Hy. discriminate.
Qed.

(** ... and nothing that depends on it is. *)
Lemma setup_after_self_missing ds fuel gs i j :
  depends ds i i -> depends ds i j -> setup fuel ds = Planned gs -> ~ In j (planned_defs gs).
Proof.
  intros Hd Hj Hs Hi. destruct (build_graph_edges ds) as (_ & Hp & _).
  apply Hp in Hd, Hj. unfold pedge in Hd, Hj. unfold setup in Hs.
  set (g := build_graph ds) in *. destruct (roots_of g (length ds)) as [|r rs]; [discriminate|].
  destruct (validate _ _ _); try discriminate.
  destruct (groups g (node_key ds) fuel (r :: rs)) as [gs'|] eqn:Eg; [|discriminate].
  injection Hs as <-. unfold groups in Eg. destruct (unique_children _ _ _ _) as [us|]; [|discriminate].
  apply map_opt_F2 in Eg. unfold planned_defs in Hi. apply in_concat in Hi as (l & Hl & Hi).
  apply in_map_iff in Hl as (gr & <- & Hgr). destruct (F2_in_r _ _ _ _ Eg Hgr) as (x & _ & Hx).
  destruct (mk_group_member _ _ _ _ _ _ Hx Hi) as [gy Hy].
  destruct (mk_group_parent _ _ _ _ _ _ Hj Hy) as [gp Hgp].
  rewrite (mk_group_self_loop g (node_key ds) i Hd) in Hgp. discriminate.
Qed.
