(** The edges of [build_graph] are exactly [depends]. *)
From Coq Require Import String List Arith Bool Lia.
From Verif.Graph Require Import Proofs.
From Verif.Plan Require Import Model Spec.
Import ListNotations.

Lemma mem_In x l : mem x l = true <-> In x l.
Proof. apply existsb_eqb_In. Qed.

Lemma upd_same f i l : upd f i l i = l.
Proof. unfold upd; rewrite Nat.eqb_refl; reflexivity. Qed.
Lemma upd_other f i l j : j <> i -> upd f i l j = f j.
Proof. unfold upd; intros H; destruct (Nat.eqb_spec j i); congruence. Qed.

(** Edge relations of a graph, on both sides. *)
Definition cedge (g : graph) (p c : nat) : Prop := In c (children g p).
Definition pedge (g : graph) (p c : nat) : Prop := In p (parents g c).

Lemma add_edge_c a b g p c :
  cedge (add_edge a b g) p c <-> cedge g p c \/ (p = a /\ c = b).
Proof.
  unfold cedge, add_edge; simpl.
  destruct (mem b (children g a)) eqn:E.
  - apply mem_In in E. split; [auto|intros [H|[-> ->]]; assumption].
  - destruct (Nat.eq_dec p a) as [->|Hn].
    + rewrite upd_same, in_app_iff; simpl. intuition congruence.
    + rewrite upd_other by exact Hn. intuition congruence.
Qed.

Lemma add_edge_p a b g p c :
  pedge (add_edge a b g) p c <-> pedge g p c \/ (p = a /\ c = b).
Proof.
  unfold pedge, add_edge; simpl.
  destruct (mem a (parents g b)) eqn:E.
  - apply mem_In in E. split; [auto|intros [H|[-> ->]]; assumption].
  - destruct (Nat.eq_dec c b) as [->|Hn].
    + rewrite upd_same, in_app_iff; simpl. intuition congruence.
    + rewrite upd_other by exact Hn. intuition congruence.
Qed.

Definition ndup (g : graph) : Prop :=
  (forall i, NoDup (children g i)) /\ (forall i, NoDup (parents g i)).

Lemma NoDup_snoc (l : list nat) x : NoDup l -> ~ In x l -> NoDup (l ++ [x]).
Proof.
  intros H Hx. induction l as [|a l IH]; simpl.
  - constructor; [intros []|constructor].
  - inversion H; subst. constructor.
    + rewrite in_app_iff; simpl. intros [Ha|[->|[]]]; [auto|apply Hx; left; reflexivity].
    + apply IH; [assumption|]. intros Hin; apply Hx; right; exact Hin.
Qed.

Lemma add_edge_ndup a b g : ndup g -> ndup (add_edge a b g).
Proof.
  intros [Hc Hp]; split; intros i; unfold add_edge; simpl.
  - destruct (mem b (children g a)) eqn:E; [apply Hc|].
    destruct (Nat.eq_dec i a) as [->|Hn]; [rewrite upd_same|rewrite upd_other by exact Hn; apply Hc].
    apply NoDup_snoc; [apply Hc|]. rewrite <- mem_In; congruence.
  - destruct (mem a (parents g b)) eqn:E; [apply Hp|].
    destruct (Nat.eq_dec i b) as [->|Hn]; [rewrite upd_same|rewrite upd_other by exact Hn; apply Hp].
    apply NoDup_snoc; [apply Hp|]. rewrite <- mem_In; congruence.
Qed.

(** A relation [R] added by a graph transformer, on both sides. *)
Definition adds (h : graph -> graph) (R : nat -> nat -> Prop) : Prop :=
  forall g, (forall p c, cedge (h g) p c <-> cedge g p c \/ R p c) /\
            (forall p c, pedge (h g) p c <-> pedge g p c \/ R p c) /\
            (ndup g -> ndup (h g)).

Lemma adds_ext h R R' : adds h R -> (forall p c, R p c <-> R' p c) -> adds h R'.
Proof.
  intros H HR g. destruct (H g) as (H1 & H2 & H3). split; [|split].
  - intros p c. rewrite H1, HR. reflexivity.
  - intros p c. rewrite H2, HR. reflexivity.
  - exact H3.
Qed.

Lemma adds_comp h1 h2 R1 R2 :
  adds h1 R1 -> adds h2 R2 -> adds (fun g => h2 (h1 g)) (fun p c => R1 p c \/ R2 p c).
Proof.
  intros H1 H2 g. destruct (H1 g) as (A1 & A2 & A3). destruct (H2 (h1 g)) as (B1 & B2 & B3).
  split; [|split].
  - intros p c; rewrite B1, A1; tauto.
  - intros p c; rewrite B2, A2; tauto.
  - auto.
Qed.

Lemma adds_id : adds (fun g => g) (fun _ _ => False).
Proof. intros g; split; [|split]; intros; tauto. Qed.

Lemma adds_edge a b : adds (add_edge a b) (fun p c => p = a /\ c = b).
Proof.
  intros g; split; [|split].
  - intros; apply add_edge_c.
  - intros; apply add_edge_p.
  - apply add_edge_ndup.
Qed.

Lemma adds_refs node it m refs :
  adds (add_refs node it m refs)
       (fun p c => c = node /\ exists r, In r refs /\ r <> it /\ lookup m r = Some p).
Proof.
  induction refs as [|r rs IH].
  - eapply adds_ext; [apply adds_id|]. intros p c; split; [tauto|]. intros (_ & r & [] & _).
  - simpl.
    assert (Hstep : adds (fun g => if String.eqb r it then g
                          else match lookup m r with None => g | Some x => add_edge x node g end)
                   (fun p c => c = node /\ r <> it /\ lookup m r = Some p)).
    { destruct (String.eqb_spec r it) as [E|E].
      - eapply adds_ext; [apply adds_id|]. intros p c; split; [tauto|]. intros (_ & H & _); congruence.
      - destruct (lookup m r) as [x|] eqn:El.
        + eapply adds_ext; [apply adds_edge|]. intros p c; split.
          * intros [-> ->]; auto.
          * intros (-> & _ & H). split; congruence.
        + eapply adds_ext; [apply adds_id|]. intros p c; split; [tauto|]. intros (_ & _ & H); congruence. }
    eapply adds_ext; [exact (adds_comp _ _ _ _ Hstep IH)|].
    intros p c; split.
    + intros [(-> & H1 & H2)|(-> & r' & H1 & H2)].
      * split; [reflexivity|]. exists r; simpl; auto.
      * split; [reflexivity|]. exists r'; simpl; tauto.
    + intros (-> & r' & [<-|H] & H1 & H2); [left; auto|right; split; [reflexivity|exists r'; auto]].
Qed.

(** The name map after the first [k] definitions starting at position [idx]. *)
Fixpoint ext (m : list (string * nat)) (idx : nat) (ds : list vdef) : list (string * nat) :=
  match ds with
  | [] => m
  | d :: ds' =>
      ext (if String.eqb (vname d) EmptyString then m else (vname d, idx) :: m) (S idx) ds'
  end.

Lemma adds_by_reference ds : forall idx m,
  adds (by_reference idx ds m)
       (fun p c => exists k d r, nth_error ds k = Some d /\ c = idx + k /\
          In r (vrefs d) /\ r <> iter_name d /\ lookup (ext m idx (firstn (S k) ds)) r = Some p).
Proof.
  induction ds as [|d ds IH]; intros idx m.
  - eapply adds_ext; [apply adds_id|]. intros p c; split; [tauto|].
    intros (k & d & r & H & _). destruct k; discriminate H.
  - simpl by_reference.
    set (m' := if String.eqb (vname d) EmptyString then m else (vname d, idx) :: m).
    eapply adds_ext; [exact (adds_comp _ _ _ _ (adds_refs idx (iter_name d) m' (vrefs d)) (IH (S idx) m'))|].
    intros p c; split.
    + intros [(-> & r & H1 & H2 & H3)|(k & d' & r & H1 & -> & H2 & H3 & H4)].
      * exists 0, d, r. split; [reflexivity|]. split; [lia|]. split; [exact H1|]. split; [exact H2|].
        simpl. exact H3.
      * exists (S k), d', r. split; [exact H1|]. split; [lia|]. split; [exact H2|]. split; [exact H3|].
        change (firstn (S (S k)) (d :: ds)) with (d :: firstn (S k) ds). simpl ext. exact H4.
    + intros (k & d' & r & H1 & -> & H2 & H3 & H4). destruct k as [|k].
      * injection H1 as <-. left. split; [lia|]. exists r. simpl in H4. auto.
      * right. exists k, d', r. split; [exact H1|]. split; [lia|]. split; [exact H2|]. split; [exact H3|].
        change (firstn (S (S k)) (d :: ds)) with (d :: firstn (S k) ds) in H4. simpl ext in H4. exact H4.
Qed.

(** Characterise lookups in [ext]. *)
Lemma lookup_ext ds : forall m idx r p,
  lookup (ext m idx ds) r = Some p <->
  (exists k d, nth_error ds k = Some d /\ p = idx + k /\ vname d = r /\ r <> EmptyString /\
     forall k' d', k < k' -> nth_error ds k' = Some d' -> vname d' <> r) \/
  (lookup m r = Some p /\ (r = EmptyString \/ forall k d, nth_error ds k = Some d -> vname d <> r)).
Proof.
  induction ds as [|d ds IH]; intros m idx r p.
  - simpl. split.
    + intros H; right; split; [exact H|]. right; intros k d H'; destruct k; discriminate H'.
    + intros [(k & d & H & _)|[H _]]; [destruct k; discriminate H|exact H].
  - simpl ext. rewrite IH. clear IH.
    destruct (String.eqb_spec (vname d) EmptyString) as [E|E].
    + split.
      * intros [(k & d' & H1 & -> & H2 & H3 & H4)|[H1 H2]].
        -- left. exists (S k), d'. split; [exact H1|]. split; [lia|]. split; [exact H2|]. split; [exact H3|].
           intros k' d'' Hlt Hn. destruct k' as [|k']; [lia|]. apply (H4 k' d''); [lia|exact Hn].
        -- right; split; [exact H1|]. destruct H2 as [->|H2]; [left; reflexivity|].
           destruct (string_dec r EmptyString) as [->|Hr]; [left; reflexivity|].
           right. intros [|k] d' Hn; [injection Hn as <-; congruence|apply (H2 k d'), Hn].
      * intros [(k & d' & H1 & -> & H2 & H3 & H4)|[H1 H2]].
        -- destruct k as [|k]; [injection H1 as <-; congruence|].
           left. exists k, d'. split; [exact H1|]. split; [lia|]. split; [exact H2|]. split; [exact H3|].
           intros k' d'' Hlt Hn. apply (H4 (S k') d''); [lia|exact Hn].
        -- right; split; [exact H1|]. destruct H2 as [->|H2]; [left; reflexivity|].
           right. intros k d' Hn. apply (H2 (S k) d'), Hn.
    + simpl lookup. destruct (String.eqb_spec r (vname d)) as [Er|Er].
      * split.
        -- intros [(k & d' & H1 & -> & H2 & H3 & H4)|[H1 H2]].
           ++ left. exists (S k), d'. split; [exact H1|]. split; [lia|]. split; [exact H2|]. split; [exact H3|].
              intros k' d'' Hlt Hn. destruct k' as [|k']; [lia|]. apply (H4 k' d''); [lia|exact Hn].
           ++ injection H1 as <-. left. exists 0, d. split; [reflexivity|]. split; [lia|].
              split; [congruence|]. split; [congruence|].
              intros k' d'' Hlt Hn. destruct k' as [|k']; [lia|].
              destruct H2 as [H2|H2]; [congruence|]. apply (H2 k' d''), Hn.
        -- intros [(k & d' & H1 & -> & H2 & H3 & H4)|[H1 H2]].
           ++ destruct k as [|k].
              ** injection H1 as <-. right. split; [f_equal; lia|]. right.
                 intros k d' Hn. apply (H4 (S k) d'); [lia|exact Hn].
              ** left. exists k, d'. split; [exact H1|]. split; [lia|]. split; [exact H2|]. split; [exact H3|].
                 intros k' d'' Hlt Hn. apply (H4 (S k') d''); [lia|exact Hn].
           ++ exfalso. destruct H2 as [H2|H2]; [congruence|]. apply (H2 0 d eq_refl). congruence.
      * split.
        -- intros [(k & d' & H1 & -> & H2 & H3 & H4)|[H1 H2]].
           ++ left. exists (S k), d'. split; [exact H1|]. split; [lia|]. split; [exact H2|]. split; [exact H3|].
              intros k' d'' Hlt Hn. destruct k' as [|k']; [lia|]. apply (H4 k' d''); [lia|exact Hn].
           ++ right; split; [exact H1|]. destruct H2 as [->|H2]; [left; reflexivity|].
              right. intros [|k] d' Hn; [injection Hn as <-; congruence|apply (H2 k d'), Hn].
        -- intros [(k & d' & H1 & -> & H2 & H3 & H4)|[H1 H2]].
           ++ destruct k as [|k]; [injection H1 as <-; congruence|].
              left. exists k, d'. split; [exact H1|]. split; [lia|]. split; [exact H2|]. split; [exact H3|].
              intros k' d'' Hlt Hn. apply (H4 (S k') d''); [lia|exact Hn].
           ++ right; split; [exact H1|]. destruct H2 as [->|H2]; [left; reflexivity|].
              right. intros k d' Hn. apply (H2 (S k) d'), Hn.
Qed.

Lemma nth_error_firstn {A} (l : list A) n k :
  nth_error (firstn n l) k = if k <? n then nth_error l k else None.
Proof.
  revert n k; induction l as [|a l IH]; intros n k.
  - rewrite firstn_nil. destruct k; simpl; destruct (_ <? _); reflexivity.
  - destruct n as [|n]; [destruct k; reflexivity|].
    destruct k as [|k]; [reflexivity|]. simpl. rewrite IH. reflexivity.
Qed.

Lemma by_reference_refers ds :
  adds (by_reference 0 ds []) (refers ds).
Proof.
  eapply adds_ext; [apply adds_by_reference|]. intros p c; split.
  - intros (k & d & r & H1 & -> & H2 & H3 & H4).
    apply lookup_ext in H4 as [(j & d' & G1 & -> & G2 & G3 & G4)|[G _]]; [|discriminate G].
    rewrite nth_error_firstn in G1. destruct (Nat.ltb_spec j (S k)) as [Hlt|]; [|discriminate G1].
    exists d', d. simpl. subst r. repeat split; auto; try lia.
    intros k' dk Hlt1 Hle Hn. apply (G4 k' dk Hlt1).
    rewrite nth_error_firstn. destruct (Nat.ltb_spec k' (S k)); [exact Hn|lia].
  - intros (di & dj & H1 & H2 & Hle & H3 & H4 & H5 & H6).
    exists c, dj, (vname di). repeat split; auto.
    apply lookup_ext. left. exists p, di.
    split; [rewrite nth_error_firstn; destruct (Nat.ltb_spec p (S c)); [exact H1|lia]|].
    repeat split; auto.
    intros k' d' Hlt Hn. rewrite nth_error_firstn in Hn.
    destruct (Nat.ltb_spec k' (S c)); [|discriminate Hn]. apply (H6 k' d'); auto; lia.
Qed.

(** Validation edges. *)
Lemma adds_fold_edges i rest :
  adds (fun g => fold_left (fun g (n : nat * vdef) => add_edge i (fst n) g) rest g)
       (fun p c => p = i /\ In c (map fst rest)).
Proof.
  induction rest as [|n rest IH]; simpl.
  - eapply adds_ext; [apply adds_id|]. intros p c; tauto.
  - eapply adds_ext; [exact (adds_comp _ _ _ _ (adds_edge i (fst n)) IH)|].
    intros p c; split; [intros [[-> ->]|[-> H]]; auto|].
    intros [-> [<-|H]]; auto.
Qed.

Definition first_val (nodes : list (nat * vdef)) (p c : nat) : Prop :=
  exists l1 d l2, nodes = l1 ++ (p, d) :: l2 /\ vvalidation d = true /\
    Forall (fun n => vvalidation (snd n) = false) l1 /\ In c (map fst l2).

Lemma adds_first nodes : adds (first_validation nodes) (first_val nodes).
Proof.
  induction nodes as [|[i d] rest IH]; simpl.
  - eapply adds_ext; [apply adds_id|]. intros p c; split; [tauto|].
    intros (l1 & d & l2 & H & _). destruct l1; discriminate H.
  - destruct (vvalidation d) eqn:E.
    + eapply adds_ext; [apply adds_fold_edges|]. intros p c; split.
      * intros [-> H]. exists [], d, rest. repeat split; auto.
      * intros (l1 & d' & l2 & H & H1 & H2 & H3). destruct l1 as [|x l1].
        -- injection H as <- <- <-. auto.
        -- injection H as <- ->. inversion H2; subst. simpl in *; congruence.
    + eapply adds_ext; [apply IH|]. intros p c; split.
      * intros (l1 & d' & l2 & -> & H1 & H2 & H3). exists ((i, d) :: l1), d', l2.
        repeat split; auto.
      * intros (l1 & d' & l2 & H & H1 & H2 & H3). destruct l1 as [|x l1].
        -- injection H as <- <- <-. congruence.
        -- injection H as <- ->. inversion H2; subst. exists l1, d', l2. auto.
Qed.

Definition any_val (nodes : list (nat * vdef)) (p c : nat) : Prop :=
  exists l1 d l2, nodes = l1 ++ (p, d) :: l2 /\ vvalidation d = true /\ In c (map fst l2).

Lemma adds_by_validation nodes : adds (by_validation nodes) (any_val nodes).
Proof.
  induction nodes as [|[i d] rest IH].
  - eapply adds_ext; [apply adds_id|]. intros p c; split; [tauto|].
    intros (l1 & d & l2 & H & _). destruct l1; discriminate H.
  - change (by_validation ((i, d) :: rest))
      with (fun g => by_validation rest (first_validation ((i, d) :: rest) g)).
    eapply adds_ext; [exact (adds_comp _ _ _ _ (adds_first ((i, d) :: rest)) IH)|].
    intros p c; split.
    + intros [(l1 & d' & l2 & -> & H1 & H2 & H3)|(l1 & d' & l2 & -> & H1 & H2)].
      * exists l1, d', l2; auto.
      * exists ((i, d) :: l1), d', l2; auto.
    + intros (l1 & d' & l2 & H & H1 & H2). destruct l1 as [|x l1].
      * injection H as <- <- <-. left. exists [], d, rest. auto.
      * injection H as <- ->. right. exists l1, d', l2; auto.
Qed.

Lemma number_shift (ds : list vdef) : forall off l1 p d l2,
  combine (seq off (length ds)) ds = l1 ++ (p, d) :: l2 ->
  p = off + length l1 /\ nth_error ds (length l1) = Some d /\
  map fst l2 = seq (S p) (length ds - S (length l1)).
Proof.
  induction ds as [|a ds IH]; intros off l1 p d l2 H; [destruct l1; discriminate H|].
  simpl in H. destruct l1 as [|x l1].
  - injection H as <- <- <-. repeat split; try (simpl; lia).
    simpl. rewrite Nat.sub_0_r.
    clear. generalize (S off). induction ds as [|a ds IH]; intros k; [reflexivity|].
    simpl. f_equal. apply IH.
  - injection H as <- H. apply IH in H as (-> & H1 & H2). repeat split.
    + simpl; lia.
    + exact H1.
    + rewrite H2. simpl. f_equal; lia.
Qed.

Lemma number_split (ds : list vdef) i d :
  nth_error ds i = Some d -> exists l1 l2, number ds = l1 ++ (i, d) :: l2 /\ length l1 = i.
Proof.
  intros H.
  assert (Hn : nth_error (number ds) i = Some (i, d)).
  { unfold number. assert (Hlt : i < length ds) by (apply nth_error_Some; congruence).
    clear -H Hlt. assert (G : forall ds off k, nth_error ds k = Some d ->
                     nth_error (combine (seq off (length ds)) ds) k = Some (off + k, d)).
    { clear. induction ds as [|a ds IH]; intros off k H; [destruct k; discriminate H|].
      destruct k as [|k]; simpl in *; [injection H as ->; f_equal; f_equal; lia|].
      rewrite (IH (S off) k H). f_equal; f_equal; lia. }
    rewrite (G ds 0 i H). reflexivity. }
  apply nth_error_split in Hn as (l1 & l2 & E & Hl). exists l1, l2; auto.
Qed.

Lemma any_val_after ds p c : any_val (number ds) p c <-> after_validation ds p c.
Proof.
  split.
  - intros (l1 & d & l2 & H & H1 & H2).
    pose proof (number_shift ds 0 l1 p d l2 H) as (-> & Hn & E).
    rewrite E in H2. apply in_seq in H2. simpl in *.
    assert (Hc : c < length ds) by lia.
    destruct (nth_error ds c) as [dj|] eqn:Ej; [|apply nth_error_None in Ej; lia].
    exists d, dj. repeat split; auto; lia.
  - intros (di & dj & H1 & H2 & Hlt & Hv).
    destruct (number_split ds p di H1) as (l1 & l2 & E & Hl).
    exists l1, di, l2. repeat split; auto.
    destruct (number_shift ds 0 l1 p di l2 E) as (_ & _ & E2). rewrite E2.
    apply in_seq. assert (c < length ds) by (apply nth_error_Some; congruence). lia.
Qed.

Theorem build_graph_edges ds :
  (forall p c, cedge (build_graph ds) p c <-> depends ds p c) /\
  (forall p c, pedge (build_graph ds) p c <-> depends ds p c) /\
  ndup (build_graph ds).
Proof.
  pose proof (adds_comp _ _ _ _ (by_reference_refers ds) (adds_by_validation (number ds))) as H.
  destruct (H empty_graph) as (H1 & H2 & H3). unfold build_graph. cbv beta in *.
  split; [|split].
  - intros p c. rewrite H1. unfold depends. rewrite any_val_after.
    unfold cedge at 1; simpl; tauto.
  - intros p c. rewrite H2. unfold depends. rewrite any_val_after.
    unfold pedge at 1; simpl; tauto.
  - apply H3. split; intros i; simpl; constructor.
Qed.
