From Coq Require Import List Arith Bool Lia.
From Verif.Base Require Import Slice.
Import ListNotations.

Lemma set_nth_length {X} n (x : X) l : length (set_nth n x l) = length l.
Proof. revert n; induction l as [|y l IH]; intros [|n]; simpl; auto. Qed.

Lemma nth_set_same {X} n (x d : X) l : n < length l -> nth n (set_nth n x l) d = x.
Proof. revert n; induction l as [|y l IH]; intros [|n] H; simpl in *; try lia; auto. apply IH; lia. Qed.

Lemma nth_set_other {X} n m (x d : X) l : n <> m -> nth m (set_nth n x l) d = nth m l d.
Proof. revert n m; induction l as [|y l IH]; intros [|n] [|m] H; simpl; try congruence; auto. Qed.

Section P.
  Context {A : Type}.
  Implicit Types h : heap A.

  Lemma cells_in h a : cells h a <> [] -> a < length h.
  Proof.
    intros H. destruct (Nat.lt_ge_cases a (length h)) as [|Hge]; [assumption|].
    exfalso. apply H. unfold cells. apply nth_overflow, Hge.
  Qed.

  Lemma append_view r h s xs : valid h s ->
    view (fst (append r h s xs)) (snd (append r h s xs)) = view h s ++ xs.
  Proof.
    intros Hv. unfold valid, cap in Hv. unfold append, cap.
    destruct (len s + length xs <=? length (cells h (arr s))) eqn:E.
    - apply Nat.leb_le in E. unfold view; simpl.
      destruct (cells h (arr s)) as [|c cs] eqn:Ec.
      + simpl in E. assert (len s = 0 /\ length xs = 0) as [H1 H2] by lia.
        apply length_zero_iff_nil in H2. subst xs. rewrite H1. reflexivity.
      + assert (Hin : arr s < length h) by (apply cells_in; congruence).
        unfold cells. rewrite nth_set_same by exact Hin.
        rewrite app_assoc, firstn_app.
        rewrite !app_length, firstn_length.
        replace (len s + length xs - (Nat.min (len s) (length (c :: cs)) + length xs)) with 0 by lia.
        rewrite firstn_O, app_nil_r. apply firstn_all2.
        rewrite app_length, firstn_length. lia.
    - simpl. unfold view; simpl. unfold cells at 1. rewrite app_nth2 by lia. rewrite Nat.sub_diag. simpl.
      rewrite app_assoc, firstn_app. rewrite app_length, firstn_length.
      replace (len s + length xs - (Nat.min (len s) (length (cells h (arr s))) + length xs)) with 0 by lia.
      rewrite firstn_O, app_nil_r. apply firstn_all2.
      rewrite app_length, firstn_length. lia.
  Qed.

  Lemma append_valid r h s xs : valid h s -> valid (fst (append r h s xs)) (snd (append r h s xs)).
  Proof.
    intros Hv. unfold append. destruct (len s + length xs <=? cap h s) eqn:E.
    - apply Nat.leb_le in E. unfold valid, cap in *; simpl.
      destruct (cells h (arr s)) as [|c cs] eqn:Ec.
      + simpl in E. lia.
      + assert (Hin : arr s < length h) by (apply cells_in; congruence).
        unfold cells. rewrite nth_set_same by exact Hin.
        rewrite !app_length, firstn_length, skipn_length. lia.
    - unfold valid, cap, cells; simpl. rewrite app_nth2 by lia. rewrite Nat.sub_diag. simpl.
      rewrite !app_length, repeat_length. unfold view. rewrite firstn_length.
      unfold valid, cap in Hv. lia.
  Qed.

  (** A slice keeps its elements unless it shares the array and reaches beyond the end of [s]. *)
  Lemma append_other r h s xs t : valid h s ->
    arr t < length h -> arr t <> arr s \/ len t <= len s ->
    view (fst (append r h s xs)) t = view h t.
  Proof.
    intros Hs Ht Hd. unfold append. destruct (len s + length xs <=? cap h s) eqn:E; simpl.
    - apply Nat.leb_le in E. unfold view, cells, cap, cells in *.
      destruct (Nat.eq_dec (arr s) (arr t)) as [Ea|Ea].
      + rewrite <- Ea. rewrite nth_set_same by congruence.
        destruct Hd as [Hd|Hd]; [congruence|].
        rewrite firstn_app, firstn_firstn, firstn_length.
        unfold valid, cap, cells in Hs.
        replace (Nat.min (len t) (len s)) with (len t) by lia.
        replace (len t - Nat.min (len s) (length (nth (arr s) h []))) with 0 by lia.
        rewrite firstn_O. apply app_nil_r.
      + rewrite nth_set_other by exact Ea. reflexivity.
    - unfold view, cells. rewrite app_nth1 by exact Ht. reflexivity.
  Qed.

  Lemma append_grows r h s xs : length h <= length (fst (append r h s xs)).
  Proof.
    unfold append. destruct (_ <=? _); simpl; [rewrite set_nth_length; lia|rewrite app_length; simpl; lia].
  Qed.

  (** When append must allocate, no existing array changes. *)
  Lemma append_alloc r h s xs a : cap h s < len s + length xs -> a < length h ->
    cells (fst (append r h s xs)) a = cells h a.
  Proof.
    intros Hc Ha. unfold append. apply Nat.leb_gt in Hc. rewrite Hc. simpl.
    unfold cells. apply app_nth1, Ha.
  Qed.

  Lemma append_cells_other r h s xs a : a <> arr s -> a < length h ->
    cells (fst (append r h s xs)) a = cells h a.
  Proof.
    intros Hn Ha. unfold append. destruct (_ <=? _); simpl; unfold cells.
    - apply nth_set_other. congruence.
    - apply app_nth1, Ha.
  Qed.

  Lemma append_arr r h s xs : xs <> [] ->
    arr (snd (append r h s xs)) = arr s /\ cap h s >= len s + length xs \/
    arr (snd (append r h s xs)) = length h.
  Proof.
    intros _. unfold append. destruct (len s + length xs <=? cap h s) eqn:E; simpl; [left|right; reflexivity].
    apply Nat.leb_le in E. split; [reflexivity|lia].
  Qed.
End P.
