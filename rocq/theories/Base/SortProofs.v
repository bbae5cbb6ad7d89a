From Coq Require Import List String Ascii Arith Bool Lia Permutation Sorted.
From Verif.Base Require Import Sort.
Import ListNotations.

Lemma str_leb_refl a : str_leb a a = true.
Proof.
  induction a as [|x a IH]; simpl; [reflexivity|].
  rewrite Nat.ltb_irrefl, Nat.eqb_refl; exact IH.
Qed.

Lemma str_leb_total a b : str_leb a b = true \/ str_leb b a = true.
Proof.
  revert b; induction a as [|x a IH]; intros [|y b]; simpl; auto.
  destruct (Nat.ltb_spec (nat_of_ascii x) (nat_of_ascii y)); auto.
  destruct (Nat.ltb_spec (nat_of_ascii y) (nat_of_ascii x)); auto.
  replace (nat_of_ascii y) with (nat_of_ascii x) by lia.
  rewrite Nat.eqb_refl; apply IH.
Qed.

Lemma str_leb_trans a b c : str_leb a b = true -> str_leb b c = true -> str_leb a c = true.
Proof.
  revert b c; induction a as [|x a IH]; intros [|y b] [|z c]; simpl; auto; try discriminate.
  destruct (Nat.ltb_spec (nat_of_ascii x) (nat_of_ascii y)) as [H1|H1];
  destruct (Nat.ltb_spec (nat_of_ascii y) (nat_of_ascii z)) as [H2|H2];
  destruct (Nat.ltb_spec (nat_of_ascii x) (nat_of_ascii z)) as [H3|H3]; auto; intros Ha Hb; try lia.
  - destruct (Nat.eqb_spec (nat_of_ascii y) (nat_of_ascii z)); [lia|discriminate].
  - destruct (Nat.eqb_spec (nat_of_ascii x) (nat_of_ascii y)); [lia|discriminate].
  - destruct (Nat.eqb_spec (nat_of_ascii x) (nat_of_ascii y)); [|discriminate].
    destruct (Nat.eqb_spec (nat_of_ascii y) (nat_of_ascii z)); [|discriminate].
    replace (nat_of_ascii z) with (nat_of_ascii x) by lia. rewrite Nat.eqb_refl.
    eapply IH; eassumption.
Qed.

Lemma str_leb_antisym a b : str_leb a b = true -> str_leb b a = true -> a = b.
Proof.
  revert b; induction a as [|x a IH]; intros [|y b]; simpl; auto; try discriminate.
  destruct (Nat.ltb_spec (nat_of_ascii x) (nat_of_ascii y)) as [H1|H1];
  destruct (Nat.ltb_spec (nat_of_ascii y) (nat_of_ascii x)) as [H2|H2]; intros Ha Hb; try lia.
  - destruct (Nat.eqb_spec (nat_of_ascii y) (nat_of_ascii x)); [lia|discriminate].
  - destruct (Nat.eqb_spec (nat_of_ascii x) (nat_of_ascii y)); [lia|discriminate].
  - destruct (Nat.eqb_spec (nat_of_ascii x) (nat_of_ascii y)) as [E|]; [|discriminate].
    rewrite <- E, Nat.eqb_refl in Hb.
    f_equal; [|apply IH; assumption].
    rewrite <- (ascii_nat_embedding x), <- (ascii_nat_embedding y), E; reflexivity.
Qed.

Section P.
  Context {A : Type}.
  Variable key : A -> string.

  Lemma insert_by_perm x l : Permutation (insert_by key x l) (x :: l).
  Proof.
    induction l as [|y l IH]; simpl; [constructor; constructor|].
    destruct (str_leb (key x) (key y)); [reflexivity|].
    rewrite IH. apply perm_swap.
  Qed.

  Lemma sort_by_perm l : Permutation (sort_by key l) l.
  Proof.
    induction l as [|x l IH]; simpl; [constructor|].
    rewrite insert_by_perm. constructor; exact IH.
  Qed.

  Lemma sort_by_In l x : In x (sort_by key l) <-> In x l.
  Proof.
    split; apply Permutation_in; [apply sort_by_perm|apply Permutation_sym, sort_by_perm].
  Qed.

  Definition le_key (a b : A) : Prop := str_leb (key a) (key b) = true.

  Lemma insert_by_sorted x l :
    StronglySorted le_key l -> StronglySorted le_key (insert_by key x l).
  Proof.
    induction l as [|y l IH]; simpl; intros H.
    - constructor; constructor.
    - inversion H as [|? ? Hs Hf]; subst.
      destruct (str_leb (key x) (key y)) eqn:E.
      + constructor; [exact H|]. constructor; [exact E|].
        eapply Forall_impl; [|exact Hf]. intros z Hz. eapply str_leb_trans; eassumption.
      + constructor; [apply IH, Hs|].
        rewrite Forall_forall in *. intros z Hz.
        apply (Permutation_in _ (insert_by_perm x l)) in Hz as [<-|Hz]; [|apply Hf, Hz].
        destruct (str_leb_total (key x) (key y)) as [E'|E']; [congruence|exact E'].
  Qed.

  Lemma sort_by_sorted l : StronglySorted le_key (sort_by key l).
  Proof.
    induction l as [|x l IH]; simpl; [constructor|]. apply insert_by_sorted, IH.
  Qed.
End P.
