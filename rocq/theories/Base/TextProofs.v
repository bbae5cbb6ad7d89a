From Coq Require Import String Ascii List Bool.
From Verif.Base Require Import Text.
Import ListNotations.
Local Open Scope string_scope.

Lemma split_nonempty sep s : split sep s <> [].
Proof. destruct s; cbn; [discriminate|]. destruct (Ascii.eqb a sep); [discriminate|]. destruct (split sep s); discriminate. Qed.

Lemma split_no_sep sep s : has_char sep s = false -> split sep s = [s].
Proof.
  induction s as [|c s IH]; cbn; [reflexivity|]. intros H. apply orb_false_iff in H as [H1 H2].
  rewrite H1, (IH H2). reflexivity.
Qed.

Lemma split_parts_no_sep sep s : Forall (fun p => has_char sep p = false) (split sep s).
Proof.
  induction s as [|c s IH]; cbn; [auto|]. destruct (Ascii.eqb c sep) eqn:Ec; [constructor; auto|].
  destruct (split sep s) as [|h t] eqn:Es; [constructor; [cbn; rewrite Ec; reflexivity|auto]|].
  inversion IH; subst. constructor; [cbn; rewrite Ec; assumption|assumption].
Qed.

Lemma join_split sep s : join (String sep "") (split sep s) = s.
Proof.
  induction s as [|c s IH]; [reflexivity|]. cbn [split]. destruct (Ascii.eqb_spec c sep) as [->|Hc].
  - pose proof (split_nonempty sep s). destruct (split sep s) as [|h t]; [congruence|].
    cbn [join]. cbn [join] in IH. change ("" ++ ?x) with x. cbn [append].
    f_equal. exact IH.
  - pose proof (split_nonempty sep s). destruct (split sep s) as [|h t]; [congruence|].
    cbn [join] in *. destruct t; cbn [append]; f_equal; exact IH.
Qed.

Lemma split_app sep a b : has_char sep a = false -> split sep (a ++ String sep b) = a :: split sep b.
Proof.
  induction a as [|c a IH]; intros H; cbn.
  - rewrite Ascii.eqb_refl. reflexivity.
  - cbn in H. apply orb_false_iff in H as [H1 H2]. rewrite H1, (IH H2). reflexivity.
Qed.

Lemma split_app_gen sep a b : split sep (a ++ String sep b) = (split sep a ++ split sep b)%list.
Proof.
  induction a as [|c a IH]; cbn.
  - rewrite Ascii.eqb_refl. reflexivity.
  - destruct (Ascii.eqb c sep); [rewrite IH; reflexivity|]. rewrite IH.
    pose proof (split_nonempty sep a). destruct (split sep a); [congruence|]. reflexivity.
Qed.

Lemma has_char_app c a b : has_char c (a ++ b) = has_char c a || has_char c b.
Proof. induction a as [|x a IH]; cbn; [reflexivity|]. rewrite IH, orb_assoc. reflexivity. Qed.

(** The first part: everything before the first separator. *)
Lemma split_head sep s : exists t, split sep s = hd "" (split sep s) :: t /\
  (t = [] /\ s = hd "" (split sep s) \/ exists r, t = split sep r /\ s = hd "" (split sep s) ++ String sep r).
Proof.
  pose proof (split_nonempty sep s) as Hn. pose proof (join_split sep s) as Hj.
  destruct (split sep s) as [|h t] eqn:Es; [congruence|]. exists t. cbn [hd]. split; [reflexivity|].
  destruct t as [|h2 t2].
  - left. cbn in Hj. auto.
  - right. exists (join (String sep "") (h2 :: t2)). split; [|rewrite <- Hj; reflexivity].
    assert (F : has_char sep h = false).
    { pose proof (split_parts_no_sep sep s) as F. rewrite Es in F. inversion F; assumption. }
    assert (Hs : s = h ++ String sep (join (String sep "") (h2 :: t2))) by (rewrite <- Hj; reflexivity).
    rewrite Hs, (split_app sep h _ F) in Es. congruence.
Qed.
