From Coq Require Import String Ascii List Bool Arith Lia.
From Verif.Cel Require Import Placeholder PlaceholderSpec.
Import ListNotations.
Local Open Scope string_scope.

Lemma replace_spec s : forall m, no_dollar_in_literals m s = true -> replace_dollar s = intended m s.
Proof.
  induction s as [|c s IH]; intros m H; [reflexivity|]. cbn [no_dollar_in_literals intended replace_dollar] in *.
  destruct (next m c) as [m' lit] eqn:En. apply andb_true_iff in H as [H1 H2].
  destruct (Ascii.eqb c "$") eqn:Ec; cbn [andb] in *.
  - destruct lit; [discriminate|]. cbn [negb]. rewrite (IH m' H2). reflexivity.
  - rewrite (IH m' H2). reflexivity.
Qed.

(** Where a literal contains [$], the texts differ. *)
Lemma length_app a b : String.length (a ++ b) = String.length a + String.length b.
Proof. induction a; cbn; [reflexivity|]. rewrite IHa. reflexivity. Qed.

Lemma intended_le s : forall m, String.length (intended m s) <= String.length (replace_dollar s).
Proof.
  induction s as [|c s IH]; intros m; [reflexivity|]. cbn [intended replace_dollar]. destruct (next m c) as [m' lit].
  specialize (IH m'). destruct (Ascii.eqb c "$"); cbn [andb].
  - destruct lit; cbn [negb]; rewrite ?length_app; cbn; lia.
  - cbn. lia.
Qed.

Lemma replace_exact s : forall m, replace_dollar s = intended m s -> no_dollar_in_literals m s = true.
Proof.
  induction s as [|c s IH]; intros m H; [reflexivity|]. cbn [no_dollar_in_literals intended replace_dollar] in *.
  destruct (next m c) as [m' lit] eqn:En. destruct (Ascii.eqb c "$") eqn:Ec; cbn [andb] in *.
  - destruct lit; cbn [negb] in *.
    + exfalso. pose proof (intended_le s m') as L. apply (f_equal String.length) in H. rewrite length_app in H. cbn in H. lia.
    + apply IH. unfold arg_name in H. cbn in H. congruence.
  - apply IH. congruence.
Qed.


Lemma replace_removes s : forall m, intended m (replace_dollar s) = replace_dollar s.
Proof.
  assert (G : forall s, ~ (exists a b, s = a ++ String "$" b) -> forall m, intended m s = s).
  { induction s0 as [|c s0 IH]; intros Hn m; [reflexivity|]. cbn [intended]. destruct (next m c) as [m' lit].
    destruct (Ascii.eqb_spec c "$") as [->|Hc]; [exfalso; apply Hn; exists "", s0; reflexivity|]. cbn [andb].
    rewrite IH; [reflexivity|]. intros (a & b & ->). apply Hn. exists (String c a), b. reflexivity. }
  intros m. apply G. clear. intros (a & b & H). revert a b H.
  induction s as [|c s IH]; intros a b H; [destruct a; discriminate|]. cbn [replace_dollar] in H.
  destruct (Ascii.eqb_spec c "$") as [->|Hc].
  - unfold arg_name in H. cbn in H.
    do 7 (destruct a as [|? a]; [discriminate H|injection H as _ H]). exact (IH a b H).
  - destruct a as [|x a]; [injection H as E _; contradiction|]. injection H as _ H. exact (IH a b H).
Qed.
