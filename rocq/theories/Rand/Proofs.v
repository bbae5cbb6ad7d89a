From Coq Require Import ZArith List Bool Lia.
From Verif.Rand Require Import Model Spec.
Import ListNotations.
Local Open Scope Z_scope.

Lemma land_below : forall v m, 0 <= m -> 0 <= v -> 0 <= Z.land v m <= m.
Proof.
  intros v m H V. split; [apply Z.land_nonneg; auto|].
  assert (E : Z.ldiff (Z.land v m) m = 0).
  { apply Z.bits_inj'. intros i I. rewrite Z.ldiff_spec, Z.land_spec, Z.bits_0. destruct (Z.testbit v i), (Z.testbit m i); reflexivity. }
  pose proof (Z.sub_nocarry_ldiff m (Z.land v m) E) as S. assert (0 <= Z.ldiff m (Z.land v m)) by (apply Z.ldiff_nonneg; auto). lia.
Qed.
Lemma draw_next : forall next max fuel st v st', draw next max fuel st = Some (v, st') -> exists st0, next st0 = (v, st').
Proof.
  intros next max. induction fuel as [|f IH]; intros st v st' E; [discriminate E|]. cbn in E. destruct (next st) as [w st1] eqn:N. destruct (w <=? max).
  - injection E as <- <-. eauto.
  - eapply IH, E.
Qed.
Lemma below_range : forall next top fuel n st r st', (forall st, 0 <= fst (next st)) -> below next top fuel n st = Some (r, st') ->
  (n <= 0 /\ r = RPanic /\ st' = st) \/ (0 < n /\ exists v, r = RInt v /\ 0 <= v < n).
Proof.
  intros next top fuel n st r st' P E. unfold below in E. destruct (Z.leb_spec n 0) as [L|L]; [injection E as <- <-; left; auto|]. right. split; [exact L|].
  destruct (Z.land n (n - 1) =? 0).
  - pose proof (P st) as Q. destruct (next st) as [v st1]. injection E as <- _. eexists. split; [reflexivity|]. cbn in Q. pose proof (land_below v (n - 1)). lia.
  - destruct (draw next (top - 1 - top mod n) fuel st) as [[v st1]|]; [|discriminate E]. injection E as <- _. eexists. split; [reflexivity|]. apply Z.mod_pos_bound, L.
Qed.
Lemma int63_nonneg : forall gen, proper gen -> forall st, 0 <= fst (int63 gen st).
Proof. intros gen P st. cbn. apply P. Qed.
Lemma int31_nonneg : forall gen, proper gen -> forall st, 0 <= fst (int31 gen st).
Proof. intros gen P st. unfold int31, int63. cbn [fst]. apply Z.shiftr_nonneg, P. Qed.
Lemma to_int32_spec : forall n m, m = to_int32 n <-> - 2 ^ 31 <= m < 2 ^ 31 /\ exists k, n = m + k * 2 ^ 32.
Proof.
  intros n m. unfold to_int32. split.
  - intros ->. pose proof (Z.mod_pos_bound (n + 2 ^ 31) (2 ^ 32)). pose proof (Z.div_mod (n + 2 ^ 31) (2 ^ 32)). split; [lia|]. exists ((n + 2 ^ 31) / 2 ^ 32). lia.
  - intros [B [k ->]]. replace (m + k * 2 ^ 32 + 2 ^ 31) with ((m + 2 ^ 31) + k * 2 ^ 32) by lia. rewrite Z.mod_add by lia. rewrite Z.mod_small by lia. lia.
Qed.
Lemma intn_range : forall gen fuel n st r st', proper gen -> intn gen fuel n st = Some (r, st') ->
  (n <= 0 /\ r = RPanic /\ st' = st) \/ (0 < n /\ exists v, r = RInt v /\ 0 <= v < n).
Proof.
  intros gen fuel n st r st' P E. unfold intn in E. destruct (Z.leb_spec n 0) as [L|L]; [injection E as <- <-; left; auto|].
  destruct (n <=? 2 ^ 31 - 1); eapply below_range; try exact E; [apply int31_nonneg, P | apply int63_nonneg, P].
Qed.

(** * All numbers below a bound are as likely as each other *)
Lemma power : forall n, 0 < n -> Z.land n (n - 1) = 0 -> n = 2 ^ Z.log2 n.
Proof.
  intros n P E. pose proof (Z.log2_spec n P) as [A B]. pose proof (Z.log2_nonneg n) as N. destruct (Z.eq_dec n (2 ^ Z.log2 n)) as [H|H]; [exact H|]. exfalso.
  assert (L : Z.log2 (n - 1) = Z.log2 n) by (apply Z.log2_unique; [exact N | lia]).
  assert (Q : Z.testbit (Z.land n (n - 1)) (Z.log2 n) = true).
  { rewrite Z.land_spec, (Z.bit_log2 n P). rewrite <- L at 1. apply Z.bit_log2. assert (0 < 2 ^ Z.log2 n) by (apply Z.pow_pos_nonneg; lia). lia. }
  rewrite E, Z.bits_0 in Q. discriminate Q.
Qed.
Lemma draw_first : forall (raw : Z -> nat -> Z) next, (forall st, next st = (raw (fst st) (snd st), (fst st, S (snd st)))) -> forall max fuel seed i v st',
  draw next max fuel (seed, i) = Some (v, st') ->
  exists j, st' = (seed, S (i + j)) /\ v = raw seed (i + j)%nat /\ v <= max /\ forall k, (k < j)%nat -> max < raw seed (i + k)%nat.
Proof.
  intros raw next N max. induction fuel as [|f IH]; intros seed i v st' E; [discriminate E|]. cbn in E. rewrite N in E. cbn [fst snd] in E. destruct (Z.leb_spec (raw seed i) max) as [L|L].
  - injection E as <- <-. exists O. rewrite Nat.add_0_r. repeat split; [exact L | lia].
  - apply IH in E. destruct E as [j [-> [-> [M K]]]]. exists (S j). rewrite <- plus_n_Sm. cbn [Nat.add]. repeat split; [exact M|]. intros [|k] H; [rewrite Nat.add_0_r; exact L|].
    rewrite <- plus_n_Sm. apply K. lia.
Qed.
Lemma below_first : forall (raw : Z -> nat -> Z) next bits, (forall st, next st = (raw (fst st) (snd st), (fst st, S (snd st)))) -> 0 <= bits -> (forall s i, 0 <= raw s i < 2 ^ bits) ->
  forall fuel n seed i r st', 0 < n < 2 ^ bits -> below next (2 ^ bits) fuel n (seed, i) = Some (r, st') ->
  exists j, st' = (seed, S (i + j)) /\ r = RInt (raw seed (i + j)%nat mod n) /\ raw seed (i + j)%nat < 2 ^ bits / n * n /\
    forall k, (k < j)%nat -> 2 ^ bits / n * n <= raw seed (i + k)%nat.
Proof.
  intros raw next bits N B R fuel n seed i r st' P E. unfold below in E. destruct (Z.leb_spec n 0) as [L|_]; [lia|]. destruct (Z.eqb_spec (Z.land n (n - 1)) 0) as [W|W].
  - rewrite N in E. cbn [fst snd] in E. injection E as <- <-. exists O. rewrite Nat.add_0_r. split; [reflexivity|]. pose proof (power n (proj1 P) W) as Q.
    pose proof (Z.log2_nonneg n) as NN. split; [|split].
    + f_equal. replace (n - 1) with (Z.ones (Z.log2 n)) by (rewrite Z.ones_equiv; lia). rewrite Z.land_ones by exact NN. rewrite <- Q. reflexivity.
    + assert (LB : Z.log2 n <= bits) by (apply Z.lt_le_incl, Z.log2_lt_pow2; lia).
      assert (T : 2 ^ bits = 2 ^ (bits - Z.log2 n) * n) by (rewrite Q at 2; rewrite <- Z.pow_add_r by lia; f_equal; lia).
      pose proof (R seed i) as [_ RR]. rewrite T. rewrite Z.div_mul by lia. lia.
    + intros k K. lia.
  - destruct (draw next (2 ^ bits - 1 - 2 ^ bits mod n) fuel (seed, i)) as [[v st1]|] eqn:D; [|discriminate E]. injection E as <- <-.
    destruct (draw_first raw next N _ _ _ _ _ _ D) as [j [-> [-> [M K]]]]. exists j. pose proof (Z.div_mod (2 ^ bits) n) as DM. repeat split; [lia|]. intros k H. specialize (K k H). lia.
Qed.

Lemma nth_update_same : forall h s st x, nth_error h s = Some x -> nth_error (update h s st) s = Some st.
Proof. induction h as [|y h IH]; intros [|s] st x E; cbn in *; try discriminate E; [reflexivity | eapply IH, E]. Qed.
Lemma nth_update_other : forall h s s' st, s <> s' -> nth_error (update h s st) s' = nth_error h s'.
Proof. induction h as [|y h IH]; intros [|s] [|s'] st N; cbn; try reflexivity; [congruence | apply IH; congruence]. Qed.
Lemma on_use : forall gen fuel h s st a r h', nth_error h s = Some st -> on gen fuel h s a = Some (r, h') -> exists st', act gen fuel st a = Some (r, st') /\ nth_error h' s = Some st'.
Proof.
  intros gen fuel h s st a r h' N E. unfold on in E. rewrite N in E. destruct (act gen fuel st a) as [[r' st']|]; [|discriminate E]. injection E as <- <-.
  exists st'. split; [reflexivity | eapply nth_update_same, N].
Qed.
Lemma on_other : forall gen fuel h s s' a r h', s <> s' -> on gen fuel h s a = Some (r, h') -> nth_error h' s' = nth_error h s'.
Proof.
  intros gen fuel h s s' a r h' N E. unfold on in E. destruct (nth_error h s); [|discriminate E]. destruct (act gen fuel s0 a) as [[r' st']|]; [|discriminate E]. injection E as _ <-.
  apply nth_update_other, N.
Qed.
Lemma step_use : forall gen fuel h s st c a r h', uses s c a -> nth_error h s = Some st -> step gen fuel h c = Some (r, h') ->
  exists st', act gen fuel st a = Some (r, st') /\ nth_error h' s = Some st'.
Proof. intros gen fuel h s st c a r h' U N E. destruct U; cbn [step] in E; eapply on_use; eassumption. Qed.
Lemma step_other : forall gen fuel h s st c r h', ~ compares c -> (forall a, ~ uses s c a) -> nth_error h s = Some st -> step gen fuel h c = Some (r, h') -> nth_error h' s = Some st.
Proof.
  intros gen fuel h s st c r h' C U N E. destruct c as [z|s'|s' z|s'|s' a|s' o|s' o]; cbn [step] in E; try (elim C; exact I).
  - injection E as _ <-. rewrite nth_error_app1; [exact N|]. apply nth_error_Some. congruence.
  - rewrite (on_other _ _ _ _ s _ _ _ (fun H => U AInt63 (eq_ind_r (fun x => uses s (SourceInt63 x) AInt63) (uses_int63 s) H)) E). exact N.
  - assert (D : s' <> s) by (intros ->; apply (U (ASeed z)); constructor). rewrite (on_other _ _ _ _ s _ _ _ D E). exact N.
  - destruct (nth_error h s'); [|discriminate E]. injection E as _ <-. exact N.
  - assert (D : s' <> s) by (intros ->; apply (U a); constructor). rewrite (on_other _ _ _ _ s _ _ _ D E). exact N.
Qed.
(** the results of actions on one source *)
Fixpoint alone (gen : gen_type) (fuel : nat) (st : source) (l : list (action * result)) : Prop :=
  match l with [] => True | (a, r) :: l => exists st', act gen fuel st a = Some (r, st') /\ alone gen fuel st' l end.
Lemma run_alone : forall gen fuel s cs rs l, seen s cs rs l -> forall h st h', (forall c, In c cs -> ~ compares c) -> nth_error h s = Some st ->
  run gen fuel h cs = Some (rs, h') -> alone gen fuel st l.
Proof.
  intros gen fuel s cs rs l H. induction H as [|c a cs r rs l U _ IH|c cs r rs l U _ IH]; intros h st h' C N E; [exact I| |];
    cbn in E; destruct (step gen fuel h c) as [[r1 h1]|] eqn:S; try discriminate E; destruct (run gen fuel h1 cs) as [[rs1 h2]|] eqn:R; try discriminate E; injection E as -> -> ->.
  - destruct (step_use _ _ _ _ _ _ _ _ _ U N S) as [st' [A N']]. exists st'. split; [exact A|]. eapply IH; [intros x X; apply C; right; exact X | exact N' | exact R].
  - eapply IH; [intros x X; apply C; right; exact X | | exact R]. eapply step_other; [apply C; left; reflexivity | exact U | exact N | exact S].
Qed.
Lemma alone_same : forall gen fuel l l' st, alone gen fuel st l -> alone gen fuel st l' -> map fst l = map fst l' -> l = l'.
Proof.
  intros gen fuel. induction l as [|[a r] l IH]; intros [|[a' r'] l'] st A A' E; try discriminate E; [reflexivity|]. cbn in E. injection E as <- E.
  destruct A as [st1 [H A]], A' as [st2 [H' A']]. rewrite H in H'. injection H' as <- <-. f_equal. eapply IH; eassumption.
Qed.
