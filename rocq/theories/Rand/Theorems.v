(** C87: random numbers in expressions. *)
From Coq Require Import ZArith List Bool Lia.
From Verif.Rand Require Import Model Spec Proofs.
Import ListNotations.
Local Open Scope Z_scope.

(** The full statement on bounds: a function with a bound fails exactly for bounds that are not positive, otherwise the number is at least 0 and below the bound. *)
Definition C87_statement : Prop := forall gen fuel st a n r st', proper gen -> bounded a n -> act gen fuel st a = Some (r, st') ->
  (n <= 0 /\ r = RPanic) \/ (0 < n /\ exists v, r = RInt v /\ 0 <= v < n).
(** It holds for bounds of 32 bits, and for the functions other than int31n. *)
Theorem C87_range_partial : forall gen fuel st a n r st', proper gen -> bounded a n -> (- 2 ^ 31 <= n < 2 ^ 31 \/ a <> AInt31n n) -> act gen fuel st a = Some (r, st') ->
  (n <= 0 /\ r = RPanic) \/ (0 < n /\ exists v, r = RInt v /\ 0 <= v < n).
Proof.
  intros gen fuel st a n r st' P B D E. destruct B as [n|n|n]; cbn [act] in E.
  - destruct D as [D|D]; [|congruence]. assert (W : n = to_int32 n) by (apply to_int32_spec; split; [exact D | exists 0; lia]). rewrite <- W in E.
    destruct (below_range _ _ _ _ _ _ _ (int31_nonneg gen P) E) as [[A [-> _]]|R]; auto.
  - destruct (below_range _ _ _ _ _ _ _ (int63_nonneg gen P) E) as [[A [-> _]]|R]; auto.
  - destruct (intn_range _ _ _ _ _ _ P E) as [[A [-> _]]|R]; auto.
Qed.
Print Assumptions C87_range_partial.
(** int31n takes the lower 32 bits of its bound, as a number with a sign. *)
Theorem C87_int31n_exact : forall gen fuel st n m r st', proper gen -> - 2 ^ 31 <= m < 2 ^ 31 -> (exists k, n = m + k * 2 ^ 32) -> act gen fuel st (AInt31n n) = Some (r, st') ->
  (m <= 0 /\ r = RPanic /\ st' = st) \/ (0 < m /\ exists v, r = RInt v /\ 0 <= v < m).
Proof.
  intros gen fuel st n m r st' P B K E. cbn [act] in E. rewrite <- (proj2 (to_int32_spec n m) (conj B K)) in E. eapply below_range; [apply int31_nonneg, P | exact E].
Qed.
Print Assumptions C87_int31n_exact.
(** No number below the bound is preferred: of the source the first number is taken that is below a multiple of the bound, the largest there is, and the rest of its
    division by the bound is the result. *)
Theorem C87_fair : forall gen fuel seed i n a r st', proper gen -> 0 < n < 2 ^ 63 -> a = AInt63n n \/ a = AIntn n /\ 2 ^ 31 <= n -> act gen fuel (seed, i) a = Some (r, st') ->
  exists j, st' = (seed, S (i + j)) /\ r = RInt (gen seed (i + j)%nat mod n) /\ gen seed (i + j)%nat < 2 ^ 63 / n * n /\
    forall k, (k < j)%nat -> 2 ^ 63 / n * n <= gen seed (i + k)%nat.
Proof.
  intros gen fuel seed i n a r st' P N A E'. assert (E : int63n gen fuel n (seed, i) = Some (r, st')).
  { destruct A as [-> | [-> A]]; cbn [act] in E'; [exact E'|]. unfold intn in E'. destruct (Z.leb_spec n 0); [lia|]. destruct (Z.leb_spec n (2 ^ 31 - 1)); [lia | exact E']. }
  apply (below_first gen (int63 gen) 63 (fun _ => eq_refl)) with (fuel := fuel); [lia | exact P | exact N | exact E].
Qed.
Print Assumptions C87_fair.
(** The same for 31 bits, of which a number of the source has the upper ones. *)
Theorem C87_fair31 : forall gen fuel seed i n a r st', proper gen -> 0 < n < 2 ^ 31 -> a = AInt31n n \/ a = AIntn n -> act gen fuel (seed, i) a = Some (r, st') ->
  exists j, st' = (seed, S (i + j)) /\ r = RInt (gen seed (i + j)%nat / 2 ^ 32 mod n) /\ gen seed (i + j)%nat / 2 ^ 32 < 2 ^ 31 / n * n /\
    forall k, (k < j)%nat -> 2 ^ 31 / n * n <= gen seed (i + k)%nat / 2 ^ 32.
Proof.
  intros gen fuel seed i n a r st' P N A E. assert (E' : int31n gen fuel n (seed, i) = Some (r, st')).
  { destruct A as [-> | ->]; cbn [act] in E.
    - rewrite <- (proj2 (to_int32_spec n n)) in E; [exact E|]. split; [lia | exists 0; lia].
    - unfold intn in E. destruct (Z.leb_spec n 0); [lia|]. destruct (Z.leb_spec n (2 ^ 31 - 1)); [exact E | lia]. }
  apply (below_first (fun s i => gen s i / 2 ^ 32) (int31 gen) 31) with (fuel := fuel); [| lia | | exact N | exact E'].
  - intros st. unfold int31, int63. rewrite Z.shiftr_div_pow2 by lia. reflexivity.
  - intros s k. pose proof (P s k) as Q. split; [apply Z.div_pos; lia | apply Z.div_lt_upper_bound; lia].
Qed.
Print Assumptions C87_fair31.
(** The functions without a bound. *)
Theorem C87_plain : forall gen fuel st, proper gen ->
  (forall a, a = AInt \/ a = AInt63 -> exists v st', act gen fuel st a = Some (RInt v, st') /\ 0 <= v < 2 ^ 63) /\
  (exists v st', act gen fuel st AInt31 = Some (RInt v, st') /\ 0 <= v < 2 ^ 31) /\
  (exists v st', act gen fuel st AUint32 = Some (RUint v, st') /\ 0 <= v < 2 ^ 32).
Proof.
  intros gen fuel st P. pose proof (P (fst st) (snd st)) as Q. split; [|split].
  - intros a [-> | ->]; eexists; eexists; split; try reflexivity; exact Q.
  - eexists; eexists; split; [reflexivity|]. rewrite Z.shiftr_div_pow2 by lia. split; [apply Z.div_pos; lia | apply Z.div_lt_upper_bound; lia].
  - eexists; eexists; split; [reflexivity|]. rewrite Z.shiftr_div_pow2 by lia. split; [apply Z.div_pos; lia | apply Z.div_lt_upper_bound; lia].
Qed.
Print Assumptions C87_plain.

(** Two sources in the same state that are used in the same way give the same numbers, whatever else is done in between, in runs without comparisons. *)
Theorem C87_same_numbers : forall gen fuel h1 h2 cs1 cs2 rs1 rs2 h1' h2' s1 s2 st l1 l2,
  nth_error h1 s1 = Some st -> nth_error h2 s2 = Some st -> (forall c, In c cs1 \/ In c cs2 -> ~ compares c) ->
  run gen fuel h1 cs1 = Some (rs1, h1') -> run gen fuel h2 cs2 = Some (rs2, h2') -> seen s1 cs1 rs1 l1 -> seen s2 cs2 rs2 l2 ->
  map fst l1 = map fst l2 -> l1 = l2.
Proof.
  intros gen fuel h1 h2 cs1 cs2 rs1 rs2 h1' h2' s1 s2 st l1 l2 N1 N2 C R1 R2 S1 S2 E.
  eapply alone_same; [eapply run_alone; [exact S1 | auto | exact N1 | exact R1] | eapply run_alone; [exact S2 | auto | exact N2 | exact R2] | exact E].
Qed.
Print Assumptions C87_same_numbers.
(** Giving a source a seed makes it a new source with this seed, and leaves the others alone; a new source is one more. *)
Theorem C87_seed : forall gen fuel h s z r h', step gen fuel h (SourceSeed s z) = Some (r, h') \/ step gen fuel h (OnRand s (ASeed z)) = Some (r, h') ->
  r = RBool true /\ (forall id k, step gen fuel k (NewSource z) = Some (RSource id, k ++ [(z, O)]) -> nth_error h' s = nth_error (k ++ [(z, O)]) id) /\
  (forall s', s' <> s -> nth_error h' s' = nth_error h s') /\ length h' = length h.
Proof.
  assert (L : forall h s st, length (update h s st) = length h) by (induction h as [|x h IH]; intros [|s] st; cbn; auto).
  intros gen fuel h s z r h' H. assert (E : on gen fuel h s (ASeed z) = Some (r, h')) by (destruct H as [H|H]; exact H). clear H.
  split; [|split; [|split]].
  - unfold on in E. destruct (nth_error h s); [|discriminate E]. injection E as <- _. reflexivity.
  - intros id k K. injection K as <-. rewrite nth_error_app2, Nat.sub_diag by lia. unfold on in E. destruct (nth_error h s) as [x|] eqn:N; [|discriminate E].
    cbn in E. injection E as _ <-. apply (nth_update_same _ _ _ _ N).
  - intros s' D. eapply on_other; [|exact E]. congruence.
  - unfold on in E. destruct (nth_error h s); [|discriminate E]. cbn in E. injection E as _ <-. apply L.
Qed.
Print Assumptions C87_seed.
Theorem C87_new_source : forall gen fuel h z, step gen fuel h (NewSource z) = Some (RSource (length h), h ++ [(z, O)]).
Proof. reflexivity. Qed.
Print Assumptions C87_new_source.

(** A generator made of a source takes its numbers from it: what the one takes the other does not give again. *)
Theorem C87_shared : forall gen fuel (h : heap) s seed i, nth_error h s = Some ((seed, i) : source) ->
  exists h', run gen fuel h [New s; OnRand s AInt63; SourceInt63 s; OnRand s AInt63] = Some ([RRand s; RInt (gen seed i); RInt (gen seed (S i)); RInt (gen seed (S (S i)))], h').
Proof.
  intros gen fuel h s seed i N. cbn [run step]. rewrite N. unfold on. rewrite N. cbn [act int63 fst snd]. pose proof (nth_update_same _ _ (seed, S i) _ N) as N1. rewrite N1. cbn [act int63 fst snd].
  pose proof (nth_update_same _ _ (seed, S (S i)) _ N1) as N2. rewrite N2. cbn [act int63 fst snd]. eauto.
Qed.
Print Assumptions C87_shared.

(** The full statement on comparisons: a generator is equal to itself, and comparing has no effect. *)
Definition C87_equal_statement : Prop := forall gen fuel h r o b h', proper gen -> step gen fuel h (RandEqual r o) = Some (b, h') -> h' = h /\ (r = o -> b = RBool true).
(** What holds: a comparison with itself takes two numbers and compares them; *)
Theorem C87_equal_itself : forall gen fuel (h : heap) r seed i c, nth_error h r = Some ((seed, i) : source) -> c = RandEqual r r \/ c = SourceEqual r r ->
  exists b h', step gen fuel h c = Some (RBool b, h') /\ nth_error h' r = Some (seed, S (S i)) /\ (b = true <-> gen seed i = gen seed (S i)).
Proof.
  intros gen fuel h r seed i c N C. assert (E : step gen fuel h c = compare gen fuel h r r) by (destruct C as [-> | ->]; reflexivity). rewrite E.
  unfold compare, on. rewrite N. cbn [act int63 fst snd]. pose proof (nth_update_same h r (seed, S i) _ N) as N1. rewrite N1. cbn [act int63 fst snd].
  eexists. eexists. split; [reflexivity|]. split; [apply (nth_update_same _ _ _ _ N1) | apply Z.eqb_eq].
Qed.
Print Assumptions C87_equal_itself.
(** with another it takes a number of each. *)
Theorem C87_equal_other : forall gen fuel (h : heap) r o seed i seed' i' c, r <> o -> nth_error h r = Some ((seed, i) : source) -> nth_error h o = Some ((seed', i') : source) -> c = RandEqual r o \/ c = SourceEqual r o ->
  exists b h', step gen fuel h c = Some (RBool b, h') /\ nth_error h' r = Some (seed, S i) /\ nth_error h' o = Some (seed', S i') /\ (b = true <-> gen seed i = gen seed' i').
Proof.
  intros gen fuel h r o seed i seed' i' c D N N' C. assert (E : step gen fuel h c = compare gen fuel h r o) by (destruct C as [-> | ->]; reflexivity). rewrite E.
  unfold compare, on. rewrite N. cbn [act int63 fst snd]. rewrite (nth_update_other h r o _ D), N'. cbn [act int63 fst snd].
  eexists. eexists. split; [reflexivity|]. split; [rewrite nth_update_other by congruence; apply (nth_update_same _ _ _ _ N)|]. split; [|apply Z.eqb_eq].
  eapply nth_update_same. rewrite nth_update_other by exact D. exact N'.
Qed.
Print Assumptions C87_equal_other.

(** * Counterexamples and examples *)
Definition lcg : gen_type := fun seed i => (seed * 25214903917 + Z.of_nat i * 6364136223846793005 + 1442695040888963407) mod 2 ^ 63.
Lemma lcg_proper : proper lcg.
Proof. intros seed i. apply Z.mod_pos_bound. reflexivity. Qed.
Theorem C87_refuted : ~ C87_statement.
Proof.
  intros H. destruct (H lcg 5%nat (1, O) (AInt31n (2 ^ 31)) (2 ^ 31) RPanic (1, O) lcg_proper (bounded31 _) eq_refl) as [[A _]|[_ [v [E _]]]]; [lia | discriminate E].
Qed.
Print Assumptions C87_refuted.
Theorem C87_equal_refuted : ~ C87_equal_statement.
Proof.
  intros H. destruct (H lcg 5%nat [(1, O)] O O (RBool false) [(1, 2%nat)] lcg_proper eq_refl) as [E _]. discriminate E.
Qed.
Print Assumptions C87_equal_refuted.
(** a negative bound that does not fail *)
Example negative_case : exists v st', act lcg 5 (1, O) (AInt31n (5 - 2 ^ 32)) = Some (RInt v, st') /\ 0 <= v < 5.
Proof. eexists. eexists. split; [vm_compute; reflexivity | lia]. Qed.
Example dice_case : exists v st', act lcg 5 (1, O) (AIntn 6) = Some (RInt v, st') /\ 0 <= v < 6.
Proof. eexists. eexists. split; [vm_compute; reflexivity | lia]. Qed.
(** two sources with one seed, used in turn *)
Definition turns : list call := [NewSource 7; NewSource 7; OnRand 0 (AInt63n 10); SourceInt63 1; SourceSeed 1 7; OnRand 0 AInt; OnRand 1 (AInt63n 10); SourceInt63 1].
Example turns_case : exists a b c rs h, run lcg 5 [] turns = Some (rs, h) /\ rs = [RSource 0; RSource 1; RInt a; RInt b; RBool true; RInt c; RInt a; RInt c].
Proof. do 5 eexists. split; vm_compute; reflexivity. Qed.
