(** Proofs about completion. *)

From Coq Require Import Ascii String List Arith ZArith Bool Lia Permutation Sorted.
From Verif.Base Require Import Text Sort SortProofs.
From Verif.Complete Require Import Model Spec.
Import ListNotations.
Local Open Scope string_scope.
Local Open Scope list_scope.

Lemma prefix_begins s p : starts_with s p = true <-> begins s p.
Proof.
  unfold starts_with, begins. revert s. induction p as [| c p IH]; intro s.
  - split; [intros _; exists s; reflexivity | intros _; destruct s; reflexivity].
  - destruct s as [| x s]; cbn.
    + split; [discriminate | intros [r E]; discriminate E].
    + destruct (ascii_dec c x) as [-> | N].
      * rewrite IH. split; intros [r E]; exists r; [rewrite E; reflexivity | injection E as E; exact E].
      * split; [discriminate | intros [r E]; injection E as E _; congruence].
Qed.

Lemma prefix_not_begins s p : starts_with s p = false <-> ~ begins s p.
Proof. rewrite <- prefix_begins. destruct (starts_with s p); split; congruence. Qed.

(** * Without repetitions *)

Lemma unique_from_in seen c v :
  In v (unique_from seen c) -> In v c /\ ~ In (fst v) seen.
Proof.
  revert seen. induction c as [| x c IH]; intros seen H; cbn [unique_from] in H; [destruct H |].
  destruct (existsb (String.eqb (fst x)) seen) eqn:E.
  - destruct (IH _ H). split; [right |]; assumption.
  - destruct H as [<- | H].
    + split; [left; reflexivity |]. intro I. assert (T : existsb (String.eqb (fst x)) seen = true).
      { apply existsb_exists. exists (fst x). split; [exact I | apply String.eqb_refl]. }
      rewrite T in E. discriminate E.
    + destruct (IH _ H) as [A B]. split; [right; exact A |]. intro I. apply B. right. exact I.
Qed.

Lemma unique_from_nodup seen c : NoDup (names (unique_from seen c)).
Proof.
  revert seen. induction c as [| x c IH]; intro seen; cbn [unique_from]; [constructor |].
  destruct (existsb (String.eqb (fst x)) seen); [apply IH |]. cbn. constructor; [| apply IH].
  intro I. apply in_map_iff in I. destruct I as (v & E & I). apply unique_from_in in I.
  destruct I as [_ N]. apply N. left. symmetry. exact E.
Qed.

Definition functional (c : list value) : Prop := forall a b, In a c -> In b c -> fst a = fst b -> a = b.

Lemma unique_from_all seen c v :
  functional c -> In v c -> ~ In (fst v) seen -> In v (unique_from seen c).
Proof.
  revert seen. induction c as [| x c IH]; intros seen F I N; [destruct I |].
  assert (F' : functional c) by (intros a b A B; apply F; right; assumption).
  cbn [unique_from]. destruct (existsb (String.eqb (fst x)) seen) eqn:E.
  - destruct I as [-> | I]; [| exact (IH _ F' I N)].
    apply existsb_exists in E. destruct E as (y & J & Q). apply String.eqb_eq in Q. subst y. contradiction.
  - destruct (String.eqb_spec (fst x) (fst v)) as [Q | Q].
    + left. apply F; [left; reflexivity | exact I | exact Q].
    + destruct I as [-> | I]; [contradiction |]. right. apply IH; [exact F' | exact I |].
      intros [X | X]; [exact (Q X) | exact (N X)].
Qed.

Lemma unique_in c v : functional c -> (In v (unique c) <-> In v c).
Proof.
  intro F. split.
  - intro H. apply (unique_from_in [] c v H).
  - intro I. apply unique_from_all; [exact F | exact I | intros []].
Qed.

Lemma unique_names c n : In n (names (unique c)) <-> In n (names c).
Proof.
  unfold names, unique. split.
  - intro I. apply in_map_iff in I. destruct I as (v & <- & I). apply unique_from_in in I.
    apply in_map, I.
  - assert (G : forall c seen, In n (map fst c) -> ~ In n seen -> In n (map fst (unique_from seen c))).
    { clear c. induction c as [| x c IH]; intros seen I N; [destruct I |]. cbn [unique_from].
      destruct (existsb (String.eqb (fst x)) seen) eqn:E.
      - destruct I as [<- | I]; [| exact (IH _ I N)].
        apply existsb_exists in E. destruct E as (y & J & Q). apply String.eqb_eq in Q. subst y. contradiction.
      - destruct (String.eqb_spec (fst x) n) as [Q | Q]; [left; exact Q |].
        destruct I as [I | I]; [contradiction |]. right. apply IH; [exact I |].
        intros [X | X]; [exact (Q X) | exact (N X)]. }
    intro I. apply G; [exact I | intros []].
Qed.

(** * Types *)

Lemma kind_eqb_eq a b : kind_eqb a b = true <-> a = b.
Proof.
  destruct a, b; cbn; try (split; [reflexivity || discriminate | reflexivity || discriminate]);
    rewrite Nat.eqb_eq; split; congruence.
Qed.

Lemma same_some a b : same a b = true <-> exists i, a = Some i /\ b = Some i.
Proof.
  destruct a as [x |], b as [y |]; cbn; try (split; [discriminate | intros (i & E & F); congruence]).
  rewrite Nat.eqb_eq. split; [intros ->; eauto | intros (i & E & F); congruence].
Qed.

Lemma none_none a : none a = true <-> a = None.
Proof. destruct a; cbn; split; congruence. Qed.

Lemma number_kind t : is_number t = true <-> exists n, ty_kind t = KNumber n.
Proof. unfold is_number. destruct (ty_kind t); split; try discriminate; eauto; intros [? E]; discriminate E. Qed.

Lemma keep_fits t v : keep t v = true <-> fits (snd v) t.
Proof.
  destruct v as [n [a |]]; unfold keep; cbn [snd]; [| split; [constructor | reflexivity]].
  destruct t as [b |]; [| split; [constructor | reflexivity]].
  split.
  - destruct (none (ty_msg a) && none (ty_enum a) && kind_eqb (ty_kind a) (ty_kind b)) eqn:S.
    + intros _. rewrite !andb_true_iff, !none_none, kind_eqb_eq in S. destruct S as [[A B] C].
      apply fits_scalar; assumption.
    + destruct (Nat.eqb (ty_ptr a) (ty_ptr b)) eqn:P; [intros _; apply fits_same, Nat.eqb_eq, P |].
      destruct (is_number a && is_number b) eqn:N.
      * intros _. apply andb_true_iff in N. rewrite !number_kind in N. destruct N as [[x X] [y Y]].
        eapply fits_numbers; eassumption.
      * destruct (same (ty_msg a) (ty_msg b)) eqn:M.
        -- intros _. apply same_some in M. destruct M as (i & A & B). eapply fits_message; eassumption.
        -- intro E. apply same_some in E. destruct E as (i & A & B). eapply fits_enum; eassumption.
  - intro F. destruct (none (ty_msg a) && none (ty_enum a) && kind_eqb (ty_kind a) (ty_kind b)) eqn:S; [reflexivity |].
    destruct (Nat.eqb (ty_ptr a) (ty_ptr b)) eqn:P; [reflexivity |].
    destruct (is_number a && is_number b) eqn:N; [reflexivity |].
    destruct (same (ty_msg a) (ty_msg b)) eqn:M; [reflexivity |].
    inversion F as [| | x y A B C | x y A | x y p q A B | x y i A B | x y i A B]; subst.
    + assert (X : none (ty_msg a) && none (ty_enum a) && kind_eqb (ty_kind a) (ty_kind b) = true).
      { rewrite !andb_true_iff, !none_none, kind_eqb_eq. auto. }
      rewrite X in S. discriminate S.
    + rewrite A, Nat.eqb_refl in P. discriminate P.
    + assert (X : is_number a && is_number b = true).
      { rewrite andb_true_iff, !number_kind. eauto. }
      rewrite X in N. discriminate N.
    + assert (X : same (ty_msg a) (ty_msg b) = true) by (apply same_some; eauto). rewrite X in M. discriminate M.
    + apply same_some. eauto.
Qed.

(** * Variables *)

Lemma variable_of_in d v : In v (variable_of d) <-> gives d (fst v) (snd v).
Proof.
  unfold variable_of, gives. destruct (String.eqb_spec (d_name d) "") as [E | E]; cbn [orb].
  - split; [intros [] |]. intros (A & B & _). congruence.
  - destruct (starts_with (d_name d) "_") eqn:S.
    + split; [intros [] |]. intros (A & _ & B & _). rewrite <- A in B. apply prefix_begins in S. contradiction.
    + apply prefix_not_begins in S. destruct (d_expr d) as [t |].
      * split.
        -- intros [<- | []]. auto.
        -- intros (A & _ & _ & B). left. destruct v as [n u]. cbn in *. congruence.
      * split; [intros [] |]. intros (_ & _ & _ & B). discriminate B.
Qed.

Lemma repeated_in {A} (l : list A) k v : In v (flat_map (fun _ : nat => l) (seq 0 k)) <-> 0 < k /\ In v l.
Proof.
  rewrite in_flat_map. split.
  - intros (x & I & J). apply in_seq in I. split; [lia | exact J].
  - intros [P J]. exists 0. split; [apply in_seq; lia | exact J].
Qed.

Lemma variable_candidates_in m idx v :
  In v (variable_candidates m idx) <->
  (0 <= idx)%Z /\ exists d, nth_error (defs_of m) (Z.to_nat idx) = Some d /\ gives d (fst v) (snd v).
Proof.
  unfold variable_candidates, defs_of. destruct (m_rule m) as [[ds args] |].
  - destruct (Z.leb_spec (Z.of_nat (List.length ds)) idx) as [L | L].
    + split; [intros [] |]. intros [P (d & E & _)].
      assert (X : nth_error ds (Z.to_nat idx) <> None) by congruence.
      apply nth_error_Some in X. lia.
    + rewrite repeated_in. split.
      * intros [P I]. split; [lia |]. destruct (nth_error ds (Z.to_nat idx)) as [d |]; [| destruct I].
        exists d. split; [reflexivity | apply variable_of_in, I].
      * intros [P (d & E & G)]. rewrite E. split; [lia | apply variable_of_in, G].
  - split; [intros [] |]. intros [_ (d & E & _)]. destruct (Z.to_nat idx); discriminate E.
Qed.

Lemma argument_candidates_in m v : In v (argument_candidates m) <-> argument m (fst v) (snd v).
Proof.
  unfold argument_candidates, argument. destruct (m_rule m) as [[ds [args |]] |].
  - rewrite in_map_iff. split.
    + intros ([f x] & <- & I). exists ds, args, f, x. auto.
    + intros (ds' & args' & f & x & E & I & A & B). injection E as <- <-. exists (f, x). split; [| exact I].
      destruct v as [n t]. cbn in *. subst. reflexivity.
  - split; [intros [] |]. intros (ds' & args' & f & x & E & _). discriminate E.
  - split; [intros [] |]. intros (ds' & args' & f & x & E & _). discriminate E.
Qed.

Lemma value_candidates_in m idx v :
  In v (value_candidates m idx) <->
  argument m (fst v) (snd v) \/
  ((0 <= idx)%Z /\ exists d, nth_error (defs_of m) (Z.to_nat idx) = Some d /\ gives d (fst v) (snd v)).
Proof.
  unfold value_candidates. rewrite in_app_iff, variable_candidates_in, argument_candidates_in. tauto.
Qed.

Lemma value_candidates_functional m idx : good_message m -> functional (value_candidates m idx).
Proof.
  intros [ND NV] [n t] [n' t'] A B E. cbn in E. subst n'. apply value_candidates_in in A, B. cbn in A, B.
  assert (X : forall d u, gives d n u -> In d (defs_of m) -> ~ exists w, argument m n w).
  { intros d u (G & _) I (w & ds & args & f & x & _ & _ & Q & _). apply (NV d I).
    exists ("." ++ f)%string. rewrite G, Q. reflexivity. }
  destruct A as [A | [_ (d & A & G)]], B as [B | [_ (d' & B & G')]].
  - destruct A as (ds & args & f & x & R & I & Q & ->), B as (ds' & args' & f' & x' & R' & I' & Q' & ->).
    rewrite R in R'. injection R' as <- <-. rewrite Q in Q'.
    assert (f' = f) as -> by (cbn in Q'; injection Q' as Q'; congruence).
    assert (Y : x = x'); [| subst; reflexivity]. specialize (ND _ _ R). clear -ND I I'.
    induction args as [| [g y] args IH]; [destruct I |]. cbn in ND. inversion ND as [| ? ? N N']; subst.
    destruct I as [I | I], I' as [I' | I'].
    + congruence.
    + injection I as -> ->. exfalso. apply N. apply in_map_iff. exists (f, x'). auto.
    + injection I' as -> ->. exfalso. apply N. apply in_map_iff. exists (f, x). auto.
    + exact (IH N' I I').
  - exfalso. apply (X _ _ G'); [apply nth_error_In in B; exact B | eauto].
  - exfalso. apply (X _ _ G); [apply nth_error_In in A; exact A | eauto].
  - rewrite A in B. injection B as <-. destruct G as (_ & _ & _ & G), G' as (_ & _ & _ & G'). congruence.
Qed.

Lemma filtered_in t c n :
  functional c ->
  (In n (names (filter_type t (unique c))) <-> exists u, In (n, u) c /\ fits u t).
Proof.
  intro F. unfold names, filter_type. rewrite in_map_iff. split.
  - intros ([x u] & <- & I). apply filter_In in I. destruct I as [I K]. pose proof (proj1 (unique_in c _ F) I) as J.
    apply keep_fits in K. exists u. auto.
  - intros (u & I & K). exists (n, u). split; [reflexivity |]. apply filter_In.
    split; [apply unique_in; assumption | apply keep_fits, K].
Qed.

Lemma filtered_nodup t c : NoDup (names (filter_type t (unique c))).
Proof.
  unfold names, filter_type, unique. pose proof (unique_from_nodup [] c) as N. unfold names in N.
  induction (unique_from [] c) as [| x l IH]; [constructor |]. cbn in N. inversion N as [| ? ? A B]; subst.
  cbn. destruct (keep t x); [| exact (IH B)]. cbn. constructor; [| exact (IH B)].
  intro I. apply A. apply in_map_iff in I. destruct I as (y & E & I). apply filter_In in I.
  apply in_map_iff. exists y. split; [exact E | apply I].
Qed.

(** * Texts *)

Lemma length_append a b : String.length (a ++ b)%string = String.length a + String.length b.
Proof. induction a as [| c a IH]; [reflexivity | cbn; rewrite IH; reflexivity]. Qed.

Lemma append_assoc (a b c : string) : ((a ++ b) ++ c)%string = (a ++ (b ++ c))%string.
Proof. induction a as [| x a IH]; [reflexivity | cbn; rewrite IH; reflexivity]. Qed.

Lemma append_nil_r (a : string) : (a ++ "")%string = a.
Proof. induction a as [| x a IH]; [reflexivity | cbn; rewrite IH; reflexivity]. Qed.

Lemma substring_whole s : substring 0 (String.length s) s = s.
Proof. induction s as [| c s IH]; [reflexivity | cbn; rewrite IH; reflexivity]. Qed.

Lemma substring_after a t : substring (String.length a) (String.length t) (a ++ t)%string = t.
Proof. induction a as [| c a IH]; [apply substring_whole | exact IH]. Qed.

Lemma substring_before a t : substring 0 (String.length a) (a ++ t)%string = a.
Proof. induction a as [| c a IH]; [destruct t; reflexivity | cbn; rewrite IH; reflexivity]. Qed.

Lemma apply_edit_at a b t : apply_edit (a ++ b)%string (String.length a, t) = (a ++ t ++ b)%string.
Proof.
  unfold apply_edit. cbn [fst snd]. rewrite substring_before, length_append.
  replace (String.length a + String.length b - String.length a) with (String.length b) by lia.
  rewrite substring_after. reflexivity.
Qed.

Lemma trim_begins p r : trim p (p ++ r)%string = r.
Proof.
  unfold trim. rewrite (proj2 (prefix_begins (p ++ r) p)) by (exists r; reflexivity).
  rewrite length_append.
  replace (String.length p + String.length r - String.length p) with (String.length r) by lia.
  apply substring_after.
Qed.

Lemma trim_other p s : ~ begins s p -> trim p s = s.
Proof. intro N. unfold trim. apply prefix_not_begins in N. rewrite N. reflexivity. Qed.

Lemma begins_dec s p : begins s p \/ ~ begins s p.
Proof.
  destruct (starts_with s p) eqn:E; [left; apply prefix_begins, E | right; apply prefix_not_begins, E].
Qed.

(** * The list *)

Lemma matching_labels cur e n c : map i_label (matching cur e n c) = filter (fun x => starts_with x cur) c.
Proof.
  revert n. induction c as [| x c IH]; intro n; [reflexivity |]. cbn.
  destruct (starts_with x cur); [cbn; rewrite IH; reflexivity | apply IH].
Qed.

Lemma matching_data cur e n c : map i_data (matching cur e n c) = seq n (List.length (matching cur e n c)).
Proof.
  revert n. induction c as [| x c IH]; intro n; [reflexivity |]. cbn.
  destruct (starts_with x cur); [cbn; rewrite IH; reflexivity | apply IH].
Qed.

Lemma matching_edit cur e n c it :
  In it (matching cur e n c) ->
  exists rest, i_label it = (cur ++ rest)%string /\ i_edit it = Some (e - 2, rest).
Proof.
  revert n. induction c as [| x c IH]; intros n I; [destruct I |]. cbn [matching] in I.
  destruct (starts_with x cur) eqn:S; [| exact (IH _ I)]. destruct I as [<- | I]; [| exact (IH _ I)].
  apply prefix_begins in S. destruct S as [r ->]. exists r. split; [reflexivity |]. cbn [i_edit].
  rewrite length_append.
  replace (String.length cur + String.length r - String.length cur) with (String.length r) by lia.
  rewrite substring_after. reflexivity.
Qed.

Lemma plain_labels n c : map i_label (plain_items n c) = c.
Proof. revert n. induction c as [| x c IH]; intro n; [reflexivity | cbn; rewrite IH; reflexivity]. Qed.

Lemma plain_data n c : map i_data (plain_items n c) = seq n (List.length c).
Proof. revert n. induction c as [| x c IH]; intro n; [reflexivity | cbn; rewrite IH; reflexivity]. Qed.

Lemma plain_edit n c it : In it (plain_items n c) -> i_edit it = None.
Proof. revert n. induction c as [| x c IH]; intros n I; [destruct I |]. destruct I as [<- | I]; [reflexivity | exact (IH _ I)]. Qed.
