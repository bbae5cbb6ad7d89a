From Coq Require Import ZArith String List Bool Lia.
From Verif.Base Require Import Result.
From Verif.Cast Require Import Model Spec.
Import ListNotations.
Open Scope Z_scope.

Lemma go_wrap_fits t v : fits t v -> go_wrap t v = v.
Proof.
  unfold fits, lo, hi, go_wrap; destruct t; intros H.
  - change (2^31) with 2147483648; change (2^32) with 4294967296.
    rewrite Z.mod_small; lia.
  - change (2^63) with 9223372036854775808; change (2^64) with 18446744073709551616.
    rewrite Z.mod_small; lia.
  - change (2^32) with 4294967296. rewrite Z.mod_small; lia.
  - change (2^64) with 18446744073709551616. rewrite Z.mod_small; lia.
Qed.

Lemma go_wrap_range t v : fits t (go_wrap t v).
Proof.
  unfold fits, lo, hi, go_wrap; destruct t.
  - change (2^31) with 2147483648; change (2^32) with 4294967296.
    pose proof (Z.mod_pos_bound (v + 2147483648) 4294967296 ltac:(lia)); lia.
  - change (2^63) with 9223372036854775808; change (2^64) with 18446744073709551616.
    pose proof (Z.mod_pos_bound (v + 9223372036854775808) 18446744073709551616 ltac:(lia)); lia.
  - change (2^32) with 4294967296. pose proof (Z.mod_pos_bound v 4294967296 ltac:(lia)); lia.
  - change (2^64) with 18446744073709551616.
    pose proof (Z.mod_pos_bound v 18446744073709551616 ltac:(lia)); lia.
Qed.

Lemma if_exact (b : bool) (dst : gotype) (v : Z) :
  (b = true <-> ~ fits dst v) ->
  (fits dst v -> (if b then Err ErrOverflowTypeConversion else Ok (go_wrap dst v)) = Ok v :> cres) /\
  (~ fits dst v -> (if b then Err ErrOverflowTypeConversion else Ok (go_wrap dst v)) =
                   Err ErrOverflowTypeConversion :> cres).
Proof.
  intros H; split; intros Hd; destruct b.
  - exfalso; apply H in Hd; [exact Hd|reflexivity].
  - rewrite go_wrap_fits by exact Hd; reflexivity.
  - reflexivity.
  - apply H in Hd; discriminate Hd.
Qed.

Ltac cast_tac f :=
  unfold exact_or_rejected; intros v Hs; unfold f; apply if_exact;
  rewrite ?Z.shiftl_1_l;
  change (2^31) with 2147483648; change (2^32) with 4294967296; change (2^63) with 9223372036854775808;
  unfold fits, lo, hi in *;
  rewrite ?orb_true_iff, ?Z.ltb_lt, ?Z.leb_le; lia.

Lemma Int64ToInt32_ok : exact_or_rejected GInt64 GInt32 Int64ToInt32.
Proof. cast_tac Int64ToInt32. Qed.
Lemma Int64ToUint32_ok : exact_or_rejected GInt64 GUint32 Int64ToUint32.
Proof. cast_tac Int64ToUint32. Qed.
Lemma Int64ToUint64_ok : exact_or_rejected GInt64 GUint64 Int64ToUint64.
Proof. cast_tac Int64ToUint64. Qed.
Lemma Int32ToUint32_ok : exact_or_rejected GInt32 GUint32 Int32ToUint32.
Proof. cast_tac Int32ToUint32. Qed.
Lemma Int32ToUint64_ok : exact_or_rejected GInt32 GUint64 Int32ToUint64.
Proof. cast_tac Int32ToUint64. Qed.
Lemma Uint64ToInt32_ok : exact_or_rejected GUint64 GInt32 Uint64ToInt32.
Proof. cast_tac Uint64ToInt32. Qed.
Lemma Uint64ToInt64_ok : exact_or_rejected GUint64 GInt64 Uint64ToInt64.
Proof. cast_tac Uint64ToInt64. Qed.
Lemma Uint64ToUint32_ok : exact_or_rejected GUint64 GUint32 Uint64ToUint32.
Proof. cast_tac Uint64ToUint32. Qed.
Lemma Uint32ToInt32_ok : exact_or_rejected GUint32 GInt32 Uint32ToInt32.
Proof. cast_tac Uint32ToInt32. Qed.

Lemma all_helpers_ok :
  forall src dst f, helper src dst = Some f -> exact_or_rejected src dst f.
Proof.
  intros src dst f H; destruct src, dst; simpl in H; try discriminate H;
    injection H as <-;
    first [ exact Int64ToInt32_ok | exact Int64ToUint32_ok | exact Int64ToUint64_ok
          | exact Int32ToUint32_ok | exact Int32ToUint64_ok | exact Uint64ToInt32_ok
          | exact Uint64ToInt64_ok | exact Uint64ToUint32_ok | exact Uint32ToInt32_ok ].
Qed.

(** Every pair of Go integer types whose conversion can lose information has a helper. *)
Lemma helper_complete :
  forall src dst, helper src dst = None -> forall v, fits src v -> fits dst v.
Proof.
  intros src dst H v Hv; destruct src, dst; simpl in H; try discriminate H;
    unfold fits, lo, hi in *; lia.
Qed.

Lemma plain_cast_ok :
  forall from to gf gt v r,
    plain from = true -> plain to = true ->
    kind_gotype from = Some gf -> kind_gotype to = Some gt ->
    fits gf v -> generated_int_cast from to v = Some r ->
    (fits gt v -> r = Ok v) /\ (~ fits gt v -> r = Err ErrOverflowTypeConversion).
Proof.
  intros from to gf gt v r Hf Ht Hgf Hgt Hv H.
  assert (Hsel : generated_int_cast from to v =
                 Some (match helper gf gt with Some h => h v | None => Ok (go_wrap gt v) end)).
  { destruct from; try discriminate Hf; destruct to; try discriminate Ht;
      simpl in Hgf, Hgt; injection Hgf as <-; injection Hgt as <-;
      (unfold generated_int_cast; cbn [kind_gotype IsEnumToNumber IsNumberToEnum];
       match goal with
       | |- context [IsRequiredValidationNumber ?a ?b] =>
           destruct (IsRequiredValidationNumber a b) eqn:E; vm_compute in E;
           try discriminate E; cbn [helper]; reflexivity
       end). }
  rewrite Hsel in H; injection H as <-.
  destruct (helper gf gt) as [h|] eqn:Eh.
  - apply (all_helpers_ok _ _ _ Eh); exact Hv.
  - split; intros Hd; [rewrite go_wrap_fits by exact Hd; reflexivity|].
    exfalso; apply Hd; exact (helper_complete _ _ Eh v Hv).
Qed.

(** The conversion is defined for every pair of distinct plain kinds. *)
Lemma plain_cast_total :
  forall from to v, plain from = true -> plain to = true ->
    exists r, generated_int_cast from to v = Some r.
Proof.
  intros from to v Hf Ht.
  destruct from; try discriminate Hf; destruct to; try discriminate Ht;
    (unfold generated_int_cast; cbn [kind_gotype IsEnumToNumber IsNumberToEnum];
     match goal with
     | |- context [IsRequiredValidationNumber ?a ?b] =>
         destruct (IsRequiredValidationNumber a b) eqn:E; vm_compute in E;
         try discriminate E; cbn [helper]; eexists; reflexivity
     end).
Qed.

(** Whatever the kinds: the result is always a legal value of the target type, and
    it is the source value whenever the target can represent it. *)
Lemma any_cast_in_range :
  forall from to gf gt v r,
    kind_gotype from = Some gf -> kind_gotype to = Some gt ->
    fits gf v -> generated_int_cast from to v = Some r ->
    (forall w, r = Ok w -> fits gt w) /\ (fits gt v -> r = Ok v).
Proof.
  intros from to gf gt v r Hgf Hgt Hv H.
  unfold generated_int_cast in H; rewrite Hgf, Hgt in H.
  assert (Hw : (forall w, Ok (go_wrap gt v) = Ok w :> cres -> fits gt w) /\
               (fits gt v -> Ok (go_wrap gt v) = Ok v :> cres)).
  { split; [intros w E; injection E as <-; apply go_wrap_range
           | intros Hd; rewrite go_wrap_fits by exact Hd; reflexivity]. }
  destruct (IsEnumToNumber from to); [injection H as <-; exact Hw|].
  destruct (IsNumberToEnum from to); [injection H as <-; exact Hw|].
  assert (H' : (if IsRequiredValidationNumber from to
               then match helper gf gt with Some h => Some (h v) | None => None end
               else Some (Ok (go_wrap gt v))) = Some r).
  { destruct from; try exact H; destruct to; try exact H; discriminate H. }
  clear H. destruct (IsRequiredValidationNumber from to).
  - destruct (helper gf gt) as [h|] eqn:Eh; [|discriminate H'].
    injection H' as <-.
    destruct (all_helpers_ok _ _ _ Eh v Hv) as [H1 H2].
    split; [|exact H1].
    intros w E.
    assert (Hdec : fits gt v \/ ~ fits gt v) by (unfold fits; lia).
    destruct Hdec as [Hd|Hd];
      [rewrite (H1 Hd) in E; injection E as <-; exact Hd
      | rewrite (H2 Hd) in E; discriminate E].
  - injection H' as <-; exact Hw.
Qed.

Lemma unchecked_kinds_truncate :
  generated_int_cast Sint64 Int32 4294967296 = Some (Ok 0) /\
  generated_int_cast Int64 Sfixed32 4294967297 = Some (Ok 1) /\
  generated_int_cast Fixed64 Int64 18446744073709551615 = Some (Ok (-1)) /\
  generated_int_cast Int64 Enum 4294967297 = Some (Ok 1) /\
  generated_int_cast Enum Uint32 (-1) = Some (Ok 4294967295).
Proof. vm_compute. repeat split; reflexivity. Qed.

Lemma safe_pairs_exact :
  forall from to gf gt,
    kind_gotype from = Some gf -> kind_gotype to = Some gt ->
    (plain from = true /\ plain to = true) \/ widening gf gt ->
    forall v r, fits gf v -> generated_int_cast from to v = Some r ->
    (fits gt v -> r = Ok v) /\ (~ fits gt v -> r = Err ErrOverflowTypeConversion).
Proof.
  intros from to gf gt Hgf Hgt Hs v r Hv H.
  pose proof (any_cast_in_range _ _ _ _ _ _ Hgf Hgt Hv H) as [_ Hex].
  destruct Hs as [[Hp1 Hp2]|Hw].
  - exact (plain_cast_ok from to gf gt v r Hp1 Hp2 Hgf Hgt Hv H).
  - split; [exact Hex|]. intros Hn; exfalso; apply Hn, Hw, Hv.
Qed.

Lemma lossy_pairs_lose :
  forall from to gf gt,
    kind_gotype from = Some gf -> kind_gotype to = Some gt ->
    ~ (plain from = true /\ plain to = true) -> ~ widening gf gt ->
    exists v w, fits gf v /\ generated_int_cast from to v = Some (Ok w) /\ w <> v.
Proof.
  intros from to gf gt Hgf Hgt Hs Hw.
  assert (Hx : exists v, fits gf v /\ ~ fits gt v /\
                 generated_int_cast from to v = Some (Ok (go_wrap gt v))).
  { destruct from; simpl in Hgf; try discriminate Hgf; injection Hgf as <-;
    destruct to; simpl in Hgt; try discriminate Hgt; injection Hgt as <-;
    try (exfalso; apply Hs; split; reflexivity);
    try (exfalso; apply Hw; unfold widening, fits, lo, hi; intros; lia);
    first [ exists (-1); split; [unfold fits, lo, hi; lia|];
            split; [unfold fits, lo, hi; lia|vm_compute; reflexivity]
          | exists 4294967296; split; [unfold fits, lo, hi; lia|];
            split; [unfold fits, lo, hi; lia|vm_compute; reflexivity]
          | exists 4294967295; split; [unfold fits, lo, hi; lia|];
            split; [unfold fits, lo, hi; lia|vm_compute; reflexivity]
          | exists 18446744073709551615; split; [unfold fits, lo, hi; lia|];
            split; [unfold fits, lo, hi; lia|vm_compute; reflexivity] ]. }
  destruct Hx as (v & Hv & Hn & He).
  exists v, (go_wrap gt v); repeat split; try exact He; try apply Hv.
  intros E; apply Hn; rewrite <- E; apply go_wrap_range.
Qed.

Lemma not_always_exact :
  ~ (forall from to gf gt, kind_gotype from = Some gf -> kind_gotype to = Some gt ->
     forall v r, fits gf v -> generated_int_cast from to v = Some r ->
     (fits gt v -> r = Ok v) /\ (~ fits gt v -> r = Err ErrOverflowTypeConversion)).
Proof.
  intros H.
  destruct (H Sint64 Int32 GInt64 GInt32 eq_refl eq_refl 4294967296 (Ok 0)) as [_ H2].
  - unfold fits, lo, hi; lia.
  - vm_compute; reflexivity.
  - assert (E : Ok 0 = Err ErrOverflowTypeConversion :> cres)
      by (apply H2; unfold fits, lo, hi; lia).
    discriminate E.
Qed.

Lemma tokind_tostring :
  forall k, k <> Message -> k <> Enum -> ToKind (ToString k) = k.
Proof. intros k H1 H2; destruct k; try reflexivity; congruence. Qed.

Lemma kind_gotype_range k v : holds k v <-> exists g, kind_gotype k = Some g /\ fits g v.
Proof.
  destruct k; simpl; split;
    try (intros H; eexists; split; [reflexivity|exact H]);
    try (intros (g & [= <-] & H); exact H); try (intros (g & [=] & _)); intros [].
Qed.
