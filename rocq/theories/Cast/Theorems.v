(** Property theorems C01 and C02. *)
From Coq Require Import ZArith.
From Verif.Base Require Import Result.
From Verif.Cast Require Import Model Spec Proofs.
Open Scope Z_scope.

(** C01: all nine helpers are exact or report an overflow, for every value. *)
Theorem C01_checked_conversions_exact_or_rejected :
  exact_or_rejected GInt64 GInt32 Int64ToInt32 /\
  exact_or_rejected GInt64 GUint32 Int64ToUint32 /\
  exact_or_rejected GInt64 GUint64 Int64ToUint64 /\
  exact_or_rejected GInt32 GUint32 Int32ToUint32 /\
  exact_or_rejected GInt32 GUint64 Int32ToUint64 /\
  exact_or_rejected GUint64 GInt32 Uint64ToInt32 /\
  exact_or_rejected GUint64 GInt64 Uint64ToInt64 /\
  exact_or_rejected GUint64 GUint32 Uint64ToUint32 /\
  exact_or_rejected GUint32 GInt32 Uint32ToInt32.
Proof.
  exact (conj Int64ToInt32_ok (conj Int64ToUint32_ok (conj Int64ToUint64_ok
        (conj Int32ToUint32_ok (conj Int32ToUint64_ok (conj Uint64ToInt32_ok
        (conj Uint64ToInt64_ok (conj Uint64ToUint32_ok Uint32ToInt32_ok)))))))).
Qed.
Print Assumptions C01_checked_conversions_exact_or_rejected.

(** C01: the helpers cover every lossy pair of Go integer types. *)
Theorem C01_helpers_cover_all_lossy_pairs :
  forall src dst, helper src dst = None -> widening src dst.
Proof. exact helper_complete. Qed.
Print Assumptions C01_helpers_cover_all_lossy_pairs.

Example C01_boundaries :
  Int64ToInt32 2147483647 = Ok 2147483647 /\
  Int64ToInt32 2147483648 = Err ErrOverflowTypeConversion /\
  Int64ToInt32 (-2147483648) = Ok (-2147483648) /\
  Int64ToInt32 (-2147483649) = Err ErrOverflowTypeConversion /\
  fits GInt64 (-2147483649) /\ ~ fits GInt32 (-2147483649).
Proof. vm_compute. intuition congruence. Qed.

(** C02: every integer kind is given the Go type with exactly its range. *)
Theorem C02_kinds_have_the_go_type_of_their_range : forall k v,
  holds k v <-> exists g, kind_gotype k = Some g /\ fits g v.
Proof. exact kind_gotype_range. Qed.
Print Assumptions C02_kinds_have_the_go_type_of_their_range.

(** C02, the part that holds: the generated cast is exact or rejected when both
    kinds are among int32/int64/uint32/uint64, or when nothing can be lost. Missing for the
    full property: narrowing casts involving sint, fixed, sfixed and enum kinds, see
    [C02_every_other_narrowing_cast_loses] and [C02_generated_casts_exact_refuted]. *)
Theorem C02_generated_casts_exact_partial :
  forall from to gf gt,
    kind_gotype from = Some gf -> kind_gotype to = Some gt ->
    (plain from = true /\ plain to = true) \/ widening gf gt ->
    forall v r, fits gf v -> generated_int_cast from to v = Some r ->
    (fits gt v -> r = Ok v) /\ (~ fits gt v -> r = Err ErrOverflowTypeConversion).
Proof. exact safe_pairs_exact. Qed.
Print Assumptions C02_generated_casts_exact_partial.

(** C02: representable values always survive, and the result is always a value of
    the target type, for every pair of integer kinds. *)
Theorem C02_representable_values_survive :
  forall from to gf gt v r,
    kind_gotype from = Some gf -> kind_gotype to = Some gt ->
    fits gf v -> generated_int_cast from to v = Some r ->
    (forall w, r = Ok w -> fits gt w) /\ (fits gt v -> r = Ok v).
Proof. exact any_cast_in_range. Qed.
Print Assumptions C02_representable_values_survive.

(** C02 is false in general ... *)
Theorem C02_generated_casts_exact_refuted :
  ~ (forall from to gf gt, kind_gotype from = Some gf -> kind_gotype to = Some gt ->
     forall v r, fits gf v -> generated_int_cast from to v = Some r ->
     (fits gt v -> r = Ok v) /\ (~ fits gt v -> r = Err ErrOverflowTypeConversion)).
Proof. exact not_always_exact. Qed.
Print Assumptions C02_generated_casts_exact_refuted.

(** ... and precisely: every narrowing pair outside the four plain kinds has a value
    that is silently changed. *)
Theorem C02_every_other_narrowing_cast_loses :
  forall from to gf gt,
    kind_gotype from = Some gf -> kind_gotype to = Some gt ->
    ~ (plain from = true /\ plain to = true) -> ~ widening gf gt ->
    exists v w, fits gf v /\ generated_int_cast from to v = Some (Ok w) /\ w <> v.
Proof. exact lossy_pairs_lose. Qed.
Print Assumptions C02_every_other_narrowing_cast_loses.

Example C02_hypotheses_met :
  generated_int_cast Int64 Int32 4294967296 = Some (Err ErrOverflowTypeConversion) /\
  generated_int_cast Sint64 Int32 4294967296 = Some (Ok 0) /\
  generated_int_cast Uint32 Int64 4294967295 = Some (Ok 4294967295).
Proof. vm_compute. auto. Qed.

(** C02 relies on kinds being printed by distinct names; ToKind is the inverse of
    ToString on every kind except message and enum. *)
Theorem C02_kind_names_round_trip :
  forall k, k <> Message -> k <> Enum -> ToKind (ToString k) = k.
Proof. exact tokind_tostring. Qed.
Print Assumptions C02_kind_names_round_trip.
