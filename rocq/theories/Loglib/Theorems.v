(** C85: what the functions of expressions write to the log. *)
From Coq Require Import String List Bool ZArith Permutation.
From Verif.Loglib Require Import Model Spec Proofs.
Import ListNotations.
Local Open Scope string_scope.

(** The full statement: a reader of the log finds at every place what the value has there. *)
Definition C85_statement : Prop := forall v, proper v -> forall p o, reads (expand v) p o <-> shows v p o.

(** It holds for values of any depth without empty lists, in whose maps no two keys are written alike. *)
Theorem C85_values_partial : forall v, proper v -> clear v -> no_empty_list v -> forall p o, reads (expand v) p o <-> shows v p o.
Proof. exact value_reads. Qed.
Print Assumptions C85_values_partial.
(** In particular if the keys of each map are of one kind. *)
Theorem C85_one_kind_partial : forall v, proper v -> one_kind v -> no_empty_list v -> forall p o, reads (expand v) p o <-> shows v p o.
Proof. intros v P O N. apply value_reads; [exact P | apply one_kind_clear, O | exact N]. Qed.
Print Assumptions C85_one_kind_partial.
(** Then it does not depend on the order in which the maps are visited. *)
Theorem C85_order_partial : forall v v', reordered v v' -> proper v -> clear v -> no_empty_list v -> forall p o, reads (expand v) p o <-> reads (expand v') p o.
Proof.
  intros v v' R P C N p o. rewrite (value_reads v P C N), (value_reads v').
  - split; intros H; [apply (reordered_shows _ _ _ H _ R) | apply (reordered_shows_back _ _ _ H _ R)].
  - apply (reordered_proper v), P. exact R.
  - apply (reordered_clear v), C. exact R.
  - apply (reordered_no_empty v), N. exact R.
Qed.
Print Assumptions C85_order_partial.

(** Empty lists are the only difference: they are written as null, and nothing else is. *)
Theorem C85_empty_lists : forall v, proper v -> clear v -> forall p,
  (reads (expand v) p Null <-> found v p (VList [])) /\ (forall o, o <> Null -> (reads (expand v) p o <-> shows v p o /\ exists w, found v p w /\ w <> VList [] /\ shows w [] o)).
Proof.
  intros v P C p. pose proof (fine_clear v P C) as F. split.
  - rewrite (expand_reads p v Null F). split.
    + intros [w [Q E]]. destruct w as [x|[|y l]|m]; try discriminate E. exact Q.
    + intros Q. exists (VList []). auto.
  - intros o N. rewrite (expand_reads p v o F), shows_found. split.
    + intros [w [Q E]]. assert (W : w <> VList []) by (intros ->; apply N, E). rewrite (real_here w W) in E. split; [eauto|]. exists w. split; [exact Q|]. split; [exact W|].
      apply shows_found. exists w. split; [constructor | exact E].
    + intros [_ [w [Q [W S]]]]. exists w. split; [exact Q|]. rewrite (real_here w W). apply shows_found in S. destruct S as [u [U ->]]. inversion U. reflexivity.
Qed.
Print Assumptions C85_empty_lists.

(** Of two keys that are written alike, only the one that is visited last is in the log: the order decides. *)
Theorem C85_same_text : forall k k' s a b p o, written k s -> written k' s ->
  (reads (expand (VMap [(k, a); (k', b)])) (Key s :: p) o <-> reads (expand b) p o) /\
  (reads (expand (VMap [(k', b); (k, a)])) (Key s :: p) o <-> reads (expand a) p o).
Proof.
  intros k k' s a b p o W W'. assert (H : forall x y u v, written x s -> written y s -> (reads (expand (VMap [(x, u); (y, v)])) (Key s :: p) o <-> reads (expand v) p o)).
  { intros x y u v X Y. apply written_text in X. apply written_text in Y. rewrite expand_map. cbn [fold_left store]. rewrite X, Y. split.
    - intros R. inversion R as [| | | | |m' s' w p' o' I Q]; subst. apply put_In in I. destruct I as [[_ ->]|[_ N]]; [exact Q | congruence].
    - intros R. apply (reads_key _ _ (expand v)); [|exact R]. apply put_In. left. auto. }
  split; apply H; assumption.
Qed.
Print Assumptions C85_same_text.
(** Keys are written alike if one is the text of the other, or if they are the same number of two types. *)
Theorem C85_alike : forall k k' s, written k s -> written k' s -> k <> k' ->
  k = KString s \/ k' = KString s \/ (exists n, (k = KInt (Z.of_N n) /\ k' = KUint n) \/ (k = KUint n /\ k' = KInt (Z.of_N n))).
Proof.
  intros k k' s A B N. apply written_text in A. apply written_text in B. destruct k as [b|z|n|t]; [| | |left; cbn in A; congruence];
    (destruct k' as [b'|z'|n'|t']; [| | |right; left; cbn in B; congruence]); rewrite <- B in A.
  - elim N. destruct b, b'; try discriminate A; reflexivity.
  - elim (bool_int _ _ A).
  - rewrite uint_int in A. elim (bool_int _ _ A).
  - symmetry in A. elim (bool_int _ _ A).
  - elim N. f_equal. apply int_text, A.
  - right. right. exists n'. left. split; [|reflexivity]. f_equal. apply int_text. rewrite uint_int in A. exact A.
  - rewrite uint_int in A. symmetry in A. elim (bool_int _ _ A).
  - right. right. exists n. right. split; [reflexivity|]. f_equal. symmetry. apply int_text. rewrite uint_int in A. exact A.
  - elim N. f_equal. apply uint_text, A.
Qed.
Print Assumptions C85_alike.

(** Each call of a log function writes one entry, with its level and message, what was added before, and its own arguments. *)
Theorem C85_entries : forall before f msg args after attrs, exists e,
  nth_error (snd (fst (run attrs (before ++ Log f msg args :: after)))) (logged before) = Some e /\
  has_level f (e_level e) /\ e_message e = msg /\
  e_attrs e = (attrs ++ attributes (added before ++ match args with Some m => m | None => [] end))%list.
Proof.
  intros before f msg args after attrs. rewrite run_app. destruct (run_shape before attrs) as [ws [E L]]. rewrite E. cbn [run].
  destruct args as [m|]; cbn [step]; destruct (run_shape after (attrs ++ attributes (added before))%list) as [ws' [E' _]]; rewrite E'; cbn [fst snd];
    rewrite <- L, nth_error_app2, Nat.sub_diag by apply le_n; (eexists; split; [reflexivity|]); (split; [destruct f; constructor|]); (split; [reflexivity|]); cbn [e_attrs].
  - rewrite attributes_app, app_assoc. reflexivity.
  - rewrite app_nil_r. reflexivity.
Qed.
Print Assumptions C85_entries.
(** Nothing else is written, all calls are true, and what they add stays. *)
Theorem C85_calls : forall cs attrs, exists ws, run attrs cs = ((attrs ++ attributes (added cs))%list, ws, map (fun _ => true) cs) /\ List.length ws = logged cs.
Proof. exact run_shape. Qed.
Print Assumptions C85_calls.
(** An attribute for each entry of the map. *)
Theorem C85_attributes_partial : forall m, (forall k v, In (k, v) m -> proper v /\ clear v /\ no_empty_list v) -> attributes_of m (attributes m).
Proof.
  induction m as [|[k v] m IH]; intros H; [constructor|]. constructor.
  - cbn [fst snd]. split; [apply written_text; reflexivity|]. destruct (H k v (or_introl eq_refl)) as [P [C N]]. apply value_reads; assumption.
  - apply IH. intros k' v' I. apply (H k' v'). right. exact I.
Qed.
Print Assumptions C85_attributes_partial.

(** * Counterexamples *)
Ltac parts := repeat match goal with
  | H : part _ (VScalar _) |- _ => inversion H; clear H; subst
  | H : part _ (VMap _) |- _ => inversion H; clear H; subst
  | H : part _ (VList _) |- _ => inversion H; clear H; subst
  | H : In _ (_ :: _) |- _ => destruct H as [H|H]
  | H : In _ [] |- _ => destruct H
  | H : (_, _) = (_, _) |- _ => injection H as <- <-
  | H : VMap _ = VMap _ |- _ => injection H as <-
  | H : VScalar _ = _ |- _ => subst
  end; subst.
(** {1: 7, "1": 8} *)
Definition mixed : value := VMap [(KInt 1, VScalar 7); (KString "1", VScalar 8)].
Lemma mixed_proper : proper mixed.
Proof. intros m H. unfold mixed in H. parts. repeat (constructor; [cbn; intuition discriminate|]). constructor. Qed.
Theorem C85_refuted : ~ C85_statement.
Proof.
  intros H. assert (S : shows mixed [Key "1"] (Scalar 7)) by (apply (shows_key _ (KInt 1) (VScalar 7)); [left; reflexivity | constructor | constructor]).
  apply (H mixed mixed_proper) in S. apply C85_same_text in S; [inversion S | constructor | constructor].
Qed.
Print Assumptions C85_refuted.
(** Even without such keys: an empty list. *)
Definition C85_clear_statement : Prop := forall v, proper v -> clear v -> forall p o, reads (expand v) p o <-> shows v p o.
Theorem C85_clear_refuted : ~ C85_clear_statement.
Proof.
  intros H. assert (S : shows (VList []) [] AList) by constructor. apply H in S.
  - inversion S.
  - intros m I. parts.
  - intros m k k' w w' s I. parts.
Qed.
Print Assumptions C85_clear_refuted.
(** Two runs of the same expression write different entries. *)
Definition C85_order_statement : Prop := forall v v', reordered v v' -> proper v -> forall p o, reads (expand v) p o <-> reads (expand v') p o.
Theorem C85_order_refuted : ~ C85_order_statement.
Proof.
  intros H. assert (R : reordered mixed (VMap [(KString "1", VScalar 8); (KInt 1, VScalar 7)])).
  { apply (reordered_map _ [(KString "1", VScalar 8); (KInt 1, VScalar 7)]); [apply perm_swap|]. repeat constructor. }
  specialize (H _ _ R mixed_proper [Key "1"] (Scalar 8)). assert (S : reads (expand mixed) [Key "1"] (Scalar 8)).
  { apply (proj1 (C85_same_text (KInt 1) (KString "1") "1" (VScalar 7) (VScalar 8) [] (Scalar 8) (written_int 1) (written_string "1"))). constructor. }
  apply H in S. apply (proj2 (C85_same_text (KInt 1) (KString "1") "1" (VScalar 7) (VScalar 8) [] (Scalar 8) (written_int 1) (written_string "1"))) in S. inversion S.
Qed.
Print Assumptions C85_order_refuted.

(** * Examples *)
(** {"a": {1: [7, 8]}, "b": {true: 9}} *)
Definition nested : value := VMap [(KString "a", VMap [(KInt 1, VList [VScalar 7; VScalar 8])]); (KString "b", VMap [(KBool true, VScalar 9)])].
Example nested_case : proper nested /\ one_kind nested /\ no_empty_list nested /\ reads (expand nested) [Key "a"; Key "1"; Index 1] (Scalar 8) /\
  ~ reads (expand nested) [Key "a"; Key "2"] (Scalar 8).
Proof.
  assert (P : proper nested) by (intros m H; unfold nested in H; parts; cbn [map fst]; repeat first [apply NoDup_cons; [cbn; intuition discriminate|] | apply NoDup_nil]).
  assert (O : one_kind nested).
  { intros m k k' w w' H I J. unfold nested in H. parts; exact Logic.I. }
  assert (N : no_empty_list nested) by (intros H; unfold nested in H; parts).
  split; [exact P|]. split; [exact O|]. split; [exact N|]. split.
  - apply C85_one_kind_partial; try assumption. apply (shows_key _ (KString "a") (VMap [(KInt 1, VList [VScalar 7; VScalar 8])])); [left; reflexivity | constructor |].
    apply (shows_key _ (KInt 1) (VList [VScalar 7; VScalar 8])); [left; reflexivity | constructor |]. apply (shows_index _ _ (VScalar 8)); [reflexivity | constructor].
  - intros R. apply C85_one_kind_partial in R; try assumption. inversion R as [| | | |m k w s p o I W S]; subst. parts; inversion W; subst.
    inversion S as [| | | |m k w s p o I' W' S']; subst. parts; inversion W'.
Qed.
Example entries_case : run [] [Log FInfo "start" None; Add [(KString "id", VScalar 1)]; Log FError "failed" (Some [(KString "ids", VList [])])] =
  ([("id", OScalar 1)], [{| e_level := Info; e_message := "start"; e_attrs := [] |}; {| e_level := Error; e_message := "failed"; e_attrs := [("id", OScalar 1); ("ids", ONull)] |}], [true; true; true]).
Proof. reflexivity. Qed.
