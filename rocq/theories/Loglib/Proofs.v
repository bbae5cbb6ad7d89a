From Coq Require Import String List Bool ZArith Permutation Decimal DecimalString DecimalZ DecimalN.
From Verif.Loglib Require Import Model Spec.
Import ListNotations.
Local Open Scope string_scope.

Lemma written_text : forall k s, written k s <-> text k = s.
Proof.
  intros k s. split; [intros W; destruct W; reflexivity|]. intros <-. destruct k as [[]|z|n|t]; constructor.
Qed.
Lemma written_fun : forall k s s', written k s -> written k s' -> s = s'.
Proof. intros k s s' A B. apply written_text in A. apply written_text in B. congruence. Qed.
Lemma int_text : forall a b, NilEmpty.string_of_int (Z.to_int a) = NilEmpty.string_of_int (Z.to_int b) -> a = b.
Proof.
  intros a b E. apply (f_equal NilEmpty.int_of_string) in E. rewrite !NilEmpty.isi in E.
  injection E as E. apply (f_equal Z.of_int) in E. rewrite !DecimalZ.of_to in E. exact E.
Qed.
Lemma uint_text : forall a b, NilEmpty.string_of_uint (N.to_uint a) = NilEmpty.string_of_uint (N.to_uint b) -> a = b.
Proof.
  intros a b E. apply (f_equal NilEmpty.uint_of_string) in E. rewrite !NilEmpty.usu in E. injection E as E.
  apply (f_equal N.of_uint) in E. rewrite !DecimalN.Unsigned.of_to in E. exact E.
Qed.
Lemma same_kind_text : forall k k' s, same_kind k k' -> written k s -> written k' s -> k = k'.
Proof.
  intros k k' s S A B. apply written_text in A. apply written_text in B. rewrite <- B in A. destruct k as [b|z|n|t], k' as [b'|z'|n'|t']; try (exfalso; exact S); cbn in A.
  - destruct b, b'; try discriminate A; reflexivity.
  - f_equal. apply int_text, A.
  - f_equal. apply uint_text, A.
  - congruence.
Qed.

(** * Maps *)
Lemma put_In : forall s v m t w, In (t, w) (put s v m) <-> (t = s /\ w = v) \/ (In (t, w) m /\ t <> s).
Proof.
  intros. unfold put. cbn [In]. rewrite filter_In. cbn [fst]. rewrite negb_true_iff, String.eqb_neq. split; intros [H|H]; auto.
  - injection H as <- <-. auto.
  - destruct H as [-> ->]. auto.
Qed.
Definition store (o : list (string * out)) (e : key * value) : list (string * out) := match e with (k, w) => put (text k) (expand w) o end.
Lemma store_In : forall m acc s o, NoDup (map (fun e => text (fst e)) m) ->
  (In (s, o) (fold_left store m acc) <->
   (exists k w, In (k, w) m /\ text k = s /\ o = expand w) \/ (In (s, o) acc /\ forall k w, In (k, w) m -> text k <> s)).
Proof.
  induction m as [|[k w] m IH]; intros acc s o ND; cbn [fold_left].
  - split; [intros H; right; split; [exact H | intros k w []] | intros [[k [w [[] _]]]|[H _]]; exact H].
  - inversion ND as [|? ? NI ND']; subst. rewrite (IH _ _ _ ND'). cbn [store]. rewrite put_In. split.
    + intros [[k' [w' [I [T E]]]]|[[[-> ->]|[I N]] H]].
      * left. exists k', w'. split; [right; exact I | auto].
      * left. exists k, w. split; [left; reflexivity | auto].
      * right. split; [exact I|]. intros k' w' [J|J]; [injection J as <- <-; congruence | apply (H _ _ J)].
    + intros [[k' [w' [[J|I] [T E]]]]|[I H]].
      * injection J as -> ->. right. split; [left; split; [symmetry; exact T | exact E]|]. intros k2 w2 I2 T2. apply NI. apply in_map_iff. exists (k2, w2). cbn [fst]. split; [congruence | exact I2].
      * left. exists k', w'. auto.
      * right. split; [right; split; [exact I | intros E; apply (H k w (or_introl eq_refl)); auto]|]. intros k' w' J. apply (H k' w'). right. exact J.
Qed.
Lemma texts_NoDup : forall m : list (key * value), NoDup (map fst m) ->
  (forall k k' w w' s, In (k, w) m -> In (k', w') m -> written k s -> written k' s -> k = k') -> NoDup (map (fun e => text (fst e)) m).
Proof.
  induction m as [|[k w] m IH]; intros ND C; cbn [map fst]; [constructor|]. inversion ND as [|? ? NI ND']; subst. constructor.
  - intros I. apply in_map_iff in I. destruct I as [[k' w'] [T I]]. cbn [fst] in T. apply NI.
    assert (E : k = k') by (apply (C k k' w w' (text k)); [left; reflexivity | right; exact I | apply written_text; reflexivity | apply written_text, T]).
    subst k'. apply in_map_iff. exists (k, w'). auto.
  - apply IH; [exact ND'|]. intros a b x y s I J. apply (C a b x y s); right; assumption.
Qed.
Lemma expand_map_In : forall m s o, NoDup (map (fun e => text (fst e)) m) ->
  (In (s, o) (fold_left store m []) <-> exists k w, In (k, w) m /\ written k s /\ o = expand w).
Proof.
  intros m s o ND. rewrite (store_In m [] s o ND). split.
  - intros [[k [w [I [T E]]]]|[[] _]]. exists k, w. split; [exact I|]. split; [apply written_text, T | exact E].
  - intros [k [w [I [T E]]]]. left. exists k, w. split; [exact I|]. split; [apply written_text, T | exact E].
Qed.

(** * Values *)
Lemma expand_list : forall l, expand (VList l) = match l with [] => ONull | _ => OList (map expand l) end.
Proof. intros [|v l]; reflexivity. Qed.
Lemma expand_map : forall m, expand (VMap m) = OMap (fold_left store m []).
Proof. reflexivity. Qed.

Definition fine (v : value) : Prop := forall m, part (VMap m) v -> NoDup (map (fun e => text (fst e)) m).
Lemma fine_clear : forall v, proper v -> clear v -> fine v.
Proof. intros v P C m I. apply texts_NoDup; [apply P, I|]. intros k k' w w' s A B. apply (C m k k' w w' s I A B). Qed.
Lemma fine_list : forall l w, fine (VList l) -> In w l -> fine w.
Proof. intros l w F I m Q. apply F. apply (part_list l w _ I Q). Qed.
Lemma fine_map : forall m k w, fine (VMap m) -> In (k, w) m -> fine w.
Proof. intros m k w F I m' Q. apply F. apply (part_map m k w _ I Q). Qed.

Definition here (v : value) : seen := match v with VScalar x => Scalar x | VList [] => Null | VList _ => AList | VMap _ => AMap end.
Lemma expand_here : forall v o, reads (expand v) [] o <-> o = here v.
Proof.
  intros [x|[|w l]|m] o; cbn; split; intros H; try (inversion H; reflexivity); subst; constructor.
Qed.
Lemma expand_reads : forall p v o, fine v -> (reads (expand v) p o <-> exists w, found v p w /\ o = here w).
Proof.
  induction p as [|a p IH]; intros v o F.
  - rewrite expand_here. split; [intros ->; exists v; split; [constructor | reflexivity] | intros [w [H ->]]; inversion H; reflexivity].
  - split.
    + intros H. destruct v as [x|l|m].
      * inversion H.
      * destruct l as [|w l]; [inversion H|]. rewrite expand_list in H. inversion H as [| | | |l' n w' p' o' N R|]; subst.
        match type of N with _ = Some ?y => change (nth_error (map expand (w :: l)) n = Some y) in N end. rewrite nth_error_map in N.
        destruct (nth_error (w :: l) n) as [u|] eqn:E; [|discriminate N]. injection N as <-.
        apply IH in R; [|apply (fine_list _ _ F (nth_error_In _ _ E))]. destruct R as [z [Q ->]]. exists z. split; [|reflexivity]. apply (found_index _ _ u); assumption.
      * rewrite expand_map in H. inversion H as [| | | | |m' s w p' o' I R]; subst. apply expand_map_In in I; [|apply F; constructor].
        destruct I as [k [u [I [W ->]]]]. apply IH in R; [|apply (fine_map _ _ _ F I)]. destruct R as [z [Q ->]]. exists z. split; [|reflexivity]. apply (found_key _ k u); assumption.
    + intros [w [H ->]]. inversion H as [|l n u p' v' E Q|m k u s p' v' I W Q]; subst.
      * rewrite expand_list. destruct l as [|y l]; [destruct n; discriminate E|]. apply (reads_index _ _ (expand u)).
        -- rewrite nth_error_map, E. reflexivity.
        -- apply IH; [apply (fine_list _ _ F (nth_error_In _ _ E))|]. exists w. auto.
      * rewrite expand_map. apply (reads_key _ _ (expand u)).
        -- apply expand_map_In; [apply F; constructor|]. exists k, u. auto.
        -- apply IH; [apply (fine_map _ _ _ F I)|]. exists w. auto.
Qed.
Definition real (v : value) : seen := match v with VScalar x => Scalar x | VList _ => AList | VMap _ => AMap end.
Lemma shows_found : forall v p o, shows v p o <-> exists w, found v p w /\ o = real w.
Proof.
  intros v p o. split.
  - intros H. induction H as [x|l|m|l n w p o E H IH|m k w s p o I W H IH]; try (eexists; split; [constructor | reflexivity]).
    + destruct IH as [z [Q ->]]. exists z. split; [|reflexivity]. apply (found_index _ _ w); assumption.
    + destruct IH as [z [Q ->]]. exists z. split; [|reflexivity]. apply (found_key _ k w); assumption.
  - intros [w [H ->]]. induction H as [v|l n w p v E H IH|m k w s p v I W H IH].
    + destruct v; constructor.
    + apply (shows_index _ _ w); assumption.
    + apply (shows_key _ k w); assumption.
Qed.
Lemma found_part : forall v p w, found v p w -> part w v.
Proof.
  intros v p w H. induction H as [v|l n w p v E H IH|m k w s p v I W H IH]; [constructor | |].
  - apply (part_list _ w); [apply (nth_error_In _ _ E) | exact IH].
  - apply (part_map _ k w); assumption.
Qed.
Lemma real_here : forall v, v <> VList [] -> here v = real v.
Proof. intros [x|[|w l]|m] H; try reflexivity. congruence. Qed.

Lemma Forall2_nth : forall A B (R : A -> B -> Prop) l l' n x, Forall2 R l l' -> nth_error l n = Some x -> exists y, nth_error l' n = Some y /\ R x y.
Proof.
  intros A B R l l' n x F. revert n. induction F as [|a b l l' H F IH]; intros n E; [destruct n; discriminate E|].
  destruct n as [|n]; [injection E as <-; exists b; auto | apply IH, E].
Qed.
Lemma Forall2_In_l : forall A B (R : A -> B -> Prop) l l' x, Forall2 R l l' -> In x l -> exists y, In y l' /\ R x y.
Proof.
  intros A B R l l' x F. induction F as [|a b l l' H F IH]; intros I; [destruct I|]. destruct I as [<-|I]; [exists b; split; [left; reflexivity | exact H]|].
  destruct (IH I) as [y [J K]]. exists y. split; [right; exact J | exact K].
Qed.
Lemma Forall2_flip' : forall A B (R : A -> B -> Prop) l l', Forall2 R l l' -> Forall2 (fun b a => R a b) l' l.
Proof. intros A B R l l' F. induction F; constructor; assumption. Qed.
Lemma reordered_shows : forall v p o, shows v p o -> forall v', reordered v v' -> shows v' p o.
Proof.
  intros v p o H. induction H as [x|l|m|l n w p o E H IH|m k w s p o I W H IH]; intros v' R; inversion R as [x'|a b F|a m1 b P F]; subst; try constructor.
  - destruct (Forall2_nth _ _ _ _ _ _ _ F E) as [y [N Q]]. apply (shows_index _ _ y); [exact N | apply IH, Q].
  - assert (J : In (k, w) m1) by (eapply Permutation_in; eassumption). destruct (Forall2_In_l _ _ _ _ _ _ F J) as [[k' y] [N [Q1 Q2]]]. cbn in Q1, Q2. subst k'.
    apply (shows_key _ k y); [exact N | exact W | apply IH, Q2].
Qed.
Lemma reordered_shows_back : forall v' p o, shows v' p o -> forall v, reordered v v' -> shows v p o.
Proof.
  intros v p o H. induction H as [x|l|m|l n w p o E H IH|m k w s p o I W H IH]; intros v' R; inversion R as [x'|a b F|a m1 b P F]; subst; try constructor.
  - apply Forall2_flip' in F. destruct (Forall2_nth _ _ _ _ _ _ _ F E) as [y [N Q]]. apply (shows_index _ _ y); [exact N | apply IH, Q].
  - apply Forall2_flip' in F. destruct (Forall2_In_l _ _ _ _ _ _ F I) as [[k' y] [N [Q1 Q2]]]. cbn in Q1, Q2. subst k'.
    apply (shows_key _ k y); [apply Permutation_sym in P; eapply Permutation_in; eassumption | exact W | apply IH, Q2].
Qed.

(** * Calls *)
Lemma run_app : forall a b attrs, run attrs (a ++ b) =
  let '(s, w, r) := run attrs a in let '(s', w', r') := run s b in (s', (w ++ w')%list, (r ++ r')%list).
Proof.
  induction a as [|c a IH]; intros b attrs.
  - cbn. destruct (run attrs b) as [[s w] r]. reflexivity.
  - change ((c :: a) ++ b)%list with (c :: (a ++ b))%list. cbn [run]. destruct (step attrs c) as [[s0 w0] r0]. rewrite IH. destruct (run s0 a) as [[s w] r]. destruct (run s b) as [[s' w'] r'].
    rewrite app_assoc. reflexivity.
Qed.
Lemma attributes_app : forall a b, attributes (a ++ b) = (attributes a ++ attributes b)%list.
Proof. intros. apply map_app. Qed.
Lemma run_shape : forall cs attrs, exists ws, run attrs cs = ((attrs ++ attributes (added cs))%list, ws, map (fun _ => true) cs) /\ List.length ws = logged cs.
Proof.
  induction cs as [|c cs IH]; intros attrs.
  - exists []. cbn. rewrite app_nil_r. auto.
  - cbn [run]. destruct c as [f msg [m|]|m]; cbn [step].
    + destruct (IH attrs) as [ws [E L]]. rewrite E. eexists. split; [reflexivity|]. cbn. f_equal. exact L.
    + destruct (IH attrs) as [ws [E L]]. rewrite E. eexists. split; [reflexivity|]. cbn. f_equal. exact L.
    + destruct (IH (attrs ++ attributes m)%list) as [ws [E L]]. rewrite E. exists ws. split; [|exact L]. cbn [map app]. unfold added. cbn [flat_map].
      rewrite attributes_app, app_assoc. reflexivity.
Qed.
Lemma reordered_part : forall w' v', part w' v' -> forall v, reordered v v' -> exists w, part w v /\ reordered w w'.
Proof.
  intros w' v' H. induction H as [v'|l u v' I H IH|m k u v' I H IH]; intros v R.
  - exists v. split; [constructor | exact R].
  - inversion R as [x'|a b F|a m1 b P F]; subst. apply Forall2_flip' in F. destruct (Forall2_In_l _ _ _ _ _ _ F I) as [y [J Q]]. destruct (IH y Q) as [w [A B]].
    exists w. split; [apply (part_list _ y); assumption | exact B].
  - inversion R as [x'|a b F|a m1 b P F]; subst. apply Forall2_flip' in F. destruct (Forall2_In_l _ _ _ _ _ _ F I) as [[k' y] [J [Q1 Q2]]]. destruct (IH y Q2) as [w [A B]].
    exists w. split; [|exact B]. apply (part_map _ k' y); [apply Permutation_sym in P; eapply Permutation_in; eassumption | exact A].
Qed.
Lemma reordered_keys : forall m1 m' : list (key * value), Forall2 (fun a b => fst a = fst b /\ reordered (snd a) (snd b)) m1 m' -> map fst m1 = map fst m'.
Proof. intros m1 m' F. induction F as [|a b l l' [E _] F IH]; [reflexivity|]. cbn. rewrite E, IH. reflexivity. Qed.
Lemma reordered_proper : forall v v', reordered v v' -> proper v -> proper v'.
Proof.
  intros v v' R P m I. destruct (reordered_part _ _ I _ R) as [w [A B]]. inversion B as [|a b F|a m1 b Q F]; subst. rewrite <- (reordered_keys _ _ F).
  eapply Permutation_NoDup; [apply Permutation_map, Q | apply P, A].
Qed.
Lemma reordered_clear : forall v v', reordered v v' -> clear v -> clear v'.
Proof.
  intros v v' R C m k k' w w' s I J J'. destruct (reordered_part _ _ I _ R) as [u [A B]]. inversion B as [|a b F|a m1 b Q F]; subst.
  assert (K : forall x y, In (x, y) m -> exists z, In (x, z) a).
  { intros x y H. apply Forall2_flip' in F. destruct (Forall2_In_l _ _ _ _ _ _ F H) as [[x' z] [G [E _]]]. cbn in E. subst x'. exists z. apply Permutation_sym in Q. eapply Permutation_in; eassumption. }
  destruct (K _ _ J) as [z Z], (K _ _ J') as [z' Z']. apply (C a k k' z z' s A Z Z').
Qed.
Lemma reordered_no_empty : forall v v', reordered v v' -> no_empty_list v -> no_empty_list v'.
Proof. intros v v' R N I. destruct (reordered_part _ _ I _ R) as [w [A B]]. inversion B as [|a b F|]; subst. inversion F; subst. apply N, A. Qed.
Lemma one_kind_clear : forall v, one_kind v -> clear v.
Proof. intros v O m k k' w w' s I J J' A B. apply (same_kind_text k k' s); [apply (O m k k' w w' I J J') | exact A | exact B]. Qed.
Lemma value_reads : forall v, proper v -> clear v -> no_empty_list v -> forall p o, reads (expand v) p o <-> shows v p o.
Proof.
  intros v P C N p o. rewrite (expand_reads p v o (fine_clear v P C)), shows_found. split; intros [w [F ->]]; exists w; (split; [exact F|]); [|symmetry]; apply real_here;
    intros ->; apply N; apply (found_part _ _ _ F).
Qed.
Lemma uint_int : forall n, text (KUint n) = text (KInt (Z.of_N n)).
Proof. intros []; reflexivity. Qed.
Lemma bool_int : forall b z, text (KBool b) <> text (KInt z).
Proof.
  intros b z E. cbn in E. assert (H : NilEmpty.int_of_string (if b then "true" else "false") = Some (Z.to_int z)).
  { rewrite <- NilEmpty.isi. f_equal. destruct b; exact E. }
  destruct b; discriminate H.
Qed.
