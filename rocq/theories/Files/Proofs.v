(** * Proofs about proto files *)

From Coq Require Import List Bool Arith Lia Permutation.
From Verif.Files Require Import Model Spec.
Import ListNotations.

Lemma mem_iff : forall x l, mem x l = true <-> In x l.
Proof.
  intros x l. unfold mem. rewrite existsb_exists. split.
  - intros [y [I E]]. apply Nat.eqb_eq in E. subst y. exact I.
  - intros I. exists x. split; [exact I | apply Nat.eqb_refl].
Qed.

Lemma mem_false : forall x l, mem x l = false <-> ~ In x l.
Proof.
  intros x l. rewrite <- mem_iff. destruct (mem x l); split; congruence.
Qed.

Lemma put_same : forall (A : Type) (f : nat -> A) k v, put f k v k = v.
Proof. intros A f k v. unfold put. rewrite Nat.eqb_refl. reflexivity. Qed.

Lemma put_other : forall (A : Type) (f : nat -> A) k v x, x <> k -> put f k v x = f x.
Proof. intros A f k v x N. unfold put. apply Nat.eqb_neq in N. rewrite N. reflexivity. Qed.

Lemma nodup_snoc : forall (A : Type) (l : list A) x, NoDup l -> ~ In x l -> NoDup (l ++ [x]).
Proof.
  intros A l x N H. induction l as [ | y r IH]; cbn.
  - constructor; [intros [] | constructor].
  - inversion N as [ | ? ? N1 N2]; subst. constructor.
    + rewrite in_app_iff. intros [X | [X | []]]; [apply N1, X | apply H; left; symmetry; exact X].
    + apply IH; [exact N2 | intros X; apply H; right; exact X].
Qed.

Lemma nodup_app : forall (A : Type) (a b : list A), NoDup a -> NoDup b ->
  (forall x, In x a -> ~ In x b) -> NoDup (a ++ b).
Proof.
  intros A a b Na Nb H. induction a as [ | x r IH]; cbn; [exact Nb | ].
  inversion Na as [ | ? ? N1 N2]; subst. constructor.
  - rewrite in_app_iff. intros [X | X]; [apply N1, X | apply (H x); [left; reflexivity | exact X]].
  - apply IH; [exact N2 | ]. intros y I. apply H. right. exact I.
Qed.

(** ** Keeping first occurrences *)

Lemma uniq_in : forall l seen x, In x (uniq seen l) <-> In x l /\ ~ In x seen.
Proof.
  induction l as [ | y r IH]; intros seen x; cbn.
  - split; [intros [] | intros [[] _]].
  - destruct (mem y seen) eqn:E.
    + rewrite IH. apply mem_iff in E. split.
      * intros [I N]. split; [right; exact I | exact N].
      * intros [[<- | I] N]; [destruct (N E) | split; assumption].
    + apply mem_false in E. cbn. rewrite IH. split.
      * intros [<- | [I N]]; [split; [left; reflexivity | exact E] | ].
        split; [right; exact I | intros X; apply N; right; exact X].
      * intros [[<- | I] N]; [left; reflexivity | ].
        destruct (Nat.eq_dec y x) as [<- | D]; [left; reflexivity | right].
        split; [exact I | ]. intros [X | X]; [apply D, X | apply N, X].
Qed.

Lemma uniq_nodup : forall l seen, NoDup (uniq seen l).
Proof.
  induction l as [ | y r IH]; intros seen; cbn; [constructor | ].
  destruct (mem y seen); [apply IH | ]. constructor; [ | apply IH].
  rewrite uniq_in. intros [_ N]. apply N. left. reflexivity.
Qed.

(** What comes before an element of the result came before it in the list. *)
Lemma uniq_before : forall l seen m1 f m2, uniq seen l = m1 ++ f :: m2 ->
  exists l1 l2, l = l1 ++ f :: l2 /\ forall x, In x l1 -> In x seen \/ In x m1.
Proof.
  induction l as [ | y r IH]; intros seen m1 f m2 E; cbn in E.
  - destruct m1; discriminate E.
  - destruct (mem y seen) eqn:M.
    + destruct (IH seen m1 f m2 E) as [l1 [l2 [-> H]]]. exists (y :: l1), l2.
      split; [reflexivity | ]. intros x [<- | I]; [left; apply mem_iff, M | apply H, I].
    + destruct m1 as [ | z m1]; cbn in E.
      * injection E as <- _. exists [], r. split; [reflexivity | intros x []].
      * injection E as <- E. destruct (IH (y :: seen) m1 f m2 E) as [l1 [l2 [-> H]]].
        exists (y :: l1), l2. split; [reflexivity | ].
        intros x [<- | I]; [right; left; reflexivity | ].
        destruct (H x I) as [[<- | X] | X];
          [right; left; reflexivity | left; exact X | right; right; exact X].
Qed.

Lemma ordered_uniq : forall deps among l, ordered deps among l -> ordered deps among (uniq [] l).
Proof.
  intros deps among l H m1 f m2 E d I A. destruct (uniq_before l [] m1 f m2 E) as [l1 [l2 [-> B]]].
  destruct (B d (H l1 f l2 eq_refl d I A)) as [[] | X]. exact X.
Qed.

Lemma ordered_nil : forall deps among, ordered deps among [].
Proof. intros deps among l1 f l2 E. destruct l1; discriminate E. Qed.

Lemma app_split : forall (A : Type) (a b l1 : list A) f l2, a ++ b = l1 ++ f :: l2 ->
  (exists r, a = l1 ++ f :: r /\ l2 = r ++ b) \/ (exists r, l1 = a ++ r /\ b = r ++ f :: l2).
Proof.
  induction a as [ | x a IH]; intros b l1 f l2 E; cbn in E.
  - right. exists l1. split; [reflexivity | exact E].
  - destruct l1 as [ | y l1]; cbn in E.
    + injection E as -> <-. left. exists a. split; reflexivity.
    + injection E as -> E. destruct (IH b l1 f l2 E) as [[r [-> ->]] | [r [-> ->]]].
      * left. exists r. split; reflexivity.
      * right. exists r. split; reflexivity.
Qed.

Lemma ordered_app : forall deps among a b, ordered deps among a -> ordered deps among b ->
  ordered deps among (a ++ b).
Proof.
  intros deps among a b Ha Hb l1 f l2 E d I A.
  destruct (app_split _ _ _ _ _ _ E) as [[r [-> _]] | [r [-> ->]]].
  - apply (Ha l1 f r eq_refl d I A).
  - apply in_app_iff. right. apply (Hb r f l2 eq_refl d I A).
Qed.

Lemma ordered_snoc : forall deps (among : nat -> Prop) a f, ordered deps among a ->
  (forall d, In d (deps f) -> among d -> In d a) -> ordered deps among (a ++ [f]).
Proof.
  intros deps among a f Ha H l1 g l2 E d I A.
  destruct (app_split _ _ _ _ _ _ E) as [[r [-> _]] | [r [-> X]]].
  - apply (Ha l1 g r eq_refl d I A).
  - destruct r as [ | z r]; cbn in X.
    + injection X as <- _. rewrite app_nil_r. apply H; assumption.
    + injection X as _ X. destruct r; discriminate X.
Qed.

(** ** The compiler *)

Section Compiler.
Variable imports : nat -> list nat.
Variable rank : nat -> nat.
Hypothesis Rank : forall f d, In d (imports f) -> rank d < rank f.

Lemma concat_opt_spec : forall (A : Type) (P : nat -> list A -> Prop) g l,
  (forall f, In f l -> exists r, g f = Some r /\ P f r) ->
  exists r, concat_opt (map g l) = Some r /\
    forall (Q : list A -> Prop), Q [] -> (forall a b, Q a -> Q b -> Q (a ++ b)) ->
      (forall f x, In f l -> P f x -> Q x) -> Q r.
Proof.
  intros A P g l H. induction l as [ | f r IH]; cbn.
  - exists []. split; [reflexivity | ]. intros Q Q0 _ _. exact Q0.
  - destruct (H f (or_introl eq_refl)) as [x [-> Px]].
    destruct IH as [y [-> Hy]]; [intros k I; apply H; right; exact I | ].
    exists (x ++ y). split; [reflexivity | ]. intros Q Q0 Qa Qs. apply Qa.
    + apply (Qs f x); [left; reflexivity | exact Px].
    + apply Hy; [exact Q0 | exact Qa | ]. intros k z I. apply Qs. right. exact I.
Qed.

Lemma concat_opt_in : forall (A : Type) (g : nat -> option (list A)) l r,
  concat_opt (map g l) = Some r ->
  forall x, In x r <-> exists f y, In f l /\ g f = Some y /\ In x y.
Proof.
  intros A g l. induction l as [ | f t IH]; intros r E x; cbn in E.
  - injection E as <-. split; [intros [] | intros [f [y [[] _]]]].
  - destruct (g f) as [y | ] eqn:Eg; [ | discriminate E].
    destruct (concat_opt (map g t)) as [z | ]; [ | discriminate E]. injection E as <-.
    rewrite in_app_iff, (IH z eq_refl). split.
    + intros [H | [k [w [I [K J]]]]].
      * exists f, y. split; [left; reflexivity | split; assumption].
      * exists k, w. split; [right; exact I | split; assumption].
    + intros [k [w [[<- | I] [K J]]]].
      * left. rewrite Eg in K. injection K as <-. exact J.
      * right. exists k, w. split; [exact I | split; assumption].
Qed.

Lemma descriptors_spec : forall fuel f, rank f < fuel ->
  exists l, descriptors imports fuel f = Some l /\
    ordered imports (fun _ => True) l /\ forall g, In g l <-> reach imports f g.
Proof.
  induction fuel as [ | k IH]; intros f L; [lia | ]. cbn [descriptors].
  destruct (concat_opt_spec _ (fun d l => ordered imports (fun _ => True) l)
              (descriptors imports k) (imports f)) as [l [E H]].
  { intros d I. destruct (IH d) as [x [Ex [O _]]]; [pose proof (Rank f d I); lia | ].
    exists x. split; assumption. }
  rewrite E. exists (l ++ [f]). split; [reflexivity | ].
  assert (In_l : forall g, In g l <-> exists d, In d (imports f) /\ reach imports d g).
  { intros g. rewrite (concat_opt_in _ _ _ _ E). split.
    - intros [d [y [I [Ey J]]]]. exists d. split; [exact I | ].
      destruct (IH d) as [x [Ex [_ R]]]; [pose proof (Rank f d I); lia | ].
      rewrite Ex in Ey. injection Ey as <-. apply R, J.
    - intros [d [I R]]. destruct (IH d) as [x [Ex [_ Rx]]]; [pose proof (Rank f d I); lia | ].
      exists d, x. split; [exact I | ]. split; [exact Ex | apply Rx, R]. }
  split.
  - apply ordered_snoc.
    + apply (H (ordered imports (fun _ => True)));
        [apply ordered_nil | apply ordered_app | intros d x _ X; exact X].
    + intros d I _. apply In_l. exists d. split; [exact I | apply reach_self].
  - intros g. rewrite in_app_iff, In_l. split.
    + intros [[d [I R]] | [<- | []]]; [apply (reach_dep imports f d g I R) | apply reach_self].
    + intros R. inversion R as [x E1 E2 | x d y I R' E1 E2]; subst.
      * right. left. reflexivity.
      * left. exists d. split; assumption.
Qed.

Lemma proto_files_spec : forall fuel linked, (forall f, In f linked -> rank f < fuel) ->
  exists l, proto_files imports fuel linked = Some l /\ NoDup l /\
    ordered imports (fun _ => True) l /\
    forall g, In g l <-> exists f, In f linked /\ reach imports f g.
Proof.
  intros fuel linked L. unfold proto_files.
  destruct (concat_opt_spec _ (fun d l => ordered imports (fun _ => True) l)
              (descriptors imports fuel) linked) as [l [E H]].
  { intros d I. destruct (descriptors_spec fuel d (L d I)) as [x [Ex [O _]]].
    exists x. split; assumption. }
  rewrite E. exists (uniq [] l). split; [reflexivity | ]. split; [apply uniq_nodup | ]. split.
  - apply ordered_uniq. apply (H (ordered imports (fun _ => True)));
      [apply ordered_nil | apply ordered_app | intros d x _ X; exact X].
  - intros g. rewrite uniq_in, (concat_opt_in _ _ _ _ E). split.
    + intros [[f [y [I [Ey J]]]] _]. exists f. split; [exact I | ].
      destruct (descriptors_spec fuel f (L f I)) as [x [Ex [_ R]]].
      rewrite Ex in Ey. injection Ey as <-. apply R, J.
    + intros [f [I R]]. split; [ | intros []].
      destruct (descriptors_spec fuel f (L f I)) as [x [Ex [_ Rx]]].
      exists f, x. split; [exact I | ]. split; [exact Ex | apply Rx, R].
Qed.

End Compiler.

(** ** Imports of the file option *)

Section Imports.
Variable rule : nat -> option (list nat).
Variable compile : nat -> option (list nat).

Definition failed (q : nat * nat) : bool :=
  match compile (snd q) with Some _ => false | None => true end.

(** No import list names a file twice. *)
Definition once : Prop := forall f ps, rule f = Some ps -> NoDup ps.

(** Imports of the option that are not in [base]. *)
Definition fresh (base : nat -> list nat) (new : list (nat * nat)) : Prop :=
  forall f p, In (f, p) new -> (exists ps, rule f = Some ps /\ In p ps) /\ ~ In p (base f).

(** From [s] to [s'], the imports [new] were compiled, with the files [l]. *)
Record did (new : list (nat * nat)) (l : list nat) (s s' : istate) : Prop := {
  d_compiled : i_compiled s' = i_compiled s ++ new;
  d_deps : forall f, i_deps s' f = i_deps s f ++ map snd (filter (fun q => fst q =? f) new);
  d_errors : i_errors s' = i_errors s ++ filter failed new;
  d_files : forall g, In g l <-> exists f p ds, In (f, p) new /\ compile p = Some ds /\ In g ds
}.

Lemma filter_app_f : forall (A : Type) (P : A -> bool) a b, filter P (a ++ b) = filter P a ++ filter P b.
Proof.
  intros A P a b. induction a as [ | x r IH]; cbn; [reflexivity | ].
  destruct (P x); cbn; rewrite IH; reflexivity.
Qed.

Lemma did_in : forall new l s s' f p, did new l s s' ->
  (In p (i_deps s' f) <-> In p (i_deps s f) \/ In (f, p) new).
Proof.
  intros new l s s' f p D. rewrite (d_deps _ _ _ _ D f), in_app_iff, in_map_iff. split.
  - intros [H | [[a b] [E H]]]; [left; exact H | right]. apply filter_In in H.
    destruct H as [H X]. cbn in *. apply Nat.eqb_eq in X. subst. exact H.
  - intros [H | H]; [left; exact H | right]. exists (f, p). split; [reflexivity | ].
    apply filter_In. split; [exact H | apply Nat.eqb_refl].
Qed.

Lemma did_nil : forall s, did [] [] s s.
Proof.
  intros s. split; cbn; try (symmetry; apply app_nil_r); try (intros f; symmetry; apply app_nil_r).
  intros g. split; [intros [] | intros [f [p [ds [[] _]]]]].
Qed.

Lemma did_trans : forall n1 l1 n2 l2 s1 s2 s3, did n1 l1 s1 s2 -> did n2 l2 s2 s3 ->
  did (n1 ++ n2) (l1 ++ l2) s1 s3.
Proof.
  intros n1 l1 n2 l2 s1 s2 s3 [C1 P1 E1 F1] [C2 P2 E2 F2]. split.
  - rewrite C2, C1. apply app_assoc_reverse.
  - intros f. rewrite P2, P1, filter_app_f, map_app. apply app_assoc_reverse.
  - rewrite E2, E1, filter_app_f. apply app_assoc_reverse.
  - intros g. rewrite in_app_iff, F1, F2. split.
    + intros [[f [p [ds [H K]]]] | [f [p [ds [H K]]]]]; exists f, p, ds;
        (split; [apply in_app_iff | exact K]); [left | right]; exact H.
    + intros [f [p [ds [H K]]]]. apply in_app_iff in H. destruct H as [H | H]; [left | right];
        exists f, p, ds; (split; [exact H | exact K]).
Qed.

Lemma fresh_trans : forall n1 l1 n2 s1 s2, did n1 l1 s1 s2 ->
  fresh (i_deps s1) n1 -> fresh (i_deps s2) n2 -> fresh (i_deps s1) (n1 ++ n2).
Proof.
  intros n1 l1 n2 s1 s2 D F1 F2 f p H. apply in_app_iff in H. destruct H as [H | H]; [apply F1, H | ].
  destruct (F2 f p H) as [A B]. split; [exact A | ]. intros X. apply B.
  apply (did_in _ _ _ _ _ _ D). left. exact X.
Qed.

Lemma did_nodup : forall n1 l1 n2 s1 s2, did n1 l1 s1 s2 -> fresh (i_deps s2) n2 ->
  NoDup n1 -> NoDup n2 -> NoDup (n1 ++ n2).
Proof.
  intros n1 l1 n2 s1 s2 D1 F2 N1 N2. apply nodup_app; [exact N1 | exact N2 | ].
  intros [f p] X Y. destruct (F2 f p Y) as [_ Z]. apply Z.
  apply (did_in _ _ _ _ _ _ D1). right. exact X.
Qed.

Lemma paths_spec : forall known f ps s l s', paths compile known f ps s = (l, s') ->
  incl known (i_deps s f) ->
  exists new, did new l s s' /\
    (forall g p, In (g, p) new -> g = f /\ In p ps /\ ~ In p known) /\
    (forall p, In p ps -> In p (i_deps s' f)) /\ (NoDup ps -> NoDup new).
Proof.
  intros known f ps. induction ps as [ | p r IH]; intros s l s' E KI; cbn [paths] in E.
  - injection E as <- <-. exists []. split; [apply did_nil | ].
    split; [intros g p [] | ]. split; [intros p [] | constructor].
  - destruct (mem p known) eqn:M.
    + apply mem_iff in M. destruct (IH s l s' E KI) as [new [D [H1 [H2 H3]]]].
      exists new. split; [exact D | ]. split; [ | split].
      * intros g x X. destruct (H1 g x X) as [A [B C]]. split; [exact A | split; [right; exact B | exact C]].
      * intros x [<- | X]; [ | apply H2, X]. apply (did_in _ _ _ _ _ _ D). left. apply KI, M.
      * intros N. inversion N as [ | ? ? N1 N2]; subst. apply H3, N2.
    + apply mem_false in M.
      set (s1 := {| i_deps := put (i_deps s) f (i_deps s f ++ [p]);
                    i_errors := match compile p with
                                | Some _ => i_errors s | None => i_errors s ++ [(f, p)] end;
                    i_compiled := i_compiled s ++ [(f, p)] |}) in E.
      destruct (paths compile known f r s1) as [l2 s2] eqn:E2. injection E as <- <-.
      assert (D1 : did [(f, p)] (match compile p with Some x => x | None => [] end) s s1).
      { split; cbn.
        - reflexivity.
        - intros g. destruct (Nat.eq_dec g f) as [-> | Ng].
          + rewrite put_same, Nat.eqb_refl. reflexivity.
          + rewrite put_other by exact Ng.
            destruct (Nat.eqb_spec f g) as [X | _]; [congruence | symmetry; apply app_nil_r].
        - unfold failed. cbn. destruct (compile p); [symmetry; apply app_nil_r | reflexivity].
        - intros g. split.
          + intros H. destruct (compile p) as [ds | ] eqn:Ep; [ | destruct H].
            exists f, p, ds. split; [left; reflexivity | split; assumption].
          + intros [a [b [ds [[X | []] [Y Z]]]]]. injection X as <- <-. rewrite Y. exact Z. }
      destruct (IH s1 l2 s2 E2) as [new [D [H1 [H2 H3]]]].
      { intros x X. cbn. rewrite put_same. apply in_app_iff. left. apply KI, X. }
      exists ([(f, p)] ++ new). split; [apply (did_trans _ _ _ _ _ _ _ D1 D) | ].
      split; [ | split].
      * intros g x [X | X].
        -- injection X as <- <-. split; [reflexivity | split; [left; reflexivity | exact M]].
        -- destruct (H1 g x X) as [A [B C]]. split; [exact A | split; [right; exact B | exact C]].
      * intros x [<- | X]; [ | apply H2, X]. apply (did_in _ _ _ _ _ _ D). left. cbn.
        rewrite put_same. apply in_app_iff. right. left. reflexivity.
      * intros N. inversion N as [ | ? ? N1 N2]; subst. cbn. constructor; [ | apply H3, N2].
        intros X. destruct (H1 f p X) as [_ [B _]]. apply N1, B.
Qed.

Lemma round_spec : forall fs s l s', round rule compile fs s = (l, s') ->
  exists new, did new l s s' /\ fresh (i_deps s) new /\ (once -> NoDup new) /\
    (forall f p, In (f, p) new -> In f fs) /\
    (forall f ps p, In f fs -> rule f = Some ps -> In p ps -> In p (i_deps s' f)).
Proof.
  induction fs as [ | f r IH]; intros s l s' E; cbn [round] in E.
  - injection E as <- <-. exists []. split; [apply did_nil | ]. split; [intros f p [] | ].
    split; [constructor | ]. split; [intros f p [] | intros f ps p []].
  - assert (X : exists l1 s1 n1,
      (match rule f with Some ps => paths compile (i_deps s f) f ps s | None => ([], s) end) = (l1, s1)
      /\ did n1 l1 s s1 /\ fresh (i_deps s) n1 /\ (once -> NoDup n1) /\
      (forall g p, In (g, p) n1 -> g = f) /\
      (forall ps p, rule f = Some ps -> In p ps -> In p (i_deps s1 f))).
    { destruct (rule f) as [ps | ] eqn:R.
      - destruct (paths compile (i_deps s f) f ps s) as [l1 s1] eqn:Ep. exists l1, s1.
        destruct (paths_spec (i_deps s f) f ps s l1 s1 Ep (incl_refl _)) as [n1 [D [A [B C]]]].
        exists n1. split; [reflexivity | ]. split; [exact D | ]. split.
        + intros g p I. destruct (A g p I) as [-> [A2 A3]]. split; [ | exact A3].
          exists ps. split; assumption.
        + split; [intros O; apply C, (O f ps R) | ].
          split; [intros g p I; apply (A g p I) | ]. intros ps' p Y. injection Y as <-. apply B.
      - exists [], s, []. split; [reflexivity | ]. split; [apply did_nil | ].
        split; [intros g p [] | ]. split; [constructor | ].
        split; [intros g p [] | intros ps p Y; discriminate Y]. }
    destruct X as [l1 [s1 [n1 [E1 [D1 [Fr1 [N1 [F1 A1]]]]]]]]. rewrite E1 in E.
    destruct (round rule compile r s1) as [l2 s2] eqn:E2. injection E as <- <-.
    destruct (IH s1 l2 s2 E2) as [n2 [D2 [Fr2 [N2 [F2 A2]]]]]. exists (n1 ++ n2).
    split; [apply (did_trans _ _ _ _ _ _ _ D1 D2) | ].
    split; [apply (fresh_trans _ _ _ _ _ D1 Fr1 Fr2) | ].
    split; [intros O; apply (did_nodup _ _ _ _ _ D1 Fr2 (N1 O) (N2 O)) | ]. split.
    + intros g p I. apply in_app_iff in I. destruct I as [I | I];
        [left; symmetry; apply (F1 g p I) | right; apply (F2 g p I)].
    + intros g ps p [<- | I] R P; [ | apply (A2 g ps p I R P)].
      apply (did_in _ _ _ _ _ _ D2). left. apply (A1 ps p R P).
Qed.

(** *** The end *)

Variable U : list nat.

Definition open_imports (s : istate) : list (nat * nat) :=
  filter (fun q => negb (mem (snd q) (i_deps s (fst q))))
    (flat_map (fun f => map (pair f) (match rule f with Some ps => ps | None => [] end)) U).

Lemma filter_le : forall (A : Type) (P Q : A -> bool) l, (forall x, P x = true -> Q x = true) ->
  length (filter P l) <= length (filter Q l).
Proof.
  intros A P Q l H. induction l as [ | x r IH]; cbn; [lia | ].
  destruct (P x) eqn:Ep; destruct (Q x) eqn:Eq; cbn; try lia.
  rewrite (H x Ep) in Eq. discriminate Eq.
Qed.

Lemma filter_lt : forall (A : Type) (P Q : A -> bool) l x, (forall x, P x = true -> Q x = true) ->
  In x l -> P x = false -> Q x = true -> length (filter P l) < length (filter Q l).
Proof.
  intros A P Q l x H I Fp Tq. induction l as [ | y r IH]; [destruct I | ]. cbn.
  destruct I as [-> | I].
  - rewrite Fp, Tq. cbn. pose proof (filter_le A P Q r H). lia.
  - specialize (IH I). destruct (P y) eqn:Ep; destruct (Q y) eqn:Eq; cbn; try lia.
    rewrite (H y Ep) in Eq. discriminate Eq.
Qed.

Lemma open_less : forall new l s s', did new l s s' -> fresh (i_deps s) new -> (forall f p, In (f, p) new -> In f U) ->
  new <> [] -> length (open_imports s') < length (open_imports s).
Proof.
  intros new l s s' D Fr IU NE. destruct new as [ | [f p] r]; [congruence | ].
  unfold open_imports. destruct (Fr f p (or_introl eq_refl)) as [[ps [R P]] N].
  apply filter_lt with (x := (f, p)).
  - intros [g q] H. cbn in *. apply negb_true_iff in H. apply negb_true_iff.
    apply mem_false. apply mem_false in H. intros X. apply H. apply (did_in _ _ _ _ _ _ D).
    left. exact X.
  - apply in_flat_map. exists f. split; [apply (IU f p); left; reflexivity | ].
    rewrite R. apply in_map. exact P.
  - cbn. apply negb_false_iff. apply mem_iff. apply (did_in _ _ _ _ _ _ D). right. left. reflexivity.
  - cbn. apply negb_true_iff. apply mem_false. exact N.
Qed.

Variable deps0 : nat -> list nat.
Variable files0 : list nat.
Hypothesis Universe : forall f, needed rule compile deps0 files0 f -> In f U.

(** The state after some rounds. *)
Definition reached (s : istate) : Prop :=
  (forall f p, In p (deps0 f) -> In p (i_deps s f)) /\
  (forall f p, In p (i_deps s f) -> In p (deps0 f) \/ In (f, p) (i_compiled s)).

Lemma closure_spec : forall fuel fs s, length (open_imports s) < fuel ->
  (forall f, In f fs -> needed rule compile deps0 files0 f) -> reached s ->
  exists l s' new, closure rule compile fuel fs s = Some (l, s') /\ did new l s s' /\
    fresh (i_deps s) new /\ (once -> NoDup new) /\
    (forall f p, In (f, p) new -> In f fs \/ In f l) /\
    (forall f, In f l -> needed rule compile deps0 files0 f) /\
    (forall f ps p, In f fs \/ In f l -> rule f = Some ps -> In p ps -> In p (i_deps s' f)).
Proof.
  induction fuel as [ | k IH]; intros fs s L Nd Re; [lia | ]. cbn [closure].
  destruct (round rule compile fs s) as [l s1] eqn:E.
  destruct (round_spec fs s l s1 E) as [new [D [Fr [N [F A]]]]].
  assert (Nl : forall f, In f l -> needed rule compile deps0 files0 f).
  { intros g I. apply (d_files _ _ _ _ D) in I. destruct I as [f [p [ds [X [Y Z]]]]].
    destruct (Fr f p X) as [[ps [R P]] Np].
    apply (needed_import rule compile deps0 files0 f ps p ds g);
      [apply Nd, (F f p X) | exact R | exact P | | exact Y | exact Z].
    intros W. apply Np. apply Re, W. }
  destruct l as [ | g l].
  - exists [], s1, new. split; [reflexivity | ]. split; [exact D | ]. split; [exact Fr | ].
    split; [exact N | ]. split; [intros f p I; left; apply (F f p I) | ]. split; [intros f [] | ].
    intros f ps p [I | []]. apply (A f ps p I).
  - assert (Lt : length (open_imports s1) < length (open_imports s)).
    { apply (open_less new (g :: l) s s1 D Fr).
      - intros f p I. apply Universe, Nd, (F f p I).
      - intros ->. destruct (proj1 (d_files _ _ _ _ D g) (or_introl eq_refl)) as [f [p [ds [[] _]]]]. }
    assert (Re1 : reached s1).
    { destruct Re as [R1 R2]. split.
      - intros f p I. apply (did_in _ _ _ _ _ _ D). left. apply R1, I.
      - intros f p I. apply (did_in _ _ _ _ _ _ D) in I. rewrite (d_compiled _ _ _ _ D), in_app_iff.
        destruct I as [I | I]; [ | right; right; exact I].
        destruct (R2 f p I) as [X | X]; [left; exact X | right; left; exact X]. }
    destruct (IH (g :: l) s1 ltac:(lia) Nl Re1) as [l' [s2 [new' [-> [D' [Fr' [N' [F' [Nl' A']]]]]]]]].
    exists ((g :: l) ++ l'), s2, (new ++ new'). split; [reflexivity | ].
    split; [apply (did_trans _ _ _ _ _ _ _ D D') | ].
    split; [apply (fresh_trans _ _ _ _ _ D Fr Fr') | ].
    split; [intros O; apply (did_nodup _ _ _ _ _ D Fr' (N O) (N' O)) | ]. split; [ | split].
    + intros f p I. apply in_app_iff in I. destruct I as [I | I]; [left; apply (F f p I) | right].
      apply in_app_iff. apply (F' f p I).
    + intros f I. apply in_app_iff in I. destruct I as [I | I]; [apply Nl, I | apply Nl', I].
    + intros f ps p I R P. rewrite in_app_iff in I. destruct I as [I | [I | I]].
      * apply (did_in _ _ _ _ _ _ D'). left. apply (A f ps p I R P).
      * apply (A' f ps p (or_introl I) R P).
      * apply (A' f ps p (or_intror I) R P).
Qed.

Lemma prepend_spec : forall news files, NoDup news ->
  prepend news files = filter (fun f => negb (mem f files)) (rev news) ++ files.
Proof.
  induction news as [ | f r IH]; intros files N; cbn [prepend rev]; [reflexivity | ].
  inversion N as [ | ? ? N1 N2]; subst. rewrite filter_app_f. cbn [filter].
  destruct (mem f files) eqn:M; cbn [negb].
  - rewrite IH by exact N2. rewrite app_nil_r. reflexivity.
  - rewrite IH by exact N2. rewrite <- app_assoc. cbn [app]. f_equal. apply filter_ext_in.
    intros x I. apply in_rev in I. f_equal. apply eq_true_iff_eq. rewrite !mem_iff. split.
    + intros [E | X]; [subst x; destruct (N1 I) | exact X].
    + intros X. right. exact X.
Qed.

Lemma import_rule_spec : NoDup files0 ->
  exists N, forall fuel, N <= fuel ->
  exists fs s, import_rule rule compile fuel files0
      {| i_deps := deps0; i_errors := []; i_compiled := [] |} = Some (fs, s) /\
    (exists news, fs = news ++ files0) /\ NoDup fs /\
    (forall f, In f fs <-> needed rule compile deps0 files0 f) /\
    (once -> NoDup (i_compiled s)) /\
    (forall f p, In (f, p) (i_compiled s) <-> to_compile rule compile deps0 files0 f p) /\
    (forall f, i_deps s f = deps0 f ++ map snd (filter (fun q => fst q =? f) (i_compiled s))) /\
    i_errors s = filter failed (i_compiled s).
Proof.
  intros N0. set (s0 := {| i_deps := deps0; i_errors := []; i_compiled := [] |}).
  exists (S (length (open_imports s0))). intros fuel L.
  destruct (closure_spec fuel files0 s0) as [l [s [new [E [D [Fr [N [F [Nl A]]]]]]]]].
  - lia.
  - intros f I. apply needed_file, I.
  - split; [intros f p I; exact I | intros f p I; left; exact I].
  - unfold import_rule. rewrite E. eexists. exists s. split; [reflexivity | ].
    pose proof (d_compiled _ _ _ _ D) as C. cbn in C. rewrite C.
    assert (NU : NoDup (rev (uniq [] l))) by (apply NoDup_rev, uniq_nodup).
    rewrite prepend_spec by exact NU. rewrite rev_involutive.
    assert (M : forall f, In f (filter (fun f => negb (mem f files0)) (uniq [] l) ++ files0) <->
                  In f l \/ In f files0).
    { intros f. rewrite in_app_iff, filter_In, uniq_in, negb_true_iff, mem_false. split.
      - intros [[[H _] _] | H]; [left; exact H | right; exact H].
      - intros [H | H]; [ | right; exact H].
        destruct (in_dec Nat.eq_dec f files0) as [I | I]; [right; exact I | left].
        split; [split; [exact H | intros []] | exact I]. }
    assert (Nd : forall f, In f l \/ In f files0 <-> needed rule compile deps0 files0 f).
    { intros f. split.
      - intros [I | I]; [apply Nl, I | apply needed_file, I].
      - intros H. induction H as [f I | f ps p ds g H IH R P Np Ec I]; [right; exact I | left].
        apply (d_files _ _ _ _ D). exists f, p, ds. split; [ | split; assumption].
        assert (X : In p (i_deps s f)).
        { apply (A f ps p); [tauto | exact R | exact P]. }
        apply (did_in _ _ _ _ _ _ D) in X. destruct X as [X | X]; [destruct (Np X) | exact X]. }
    split; [eexists; reflexivity | ]. split.
    { apply nodup_app; [apply NoDup_filter, uniq_nodup | exact N0 | ].
      intros f I. apply filter_In in I. destruct I as [_ I]. apply negb_true_iff, mem_false in I.
      exact I. }
    split; [intros f; rewrite M; apply Nd | ]. split; [exact N | ]. split; [ | split].
    + intros f p. split.
      * intros I. destruct (Fr f p I) as [X Y]. split; [ | split; [exact X | exact Y]].
        apply Nd. destruct (F f p I) as [Z | Z]; [right; exact Z | left; exact Z].
      * intros [X [[ps [R P]] Y]]. apply Nd in X.
        assert (Z : In p (i_deps s f)) by (apply (A f ps p); [tauto | exact R | exact P]).
        apply (did_in _ _ _ _ _ _ D) in Z. destruct Z as [Z | Z]; [destruct (Y Z) | exact Z].
    + apply (d_deps _ _ _ _ D).
    + apply (d_errors _ _ _ _ D).
Qed.

End Imports.

(** ** Registration *)

Section Registration.
Variable deps : nat -> list nat.
Variable valid : nat -> bool.
Variable files : list nat.
Variable done0 : list nat.

Lemma path_in : forall f g, path deps files f g -> In f files /\ In g files.
Proof.
  intros f g H. induction H as [f d A B C | f d g A B C H [_ IH]]; split; assumption.
Qed.

Lemma path_trans : forall f g h, path deps files f g -> path deps files g h -> path deps files f h.
Proof.
  intros f g h H K. induction H as [f d A B C | f d g A B C H IH].
  - apply (path_more deps files f d h A B C K).
  - apply (path_more deps files f d h A B C (IH K)).
Qed.

Lemma path_first : forall f g, path deps files f g ->
  exists d, In d (deps f) /\ In d files /\ (d = g \/ path deps files d g).
Proof.
  intros f g H. inversion H as [x d A B C E1 E2 | x d y A B C K E1 E2]; subst.
  - exists g. split; [exact C | ]. split; [exact B | left; reflexivity].
  - exists d. split; [exact C | ]. split; [exact B | right; exact K].
Qed.

Record inv (s : rstate) : Prop := {
  v_map : forall f, r_map s f <> Absent -> In f files;
  v_black : forall f, In f files -> r_map s f = Absent ->
    In f (r_done s) /\ ~ cycle deps files f /\
    forall d, In d (deps f) -> In d files -> r_map s d = Absent;
  v_done : exists new, r_done s = done0 ++ new /\ NoDup new /\
    (forall f, In f new -> In f files /\ ~ In f done0 /\ valid f = true) /\
    forall l1 f l2, new = l1 ++ f :: l2 -> forall d, In d (deps f) -> In d (done0 ++ l1)
}.

Definition pending (s : rstate) : nat :=
  length (filter (fun f => match r_map s f with Pending => true | _ => false end) files).

(** What a step may do to the map. *)
Definition later (s s' : rstate) : Prop :=
  (forall x, r_map s' x = Busy <-> r_map s x = Busy) /\
  (forall x, r_map s' x = Pending -> r_map s x = Pending).

Lemma later_refl : forall s, later s s.
Proof. intros s. split; [intros x; tauto | intros x H; exact H]. Qed.

Lemma later_trans : forall a b c, later a b -> later b c -> later a c.
Proof.
  intros a b c [A1 A2] [B1 B2]. split; [intros x; rewrite B1; apply A1 | ].
  intros x H. apply A2, B2, H.
Qed.

Lemma later_absent : forall a b x, later a b -> r_map a x = Absent -> r_map b x = Absent.
Proof.
  intros a b x [A1 A2] H. destruct (r_map b x) eqn:E; [reflexivity | | ].
  - apply A2 in E. congruence.
  - apply A1 in E. congruence.
Qed.

Lemma later_pending : forall a b, later a b -> pending b <= pending a.
Proof.
  intros a b [_ H]. unfold pending. apply filter_le. intros x X.
  destruct (r_map b x) eqn:E; try discriminate X. rewrite (H x E). reflexivity.
Qed.

(** Why registration may fail. *)
Definition justified (e : failure) : Prop :=
  match e with
  | Twice _ => False
  | Cycle d => cycle deps files d
  | Invalid g => In g files /\
      (valid g = false \/ exists d, In d (deps g) /\ ~ In d files /\ ~ In d done0)
  end.

Lemma register_spec : forall fuel f s, inv s -> r_map s f = Pending -> pending s <= fuel ->
  (forall b, r_map s b = Busy -> path deps files b f) ->
  exists r, register deps valid fuel f s = Some r /\
    match r with
    | inl s' => inv s' /\ later s s' /\ r_map s' f = Absent
    | inr e => justified e
    end.
Proof.
  induction fuel as [ | k IH]; intros f s V P L B.
  { exfalso. assert (X : In f (filter (fun f => match r_map s f with Pending => true | _ => false end) files)).
    { apply filter_In. split; [apply (v_map s V); congruence | rewrite P; reflexivity]. }
    unfold pending in L. destruct (filter _ files); [destruct X | cbn in L; lia]. }
  assert (Ff : In f files) by (apply (v_map s V); congruence).
  cbn [register]. set (s0 := {| r_map := put (r_map s) f Busy; r_done := r_done s |}).
  (* the loop over the dependencies *)
  assert (X : forall ds t, incl ds (deps f) -> inv t -> r_map t f = Busy ->
    (forall x, x <> f -> (r_map t x = Busy <-> r_map s x = Busy)) ->
    (forall x, r_map t x = Pending -> r_map s x = Pending /\ x <> f) ->
    pending t <= k ->
    (forall d, In d (deps f) -> ~ In d ds -> r_map t d = Absent) ->
    exists r,
      (fix go (ds : list nat) (s : rstate) : option (rstate + failure) :=
         match ds with
         | [] =>
             let m := put (r_map s) f Absent in
             if mem f (r_done s) then Some (inl {| r_map := m; r_done := r_done s |}) else
             if accept deps valid f (r_done s)
             then Some (inl {| r_map := m; r_done := r_done s ++ [f] |})
             else Some (inr (Invalid f))
         | d :: r =>
             match r_map s d with
             | Absent => go r s
             | Busy => Some (inr (Cycle d))
             | Pending =>
                 match register deps valid k d s with
                 | Some (inl s') => go r s'
                 | x => x
                 end
             end
         end) ds t = Some r /\
      match r with
      | inl s' => inv s' /\ later s s' /\ r_map s' f = Absent
      | inr e => justified e
      end).
  { induction ds as [ | d r IHr]; intros t I Vt Bt Bo Pt Lt Ab.
    - (* all dependencies are done *)
      assert (AllAbs : forall d, In d (deps f) -> r_map t d = Absent) by (intros d H; apply Ab; [exact H | intros []]).
      set (m := put (r_map t) f Absent).
      assert (La : forall dn, later s {| r_map := m; r_done := dn |}).
      { intros dn. split; cbn; unfold m; intros x; destruct (Nat.eq_dec x f) as [-> | N].
        - rewrite put_same. split; [discriminate | congruence].
        - rewrite put_other by exact N. apply Bo, N.
        - rewrite put_same. discriminate.
        - rewrite put_other by exact N. intros H. apply (Pt x H). }
      assert (NoC : ~ cycle deps files f).
      { intros C. destruct (path_first f f C) as [d [D1 [D2 D3]]].
        pose proof (AllAbs d D1) as Da.
        destruct D3 as [-> | D3]; [congruence | ].
        destruct (v_black t Vt d D2 Da) as [_ [N _]]. apply N.
        apply path_trans with (g := f); [exact D3 | ]. apply path_one; assumption. }
      assert (Vn : forall dn, (exists new, dn = done0 ++ new /\ NoDup new /\
                (forall f, In f new -> In f files /\ ~ In f done0 /\ valid f = true) /\
                forall l1 f l2, new = l1 ++ f :: l2 -> forall d, In d (deps f) -> In d (done0 ++ l1)) ->
              incl (r_done t) dn -> In f dn -> inv {| r_map := m; r_done := dn |}).
      { intros dn Hd Inc Fd. split; cbn [r_map r_done].
        - intros x H. apply (v_map t Vt). intros E. apply H. unfold m.
          destruct (Nat.eq_dec x f) as [-> | N]; [apply put_same | rewrite put_other by exact N; exact E].
        - intros x Ix Ex. destruct (Nat.eq_dec x f) as [-> | N].
          + split; [exact Fd | ]. split; [exact NoC | ]. intros d H1 H2. unfold m.
            destruct (Nat.eq_dec d f) as [-> | Nd]; [apply put_same | ].
            rewrite put_other by exact Nd. apply AllAbs, H1.
          + unfold m in Ex. rewrite put_other in Ex by exact N.
            destruct (v_black t Vt x Ix Ex) as [Y1 [Y2 Y3]]. split; [apply Inc, Y1 | ].
            split; [exact Y2 | ]. intros d H1 H2. unfold m.
            destruct (Nat.eq_dec d f) as [-> | Nd]; [apply put_same | ].
            rewrite put_other by exact Nd. apply Y3; assumption.
        - exact Hd. }
      cbv zeta. fold m. destruct (mem f (r_done t)) eqn:M.
      + eexists. split; [reflexivity | ]. cbn. split; [ | split; [apply La | apply put_same]].
        apply Vn; [apply (v_done t Vt) | apply incl_refl | apply mem_iff, M].
      + apply mem_false in M. destruct (accept deps valid f (r_done t)) eqn:Ac.
        * eexists. split; [reflexivity | ]. cbn. split; [ | split; [apply La | apply put_same]].
          unfold accept in Ac. apply andb_true_iff in Ac. destruct Ac as [Ac1 Ac2].
          rewrite forallb_forall in Ac1.
          destruct (v_done t Vt) as [new [E1 [E2 [E3 E4]]]].
          apply Vn; [ | apply incl_appl, incl_refl | apply in_app_iff; right; left; reflexivity].
          exists (new ++ [f]). split; [rewrite E1; apply app_assoc_reverse | ].
          split; [apply nodup_snoc; [exact E2 | intros H; apply M; rewrite E1; apply in_app_iff; right; exact H] | ].
          split.
          -- intros x H. apply in_app_iff in H. destruct H as [H | [<- | []]]; [apply E3, H | ].
             split; [exact Ff | ]. split; [ | exact Ac2]. intros H. apply M. rewrite E1.
             apply in_app_iff. left. exact H.
          -- intros l1 x l2 E d H. destruct (app_split _ _ _ _ _ _ E) as [[y [-> _]] | [y [-> Z]]].
             ++ apply (E4 l1 x y eq_refl d H).
             ++ destruct y as [ | z y]; cbn in Z.
                ** injection Z as <- _. rewrite app_nil_r, <- E1. apply mem_iff, Ac1, H.
                ** injection Z as _ Z. destruct y; discriminate Z.
        * eexists. split; [reflexivity | ]. cbn. split; [exact Ff | ].
          unfold accept in Ac. apply andb_false_iff in Ac. destruct Ac as [Ac | Ac]; [right | left; exact Ac].
          assert (Y : exists d, In d (deps f) /\ mem d (r_done t) = false).
          { clear - Ac. induction (deps f) as [ | d r IH]; cbn in Ac; [discriminate Ac | ].
            apply andb_false_iff in Ac. destruct Ac as [Ac | Ac].
            - exists d. split; [left; reflexivity | exact Ac].
            - destruct (IH Ac) as [e [E1 E2]]. exists e. split; [right; exact E1 | exact E2]. }
          destruct Y as [d [D1 D2]]. apply mem_false in D2. exists d. split; [exact D1 | ].
          destruct (v_done t Vt) as [new [E1 _]]. split.
          -- intros H. apply D2. apply (v_black t Vt d H (AllAbs d D1)).
          -- intros H. apply D2. rewrite E1. apply in_app_iff. left. exact H.
    - assert (Id : In d (deps f)) by (apply I; left; reflexivity).
      assert (Ir : incl r (deps f)) by (intros x H; apply I; right; exact H).
      destruct (r_map t d) eqn:Ed.
      + apply IHr; try assumption. intros x H1 H2.
        destruct (Nat.eq_dec x d) as [-> | N]; [exact Ed | ].
        apply Ab; [exact H1 | ]. intros [H | H]; [congruence | apply H2, H].
      + (* a dependency to register *)
        assert (Fd : In d files) by (apply (v_map t Vt); congruence).
        destruct (IH d t Vt Ed Lt) as [res [-> Hres]].
        { intros b Hb. destruct (Nat.eq_dec b f) as [-> | N].
          - apply path_one; assumption.
          - apply path_trans with (g := f); [apply B, Bo; assumption | apply path_one; assumption]. }
        destruct res as [s' | e].
        * destruct Hres as [Vs' [Ls' As']]. apply IHr.
          -- exact Ir.
          -- exact Vs'.
          -- apply (proj1 Ls'). exact Bt.
          -- intros x N. rewrite (proj1 Ls' x). apply Bo, N.
          -- intros x H. apply Pt. apply (proj2 Ls'), H.
          -- pose proof (later_pending t s' Ls'). lia.
          -- intros x H1 H2. destruct (Nat.eq_dec x d) as [-> | N]; [exact As' | ].
             apply (later_absent t s' x Ls'). apply Ab; [exact H1 | ].
             intros [H | H]; [congruence | apply H2, H].
        * exists (inr e). split; [reflexivity | exact Hres].
      + (* a cycle *)
        exists (inr (Cycle d)). split; [reflexivity | ]. cbn.
        assert (Fd : In d files) by (apply (v_map t Vt); congruence).
        destruct (Nat.eq_dec d f) as [-> | N]; [apply path_one; assumption | ].
        apply path_trans with (g := f); [apply B, Bo; assumption | apply path_one; assumption]. }
  apply X.
  - apply incl_refl.
  - split; cbn [r_map r_done].
    + intros x H. destruct (Nat.eq_dec x f) as [-> | N]; [exact Ff | ].
      cbn in H. rewrite put_other in H by exact N. apply (v_map s V x H).
    + intros x Ix Ex. destruct (Nat.eq_dec x f) as [-> | N].
      * cbn in Ex. rewrite put_same in Ex. discriminate Ex.
      * cbn in Ex. rewrite put_other in Ex by exact N.
        destruct (v_black s V x Ix Ex) as [Y1 [Y2 Y3]]. split; [exact Y1 | ]. split; [exact Y2 | ].
        intros d H1 H2. pose proof (Y3 d H1 H2) as Yd.
        destruct (Nat.eq_dec d f) as [-> | Nd]; [congruence | ].
        cbn. rewrite put_other by exact Nd. exact Yd.
    + apply (v_done s V).
  - cbn. apply put_same.
  - intros x N. cbn. rewrite put_other by exact N. tauto.
  - intros x H. cbn in H. destruct (Nat.eq_dec x f) as [-> | N].
    + rewrite put_same in H. discriminate H.
    + rewrite put_other in H by exact N. split; assumption.
  - enough (pending s0 < pending s) by lia. unfold pending. apply filter_lt with (x := f).
    + intros x H. cbn in H. destruct (Nat.eq_dec x f) as [-> | N].
      * rewrite put_same in H. discriminate H.
      * rewrite put_other in H by exact N. exact H.
    + exact Ff.
    + cbn. rewrite put_same. reflexivity.
    + rewrite P. reflexivity.
  - intros d H1 H2. destruct (H2 H1).
Qed.

Lemma register_all_spec : forall fuel order s, inv s -> pending s <= fuel ->
  (forall x, r_map s x <> Busy) -> incl order files ->
  exists r, register_all deps valid fuel order s = Some r /\
    match r with
    | inl s' => inv s' /\ later s s' /\ forall x, In x order -> r_map s' x = Absent
    | inr e => justified e
    end.
Proof.
  intros fuel order. induction order as [ | f r IH]; intros s V L NB I; cbn [register_all].
  - exists (inl s). split; [reflexivity | ]. split; [exact V | ]. split; [apply later_refl | intros x []].
  - assert (Ir : incl r files) by (intros x H; apply I; right; exact H).
    destruct (r_map s f) eqn:Ef.
    + destruct (IH s V L NB Ir) as [res [E H]]. exists res. split; [exact E | ].
      destruct res as [s' | e]; [ | exact H]. destruct H as [H1 [H2 H3]].
      split; [exact H1 | ]. split; [exact H2 | ]. intros x [<- | X]; [ | apply H3, X].
      apply (later_absent s s' f H2 Ef).
    + destruct (register_spec fuel f s V Ef L) as [res [-> H]].
      { intros b Hb. destruct (NB b Hb). }
      destruct res as [s1 | e]; [ | exists (inr e); split; [reflexivity | exact H]].
      destruct H as [V1 [L1 A1]].
      destruct (IH s1 V1) as [res [E H]].
      * pose proof (later_pending s s1 L1). lia.
      * intros x Hx. apply (proj1 L1) in Hx. apply (NB x Hx).
      * exact Ir.
      * exists res. split; [exact E | ]. destruct res as [s' | e]; [ | exact H].
        destruct H as [H1 [H2 H3]]. split; [exact H1 | ].
        split; [apply (later_trans s s1 s'); assumption | ].
        intros x [<- | X]; [ | apply H3, X]. apply (later_absent s1 s' f H2 A1).
    + destruct (NB f Ef).
Qed.

Lemma duplicate_spec : forall l, duplicate l = None <-> NoDup l.
Proof.
  induction l as [ | x r IH]; cbn; [split; [constructor | reflexivity] | ].
  destruct (mem x r) eqn:M.
  - apply mem_iff in M. split; [discriminate | ]. intros N. inversion N; contradiction.
  - apply mem_false in M. rewrite IH. split.
    + intros N. constructor; assumption.
    + intros N. inversion N; assumption.
Qed.

Lemma register_files_spec : forall fuel order, NoDup files -> length files <= fuel ->
  some_order order ->
  exists r, register_files deps valid fuel order done0 files = Some r /\
    match r with
    | inl reg => acyclic deps files /\ (forall f, In f files -> In f reg) /\
        exists new, reg = done0 ++ new /\ NoDup new /\
          (forall f, In f new <-> In f files /\ ~ In f done0) /\
          (forall f, In f new -> valid f = true) /\
          forall l1 f l2, new = l1 ++ f :: l2 -> forall d, In d (deps f) -> In d (done0 ++ l1)
    | inr e => justified e
    end.
Proof.
  intros fuel order N L O. unfold register_files.
  rewrite (proj2 (duplicate_spec files) N).
  set (s0 := {| r_map := fun f => if mem f files then Pending else Absent; r_done := done0 |}).
  assert (V0 : inv s0).
  { split; cbn [r_map r_done].
    - intros f H. destruct (mem f files) eqn:M; [apply mem_iff, M | ]. cbn in H. rewrite M in H. congruence.
    - intros f I E. cbn in E. apply mem_iff in I. rewrite I in E. discriminate E.
    - exists []. split; [symmetry; apply app_nil_r | ]. split; [constructor | ].
      split; [intros f [] | ]. intros l1 f l2 E. destruct l1; discriminate E. }
  assert (Lp : pending s0 <= fuel).
  { unfold pending. enough (forall (P : nat -> bool) l, length (filter P l) <= length l) by
      (specialize (H (fun f => match r_map s0 f with Pending => true | _ => false end) files); lia).
    intros P l. induction l as [ | x r IH]; cbn; [lia | destruct (P x); cbn; lia]. }
  destruct (register_all_spec fuel (order files) s0 V0 Lp) as [r [-> H]].
  - intros x. cbn. destruct (mem x files); discriminate.
  - intros x I. apply (Permutation_in _ (O files)). exact I.
  - destruct r as [s | e]; [ | exists (inr e); split; [reflexivity | exact H]].
    exists (inl (r_done s)). split; [reflexivity | ]. destruct H as [V [La Ab]].
    assert (All : forall f, In f files -> r_map s f = Absent).
    { intros f I. apply Ab. apply (Permutation_in _ (Permutation_sym (O files))). exact I. }
    split; [ | split].
    + intros f C. destruct (path_in f f C) as [I _].
      destruct (v_black s V f I (All f I)) as [_ [X _]]. apply X, C.
    + intros f I. apply (v_black s V f I (All f I)).
    + destruct (v_done s V) as [new [E1 [E2 [E3 E4]]]]. exists new. split; [exact E1 | ].
      split; [exact E2 | ]. split; [ | split; [intros f I; apply (E3 f I) | exact E4]].
      intros f. split; [intros I; split; apply (E3 f I) | ]. intros [I X].
      destruct (v_black s V f I (All f I)) as [Y _]. rewrite E1 in Y. apply in_app_iff in Y.
      destruct Y as [Y | Y]; [destruct (X Y) | exact Y].
Qed.

(** ** Resolution *)

Hypothesis Acyclic : acyclic deps files.
Hypothesis FilesNoDup : NoDup files.

Definition kn (f : nat) : bool := mem f files.

Definition resolved_ok (s : list nat) : Prop :=
  NoDup s /\ ordered deps (fun d => In d files) s /\ incl s files.

Lemma resolve_file_spec : forall fuel f s anc, NoDup anc -> incl anc files ->
  (forall a, In a anc -> path deps files a f) -> In f files -> resolved_ok s ->
  length files < fuel + length anc ->
  exists s', resolve_file deps kn fuel f s = Some s' /\ resolved_ok s' /\ incl s s' /\ In f s' /\
    (forall g, In g s' -> In g s \/ g = f \/ path deps files f g).
Proof.
  induction fuel as [ | k IH]; intros f s anc Na Ia Pa If Ok L.
  { exfalso. pose proof (NoDup_incl_length Na Ia). lia. }
  assert (Nf : ~ In f anc) by (intros H; apply (Acyclic f); apply Pa, H).
  assert (Na' : NoDup (f :: anc)) by (constructor; assumption).
  assert (Ia' : incl (f :: anc) files) by (intros x [<- | X]; [exact If | apply Ia, X]).
  cbn [resolve_file]. destruct (mem f s) eqn:M.
  { apply mem_iff in M. exists s. split; [reflexivity | ]. split; [exact Ok | ].
    split; [apply incl_refl | ]. split; [exact M | intros g H; left; exact H]. }
  apply mem_false in M.
  assert (X : forall ds t, incl ds (deps f) -> resolved_ok t ->
    exists t', (fix go (ds : list nat) (s : list nat) : option (list nat) :=
           match ds with
           | [] => Some s
           | d :: r =>
               if kn d then
                 match resolve_file deps kn k d s with Some s' => go r s' | None => None end
               else go r s
           end) ds t = Some t' /\ resolved_ok t' /\ incl t t' /\
      (forall d, In d ds -> In d files -> In d t') /\
      (forall g, In g t' -> In g t \/ path deps files f g)).
  { induction ds as [ | d r IHr]; intros t I Okt.
    - exists t. split; [reflexivity | ]. split; [exact Okt | ]. split; [apply incl_refl | ].
      split; [intros d [] | intros g H; left; exact H].
    - assert (Id : In d (deps f)) by (apply I; left; reflexivity).
      assert (Ir : incl r (deps f)) by (intros x H; apply I; right; exact H).
      unfold kn at 1. destruct (mem d files) eqn:Md.
      + apply mem_iff in Md.
        destruct (IH d t (f :: anc) Na' Ia') as [t1 [-> [Ok1 [I1 [D1 P1]]]]].
        * intros a [<- | Ha]; [apply path_one; assumption | ].
          apply path_trans with (g := f); [apply Pa, Ha | apply path_one; assumption].
        * exact Md.
        * exact Okt.
        * cbn [length]. lia.
        * destruct (IHr t1 Ir Ok1) as [t2 [-> [Ok2 [I2 [D2 P2]]]]]. exists t2.
          split; [reflexivity | ]. split; [exact Ok2 | ].
          split; [intros x H; apply I2, I1, H | ]. split.
          -- intros x [<- | H] Hx; [apply I2, D1 | apply D2; assumption].
          -- intros g H. destruct (P2 g H) as [Y | Y]; [ | right; exact Y].
             destruct (P1 g Y) as [Z | [-> | Z]]; [left; exact Z | right; apply path_one; assumption | right].
             apply (path_more deps files f d g If Md Id Z).
      + apply mem_false in Md. destruct (IHr t Ir Okt) as [t2 [E2 [Ok2 [I2 [D2 P2]]]]].
        exists t2. split; [exact E2 | ]. split; [exact Ok2 | ]. split; [exact I2 | ]. split; [ | exact P2].
        intros x [<- | H] Hx; [destruct (Md Hx) | apply D2; assumption]. }
  destruct (X (deps f) s (incl_refl _) Ok) as [t [-> [Okt [It [Dt Pt]]]]].
  exists (t ++ [f]). split; [reflexivity | ].
  assert (Ft : ~ In f t).
  { intros H. destruct (Pt f H) as [Y | Y]; [apply M, Y | apply (Acyclic f Y)]. }
  split; [ | split; [ | split]].
  - destruct Okt as [O1 [O2 O3]]. split; [apply nodup_snoc; assumption | ]. split.
    + apply ordered_snoc; [exact O2 | exact Dt].
    + intros x H. apply in_app_iff in H. destruct H as [H | [<- | []]]; [apply O3, H | exact If].
  - apply incl_appl. exact It.
  - apply in_app_iff. right. left. reflexivity.
  - intros g H. apply in_app_iff in H. destruct H as [H | [<- | []]].
    + destruct (Pt g H) as [Y | Y]; [left; exact Y | right; right; exact Y].
    + right. left. reflexivity.
Qed.

Lemma resolve_files_spec : forall fuel fs s, length files < fuel -> incl fs files -> resolved_ok s ->
  exists s', resolve_files deps kn fuel fs s = Some s' /\ resolved_ok s' /\ incl s s' /\ incl fs s'.
Proof.
  intros fuel fs. induction fs as [ | f r IH]; intros s L I Ok; cbn [resolve_files].
  - exists s. split; [reflexivity | ]. split; [exact Ok | ]. split; [apply incl_refl | intros x []].
  - destruct (resolve_file_spec fuel f s [] (NoDup_nil _)) as [s1 [-> [O1 [I1 [F1 _]]]]].
    + intros x [].
    + intros a [].
    + apply I. left. reflexivity.
    + exact Ok.
    + cbn. lia.
    + destruct (IH s1 L) as [s2 [-> [O2 [I2 F2]]]];
        [intros x H; apply I; right; exact H | exact O1 | ].
      exists s2. split; [reflexivity | ]. split; [exact O2 | ].
      split; [intros x H; apply I2, I1, H | ].
      intros x [<- | H]; [apply I2, F1 | apply F2, H].
Qed.

End Registration.

(** ** The result *)

Section Result.
Variable ruled : nat -> bool.
Variable package : nat -> list nat.

Lemma append_new_spec : forall l ret, NoDup ret ->
  NoDup (append_new l ret) /\ forall x, In x (append_new l ret) <-> In x ret \/ In x l.
Proof.
  induction l as [ | f r IH]; intros ret N; cbn [append_new].
  - split; [exact N | ]. intros x. split; [intros H; left; exact H | intros [H | []]; exact H].
  - destruct (mem f ret) eqn:M.
    + apply mem_iff in M. destruct (IH ret N) as [A B]. split; [exact A | ]. intros x. rewrite B. split.
      * intros [H | H]; [left; exact H | right; right; exact H].
      * intros [H | [<- | H]]; [left; exact H | left; exact M | right; exact H].
    + apply mem_false in M. destruct (IH (ret ++ [f]) (nodup_snoc _ _ _ N M)) as [A B].
      split; [exact A | ]. intros x. rewrite B, in_app_iff. cbn. split.
      * intros [[H | [H | []]] | H]; [left; exact H | right; left; exact H | right; right; exact H].
      * intros [H | [H | H]]; [left; left; exact H | left; right; left; exact H | right; exact H].
Qed.

(** The files of a package are one list, whichever of them it is asked for. *)
Hypothesis Package : forall f g, In g (package f) -> package g = package f.

Lemma result_spec : forall fs ret, NoDup ret ->
  (forall f g, In f ret -> In g (package f) -> In g ret) ->
  NoDup (result package fs ret) /\
  forall x, In x (result package fs ret) <-> In x ret \/ exists f, In f fs /\ (x = f \/ In x (package f)).
Proof.
  induction fs as [ | f r IH]; intros ret N C; cbn [result].
  - split; [exact N | ]. intros x. split; [intros H; left; exact H | intros [H | [f [[] _]]]; exact H].
  - destruct (mem f ret) eqn:M.
    + apply mem_iff in M. destruct (IH ret N C) as [A B]. split; [exact A | ]. intros x. rewrite B. split.
      * intros [H | [g [I H]]]; [left; exact H | right; exists g; split; [right; exact I | exact H]].
      * intros [H | [g [[<- | I] H]]]; [left; exact H | | right; exists g; split; assumption].
        left. destruct H as [-> | H]; [exact M | apply (C f x M H)].
    + apply mem_false in M.
      destruct (append_new_spec (same_package package f) (ret ++ [f]) (nodup_snoc _ _ _ N M)) as [A B].
      assert (SP : forall x, In x (same_package package f) <-> In x (package f) /\ x <> f).
      { intros x. unfold same_package. rewrite filter_In, negb_true_iff, Nat.eqb_neq. tauto. }
      assert (B' : forall x, In x (append_new (same_package package f) (ret ++ [f])) <->
                In x ret \/ x = f \/ In x (package f)).
      { intros x. rewrite B, in_app_iff, SP. cbn. split.
        - intros [[H | [H | []]] | [H _]]; [left; exact H | right; left; symmetry; exact H | right; right; exact H].
        - intros [H | [-> | H]]; [left; left; exact H | left; right; left; reflexivity | ].
          destruct (Nat.eq_dec x f) as [-> | D]; [left; right; left; reflexivity | right; split; assumption]. }
      destruct (IH _ A) as [A2 B2].
      * intros g h Hg Hh. apply B'. apply B' in Hg. destruct Hg as [Hg | [-> | Hg]].
        -- left. apply (C g h Hg Hh).
        -- right. right. exact Hh.
        -- right. right. rewrite <- (Package f g Hg). exact Hh.
      * split; [exact A2 | ]. intros x. rewrite B2, B'. split.
        -- intros [[H | H] | [g [I H]]]; [left; exact H | right; exists f | right; exists g].
           ++ split; [left; reflexivity | exact H].
           ++ split; [right; exact I | exact H].
        -- intros [H | [g [[<- | I] H]]]; [left; left; exact H | left; right; exact H | ].
           right. exists g. split; assumption.
Qed.

End Result.

(** ** Why registration comes first *)

Section Cyclic.
Variable deps : nat -> list nat.
Variable files : list nat.

Definition clean (s : list nat) : Prop := forall g, In g s -> ~ cycle deps files g.

Lemma resolve_file_clean : forall fuel f s s', clean s ->
  resolve_file deps (fun x => mem x files) fuel f s = Some s' ->
  clean s' /\ In f s' /\ incl s s'.
Proof.
  induction fuel as [ | k IH]; intros f s s' C E; [discriminate E | ]. cbn [resolve_file] in E.
  destruct (mem f s) eqn:M.
  { injection E as <-. apply mem_iff in M. split; [exact C | split; [exact M | apply incl_refl]]. }
  set (go := fix go (ds s : list nat) {struct ds} : option (list nat) :=
           match ds with
           | [] => Some s
           | d :: r =>
               if mem d files then
                 match resolve_file deps (fun x => mem x files) k d s with
                 | Some s' => go r s' | None => None end
               else go r s
           end) in E.
  assert (X : forall ds t t', clean t -> go ds t = Some t' ->
    clean t' /\ incl t t' /\ forall d, In d ds -> In d files -> In d t').
  { induction ds as [ | d r IHr]; intros t t' Ct Et; cbn in Et.
    - injection Et as <-. split; [exact Ct | ]. split; [apply incl_refl | intros d []].
    - destruct (mem d files) eqn:Md.
      + destruct (resolve_file deps (fun x => mem x files) k d t) as [t1 | ] eqn:E1; [ | discriminate Et].
        destruct (IH d t t1 Ct E1) as [C1 [D1 I1]].
        destruct (IHr t1 t' C1 Et) as [C2 [I2 D2]]. split; [exact C2 | ].
        split; [intros x H; apply I2, I1, H | ].
        intros x [<- | H] Hx; [apply I2, D1 | apply D2; assumption].
      + apply mem_false in Md. destruct (IHr t t' Ct Et) as [C2 [I2 D2]]. split; [exact C2 | ].
        split; [exact I2 | ]. intros x [<- | H] Hx; [destruct (Md Hx) | apply D2; assumption]. }
  destruct (go (deps f) s) as [t | ] eqn:Eg; [ | discriminate E]. injection E as <-.
  destruct (X (deps f) s t C Eg) as [Ct [It Dt]].
  split; [ | split; [apply in_app_iff; right; left; reflexivity | apply incl_appl; exact It]].
  intros g H. apply in_app_iff in H. destruct H as [H | [<- | []]]; [apply Ct, H | ].
  intros Cy. destruct (path_first deps files f f Cy) as [d [D1 [D2 D3]]].
  pose proof (Dt d D1 D2) as Hd. apply (Ct d Hd).
  destruct D3 as [-> | D3]; [exact Cy | ]. destruct (path_in deps files f f Cy) as [If _].
  apply path_trans with (g := f); [exact D3 | apply path_one; assumption].
Qed.

Lemma resolve_file_cyclic : forall fuel f, cycle deps files f ->
  resolve_file deps (fun x => mem x files) fuel f [] = None.
Proof.
  intros fuel f C. destruct (resolve_file deps (fun x => mem x files) fuel f []) as [s | ] eqn:E;
    [ | reflexivity].
  destruct (resolve_file_clean fuel f [] s) as [Cs [If _]]; [intros g [] | exact E | ].
  destruct (Cs f If C).
Qed.

End Cyclic.
