(** * Proofs about variables of shared messages *)

From Coq Require Import String List Bool Arith Lia Permutation.
From Verif.Shared Require Import Model Spec.
Import ListNotations.

(** ** Lookups *)

Lemma find_fst : forall (A : Type) n (l : list (string * A)) p,
  find (fun p => String.eqb (fst p) n) l = Some p -> In p l /\ fst p = n.
Proof.
  intros A n l p H. apply find_some in H. destruct H as [I E].
  apply String.eqb_eq in E. split; assumption.
Qed.

Lemma lookup_none : forall (A : Type) n (l : list (string * A)),
  lookup n l = None <-> ~ In n (map fst l).
Proof.
  intros A n l. unfold lookup.
  destruct (find (fun p => String.eqb (fst p) n) (rev l)) as [[k v] | ] eqn:E.
  - split; [discriminate | ]. intros H. exfalso. apply H.
    apply find_fst in E. destruct E as [I E]. cbn in E. subst k.
    apply in_rev in I. apply (in_map fst) in I. exact I.
  - split; [ | reflexivity]. intros _ H. apply in_map_iff in H.
    destruct H as [[k v] [Ek I]]. cbn in Ek. subst k.
    assert (X := find_none _ _ E (n, v)). cbn in X. rewrite String.eqb_refl in X.
    apply in_rev in I. specialize (X I). discriminate X.
Qed.

Lemma lookup_in : forall (A : Type) n (l : list (string * A)) v,
  lookup n l = Some v -> In (n, v) l.
Proof.
  intros A n l v H. unfold lookup in H.
  destruct (find (fun p => String.eqb (fst p) n) (rev l)) as [[k w] | ] eqn:E; [ | discriminate].
  injection H as ->. apply find_fst in E. destruct E as [I E]. cbn in E. subst k.
  apply in_rev. exact I.
Qed.

Lemma nodup_fst : forall (A : Type) (l : list (string * A)) n v w,
  NoDup (map fst l) -> In (n, v) l -> In (n, w) l -> v = w.
Proof.
  intros A l n v w N. induction l as [ | [k x] r IH]; intros H1 H2; [destruct H1 | ].
  cbn in N. inversion N as [ | ? ? N1 N2]; subst.
  destruct H1 as [H1 | H1], H2 as [H2 | H2].
  - congruence.
  - injection H1 as -> ->. exfalso. apply N1. apply (in_map fst) in H2. exact H2.
  - injection H2 as -> ->. exfalso. apply N1. apply (in_map fst) in H1. exact H1.
  - apply IH; assumption.
Qed.

Lemma lookup_iff : forall (A : Type) n (l : list (string * A)) v,
  NoDup (map fst l) -> (lookup n l = Some v <-> In (n, v) l).
Proof.
  intros A n l v N. split; [apply lookup_in | ]. intros H.
  destruct (lookup n l) as [w | ] eqn:E.
  - apply lookup_in in E. rewrite (nodup_fst _ _ _ _ _ N E H). reflexivity.
  - exfalso. apply lookup_none in E. apply E. apply (in_map fst) in H. exact H.
Qed.

(** ** Comparing types *)

Section Same.
Variable F : fields.
Variable rank : nat -> nat.
Hypothesis ND : forall m, NoDup (map fst (F m)).
Hypothesis Rank : forall m n t m', In (n, t) (F m) -> ty_message t = Some m' ->
  rank m' < rank m.

Definition measure (t : type) : nat :=
  match ty_message t with Some m => S (rank m) | None => 0 end.

Lemma kind_eqb_spec : forall a b, kind_eqb a b = true <-> a = b.
Proof.
  intros [x | | ] [y | | ]; cbn; split; intros H; try discriminate; try reflexivity.
  - apply Nat.eqb_eq in H. congruence.
  - injection H as ->. apply Nat.eqb_refl.
Qed.

Lemma all_same_spec : forall same (P : type -> type -> Prop) lf rf,
  (forall n t t', In (n, t) lf -> In (n, t') rf ->
     exists b, same t t' = Some b /\ (b = true <-> P t t')) ->
  NoDup (map fst lf) ->
  exists b, all_same same lf rf = Some b /\
    (b = true <->
     (forall n, In n (map fst rf) -> In n (map fst lf)) /\
     (forall n t t', In (n, t) lf -> In (n, t') rf -> P t t')).
Proof.
  intros same P lf rf H N. induction rf as [ | [n t] r IH]; cbn.
  - exists true. split; [reflexivity | ]. split; [ | reflexivity]. intros _.
    split; [intros n [] | intros n t t' _ []].
  - destruct (lookup n lf) as [t' | ] eqn:E.
    + apply lookup_in in E. destruct (H n t' t E (or_introl eq_refl)) as [b [Eb Hb]].
      rewrite Eb. destruct b.
      * destruct IH as [b [Er Hr]].
        { intros k x x' Hx Hx'. apply (H k); [exact Hx | right; exact Hx']. }
        exists b. split; [exact Er | ]. rewrite Hr. split.
        -- intros [A B]. split.
           ++ intros k [-> | Hk]; [apply (in_map fst) in E; exact E | apply A, Hk].
           ++ intros k x x' Hx [Hx' | Hx']; [ | apply (B k); assumption].
              injection Hx' as -> ->. rewrite (nodup_fst _ _ _ _ _ N Hx E). apply Hb. reflexivity.
        -- intros [A B]. split.
           ++ intros k Hk. apply A. right. exact Hk.
           ++ intros k x x' Hx Hx'. apply (B k); [exact Hx | right; exact Hx'].
      * exists false. split; [reflexivity | ]. split; [discriminate | ].
        intros [_ B]. apply Hb. apply (B n); [exact E | left; reflexivity].
    + exists false. split; [reflexivity | ]. split; [discriminate | ].
      intros [A _]. exfalso. apply lookup_none in E. apply E, A. left. reflexivity.
Qed.

Lemma same_type_spec : forall fuel l r, measure l < fuel ->
  exists b, same_type F fuel l r = Some b /\ (b = true <-> alike F l r).
Proof.
  induction fuel as [ | fuel IH]; intros l r L; [lia | ]. cbn [same_type].
  destruct (kind_eqb (ty_kind l) (ty_kind r)) eqn:Ek; cbn [negb].
  2: { exists false. split; [reflexivity | ]. split; [discriminate | ]. intros A.
       assert (X : ty_kind l = ty_kind r) by (inversion A; assumption).
       apply kind_eqb_spec in X. congruence. }
  apply kind_eqb_spec in Ek.
  destruct (Bool.eqb (ty_repeated l) (ty_repeated r)) eqn:Er; cbn [negb].
  2: { exists false. split; [reflexivity | ]. split; [discriminate | ]. intros A.
       assert (X : ty_repeated l = ty_repeated r) by (inversion A; assumption).
       rewrite X in Er. rewrite Bool.eqb_reflx in Er. discriminate Er. }
  apply Bool.eqb_prop in Er.
  destruct (ty_message l) as [ml | ] eqn:El, (ty_message r) as [mr | ] eqn:Em.
  - assert (X : exists b, all_same (same_type F fuel) (F ml) (F mr) = Some b /\
      (b = true <->
        (forall n, In n (map fst (F mr)) -> In n (map fst (F ml))) /\
        (forall n t t', In (n, t) (F ml) -> In (n, t') (F mr) -> alike F t t'))).
    { apply all_same_spec; [ | apply ND]. intros n t t' Ht _. apply IH.
      unfold measure in *. rewrite El in L.
      destruct (ty_message t) as [m' | ] eqn:Et; [ | lia].
      pose proof (Rank ml n t m' Ht Et). lia. }
    destruct (length (F ml) =? length (F mr)) eqn:Len.
    + destruct X as [b [Eb Hb]]. exists b. split; [exact Eb | ]. rewrite Hb. split.
      * intros [A B]. eapply alike_message; try eassumption.
        intros n. split; [ | apply A].
        assert (I : incl (map fst (F ml)) (map fst (F mr))).
        { apply NoDup_length_incl; [apply ND | | exact A].
          rewrite !map_length. apply Nat.eqb_eq in Len. lia. }
        apply I.
      * intros A. inversion A as [? ? _ _ N1 _ | ? ? m1 m2 _ _ N1 N2 A1 A2]; subst; [congruence | ].
        rewrite El in N1. rewrite Em in N2. injection N1 as <-. injection N2 as <-.
        split; [intros n Hn; apply A1, Hn | exact A2].
    + exists false. split; [reflexivity | ]. split; [discriminate | ]. intros A. exfalso.
      inversion A as [? ? _ _ N1 _ | ? ? m1 m2 _ _ N1 N2 A1 A2]; subst; [congruence | ].
      rewrite El in N1. rewrite Em in N2. injection N1 as <-. injection N2 as <-.
      apply Nat.eqb_neq in Len. apply Len.
      rewrite <- (map_length fst (F ml)), <- (map_length fst (F mr)).
      apply Permutation_length, NoDup_Permutation; [apply ND | apply ND | exact A1].
  - exists false. split; [reflexivity | ]. split; [discriminate | ]. intros A. exfalso.
    inversion A; congruence.
  - exists false. split; [reflexivity | ]. split; [discriminate | ]. intros A. exfalso.
    inversion A; congruence.
  - exists true. split; [reflexivity | ]. split; [ | reflexivity]. intros _.
    apply alike_plain; assumption.
Qed.

Lemma alike_sym : forall l r, alike F l r -> alike F r l.
Proof.
  fix IH 3. intros l r H. destruct H as [l r A B C D | l r ml mr A B C D E G].
  - apply alike_plain; congruence.
  - eapply alike_message with (ml := mr) (mr := ml); [congruence | congruence | exact D | exact C | | ].
    + intros n. symmetry. apply E.
    + intros n t t' Ht Ht'. apply IH. apply (G n); assumption.
Qed.

Lemma alike_refl : forall t, alike F t t.
Proof.
  intros t. remember (measure t) as k eqn:E. assert (L : measure t <= k) by lia. clear E.
  revert t L. induction k as [ | k IH]; intros t L; unfold measure in L;
    destruct (ty_message t) as [m | ] eqn:Et; try lia;
    try (apply alike_plain; [reflexivity | reflexivity | exact Et | exact Et]).
  eapply alike_message; [reflexivity | reflexivity | exact Et | exact Et | tauto | ].
  intros n a b Ha Hb. rewrite (nodup_fst _ _ _ _ _ (ND m) Ha Hb). apply IH.
  unfold measure. destruct (ty_message b) as [m' | ] eqn:Eb; [ | lia].
  pose proof (Rank m n b m' Hb Eb). lia.
Qed.

Lemma alike_trans : forall a b c, alike F a b -> alike F b c -> alike F a c.
Proof.
  fix IH 4. intros a b c H K. destruct H as [a b A B C D | a b ma mb A B C D E G].
  - inversion K as [? ? A' B' C' D' | ? ? m1 m2 A' B' C' D' E' G']; subst; [ | congruence].
    apply alike_plain; congruence.
  - inversion K as [? ? A' B' C' D' | ? ? m1 m2 A' B' C' D' E' G']; subst; [congruence | ].
    rewrite D in C'. injection C' as <-.
    eapply alike_message with (ml := ma) (mr := m2);
      [congruence | congruence | exact C | exact D' | | ].
    + intros n. rewrite (E n). apply E'.
    + intros n t t' Ht Ht'.
      assert (X : In n (map fst (F mb))) by (apply E; apply (in_map fst) in Ht; exact Ht).
      apply in_map_iff in X. destruct X as [[k u] [Ek Hu]]. cbn in Ek. subst k.
      apply IH with (b := u); [apply (G n); assumption | apply (G' n); assumption].
Qed.

(** ** Building the message *)

Lemma mismatch_spec : forall fuel t l, measure t < fuel ->
  exists b, mismatch F fuel t l = Some b /\
    (b = true <-> exists p, In p l /\ ~ alike F t (snd p)).
Proof.
  intros fuel t l L. induction l as [ | [s t'] r IH]; cbn.
  - exists false. split; [reflexivity | ]. split; [discriminate | intros [p [[] _]]].
  - destruct (same_type_spec fuel t t' L) as [b [Eb Hb]]. rewrite Eb. destruct b.
    + destruct IH as [b [Er Hr]]. exists b. split; [exact Er | ]. rewrite Hr. split.
      * intros [p [I N]]. exists p. split; [right; exact I | exact N].
      * intros [p [[<- | I] N]]; [ | exists p; split; assumption].
        exfalso. apply N. apply Hb. reflexivity.
    + exists true. split; [reflexivity | ]. split; [ | reflexivity]. intros _.
      exists (s, t'). split; [left; reflexivity | ]. intros A. apply Hb in A. discriminate A.
Qed.

Lemma declared_spec : forall n l,
  match declared n l with
  | None => exists s, In s l /\ lookup n (vars_of s) = None
  | Some d => map fst d = l /\ forall s t, In (s, t) d -> lookup n (vars_of s) = Some t
  end.
Proof.
  intros n l. induction l as [ | s r IH]; cbn.
  - split; [reflexivity | intros s t []].
  - destruct (lookup n (vars_of s)) as [t | ] eqn:E.
    + destruct (declared n r) as [d | ].
      * destruct IH as [A B]. split; [cbn; rewrite A; reflexivity | ].
        intros s' t' [H | H]; [injection H as <- <-; exact E | apply B, H].
      * destruct IH as [s' [A B]]. exists s'. split; [right; exact A | exact B].
    + exists s. split; [left; reflexivity | exact E].
Qed.

Definition bounded (fuel : nat) (l : list service) : Prop :=
  forall s n t, In s l -> lookup n (vars_of s) = Some t -> measure t < fuel.

Lemma build_spec : forall fuel l ns, bounded fuel l -> NoDup ns -> l <> [] ->
  exists vs es, build F fuel l ns = Some (vs, es) /\
    NoDup (map fst vs) /\
    (forall n, In n (map fst vs) <->
       In n ns /\ forall s, In s l -> lookup n (vars_of s) <> None) /\
    (forall n t, In (n, t) vs -> exists s, In s l /\ lookup n (vars_of s) = Some t) /\
    (forall n, In n (map fst es) <->
       In n ns /\ (forall s, In s l -> lookup n (vars_of s) <> None) /\
       exists s s' t t', In s l /\ In s' l /\ lookup n (vars_of s) = Some t /\
         lookup n (vars_of s') = Some t' /\ ~ alike F t t').
Proof.
  intros fuel l ns B N NE. induction ns as [ | n r IH].
  - exists [], []. split; [reflexivity | ]. split; [constructor | ].
    split; [intros n; cbn; tauto | ]. split; [intros n t [] | ]. intros n; cbn; tauto.
  - inversion N as [ | ? ? N1 N2]; subst. cbn [build].
    destruct (IH N2) as [vs [es [E [V1 [V2 [V3 V4]]]]]]. clear IH.
    pose proof (declared_spec n l) as D. destruct (declared n l) as [d | ].
    2: { destruct D as [s0 [I0 L0]]. exists vs, es. split; [exact E | ]. split; [exact V1 | ].
         split; [ | split; [exact V3 | ]].
         - intros k. rewrite V2. split; [intros [A C]; split; [right; exact A | exact C] | ].
           intros [[<- | A] C]; [exfalso; apply (C s0 I0 L0) | split; assumption].
         - intros k. rewrite V4. split; [intros [A C]; split; [right; exact A | exact C] | ].
           intros [[<- | A] [C C']]; [exfalso; apply (C s0 I0 L0) | split; [exact A | split; assumption]]. }
    destruct D as [D1 D2]. destruct d as [ | [s t] d]; [cbn in D1; congruence | ].
    assert (Hs : In s l /\ lookup n (vars_of s) = Some t).
    { split; [rewrite <- D1; left; reflexivity | apply D2; left; reflexivity]. }
    destruct Hs as [Hs Ht].
    destruct (mismatch_spec fuel t d (B s n t Hs Ht)) as [b [Eb Hb]].
    rewrite Eb, E.
    assert (All : forall s', In s' l -> lookup n (vars_of s') <> None).
    { intros s' I. rewrite <- D1 in I. apply in_map_iff in I. destruct I as [[s1 t1] [<- I]].
      cbn [fst]. rewrite (D2 s1 t1 I). discriminate. }
    assert (Diff : (b = true <-> exists s1 s2 t1 t2, In s1 l /\ In s2 l /\
              lookup n (vars_of s1) = Some t1 /\ lookup n (vars_of s2) = Some t2 /\
              ~ alike F t1 t2)).
    { rewrite Hb. split.
      - intros [[s' t'] [I X]]. exists s, s', t, t'. split; [exact Hs | ].
        split; [rewrite <- D1; right; apply (in_map fst) in I; exact I | ].
        split; [exact Ht | ]. split; [apply D2; right; exact I | exact X].
      - intros [s1 [s2 [t1 [t2 [I1 [I2 [L1 [L2 X]]]]]]]].
        assert (P : forall s0 t0, In s0 l -> lookup n (vars_of s0) = Some t0 ->
          alike F t t0 \/ exists p, In p d /\ ~ alike F t (snd p)).
        { intros s0 t0 I0 L0. rewrite <- D1 in I0. apply in_map_iff in I0.
          destruct I0 as [[s3 t3] [E3 I3]]. cbn in E3. subst s3.
          pose proof (D2 s0 t3 I3) as L3. rewrite L0 in L3. injection L3 as <-.
          destruct I3 as [I3 | I3].
          - injection I3 as -> ->. left. apply alike_refl.
          - destruct (same_type_spec fuel t t0 (B s n t Hs Ht)) as [b0 [_ Hb0]].
            destruct b0; [left; apply Hb0; reflexivity | right].
            exists (s0, t0). split; [exact I3 | ]. intros A. apply Hb0 in A. discriminate A. }
        destruct (P s1 t1 I1 L1) as [A1 | A1]; [ | exact A1].
        destruct (P s2 t2 I2 L2) as [A2 | A2]; [ | exact A2].
        exfalso. apply X. apply alike_trans with (b := t); [apply alike_sym, A1 | exact A2]. }
    exists ((n, t) :: vs),
      (if b then (n, map (fun p => sv_name (fst p)) ((s, t) :: d)) :: es else es).
    split; [reflexivity | ]. split.
    { cbn. constructor; [ | exact V1]. intros I. apply V2 in I. apply N1, I. }
    split; [ | split].
    + intros k. cbn. rewrite V2. split.
      * intros [<- | [A C]]; [split; [left; reflexivity | exact All] | ].
        split; [right; exact A | exact C].
      * intros [[<- | A] C]; [left; reflexivity | right; split; assumption].
    + intros k u [H | H]; [ | apply V3, H]. injection H as <- <-. exists s. split; assumption.
    + intros k. destruct b; cbn; rewrite ?V4.
      * split.
        -- intros [<- | [A C]]; [ | split; [right; exact A | exact C]].
           split; [left; reflexivity | ]. split; [exact All | apply Diff; reflexivity].
        -- intros [[<- | A] C]; [left; reflexivity | right; split; assumption].
      * split; [intros [A C]; split; [right; exact A | exact C] | ].
        intros [[<- | A] [C C']]; [ | split; [exact A | split; assumption]].
        apply Diff in C'. discriminate C'.
Qed.

Lemma bounded_exists : forall l, exists N, forall fuel, N <= fuel -> bounded fuel l.
Proof.
  intros l. induction l as [ | s r IH].
  - exists 0. intros fuel _ s n t [].
  - destruct IH as [N H]. exists (S (list_max (map (fun p => measure (snd p)) (vars_of s))) + N).
    intros fuel L s' n t [<- | I] E; [ | apply (H fuel) with (s := s') (n := n); [lia | exact I | exact E]].
    apply lookup_in in E.
    pose proof (list_max_le (map (fun p => measure (snd p)) (vars_of s))
                  (list_max (map (fun p => measure (snd p)) (vars_of s)))) as [X _].
    specialize (X (Nat.le_refl _)). rewrite Forall_forall in X.
    specialize (X _ (in_map (fun p => measure (snd p)) _ _ E)). cbn in X. lia.
Qed.

End Same.

Lemma declares_lookup : forall s n t, distinct_names s ->
  (lookup n (vars_of s) = Some t <-> declares s n t).
Proof.
  intros s n t D. unfold vars_of, declares. destruct (sv_vars s) as [l | ] eqn:E.
  - rewrite lookup_iff by (apply (D l E)). split.
    + intros H. exists l. split; [reflexivity | exact H].
    + intros [l' [E' H]]. injection E' as <-. exact H.
  - split; [discriminate | intros [l [H _]]; discriminate].
Qed.

(** An error lists all services. *)
Lemma build_services : forall F fuel l ns vs es, build F fuel l ns = Some (vs, es) ->
  forall n ks, In (n, ks) es -> ks = map sv_name l.
Proof.
  intros F fuel l ns. induction ns as [ | n r IH]; intros vs es E k ks I.
  - injection E as <- <-. destruct I.
  - cbn [build] in E. pose proof (declared_spec n l) as D.
    destruct (declared n l) as [[ | [s t] d] | ]; try (apply (IH _ _ E k ks I)).
    destruct (mismatch F fuel t d) as [b | ]; [ | discriminate E].
    destruct (build F fuel l r) as [[vs' es'] | ]; [ | discriminate E].
    injection E as <- <-. destruct b; [ | apply (IH vs' es' eq_refl k ks I)].
    destruct I as [I | I]; [ | apply (IH vs' es' eq_refl k ks I)].
    destruct D as [D _]. injection I as _ <-. rewrite <- D. cbn [map fst].
    rewrite map_map. reflexivity.
Qed.
