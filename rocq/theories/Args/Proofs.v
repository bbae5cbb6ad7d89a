(** * Proofs about the arguments of messages *)

From Coq Require Import String List Bool Arith Lia.
From Verif.Args Require Import Model Spec.
Import ListNotations.

(** ** Types *)

Lemma kind_eqb_iff : forall a b, kind_eqb a b = true <->
  a = b \/ exists m m', a = KMessage m /\ b = KMessage m'.
Proof.
  intros [x | | x | | x] [y | | y | | y]; cbn; split; intros H; try discriminate H;
    try (left; reflexivity); try reflexivity;
    try (apply Nat.eqb_eq in H; left; congruence);
    try (right; exists x, y; split; reflexivity);
    try (destruct H as [H | [m [m' [H H']]]]; try discriminate H; try discriminate H';
         injection H as ->; apply Nat.eqb_refl).
Qed.

Lemma is_number_iff : forall t, is_number t = true <-> exists x, ty_kind t = KNumber x.
Proof.
  intros [k r nl]. unfold is_number. cbn. destruct k as [x | | x | | x]; split; intros H;
    try discriminate H; try reflexivity; try (destruct H as [y H]; discriminate H).
  exists x. reflexivity.
Qed.

Lemma compatible_iff : forall a b, is_different a b = false <-> compatible a b.
Proof.
  intros a b. unfold is_different, compatible.
  destruct (is_number a && is_number b) eqn:E1.
  { split; [ | reflexivity]. intros _. apply andb_true_iff in E1. destruct E1 as [A B].
    apply is_number_iff in A. apply is_number_iff in B. destruct A as [x A], B as [y B].
    left. exists x, y. split; assumption. }
  destruct (kind_eqb (ty_kind a) KEnum && is_number b) eqn:E2.
  { split; [ | reflexivity]. intros _. apply andb_true_iff in E2. destruct E2 as [A B].
    apply is_number_iff in B. apply kind_eqb_iff in A.
    destruct A as [A | [m [m' [_ A]]]]; [ | discriminate A]. right. left. split; assumption. }
  destruct (ty_null a && (ty_repeated b || kind_eqb (ty_kind b) (KMessage 0)
              || kind_eqb (ty_kind b) KBytes)) eqn:E3.
  { split; [ | reflexivity]. intros _. apply andb_true_iff in E3. destruct E3 as [A B].
    right. right. left. split; [exact A | ].
    apply orb_true_iff in B. destruct B as [B | B].
    - apply orb_true_iff in B. destruct B as [B | B]; [left; exact B | right; left].
      apply kind_eqb_iff in B. destruct B as [B | [m [m' [B _]]]]; [exists 0 | exists m]; exact B.
    - right. right. apply kind_eqb_iff in B.
      destruct B as [B | [m [m' [_ B]]]]; [exact B | discriminate B]. }
  split.
  - intros H. apply negb_false_iff in H. apply kind_eqb_iff in H.
    right. right. right. exact H.
  - intros [[x [y [A B]]] | [[A [y B]] | [[A B] | H]]].
    + assert (X : is_number a && is_number b = true); [ | congruence].
      apply andb_true_iff. split; apply is_number_iff; [exists x | exists y]; assumption.
    + assert (X : kind_eqb (ty_kind a) KEnum && is_number b = true); [ | congruence].
      apply andb_true_iff. split; [rewrite A; reflexivity | apply is_number_iff; exists y; exact B].
    + rewrite A in E3. cbn [andb] in E3. apply orb_false_iff in E3. destruct E3 as [E3 E4].
      apply orb_false_iff in E3. destruct E3 as [E3 E5].
      destruct B as [B | [[m B] | B]]; [congruence | | ].
      * rewrite B in E5. discriminate E5.
      * rewrite B in E4. discriminate E4.
    + apply negb_false_iff. apply kind_eqb_iff. exact H.
Qed.

Lemma not_compatible_iff : forall a b, is_different a b = true <-> ~ compatible a b.
Proof.
  intros a b. rewrite <- compatible_iff. destruct (is_different a b); split; intros H;
    try reflexivity; try discriminate; congruence.
Qed.

Lemma compatible_refl : forall t, compatible t t.
Proof. intros t. right. right. right. left. reflexivity. Qed.

(** ** Lists of fields *)

Definition good (ev : list field) : Prop := NoDup (map fst ev) /\ named ev.

Lemma look_none : forall n ev, look n ev = None <-> ~ In n (map fst ev).
Proof.
  intros n ev. unfold look.
  destruct (find (fun p => String.eqb (fst p) n) (rev ev)) as [[k v] | ] eqn:E.
  - split; [discriminate | ]. intros H. exfalso. apply H. apply find_some in E.
    destruct E as [I E]. cbn in E. apply String.eqb_eq in E. subst k. apply in_rev in I.
    apply (in_map fst) in I. exact I.
  - split; [ | reflexivity]. intros _ H. apply in_map_iff in H.
    destruct H as [[k v] [Ek I]]. cbn in Ek. subst k. apply in_rev in I.
    pose proof (find_none _ _ E _ I) as X. cbn in X. rewrite String.eqb_refl in X. discriminate X.
Qed.

Lemma look_some : forall n ev t, look n ev = Some t -> In (n, t) ev.
Proof.
  intros n ev t H. unfold look in H.
  destruct (find (fun p => String.eqb (fst p) n) (rev ev)) as [[k v] | ] eqn:E; [ | discriminate H].
  injection H as ->. apply find_some in E. destruct E as [I E]. cbn in E.
  apply String.eqb_eq in E. subst k. apply in_rev. exact I.
Qed.

Lemma good_unique : forall ev n t t', good ev -> In (n, t) ev -> In (n, t') ev -> t = t'.
Proof.
  intros ev n t t' [N _]. induction ev as [ | [k x] r IH]; intros H1 H2; [destruct H1 | ].
  cbn in N. inversion N as [ | ? ? N1 N2]; subst.
  destruct H1 as [H1 | H1], H2 as [H2 | H2].
  - congruence.
  - injection H1 as -> ->. exfalso. apply N1. apply (in_map fst) in H2. exact H2.
  - injection H2 as -> ->. exfalso. apply N1. apply (in_map fst) in H1. exact H1.
  - apply IH; assumption.
Qed.

Lemma good_snoc : forall ev n t, good ev -> n <> ""%string -> ~ In n (map fst ev) ->
  good (ev ++ [(n, t)]).
Proof.
  intros ev n t [N M] E H. unfold good, named in *. rewrite map_app. cbn [map fst]. split.
  - induction ev as [ | [k x] r IH]; cbn in *.
    + constructor; [intros [] | constructor].
    + inversion N as [ | ? ? N1 N2]; subst. constructor.
      * rewrite in_app_iff. intros [X | [X | []]]; [apply N1, X | ].
        apply H. left. symmetry. exact X.
      * apply IH; [exact N2 | intros X; apply M; right; exact X | intros X; apply H; right; exact X].
  - rewrite in_app_iff. intros [X | [X | []]]; [apply M, X | apply E, X].
Qed.

(** ** Growing a list of fields *)

Definition passed := string -> type -> Prop.

(** [ev'] extends [ev] by what is passed. *)
Record grow (ev ev' : list field) (P : passed) : Prop := {
  g_incl : incl ev ev';
  g_good : good ev';
  g_names : forall n, In n (map fst ev') <-> In n (map fst ev) \/ exists t, P n t;
  g_origin : forall n t, In (n, t) ev' -> In (n, t) ev \/ P n t
}.

(** Without errors all that is passed is compatible. *)
Definition checked (ev' : list field) (es : list error) (P : passed) : Prop :=
  (forall n, ~ In (EDifferent n) es) ->
  forall n t, P n t -> exists t0, In (n, t0) ev' /\ compatible t0 t.

(** Errors are about something passed. *)
Definition sound (ev' : list field) (es : list error) (P : passed) : Prop :=
  forall n, In (EDifferent n) es ->
    exists t t0, P n t /\ In (n, t0) ev' /\ ~ compatible t0 t.

Definition either (P Q : passed) : passed := fun n t => P n t \/ Q n t.

Lemma grow_refl : forall ev, good ev -> grow ev ev (fun _ _ => False).
Proof.
  intros ev G. split; [apply incl_refl | exact G | | ].
  - intros n. split; [intros H; left; exact H | ]. intros [H | [t []]]. exact H.
  - intros n t H. left. exact H.
Qed.

Lemma grow_trans : forall a b c P Q, grow a b P -> grow b c Q -> grow a c (either P Q).
Proof.
  intros a b c P Q [I1 G1 N1 O1] [I2 G2 N2 O2]. split.
  - intros x X. apply I2, I1, X.
  - exact G2.
  - intros n. rewrite N2, N1. unfold either. split.
    + intros [[H | [t H]] | [t H]]; [left; exact H | right | right];
        exists t; [left | right]; exact H.
    + intros [H | [t [H | H]]]; [left; left; exact H | left; right | right]; exists t; exact H.
  - intros n t H. unfold either. destruct (O2 n t H) as [X | X]; [ | right; right; exact X].
    destruct (O1 n t X) as [Y | Y]; [left; exact Y | right; left; exact Y].
Qed.

Lemma grow_ext : forall a b P Q, (forall n t, P n t <-> Q n t) -> grow a b P -> grow a b Q.
Proof.
  intros a b P Q E [I G N O]. split; [exact I | exact G | | ].
  - intros n. rewrite N. split; (intros [H | [t H]]; [left; exact H | right; exists t; apply E, H]).
  - intros n t H. destruct (O n t H) as [X | X]; [left; exact X | right; apply E, X].
Qed.

Lemma checked_mono : forall a b es P, incl a b -> checked a es P -> checked b es P.
Proof.
  intros a b es P I H C n t X. destruct (H C n t X) as [t0 [Y Z]]. exists t0.
  split; [apply I, Y | exact Z].
Qed.

Lemma sound_mono : forall a b es P, incl a b -> sound a es P -> sound b es P.
Proof.
  intros a b es P I H n X. destruct (H n X) as [t [t0 [A [B C]]]]. exists t, t0.
  split; [exact A | ]. split; [apply I, B | exact C].
Qed.

Lemma checked_app : forall a es es' P Q, checked a es P -> checked a es' Q ->
  checked a (es ++ es') (either P Q).
Proof.
  intros a es es' P Q H K C n t [X | X]; [apply (H) in X | apply (K) in X]; try exact X;
    intros k Y; apply (C k); apply in_app_iff; [left | right]; exact Y.
Qed.

Lemma sound_app : forall a es es' P Q, sound a es P -> sound a es' Q ->
  sound a (es ++ es') (either P Q).
Proof.
  intros a es es' P Q H K n X. apply in_app_iff in X. destruct X as [X | X].
  - destruct (H n X) as [t [t0 [A B]]]. exists t, t0. split; [left; exact A | exact B].
  - destruct (K n X) as [t [t0 [A B]]]. exists t, t0. split; [right; exact A | exact B].
Qed.

Lemma checked_ext : forall a es P Q, (forall n t, P n t <-> Q n t) -> checked a es P -> checked a es Q.
Proof. intros a es P Q E H C n t X. apply H; [exact C | apply E, X]. Qed.

Lemma sound_ext : forall a es P Q, (forall n t, P n t <-> Q n t) -> sound a es P -> sound a es Q.
Proof.
  intros a es P Q E H n X. destruct (H n X) as [t [t0 [A B]]]. exists t, t0.
  split; [apply E, A | exact B].
Qed.

(** All three at once. *)
Definition step (ev ev' : list field) (es : list error) (P : passed) : Prop :=
  grow ev ev' P /\ checked ev' es P /\ sound ev' es P.

Lemma step_refl : forall ev es, good ev -> (forall n, ~ In (EDifferent n) es) ->
  step ev ev es (fun _ _ => False).
Proof.
  intros ev es G H. split; [apply grow_refl, G | ]. split.
  - intros _ n t [].
  - intros n X. destruct (H n X).
Qed.

Lemma step_trans : forall a b c es es' P Q, step a b es P -> step b c es' Q ->
  step a c (es ++ es') (either P Q).
Proof.
  intros a b c es es' P Q [G [C S]] [G' [C' S']]. split; [apply (grow_trans a b c); assumption | ].
  pose proof (g_incl _ _ _ G') as I. split.
  - apply checked_app; [apply (checked_mono b c); assumption | exact C'].
  - apply sound_app; [apply (sound_mono b c); assumption | exact S'].
Qed.

Lemma step_ext : forall a b es P Q, (forall n t, P n t <-> Q n t) -> step a b es P -> step a b es Q.
Proof.
  intros a b es P Q E [G [C S]]. split; [apply (grow_ext a b P); assumption | ].
  split; [apply (checked_ext b es P); assumption | apply (sound_ext b es P); assumption].
Qed.

(** A known name. *)
Lemma step_known : forall ev n t0 t, good ev -> In (n, t0) ev ->
  step ev ev (if is_different t0 t then [EDifferent n] else []) (fun n' t' => n' = n /\ t' = t).
Proof.
  intros ev n t0 t G I. split; [ | split].
  - split; [apply incl_refl | exact G | | ].
    + intros k. split; [intros H; left; exact H | ]. intros [H | [x [-> ->]]]; [exact H | ].
      apply (in_map fst) in I. exact I.
    + intros k x H. left. exact H.
  - intros C k x [-> ->]. exists t0. split; [exact I | ]. apply compatible_iff.
    destruct (is_different t0 t); [ | reflexivity]. destruct (C n). left. reflexivity.
  - intros k H. destruct (is_different t0 t) eqn:E; [ | destruct H].
    destruct H as [H | []]. injection H as <-. exists t, t0.
    split; [split; reflexivity | ]. split; [exact I | apply not_compatible_iff, E].
Qed.

(** A new name. *)
Lemma step_new : forall ev n t, good ev -> n <> ""%string -> ~ In n (map fst ev) ->
  step ev (ev ++ [(n, t)]) [] (fun n' t' => n' = n /\ t' = t).
Proof.
  intros ev n t G E H. split; [ | split].
  - split.
    + apply incl_appl, incl_refl.
    + apply good_snoc; assumption.
    + intros k. rewrite map_app, in_app_iff. cbn. split.
      * intros [X | [X | []]]; [left; exact X | right; exists t; split; [symmetry; exact X | reflexivity]].
      * intros [X | [x [-> ->]]]; [left; exact X | right; left; reflexivity].
    + intros k x X. apply in_app_iff in X. destruct X as [X | [X | []]]; [left; exact X | right].
      injection X as <- <-. split; reflexivity.
  - intros _ k x [-> ->]. exists t. split; [ | apply compatible_refl].
    apply in_app_iff. right. left. reflexivity.
  - intros k [].
Qed.

Section Args.
Variable F : nat -> list field.
Hypothesis Fnamed : forall m, named (F m).

(** ** One message expression *)

Lemma inline_spec : forall fs ev ev' es, good ev -> named fs ->
  inline_fields ev fs = (ev', es) -> step ev ev' es (fun n t => In (n, t) fs).
Proof.
  induction fs as [ | [n t] r IH]; intros ev ev' es G M E; cbn [inline_fields] in E.
  - injection E as <- <-. apply step_refl; [exact G | intros n []].
  - assert (Mr : named r) by (intros X; apply M; right; exact X).
    assert (Mn : n <> ""%string) by (intros X; apply M; left; exact X).
    destruct (look n ev) as [t0 | ] eqn:L.
    + destruct (inline_fields ev r) as [ev1 es1] eqn:E1. injection E as <- <-.
      pose proof (step_known ev n t0 t G (look_some n ev t0 L)) as S1.
      pose proof (IH ev ev1 es1 G Mr E1) as S2.
      pose proof (step_trans _ _ _ _ _ _ _ S1 S2) as S.
      replace (if is_different t0 t then EDifferent n :: es1 else es1)
        with ((if is_different t0 t then [EDifferent n] else []) ++ es1)
        by (destruct (is_different t0 t); reflexivity).
      apply (step_ext _ _ _ _ _) with (2 := S). unfold either. intros k x. cbn. split.
      * intros [[-> ->] | H]; [left; reflexivity | right; exact H].
      * intros [H | H]; [injection H as <- <-; left; split; reflexivity | right; exact H].
    + apply look_none in L.
      pose proof (step_new ev n t G Mn L) as S1.
      assert (G1 : good (ev ++ [(n, t)])) by (apply good_snoc; assumption).
      pose proof (IH _ _ _ G1 Mr E) as S2.
      pose proof (step_trans _ _ _ _ _ _ _ S1 S2) as S. cbn [app] in S.
      apply (step_ext _ _ _ _ _) with (2 := S). unfold either. intros k x. cbn. split.
      * intros [[-> ->] | H]; [left; reflexivity | right; exact H].
      * intros [H | H]; [injection H as <- <-; left; split; reflexivity | right; exact H].
Qed.

Lemma passes_cons : forall a r n t, passes F (a :: r) n t <->
  (a_name a = n /\ a_value a = Some (false, Some t)) \/
  (exists t' m, a_value a = Some (true, Some t') /\ ty_kind t' = KMessage m /\ In (n, t) (F m)) \/
  passes F r n t.
Proof.
  intros a r n t. split.
  - intros [b [<- | I] A B | b t' m [<- | I] A B C].
    + left. split; assumption.
    + right. right. apply (passes_by F r n t b); assumption.
    + right. left. exists t', m. split; [exact A | split; assumption].
    + right. right. apply (passes_inline F r n t b t' m); assumption.
  - intros [[A B] | [[t' [m [A [B C]]]] | [b I A B | b t' m I A B C]]].
    + apply (passes_by F _ n t a); [left; reflexivity | exact A | exact B].
    + apply (passes_inline F _ n t a t' m); [left; reflexivity | exact A | exact B | exact C].
    + apply (passes_by F _ n t b); [right; exact I | exact A | exact B].
    + apply (passes_inline F _ n t b t' m); [right; exact I | exact A | exact B | exact C].
Qed.

Lemma inline_fields_errors : forall fs ev ev' es x, inline_fields ev fs = (ev', es) ->
  In x es -> exists n, x = EDifferent n.
Proof.
  induction fs as [ | [n t] r IH]; intros ev ev' es x E I; cbn [inline_fields] in E.
  - injection E as <- <-. destruct I.
  - destruct (look n ev) as [t0 | ].
    + destruct (inline_fields ev r) as [ev1 es1] eqn:E1. injection E as <- <-.
      destruct (is_different t0 t); [ | apply (IH _ _ _ _ E1 I)].
      destruct I as [<- | I]; [exists n; reflexivity | apply (IH _ _ _ _ E1 I)].
    + apply (IH _ _ _ _ E I).
Qed.

Lemma add_args_spec : forall e ev ev' es, good ev -> tidy e -> add_args F ev e = (ev', es) ->
  step ev ev' es (passes F e) /\
  (forall n, ~ In (EMissing n) es) /\ (In EInline es <-> inline_error e).
Proof.
  induction e as [ | a r IH]; intros ev ev' es G T E; cbn [add_args] in E.
  - injection E as <- <-. split; [ | split].
    + apply (step_ext _ _ _ (fun _ _ => False)).
      * intros n t. split; [intros [] | ]. intros [b [] | b t' m []].
      * apply step_refl; [exact G | intros n []].
    + intros n [].
    + split; [intros [] | intros [b [t [[] _]]]].
  - assert (Tr : tidy r) by (intros b I; apply T; right; exact I).
    destruct (T a (or_introl eq_refl)) as [i [ot [Ev Hn]]].
    rewrite Ev in E. destruct ot as [t | ].
    2: { destruct (IH ev ev' es G Tr E) as [S [M I]]. split; [ | split; [exact M | ]].
         - apply (step_ext _ _ _ (passes F r)); [ | exact S]. intros n t. rewrite passes_cons, Ev.
           split; [intros H; right; right; exact H | ].
           intros [[_ H] | [[t' [m [H _]]] | H]]; [discriminate H | discriminate H | exact H].
         - rewrite I. split.
           + intros [b [t [J K]]]. exists b, t. split; [right; exact J | exact K].
           + intros [b [t [[<- | J] [K K']]]]; [congruence | exists b, t; split; [exact J | split; assumption]]. }
    destruct (look (a_name a) ev) as [t0 | ] eqn:L.
    + (* the name is known *)
      destruct i.
      { rewrite Hn in L. apply look_some in L. apply (in_map fst) in L. destruct G as [_ G].
        destruct (G L). }
      destruct (add_args F ev r) as [ev1 es1] eqn:E1. injection E as <- <-.
      destruct (IH ev ev1 es1 G Tr E1) as [S2 [M I]].
      pose proof (step_known ev (a_name a) t0 t G (look_some _ _ _ L)) as S1.
      pose proof (step_trans _ _ _ _ _ _ _ S1 S2) as S.
      replace (if is_different t0 t then EDifferent (a_name a) :: es1 else es1)
        with ((if is_different t0 t then [EDifferent (a_name a)] else []) ++ es1)
        by (destruct (is_different t0 t); reflexivity).
      split; [ | split].
      * apply (step_ext _ _ _ _ _) with (2 := S). unfold either. intros k x.
        rewrite passes_cons, Ev. split.
        -- intros [[-> ->] | H]; [left; split; reflexivity | right; right; exact H].
        -- intros [[H H'] | [[t' [m [H _]]] | H]];
             [injection H' as ->; left; split; [symmetry; exact H | reflexivity] | discriminate H | right; exact H].
      * intros n H. apply in_app_iff in H. destruct H as [H | H]; [ | apply (M n H)].
        destruct (is_different t0 t); [destruct H as [H | []]; discriminate H | destruct H].
      * rewrite in_app_iff, I. split.
        -- intros [H | [b [x [J K]]]];
             [destruct (is_different t0 t); [destruct H as [H | []]; discriminate H | destruct H] | ].
           exists b, x. split; [right; exact J | exact K].
        -- intros [b [x [[<- | J] [K K']]]]; [congruence | ].
           right. exists b, x. split; [exact J | split; assumption].
    + apply look_none in L. destruct i.
      * (* inline *)
        destruct (ty_kind t) as [y | | m | | y] eqn:Ek.
        3: { destruct (inline_fields ev (F m)) as [ev1 es1] eqn:E1.
             destruct (add_args F ev1 r) as [ev2 es2] eqn:E2. injection E as <- <-.
             pose proof (inline_spec (F m) ev ev1 es1 G (Fnamed m) E1) as S1.
             assert (G1 : good ev1) by (apply (g_good _ _ _ (proj1 S1))).
             destruct (IH ev1 ev2 es2 G1 Tr E2) as [S2 [M I]].
             pose proof (step_trans _ _ _ _ _ _ _ S1 S2) as S. split; [ | split].
             - apply (step_ext _ _ _ _ _) with (2 := S). unfold either. intros k x.
               rewrite passes_cons, Ev. split.
               + intros [H | H]; [right; left | right; right; exact H].
                 exists t, m. split; [reflexivity | split; assumption].
               + intros [[_ H] | [[t' [m' [H [H1 H2]]]] | H]]; [discriminate H | | right; exact H].
                 injection H as <-. rewrite Ek in H1. injection H1 as <-. left. exact H2.
             - intros n H. apply in_app_iff in H. destruct H as [H | H]; [ | apply (M n H)].
               destruct (inline_fields_errors _ _ _ _ _ E1 H) as [k X]. discriminate X.
             - rewrite in_app_iff, I. split.
               + intros [H | [b [x [J K]]]].
                 * destruct (inline_fields_errors _ _ _ _ _ E1 H) as [k X]. discriminate X.
                 * exists b, x. split; [right; exact J | exact K].
               + intros [b [x [[<- | J] [K K']]]].
                 * rewrite Ev in K. injection K as <-. destruct (K' m Ek).
                 * right. exists b, x. split; [exact J | split; assumption]. }
        all: (destruct (add_args F ev r) as [ev1 es1] eqn:E1; injection E as <- <-;
              destruct (IH ev ev1 es1 G Tr E1) as [S [M I]]; split; [ | split];
              [ apply (step_ext _ _ _ (passes F r));
                [ intros k x; rewrite passes_cons, Ev; split;
                  [ intros H; right; right; exact H
                  | intros [[_ H] | [[t' [m' [H [H1 H2]]]] | H]];
                    [discriminate H | injection H as <-; rewrite Ek in H1; discriminate H1 | exact H]]
                | destruct S as [S1 [S2 S3]]; split; [exact S1 | split;
                  [ intros C; apply S2; intros n H; apply (C n); right; exact H
                  | intros n [H | H]; [discriminate H | apply S3, H]]]]
              | intros n [H | H]; [discriminate H | apply (M n H)]
              | split; [ | intros _; left; reflexivity ];
                intros _; exists a, t; split; [left; reflexivity | split; [exact Ev | ]];
                intros m H; rewrite Ek in H; discriminate H ]).
      * (* a new name *)
        pose proof (step_new ev (a_name a) t G Hn L) as S1.
        assert (G1 : good (ev ++ [(a_name a, t)])) by (apply good_snoc; assumption).
        destruct (IH _ _ _ G1 Tr E) as [S2 [M I]].
        pose proof (step_trans _ _ _ _ _ _ _ S1 S2) as S. cbn [app] in S.
        split; [ | split; [exact M | ]].
        -- apply (step_ext _ _ _ _ _) with (2 := S). unfold either. intros k x.
           rewrite passes_cons, Ev. split.
           ++ intros [[-> ->] | H]; [left; split; reflexivity | right; right; exact H].
           ++ intros [[H H'] | [[t' [m [H _]]] | H]];
                [injection H' as ->; left; split; [symmetry; exact H | reflexivity] | discriminate H | right; exact H].
        -- rewrite I. split.
           ++ intros [b [x [J K]]]. exists b, x. split; [right; exact J | exact K].
           ++ intros [b [x [[<- | J] [K K']]]]; [congruence | ].
              exists b, x. split; [exact J | split; assumption].
Qed.

(** ** Validation *)

Lemma mentions_cons : forall a r n, mentions F (a :: r) n <->
  (a_name a = n /\ n <> ""%string) \/
  (exists t' m, a_value a = Some (true, Some t') /\ ty_kind t' = KMessage m /\ In n (map fst (F m))) \/
  mentions F r n.
Proof.
  intros a r n. split.
  - intros [b [<- | I] A B | b t' m [<- | I] A B C].
    + left. split; assumption.
    + right. right. apply (mentions_by F r n b); assumption.
    + right. left. exists t', m. split; [exact A | split; assumption].
    + right. right. apply (mentions_inline F r n b t' m); assumption.
  - intros [[A B] | [[t' [m [A [B C]]]] | [b I A B | b t' m I A B C]]].
    + apply (mentions_by F _ n a); [left; reflexivity | exact A | exact B].
    + apply (mentions_inline F _ n a t' m); [left; reflexivity | exact A | exact B | exact C].
    + apply (mentions_by F _ n b); [right; exact I | exact A | exact B].
    + apply (mentions_inline F _ n b t' m); [right; exact I | exact A | exact B | exact C].
Qed.

Lemma current_spec : forall e, tidy e ->
  exists cur, current F e = Some cur /\ forall n, In n cur <-> mentions F e n.
Proof.
  induction e as [ | a r IH]; intros T; cbn [current].
  - exists []. split; [reflexivity | ]. intros n. split; [intros [] | ].
    intros [b [] | b t' m []].
  - destruct IH as [l [El Hl]]; [intros b I; apply T; right; exact I | ].
    destruct (T a (or_introl eq_refl)) as [i [ot [Ev Hn]]]. rewrite Ev, El.
    eexists. split; [reflexivity | ]. intros n. rewrite mentions_cons, !in_app_iff, Hl.
    destruct (String.eqb_spec (a_name a) "") as [Ea | Ea].
    + split.
      * intros [[] | [H | H]]; [ | right; right; exact H]. right. left.
        destruct i; [ | destruct H]. destruct ot as [[k rp nl] | ]; [ | destruct H].
        destruct k as [x | | m | | x]; try destruct H. eexists. exists m.
        split; [exact Ev | ]. split; [reflexivity | exact H].
      * intros [[A B] | [[t' [m [A [B C]]]] | H]]; [congruence | | right; right; exact H].
        right. left. rewrite Ev in A. injection A as -> ->. destruct t' as [k rp nl]. cbn in B.
        subst k. exact C.
    + split.
      * intros [[H | []] | [H | H]].
        -- left. split; [exact H | congruence].
        -- right. left.
           destruct i; [ | destruct H]. destruct ot as [[k rp nl] | ]; [ | destruct H].
           destruct k as [x | | m | | x]; try destruct H. eexists. exists m.
           split; [exact Ev | ]. split; [reflexivity | exact H].
        -- right. right. exact H.
      * intros [[A B] | [[t' [m [A [B C]]]] | H]]; [left; left; exact A | | right; right; exact H].
        right. left. rewrite Ev in A. injection A as -> ->. destruct t' as [k rp nl]. cbn in B.
        subst k. exact C.
Qed.

Lemma mentions_dec_aux : forall e, tidy e -> forall n, mentions F e n \/ ~ mentions F e n.
Proof.
  intros e T n. destruct (current_spec e T) as [cur [_ H]].
  destruct (in_dec string_dec n cur) as [I | I]; [left; apply H, I | right].
  intros M. apply I, H, M.
Qed.

Lemma validate_spec : forall names e, tidy e ->
  exists es, validate F names e = Some es /\
    (forall x, In x es -> exists n, x = EMissing n) /\
    forall n, In (EMissing n) es <-> In n names /\ ~ mentions F e n.
Proof.
  intros names e T. unfold validate. destruct (current_spec e T) as [cur [-> H]].
  eexists. split; [reflexivity | ]. split.
  - intros x I. apply in_map_iff in I. destruct I as [n [<- _]]. exists n. reflexivity.
  - intros n. rewrite in_map_iff, <- H.
    assert (X : negb (existsb (String.eqb n) cur) = true <-> ~ In n cur).
    { rewrite negb_true_iff. split.
      - intros E I. assert (Y : existsb (String.eqb n) cur = true); [ | congruence].
        apply existsb_exists. exists n. split; [exact I | apply String.eqb_refl].
      - intros N. apply not_true_is_false. intros E. apply existsb_exists in E.
        destruct E as [k [I E]]. apply String.eqb_eq in E. subst k. apply N, I. }
    split.
    + intros [k [Ek I]]. injection Ek as ->. apply filter_In in I. destruct I as [I J].
      split; [exact I | apply X, J].
    + intros [I J]. exists n. split; [reflexivity | ]. apply filter_In. split; [exact I | apply X, J].
Qed.

(** ** One caller *)

Lemma add_defs_spec : forall names ds ev, good ev -> (forall e, In e ds -> tidy e) ->
  exists ev' es, add_defs F names ev ds = Some (ev', es) /\
    step ev ev' es (fun n t => exists e, In e ds /\ passes F e n t) /\
    (forall n, In (EMissing n) es <-> exists e, In e ds /\ In n names /\ ~ mentions F e n) /\
    (In EInline es <-> exists e, In e ds /\ inline_error e).
Proof.
  intros names ds. induction ds as [ | e r IH]; intros ev G T; cbn [add_defs].
  - exists ev, []. split; [reflexivity | ]. split; [ | split].
    + apply (step_ext _ _ _ (fun _ _ => False)).
      * intros n t. split; [intros [] | intros [e [[] _]]].
      * apply step_refl; [exact G | intros n []].
    + intros n. split; [intros [] | intros [e [[] _]]].
    + split; [intros [] | intros [e [[] _]]].
  - assert (Te : tidy e) by (apply T; left; reflexivity).
    destruct (validate_spec names e Te) as [e1 [-> [V1 V2]]].
    destruct (add_args F ev e) as [ev1 e2] eqn:E2.
    destruct (add_args_spec e ev ev1 e2 G Te E2) as [S1 [M1 I1]].
    destruct (IH ev1 (g_good _ _ _ (proj1 S1)) (fun x I => T x (or_intror I)))
      as [ev' [e3 [E3 [S2 [M2 I2]]]]].
    rewrite E3. exists ev', (e1 ++ e2 ++ e3). split; [reflexivity | ]. split; [ | split].
    + assert (S0 : step ev ev e1 (fun _ _ => False)).
      { apply step_refl; [exact G | ]. intros n X. destruct (V1 _ X) as [k Y]. discriminate Y. }
      pose proof (step_trans _ _ _ _ _ _ _ S0 (step_trans _ _ _ _ _ _ _ S1 S2)) as S.
      apply (step_ext _ _ _ _ _) with (2 := S). unfold either. intros n t. split.
      * intros [[] | [H | [x [I H]]]]; [exists e; split; [left; reflexivity | exact H] | ].
        exists x. split; [right; exact I | exact H].
      * intros [x [[<- | I] H]]; [right; left; exact H | right; right; exists x; split; assumption].
    + intros n. rewrite !in_app_iff, V2, M2. split.
      * intros [H | [H | [x [I H]]]].
        -- exists e. split; [left; reflexivity | exact H].
        -- destruct (M1 n H).
        -- exists x. split; [right; exact I | exact H].
      * intros [x [[<- | I] H]]; [left; exact H | right; right; exists x; split; assumption].
    + rewrite !in_app_iff, I1, I2. split.
      * intros [H | [H | [x [I H]]]].
        -- destruct (V1 _ H) as [k X]. discriminate X.
        -- exists e. split; [left; reflexivity | exact H].
        -- exists x. split; [right; exact I | exact H].
      * intros [x [[<- | I] H]]; [right; left; exact H | right; right; exists x; split; assumption].
Qed.

Lemma explicit_spec : forall ds n, In n (explicit ds) <-> named_arg ds n.
Proof.
  intros ds n. unfold explicit, named_arg. rewrite in_flat_map. split.
  - intros [e [I H]]. apply filter_In in H. destruct H as [H N]. apply in_map_iff in H.
    destruct H as [a [A J]]. split.
    + intros ->. discriminate N.
    + exists e, a. split; [exact I | split; assumption].
  - intros [N [e [a [I [J A]]]]]. exists e. split; [exact I | ]. apply filter_In. split.
    + apply in_map_iff. exists a. split; assumption.
    + apply negb_true_iff. apply String.eqb_neq. exact N.
Qed.

Lemma group_spec : forall ds ev, good ev -> (forall e, In e ds -> tidy e) ->
  exists ev' es, group F ev ds = Some (ev', es) /\
    step ev ev' es (fun n t => exists e, In e ds /\ passes F e n t) /\
    (forall n, In (EMissing n) es <->
       exists e, In e ds /\ (named_arg ds n \/ In n (map fst ev)) /\ ~ mentions F e n) /\
    (In EInline es <-> exists e, In e ds /\ inline_error e).
Proof.
  intros ds ev G T. unfold group.
  destruct (add_defs_spec (explicit ds ++ map fst ev) ds ev G T) as [ev' [es [E [S [M I]]]]].
  exists ev', es. split; [exact E | ]. split; [exact S | ]. split; [ | exact I].
  intros n. rewrite M. split; intros [e [J [K L]]]; exists e; (split; [exact J | split; [ | exact L]]).
  - apply in_app_iff in K. rewrite explicit_spec in K. exact K.
  - apply in_app_iff. rewrite explicit_spec. exact K.
Qed.

(** ** The traversal *)

Variable children : nat -> list nat.
Variable calls : nat -> nat -> list expr.
Variable has_rule : nat -> bool.

(** The calls in the order in which they are looked at. *)
Fixpoint trace (fuel : nat) (m : nat) : option (list (nat * nat)) :=
  match fuel with
  | O => None
  | S k =>
      (fix go (ds : list nat) : option (list (nat * nat)) :=
         match ds with
         | [] => Some []
         | d :: r =>
             if has_rule d then
               match trace k d, go r with
               | Some l1, Some l2 => Some ((m, d) :: l1 ++ l2)
               | _, _ => None
               end
             else go r
         end) (children m)
  end.

Fixpoint edges (l : list (nat * nat)) (s : state) : option state :=
  match l with
  | [] => Some s
  | (c, d) :: r => match edge F calls c d s with Some s' => edges r s' | None => None end
  end.

Lemma edges_app : forall a b s, edges (a ++ b) s =
  match edges a s with Some s' => edges b s' | None => None end.
Proof.
  intros a b. induction a as [ | [c d] r IH]; intros s; cbn; [reflexivity | ].
  destruct (edge F calls c d s) as [s' | ]; [apply IH | reflexivity].
Qed.

Lemma visit_trace : forall fuel m l s, trace fuel m = Some l ->
  visit F children calls has_rule fuel m s = Some (edges l s).
Proof.
  induction fuel as [ | k IH]; intros m l s H; [discriminate H | ].
  cbn [trace] in H. cbn [visit]. revert l s H. generalize (children m).
  intros ds. induction ds as [ | d r IHr]; intros l s H.
  - injection H as <-. reflexivity.
  - destruct (has_rule d); [ | apply IHr, H].
    destruct (trace k d) as [l1 | ] eqn:E1; [ | discriminate H].
    match type of H with context [match ?x with Some _ => _ | None => _ end] =>
      destruct x as [l2 | ] eqn:E2; [ | discriminate H] end.
    injection H as <-. cbn [edges]. destruct (edge F calls m d s) as [s1 | ]; [ | reflexivity].
    rewrite (IH d l1 s1 E1), edges_app. destruct (edges l1 s1) as [s2 | ]; [ | reflexivity].
    apply IHr. reflexivity.
Qed.

Variable rank : nat -> nat.
Hypothesis Rank : forall c d, In d (children c) -> rank d < rank c.

Lemma reaches_trans : forall a b c, reaches children has_rule a b -> reaches children has_rule b c ->
  reaches children has_rule a c.
Proof.
  intros a b c H K. induction K as [ | c d K IH I R]; [exact H | ].
  apply (reaches_step _ _ _ c d IH I R).
Qed.

Lemma reaches_first : forall a c, reaches children has_rule a c ->
  a = c \/ exists b, In b (children a) /\ has_rule b = true /\ reaches children has_rule b c.
Proof.
  intros a c H. induction H as [ | c d H IH I R]; [left; reflexivity | right].
  destruct IH as [-> | [b [B1 [B2 B3]]]].
  - exists d. split; [exact I | ]. split; [exact R | apply reaches_here].
  - exists b. split; [exact B1 | ]. split; [exact B2 | ]. apply (reaches_step _ _ _ c d B3 I R).
Qed.

Lemma trace_spec : forall fuel m, rank m < fuel ->
  exists l, trace fuel m = Some l /\
    forall c d, In (c, d) l <->
      reaches children has_rule m c /\ In d (children c) /\ has_rule d = true.
Proof.
  induction fuel as [ | k IH]; intros m L; [lia | ]. cbn [trace].
  assert (X : forall ds, incl ds (children m) -> exists l,
    (fix go (ds : list nat) : option (list (nat * nat)) :=
         match ds with
         | [] => Some []
         | d :: r =>
             if has_rule d then
               match trace k d, go r with
               | Some l1, Some l2 => Some ((m, d) :: l1 ++ l2)
               | _, _ => None
               end
             else go r
         end) ds = Some l /\
    forall c d, In (c, d) l <->
      exists b, In b ds /\ has_rule b = true /\
        ((c = m /\ d = b) \/
         (reaches children has_rule b c /\ In d (children c) /\ has_rule d = true))).
  { induction ds as [ | b r IHr]; intros I.
    - exists []. split; [reflexivity | ]. intros c d. split; [intros [] | intros [b [[] _]]].
    - destruct IHr as [l2 [E2 H2]]; [intros x J; apply I; right; exact J | ]. rewrite E2.
      destruct (has_rule b) eqn:Eb.
      + destruct (IH b) as [l1 [E1 H1]].
        { assert (Lb : rank b < rank m) by (apply Rank, I; left; reflexivity). lia. }
        rewrite E1. eexists. split; [reflexivity | ]. intros c d. cbn [In].
        rewrite in_app_iff, H1, H2. split.
        * intros [H | [H | [x [A B]]]].
          -- injection H as <- <-. exists b. split; [left; reflexivity | ].
             split; [exact Eb | left; split; reflexivity].
          -- exists b. split; [left; reflexivity | ]. split; [exact Eb | right; exact H].
          -- exists x. split; [right; exact A | exact B].
        * intros [x [[<- | A] [B C]]].
          -- destruct C as [[-> ->] | C]; [left; reflexivity | right; left; exact C].
          -- right. right. exists x. split; [exact A | split; assumption].
      + exists l2. split; [reflexivity | ]. intros c d. rewrite H2. split.
        * intros [x [A B]]. exists x. split; [right; exact A | exact B].
        * intros [x [[<- | A] [B C]]]; [congruence | ]. exists x. split; [exact A | split; assumption]. }
  destruct (X (children m) (incl_refl _)) as [l [E H]]. exists l. split; [exact E | ].
  intros c d. rewrite H. split.
  - intros [b [A [B [[-> ->] | [C [D R]]]]]].
    + split; [apply reaches_here | split; assumption].
    + split; [ | split; assumption]. apply reaches_trans with (b := b); [ | exact C].
      apply (reaches_step _ _ _ m b); [apply reaches_here | exact A | exact B].
  - intros [C [D R]]. destruct (reaches_first m c C) as [<- | [b [B1 [B2 B3]]]].
    + exists d. split; [exact D | ]. split; [exact R | left; split; reflexivity].
    + exists b. split; [exact B1 | ]. split; [exact B2 | right; split; [exact B3 | split; assumption]].
Qed.

(** ** A sequence of calls *)

Hypothesis Tidy : forall c d e, In e (calls c d) -> tidy e.

(** A set of calls (caller, called message). *)
Definition callset := nat -> nat -> Prop.

(** What the calls pass to [d]. *)
Definition given (B : callset) (d : nat) : passed :=
  fun n t => exists c e, B c d /\ In e (calls c d) /\ passes F e n t.

(** Why there is an error about a missing name. *)
Definition missing (B : callset) (s : state) (n : string) : Prop :=
  exists c d e, B c d /\ In e (calls c d) /\ ~ mentions F e n /\
    (named_arg (calls c d) n \/ In n (map fst (st_args s d))).

(** All expressions of [c2] for [d] have the names that [c1] passes. *)
Definition covers (c1 c2 d : nat) : Prop :=
  forall e1 n t e2, In e1 (calls c1 d) -> passes F e1 n t -> In e2 (calls c2 d) -> mentions F e2 n.

(** From [s] to [s'], [P d] is added to the argument of [d], and the calls of [B] are
    checked, with the errors [es]. *)
Record outcome (P : nat -> passed) (B : callset) (s s' : state) (es : list error) : Prop := {
  o_errors : st_errors s' = st_errors s ++ es;
  o_grow : forall d, grow (st_args s d) (st_args s' d) (P d);
  o_given : forall d n t, given B d n t -> P d n t;
  o_checked : (forall n, ~ In (EDifferent n) es) -> forall d n t, given B d n t ->
    exists t0, In (n, t0) (st_args s' d) /\ compatible t0 t;
  o_sound : forall n, In (EDifferent n) es -> exists d t t0, given B d n t /\
    In (n, t0) (st_args s' d) /\ ~ compatible t0 t;
  o_missing : forall n, In (EMissing n) es -> missing B s' n;
  o_uniform : (forall n, ~ In (EMissing n) es) -> forall c d e n, B c d -> In e (calls c d) ->
    named_arg (calls c d) n -> mentions F e n;
  o_known : (forall n, ~ In (EMissing n) es) -> forall c d e n, B c d -> In e (calls c d) ->
    In n (map fst (st_args s d)) -> mentions F e n;
  o_chain : (forall n, ~ In (EMissing n) es) -> forall c1 c2 d, B c1 d -> B c2 d -> c1 <> c2 ->
    covers c1 c2 d \/ covers c2 c1 d;
  o_inline : In EInline es <-> exists c d e, B c d /\ In e (calls c d) /\ inline_error e
}.

Lemma upd_same : forall f m v, upd f m v m = v.
Proof. intros f m v. unfold upd. rewrite Nat.eqb_refl. reflexivity. Qed.

Lemma upd_other : forall f m v k, k <> m -> upd f m v k = f k.
Proof. intros f m v k H. unfold upd. apply Nat.eqb_neq in H. rewrite H. reflexivity. Qed.

(** Nothing is checked. *)
Lemma outcome_grow : forall P s s', st_errors s' = st_errors s ->
  (forall d, grow (st_args s d) (st_args s' d) (P d)) ->
  outcome P (fun _ _ => False) s s' [].
Proof.
  intros P s s' E G. split.
  - rewrite E. symmetry. apply app_nil_r.
  - exact G.
  - intros d n t [c [e [[] _]]].
  - intros _ d n t [c [e [[] _]]].
  - intros n [].
  - intros n [].
  - intros _ c d e n [].
  - intros _ c d e n [].
  - intros _ c1 c2 d [].
  - split; [intros [] | intros [c [d [e [[] _]]]]].
Qed.

Lemma outcome_ext : forall P P' B B' s s' es,
  (forall d n t, P d n t <-> P' d n t) -> (forall c d, B c d <-> B' c d) ->
  outcome P B s s' es -> outcome P' B' s s' es.
Proof.
  intros P P' B B' s s' es EP EB [O1 O2 O3 O4 O5 O6 O7 O8 O9 O10].
  assert (EG : forall d n t, given B d n t <-> given B' d n t).
  { intros d n t. split; intros [c [e [H K]]]; exists c, e; (split; [apply EB, H | exact K]). }
  split.
  - exact O1.
  - intros d. apply (grow_ext _ _ (P d)); [apply EP | apply O2].
  - intros d n t H. apply EP, O3, EG, H.
  - intros C d n t H. apply O4; [exact C | apply EG, H].
  - intros n H. destruct (O5 n H) as [d [t [t0 [X Y]]]]. exists d, t, t0.
    split; [apply EG, X | exact Y].
  - intros n H. destruct (O6 n H) as [c [d [e [X Y]]]]. exists c, d, e.
    split; [apply EB, X | exact Y].
  - intros C c d e n H. apply (O7 C). apply EB, H.
  - intros C c d e n H. apply (O8 C). apply EB, H.
  - intros C c1 c2 d H K. apply (O9 C); apply EB; assumption.
  - rewrite O10. split; intros [c [d [e [X Y]]]]; exists c, d, e; (split; [apply EB, X | exact Y]).
Qed.

Lemma names_mono : forall a b n, incl a b -> In n (map (@fst string type) a) -> In n (map fst b).
Proof.
  intros a b n I H. apply in_map_iff in H. destruct H as [p [<- H]]. apply in_map, I, H.
Qed.

Lemma outcome_trans : forall P P' B B' s1 s2 s3 es es',
  outcome P B s1 s2 es -> outcome P' B' s2 s3 es' ->
  outcome (fun d => either (P d) (P' d)) (fun c d => B c d \/ B' c d) s1 s3 (es ++ es').
Proof.
  intros P P' B B' s1 s2 s3 es es' [O1 O2 O3 O4 O5 O6 O7 O8 O9 O10]
    [Q1 Q2 Q3 Q4 Q5 Q6 Q7 Q8 Q9 Q10].
  assert (CD : (forall n, ~ In (EDifferent n) (es ++ es')) ->
    (forall n, ~ In (EDifferent n) es) /\ (forall n, ~ In (EDifferent n) es')).
  { intros C. split; intros n I; apply (C n), in_app_iff; [left | right]; exact I. }
  assert (CM : (forall n, ~ In (EMissing n) (es ++ es')) ->
    (forall n, ~ In (EMissing n) es) /\ (forall n, ~ In (EMissing n) es')).
  { intros C. split; intros n I; apply (C n), in_app_iff; [left | right]; exact I. }
  assert (I12 : forall d, incl (st_args s1 d) (st_args s2 d)) by (intros d; apply (g_incl _ _ _ (O2 d))).
  assert (I23 : forall d, incl (st_args s2 d) (st_args s3 d)) by (intros d; apply (g_incl _ _ _ (Q2 d))).
  assert (GI : forall d n t, given (fun c d => B c d \/ B' c d) d n t <->
                 given B d n t \/ given B' d n t).
  { intros d n t. split.
    - intros [c [e [[H | H] K]]]; [left | right]; exists c, e; (split; [exact H | exact K]).
    - intros [[c [e [H K]]] | [c [e [H K]]]]; exists c, e; (split; [ | exact K]); [left | right]; exact H. }
  (* what the first calls passed is known to the second *)
  assert (CV : (forall n, ~ In (EMissing n) es') -> forall c1 c2 d, B c1 d -> B' c2 d -> covers c1 c2 d).
  { intros C c1 c2 d H K e1 n t e2 X Y Z. apply (Q8 C c2 d e2 n K Z).
    apply (g_names _ _ _ (O2 d)). right. exists t. apply O3. exists c1, e1.
    split; [exact H | split; assumption]. }
  split.
  - rewrite Q1, O1. apply app_assoc_reverse.
  - intros d. apply (grow_trans _ (st_args s2 d)); [apply O2 | apply Q2].
  - intros d n t H. apply GI in H. unfold either. destruct H as [H | H];
      [left; apply O3, H | right; apply Q3, H].
  - intros C d n t H. destruct (CD C) as [C1 C2]. apply GI in H. destruct H as [H | H].
    + destruct (O4 C1 d n t H) as [t0 [X Y]]. exists t0. split; [apply I23, X | exact Y].
    + apply (Q4 C2 d n t H).
  - intros n H. apply in_app_iff in H. destruct H as [H | H].
    + destruct (O5 n H) as [d [t [t0 [X [Y Z]]]]]. exists d, t, t0.
      split; [apply GI; left; exact X | ]. split; [apply I23, Y | exact Z].
    + destruct (Q5 n H) as [d [t [t0 [X Y]]]]. exists d, t, t0.
      split; [apply GI; right; exact X | exact Y].
  - intros n H. apply in_app_iff in H. destruct H as [H | H].
    + destruct (O6 n H) as [c [d [e [X [Y [Z W]]]]]]. exists c, d, e.
      split; [left; exact X | ]. split; [exact Y | ]. split; [exact Z | ].
      destruct W as [W | W]; [left; exact W | right; apply (names_mono _ _ _ (I23 d) W)].
    + destruct (Q6 n H) as [c [d [e [X Y]]]]. exists c, d, e. split; [right; exact X | exact Y].
  - intros C c d e n H. destruct (CM C) as [C1 C2].
    destruct H as [H | H]; [apply (O7 C1 c d e n H) | apply (Q7 C2 c d e n H)].
  - intros C c d e n H K L. destruct (CM C) as [C1 C2].
    destruct H as [H | H]; [apply (O8 C1 c d e n H K L) | ].
    apply (Q8 C2 c d e n H K). apply (names_mono _ _ _ (I12 d) L).
  - intros C c1 c2 d H K N. destruct (CM C) as [C1 C2]. destruct H as [H | H], K as [K | K].
    + apply (O9 C1 c1 c2 d H K N).
    + left. apply (CV C2); assumption.
    + right. apply (CV C2); assumption.
    + apply (Q9 C2 c1 c2 d H K N).
  - rewrite in_app_iff, O10, Q10. split.
    + intros [[c [d [e [X Y]]]] | [c [d [e [X Y]]]]]; exists c, d, e;
        (split; [ | exact Y]); [left | right]; exact X.
    + intros [c [d [e [[X | X] Y]]]]; [left | right]; exists c, d, e; (split; [exact X | exact Y]).
Qed.

Lemma edge_spec : forall c d s, (forall d, good (st_args s d)) ->
  exists s' es, edge F calls c d s = Some s' /\
    (forall k, k <> d -> st_args s' k = st_args s k) /\
    outcome (given (fun x y => x = c /\ y = d)) (fun x y => x = c /\ y = d) s s' es.
Proof.
  intros c d s G. unfold edge.
  destruct (group_spec (calls c d) (st_args s d) (G d) (Tidy c d))
    as [ev [es [-> [[Gr [Ch So]] [M In1]]]]].
  eexists. exists es. split; [reflexivity | ]. split; [intros k N; apply upd_other, N | ].
  assert (GI : forall k n t, given (fun x y => x = c /\ y = d) k n t <->
            k = d /\ exists e, In e (calls c d) /\ passes F e n t).
  { intros k n t. split.
    - intros [x [e [[-> ->] H]]]. split; [reflexivity | ]. exists e. exact H.
    - intros [-> [e H]]. exists c, e. split; [split; reflexivity | exact H]. }
  split; cbn [st_args st_errors].
  - reflexivity.
  - intros k. destruct (Nat.eq_dec k d) as [-> | N].
    + rewrite upd_same. apply (grow_ext _ _ _ _) with (2 := Gr). intros n t. rewrite GI.
      split; [intros H; split; [reflexivity | exact H] | intros [_ H]; exact H].
    + rewrite upd_other by exact N. apply (grow_ext _ _ (fun _ _ => False)); [ | apply grow_refl, G].
      intros n t. rewrite GI. split; [intros [] | intros [H _]; exact (N H)].
  - intros k n t H. exact H.
  - intros C k n t H. apply GI in H. destruct H as [-> H]. rewrite upd_same. apply (Ch C n t H).
  - intros n H. destruct (So n H) as [t [t0 [X Y]]]. exists d, t, t0. rewrite upd_same.
    split; [apply GI; split; [reflexivity | exact X] | exact Y].
  - intros n H. apply M in H. destruct H as [e [A [B C]]]. exists c, d, e. cbn [st_args].
    rewrite upd_same. split; [split; reflexivity | ]. split; [exact A | ]. split; [exact C | ].
    destruct B as [B | B]; [left; exact B | right; apply (names_mono _ _ _ (g_incl _ _ _ Gr) B)].
  - intros C x k e n [-> ->] B N.
    destruct (mentions_dec_aux e (Tidy c d e B) n) as [Y | Y]; [exact Y | ].
    destruct (C n). apply M. exists e. split; [exact B | split; [left; exact N | exact Y]].
  - intros C x k e n [-> ->] B N.
    destruct (mentions_dec_aux e (Tidy c d e B) n) as [Y | Y]; [exact Y | ].
    destruct (C n). apply M. exists e. split; [exact B | split; [right; exact N | exact Y]].
  - intros _ c1 c2 k [-> _] [-> _] N. destruct (N eq_refl).
  - rewrite In1. split.
    + intros [e [A B]]. exists c, d, e. split; [split; reflexivity | split; assumption].
    + intros [x [k [e [[-> ->] H]]]]. exists e. exact H.
Qed.

Lemma edges_spec : forall l s, (forall d, good (st_args s d)) ->
  exists s' es, edges l s = Some s' /\
    (forall k, (forall c, ~ In (c, k) l) -> st_args s' k = st_args s k) /\
    outcome (given (fun c d => In (c, d) l)) (fun c d => In (c, d) l) s s' es.
Proof.
  induction l as [ | [c d] r IH]; intros s G; cbn [edges].
  - exists s, []. split; [reflexivity | ]. split; [reflexivity | ].
    apply (outcome_ext (given (fun _ _ => False)) _ (fun _ _ => False) _).
    + intros d n t. split; intros [x [e [[] _]]].
    + intros x y. split; [intros [] | intros []].
    + apply outcome_grow; [reflexivity | ]. intros d.
      apply (grow_ext _ _ (fun _ _ => False)); [ | apply grow_refl, G].
      intros n t. split; [intros [] | intros [x [e [[] _]]]].
  - destruct (edge_spec c d s G) as [s1 [es1 [-> [U1 O1]]]].
    destruct (IH s1 (fun k => g_good _ _ _ (o_grow _ _ _ _ _ O1 k))) as [s2 [es2 [-> [U2 O2]]]].
    exists s2, (es1 ++ es2). split; [reflexivity | ]. split.
    + intros k H. rewrite U2; [apply U1 | ].
      * intros ->. apply (H c). left. reflexivity.
      * intros x I. apply (H x). right. exact I.
    + apply (outcome_ext _ _ _ _ _ _ _) with (3 := outcome_trans _ _ _ _ _ _ _ _ _ O1 O2).
      * intros k n t. unfold either, given. cbn [In]. split.
        -- intros [[x [e [[-> ->] H]]] | [x [e [A H]]]]; [exists c, e | exists x, e];
             (split; [ | exact H]); [left; reflexivity | right; exact A].
        -- intros [x [e [[A | A] H]]]; [left | right]; exists x, e; (split; [ | exact H]);
             [injection A as -> ->; split; reflexivity | exact A].
      * intros x y. cbn [In]. split.
        -- intros [[-> ->] | H]; [left; reflexivity | right; exact H].
        -- intros [H | H]; [injection H as -> ->; left; split; reflexivity | right; exact H].
Qed.

(** ** All roots *)

(** Calls below a root; below a root that is a response. *)
Definition below (rs : list (nat * option (list field))) : callset :=
  fun c d => exists r req, In (r, req) rs /\ reaches children has_rule r c /\
    In d (children c) /\ has_rule d = true.

Definition below_response (rs : list (nat * option (list field))) : callset :=
  fun c d => exists r req, In (r, Some req) rs /\ reaches children has_rule r c /\
    In d (children c) /\ has_rule d = true.

Definition all_given (rs : list (nat * option (list field))) (d : nat) : passed :=
  either (requested rs d) (given (below rs) d).

Lemma visit_spec : forall fuel m s, rank m < fuel -> (forall d, good (st_args s d)) ->
  exists s' es, visit F children calls has_rule fuel m s = Some (Some s') /\
    (forall k, (forall c, ~ In k (children c)) -> st_args s' k = st_args s k) /\
    let B := fun c d => reaches children has_rule m c /\ In d (children c) /\ has_rule d = true in
    outcome (given B) B s s' es.
Proof.
  intros fuel m s L G. destruct (trace_spec fuel m L) as [l [E H]].
  destruct (edges_spec l s G) as [s' [es [E' [U O]]]]. exists s', es.
  rewrite (visit_trace fuel m l s E), E'. split; [reflexivity | ]. split.
  - intros k N. apply U. intros c I. apply H in I. apply (N c). apply I.
  - cbv zeta. apply (outcome_ext _ _ _ _ _ _ _) with (3 := O).
    + intros d n t. unfold given. split; intros [c [e [A X]]]; exists c, e;
        (split; [apply H, A | exact X]).
    + exact H.
Qed.

Lemma roots_spec : forall fuel rs s,
  (forall r req, In (r, req) rs -> rank r < fuel) ->
  NoDup (map fst rs) ->
  (forall r c, In r (map fst rs) -> ~ In r (children c)) ->
  (forall r req, In (r, Some req) rs -> NoDup (map fst req) /\ named req) ->
  (forall d, good (st_args s d)) ->
  (forall r, In r (map fst rs) -> st_args s r = []) ->
  exists s' es, roots F children calls has_rule fuel rs s = Some (Some s') /\
    outcome (all_given rs) (below_response rs) s s' es.
Proof.
  intros fuel rs. induction rs as [ | [m oreq] r IH]; intros s L N NC RQ G Z.
  - exists s, []. split; [reflexivity | ].
    apply (outcome_ext (fun _ _ _ => False) _ (fun _ _ => False) _).
    + intros d n t. split; [intros [] | ].
      intros [[req [[] _]] | [c [e [[x [y [[] _]]] _]]]].
    + intros c d. split; [intros [] | intros [x [y [[] _]]]].
    + apply outcome_grow; [reflexivity | ]. intros d. apply grow_refl, G.
  - cbn [map fst] in N. inversion N as [ | ? ? N1 N2]; subst.
    assert (Lm : rank m < fuel) by (apply (L m oreq); left; reflexivity).
    cbn [roots]. destruct oreq as [req | ].
    + set (s0 := {| st_args := upd (st_args s) m (st_args s m ++ req); st_errors := st_errors s |}).
      assert (Zm : st_args s m = []) by (apply Z; left; reflexivity).
      assert (O0 : outcome (fun d n t => d = m /\ In (n, t) req) (fun _ _ => False) s s0 []).
      { apply outcome_grow; [reflexivity | ]. intros d. cbn. destruct (Nat.eq_dec d m) as [-> | Nd].
        - rewrite upd_same, Zm. cbn [app]. destruct (RQ m req (or_introl eq_refl)) as [R1 R2].
          split.
          + intros x [].
          + split; assumption.
          + intros n. split.
            * intros H. right. apply in_map_iff in H. destruct H as [[k t] [<- H]].
              exists t. split; [reflexivity | exact H].
            * intros [[] | [t [_ H]]]. apply (in_map fst) in H. exact H.
          + intros n t H. right. split; [reflexivity | exact H].
        - rewrite upd_other by exact Nd. apply (grow_ext _ _ (fun _ _ => False)); [ | apply grow_refl, G].
          intros n t. split; [intros [] | intros [H _]; exact (Nd H)]. }
      destruct (visit_spec fuel m s0 Lm (fun k => g_good _ _ _ (o_grow _ _ _ _ _ O0 k)))
        as [s1 [es1 [-> [U1 O1]]]].
      destruct (IH s1) as [s2 [es2 [E2 O2]]].
      { intros x q I. apply (L x q). right. exact I. }
      { exact N2. }
      { intros x c I. apply NC. right. exact I. }
      { intros x q I. apply (RQ x q). right. exact I. }
      { intros d. apply (g_good _ _ _ (o_grow _ _ _ _ _ O1 d)). }
      { intros x I. rewrite U1 by (intros c; apply NC; right; exact I).
        cbn. rewrite upd_other; [apply Z; right; exact I | ]. intros ->. apply N1, I. }
      exists s2, ([] ++ es1 ++ es2). split; [exact E2 | ]. cbv zeta in O1.
      apply (outcome_ext _ _ _ _ _ _ _)
        with (3 := outcome_trans _ _ _ _ _ _ _ _ _ O0 (outcome_trans _ _ _ _ _ _ _ _ _ O1 O2)).
      * intros d n t. unfold all_given, either, requested, given, below. cbn [In]. split.
        -- intros [[-> H] | [[c [e [[A [B C]] H]]] | [[q [A H]] | [c [e [[x [q [A B]]] H]]]]]].
           ++ left. exists req. split; [left; reflexivity | exact H].
           ++ right. exists c, e. split; [ | exact H]. exists m, (Some req).
              split; [left; reflexivity | split; [exact A | split; assumption]].
           ++ left. exists q. split; [right; exact A | exact H].
           ++ right. exists c, e. split; [ | exact H]. exists x, q. split; [right; exact A | exact B].
        -- intros [[q [[A | A] H]] | [c [e [[x [q [[A | A] B]]] H]]]].
           ++ injection A as <- <-. left. split; [reflexivity | exact H].
           ++ right. right. left. exists q. split; assumption.
           ++ injection A as <- <-. right. left. exists c, e. split; [exact B | exact H].
           ++ right. right. right. exists c, e. split; [exists x, q; split; assumption | exact H].
      * intros c d. unfold below_response. cbn [In]. split.
        -- intros [[] | [H | [x [q [A B]]]]].
           ++ exists m, req. split; [left; reflexivity | exact H].
           ++ exists x, q. split; [right; exact A | exact B].
        -- intros [x [q [[A | A] B]]].
           ++ injection A as <- <-. right. left. exact B.
           ++ right. right. exists x, q. split; assumption.
    + destruct (visit_spec fuel m s Lm G) as [s1 [es1 [-> [U1 O1]]]]. cbv zeta in O1.
      set (s1' := {| st_args := st_args s1; st_errors := st_errors s |}).
      set (Bm := fun c d => reaches children has_rule m c /\ In d (children c) /\ has_rule d = true) in *.
      assert (O1' : outcome (given Bm) (fun _ _ => False) s s1' []).
      { apply outcome_grow; [reflexivity | ]. intros d. apply (o_grow _ _ _ _ _ O1 d). }
      destruct (IH s1') as [s2 [es2 [E2 O2]]].
      { intros x q I. apply (L x q). right. exact I. }
      { exact N2. }
      { intros x c I. apply NC. right. exact I. }
      { intros x q I. apply (RQ x q). right. exact I. }
      { intros d. apply (g_good _ _ _ (o_grow _ _ _ _ _ O1 d)). }
      { intros x I. cbn. rewrite U1 by (intros c; apply NC; right; exact I).
        apply Z. right. exact I. }
      exists s2, ([] ++ es2). split; [exact E2 | ].
      apply (outcome_ext _ _ _ _ _ _ _) with (3 := outcome_trans _ _ _ _ _ _ _ _ _ O1' O2).
      * intros d n t. unfold all_given, either, requested, given, below, Bm. cbn [In]. split.
        -- intros [[c [e [[A [B C]] H]]] | [[q [A H]] | [c [e [[x [q [A B]]] H]]]]].
           ++ right. exists c, e. split; [ | exact H]. exists m, None.
              split; [left; reflexivity | split; [exact A | split; assumption]].
           ++ left. exists q. split; [right; exact A | exact H].
           ++ right. exists c, e. split; [ | exact H]. exists x, q. split; [right; exact A | exact B].
        -- intros [[q [[A | A] H]] | [c [e [[x [q [[A | A] B]]] H]]]].
           ++ discriminate A.
           ++ right. left. exists q. split; assumption.
           ++ injection A as <- <-. left. exists c, e. split; [exact B | exact H].
           ++ right. right. exists c, e. split; [exists x, q; split; assumption | exact H].
      * intros c d. unfold below_response. cbn [In]. split.
        -- intros [[] | [x [q [A B]]]]. exists x, q. split; [right; exact A | exact B].
        -- intros [x [q [[A | A] B]]]; [discriminate A | ]. right. exists x, q. split; assumption.
Qed.

End Args.
