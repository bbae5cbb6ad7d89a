From Coq Require Import String List Bool Arith Lia.
From Verif.Cast Require Import Model.
From Verif.Schema Require Import Model Spec.
Import ListNotations.
Local Open Scope nat_scope.

Lemma kind_eqb_eq : forall a b, kind_eqb a b = true <-> a = b.
Proof. intros a b. split; [|intros ->; apply String.eqb_refl]. destruct a, b; cbn; try reflexivity; discriminate. Qed.
Lemma kind_eqb_refl : forall a, kind_eqb a a = true. Proof. intros a. apply kind_eqb_eq. reflexivity. Qed.
Lemma kind_eqb_neq : forall a b, a <> b -> kind_eqb a b = false.
Proof. intros a b H. destruct (kind_eqb a b) eqn:E; [apply kind_eqb_eq in E; contradiction|reflexivity]. Qed.

Lemma mem_In : forall n l, mem n l = true <-> In n l.
Proof.
  intros n l. unfold mem. rewrite existsb_exists. split.
  - intros (x & Hx & E). apply Nat.eqb_eq in E. subst. exact Hx.
  - intros H. exists n. split; [exact H|apply Nat.eqb_refl].
Qed.
Lemma alias_msg : forall s m n, findMessageAliasName s m n = true <-> aliased (msg_aliases s) m n.
Proof. intros s m n. unfold findMessageAliasName, aliased. rewrite orb_true_iff, !mem_In. reflexivity. Qed.
Lemma alias_enum : forall s m n, findEnumAliasName s m n = true <-> aliased (enum_aliases s) m n.
Proof. intros s m n. unfold findEnumAliasName, aliased. rewrite orb_true_iff, !mem_In. reflexivity. Qed.

Lemma number_is : forall b r n o, number b -> is_number (T b r n o) = true.
Proof. intros b r n o (k & -> & H). unfold is_number, kind_of. cbn [base_of]. cbn in H. intuition (subst; reflexivity). Qed.
Lemma is_number_number : forall t, is_number t = true -> number (base_of t).
Proof.
  intros [b r n o] H. unfold is_number, kind_of in H. cbn [base_of] in *. destruct b as [k| | | |]; try discriminate H.
  exists k. split; [reflexivity|]. destruct k; try discriminate H; cbn; auto 20.
Qed.

Ltac nonum := exfalso; match goal with H : number _ |- _ => let E := fresh in destruct H as (? & E & _); discriminate E end.

(** Compatible types are not different. *)
Lemma not_different : forall s f t, (forall a b, base_of f <> BSelector a b) -> compatible s f t -> isDifferentType f t = false.
Proof.
  intros s f t Hs H. unfold isDifferentType. inversion H; subst.
  - rewrite !number_is by assumption. reflexivity.
  - rewrite (number_is c) by assumption. cbn. reflexivity.
  - destruct (is_number _ && is_number t); [reflexivity|]. destruct (_ && is_number t); [reflexivity|].
    destruct t as [b r n o]. cbn [null rep] in *. unfold kind_of at 1 2. cbn [base_of] in *.
    destruct H0 as [E|[[m E]|[(a & v & E)|E]]]; subst; cbn; try rewrite !orb_true_r; reflexivity.
  - destruct (is_number _ && _); [reflexivity|]. destruct (_ && is_number _); [reflexivity|].
    cbn [null]. cbn [andb]. unfold kind_of. cbn [base_of]. rewrite kind_eqb_refl. reflexivity.
  - reflexivity.
  - reflexivity.
  - reflexivity.
  - reflexivity.
  - exfalso. apply (Hs t0 f0). reflexivity.
Qed.

(** Compatible messages pass. *)
Lemma messages_complete : forall s f t, proper f -> kind_of f = Message -> (forall a b, base_of f <> BSelector a b) ->
  compatible s f t -> kind_of t = Message /\ messages_ok s f t = true.
Proof.
  intros s f t P K Hs H. unfold messages_ok. inversion H; subst; cbn in K; try discriminate K.
  - destruct H0 as (k & -> & Hk). cbn in K. subst k. cbn in Hk. intuition discriminate.
  - exfalso. inversion P; congruence.
  - exfalso. inversion P as [? ? ? Hx| | | | |]; subst. apply Hx. cbn. auto.
  - split; [reflexivity|]. destruct (is_wrapper _ _ && is_wrapper _ _); [reflexivity|]. cbn [base_of].
    destruct H0 as [->|Ha]; [rewrite Nat.eqb_refl; reflexivity|]. apply alias_msg in Ha. rewrite Ha. cbn. rewrite orb_true_r. reflexivity.
  - split; [reflexivity|]. unfold single, is_wrapper. rewrite H0, H1. reflexivity.
  - split; [reflexivity|]. destruct (is_wrapper _ _ && is_wrapper _ _); [reflexivity|]. cbn [base_of].
    inversion P; subst.
    rewrite (not_different s _ tk); [|intros a b E; discriminate E|assumption].
    rewrite (not_different s _ tv); [reflexivity| |assumption]. intros a b E. cbn in E. eapply H9. exact E.
  - exfalso. apply (Hs t0 f0). reflexivity.
Qed.

Lemma selectable_complete : forall s n o f, selectable f -> compatible s f (T (BEnum n) false false o) ->
  validateBindFieldType s f (T (BEnum n) false false o) = true.
Proof.
  intros s n o f Hf. induction Hf as [e o1|t f o1 Ht IHt Hf IHf]; intros H; inversion H; subst; try nonum.
  - cbn [validateBindFieldType base_of]. unfold enums_ok. match goal with H : _ \/ _ |- _ => destruct H as [->|Ha] end; [rewrite Nat.eqb_refl; reflexivity|].
    apply alias_enum in Ha. rewrite Ha. cbn. apply orb_true_r.
  - cbn [validateBindFieldType]. change (kind_eqb _ Enum) with true. cbn match. rewrite IHt, IHf by assumption. reflexivity.
Qed.

(** Compatible types are accepted. *)
Lemma bind_complete : forall s f t, proper f -> compatible s f t -> validateBindFieldType s f t = true.
Proof.
  intros s f t P H. destruct f as [b r n o]. destruct b as [k|m|e|a v|a v].
  - cbn [validateBindFieldType]. rewrite (not_different s _ t); [reflexivity|intros a b E; discriminate E|exact H].
  - destruct (messages_complete s _ t P eq_refl ltac:(intros a b E; discriminate E) H) as [K M].
    cbn [validateBindFieldType]. rewrite K. exact M.
  - cbn [validateBindFieldType]. inversion H; subst; cbn [base_of]; try nonum.
    + match goal with H : number _ |- _ => destruct H as (k & -> & _) end. reflexivity.
    + unfold enums_ok. match goal with H : _ \/ _ |- _ => destruct H as [->|Ha] end; [rewrite Nat.eqb_refl; reflexivity|]. apply alias_enum in Ha. rewrite Ha. cbn.
      apply orb_true_r.
  - destruct (messages_complete s _ t P eq_refl ltac:(intros x y E; discriminate E) H) as [K M].
    cbn [validateBindFieldType]. rewrite K. exact M.
  - inversion P; subst. inversion H; subst; [nonum|].
    apply selectable_complete; [constructor; assumption|exact H].
Qed.

Lemma request_complete : forall s f t, proper f -> field_type t -> compatible s f t -> validateRequestFieldType s f t = true.
Proof.
  intros s f t P Q H. unfold validateRequestFieldType. destruct (kind_eqb (kind_of t) Message) eqn:Kt.
  - apply kind_eqb_eq in Kt. destruct (kind_eqb (kind_of f) Message) eqn:Kf; [|reflexivity]. apply kind_eqb_eq in Kf.
    apply messages_complete; try assumption. intros a b E. destruct f as [fb r n o]. cbn in E. subst fb.
    inversion H; subst; cbn in Kt; try discriminate Kt. nonum.
  - destruct t as [b r n o]. cbn [base_of] in *. destruct b as [k|m|e|a v|a v]; try discriminate Kt.
    + rewrite (not_different s f); [reflexivity| |exact H]. intros a b E. destruct f as [fb r' n' o']. cbn in E. subst fb.
      inversion H; subst. nonum.
    + destruct f as [fb r' n' o']. cbn [base_of]. destruct fb; try reflexivity. inversion H; subst; try nonum.
      unfold enums_ok. match goal with H : _ \/ _ |- _ => destruct H as [->|Ha] end; [rewrite Nat.eqb_refl; reflexivity|]. apply alias_enum in Ha. rewrite Ha. cbn. apply orb_true_r.
Qed.

(** The converse, outside the gaps. *)
Lemma scalars_sound : forall s k r o t, scalar k -> field_type t -> rep t = r -> isDifferentType (T (BKind k) r false o) t = false ->
  compatible s (T (BKind k) r false o) t.
Proof.
  intros s k r o t Hk Ht Hr H. unfold isDifferentType in H. destruct (is_number (T (BKind k) r false o) && is_number t) eqn:N.
  - apply andb_true_iff in N. destruct N as [N1 N2]. apply is_number_number in N1. apply is_number_number in N2.
    destruct t as [b r' n o']. inversion Ht as [t' P Hn Hsel]; subst. cbn in *. subst n. apply c_number; assumption.
  - destruct (kind_eqb _ Enum && is_number t) eqn:N2.
    { apply andb_true_iff in N2. destruct N2 as [N2 _]. apply kind_eqb_eq in N2. cbn in N2. subst k.
      exfalso. apply Hk. cbn. auto. }
    cbn [null andb] in H. apply negb_false_iff in H. apply kind_eqb_eq in H. cbn in H.
    inversion Ht as [t' P Hn Hsel]; subst. inversion P; subst; cbn in *; try (exfalso; apply Hk; cbn; auto; fail).
    apply c_same.
Qed.

Lemma messages_sound : forall s f t, proper f -> field_type t -> kind_of f = Message -> (forall a b, base_of f <> BSelector a b) ->
  rep f = rep t ->
  (forall fk fv tk tv, base_of f = BMap fk fv -> base_of t = BMap tk tv -> isDifferentType fv tv = false -> compatible s fv tv) ->
  messages_ok s f t = true -> compatible s f t.
Proof.
  intros s f t P Q K Hs Hr Hm H. unfold messages_ok in H.
  inversion Q as [t' P2 Hn Hsel]; subst. destruct (is_wrapper s f && is_wrapper s t) eqn:W.
  - apply andb_true_iff in W. destruct W as [W1 W2]. destruct f as [[k|m|e|a v|a v] [|] n [o|]]; try discriminate W1.
    destruct t as [[k|m2|e|a v|a v] [|] n2 [o|]]; try discriminate W2. inversion P; subst. cbn in Hn. subst n2.
    apply c_wrapper; assumption.
  - destruct f as [[k|m|e|a v|a v] r n o]; cbn in H; try discriminate H.
    + destruct t as [[k|m2|e|a v|a v] r2 n2 o2]; cbn in H; try discriminate H. cbn in Hr, Hn. subst r2 n2.
      inversion P; subst. apply c_message. apply orb_true_iff in H. destruct H as [H|H]; [left; apply Nat.eqb_eq; exact H|right].
      apply andb_true_iff in H. apply alias_msg. apply H.
    + destruct t as [[k|m2|e|a2 v2|a2 v2] r2 n2 o2]; cbn in H; try discriminate H. cbn in Hr, Hn. subst r2 n2.
      apply andb_true_iff in H. destruct H as [H1 H2]. apply negb_true_iff in H1. apply negb_true_iff in H2.
      inversion P; subst. apply c_map.
      * inversion P2; subst. apply scalars_sound; [assumption| |reflexivity|exact H1]. constructor; [constructor; assumption|reflexivity|].
        intros a b E. discriminate E.
      * eapply Hm; [reflexivity|reflexivity|exact H2].
Qed.

Lemma selectable_sound : forall s n o f, selectable f -> validateBindFieldType s f (T (BEnum n) false false o) = true ->
  compatible s f (T (BEnum n) false false o).
Proof.
  intros s n o f Hf. induction Hf as [e o1|t f o1 Ht IHt Hf IHf]; intros H.
  - cbn [validateBindFieldType base_of] in H. unfold enums_ok in H. apply c_enum. apply orb_true_iff in H.
    destruct H as [H|H]; [left; apply Nat.eqb_eq; exact H|right]. apply andb_true_iff in H. apply alias_enum. apply H.
  - cbn [validateBindFieldType] in H. change (kind_eqb _ Enum) with true in H. cbn match in H. apply andb_true_iff in H.
    destruct H as [H1 H2]. apply c_select; auto.
Qed.

Definition maps_ok s (f t : ty) : Prop :=
  forall fk fv tk tv, base_of f = BMap fk fv -> base_of t = BMap tk tv -> isDifferentType fv tv = false -> compatible s fv tv.

Lemma null_sound : forall s t, field_type t -> isDifferentType (T (BKind Unknown) false true None) t = false ->
  compatible s (T (BKind Unknown) false true None) t.
Proof.
  intros s t Q H. inversion Q as [t' P Hn Hsel]; subst. unfold isDifferentType in H. change (is_number (T (BKind Unknown) _ _ _)) with false in H.
  cbn [andb] in H. change (kind_eqb (kind_of (T (BKind Unknown) _ _ _)) Enum) with false in H. cbn [andb null] in H.
  apply c_null. destruct t as [b r n o]. cbn [rep base_of null] in *. subst n. destruct r; [left; reflexivity|right].
  cbn [orb] in H. destruct b as [k|m|e|a v|a v].
  - right. right. unfold kind_of in H. cbn [base_of] in H. inversion P as [? ? ? Hk| | | | |]; subst.
    destruct k; try reflexivity; cbn in H; try discriminate H; exfalso; apply Hk; cbn; auto.
  - left. eauto.
  - discriminate H.
  - right. left. eauto.
  - exfalso. eapply Hsel. reflexivity.
Qed.

Lemma bind_sound : forall s f t, proper f -> field_type t -> rep f = rep t \/ null f = true ->
  (forall e, base_of f = BEnum e -> number (base_of t) \/ exists n, base_of t = BEnum n) ->
  maps_ok s f t -> validateBindFieldType s f t = true -> compatible s f t.
Proof.
  intros s f t P Q Hr He Hm H. inversion P; subst.
  - cbn [validateBindFieldType] in H. apply negb_true_iff in H. destruct Hr as [Hr|Hr]; [|discriminate Hr].
    apply scalars_sound; auto.
  - cbn [validateBindFieldType] in H. apply negb_true_iff in H. apply null_sound; assumption.
  - destruct Hr as [Hr|Hr]; [|discriminate Hr]. cbn [validateBindFieldType] in H.
    destruct (kind_eqb (kind_of t) Message) eqn:K; [|discriminate H].
    apply messages_sound; auto. intros a b E. discriminate E.
  - destruct Hr as [Hr|Hr]; [|discriminate Hr]. cbn [validateBindFieldType] in H.
    inversion Q as [t' P2 Hn Hsel]; subst. destruct t as [b r2 n2 o2]. cbn in Hr, Hn. subst r2 n2.
    destruct (He e eq_refl) as [Hnum|[n En]].
    + apply c_enum_number. exact Hnum.
    + cbn in En. subst b. cbn [base_of] in H. apply c_enum. unfold enums_ok in H. apply orb_true_iff in H.
      destruct H as [H|H]; [left; apply Nat.eqb_eq; exact H|right]. apply andb_true_iff in H. apply alias_enum. apply H.
  - destruct Hr as [Hr|Hr]; [|discriminate Hr]. cbn [validateBindFieldType] in H.
    destruct (kind_eqb (kind_of t) Message) eqn:K; [|discriminate H].
    apply messages_sound; auto. intros a b E. discriminate E.
  - destruct Hr as [Hr|Hr]; [|discriminate Hr]. inversion Q as [t' P2 Hn Hsel]; subst. destruct t as [b r2 n2 o2].
    cbn in Hr, Hn. subst r2 n2. destruct (kind_eqb (kind_of (T b false false o2)) Enum) eqn:K.
    + apply kind_eqb_eq in K. destruct b as [k|m|e|a v|a v]; try discriminate K.
      * cbn in K. subst k. inversion P2 as [? ? ? Hk| | | | |]; subst. exfalso. apply Hk. cbn. auto.
      * apply selectable_sound; [constructor; assumption|exact H].
    + exfalso. revert H. cbn [validateBindFieldType]. rewrite K. discriminate.
Qed.

Lemma request_sound : forall s f t, proper f -> field_type t -> rep f = rep t \/ null f = true ->
  (kind_of t = Message -> kind_of f = Message \/ null f = true) ->
  (kind_of t = Enum -> kind_of f = Enum) ->
  maps_ok s f t -> validateRequestFieldType s f t = true -> compatible s f t.
Proof.
  intros s f t P Q Hr Hk He Hm H. inversion Q as [t' P2 Hn Hsel]; subst. unfold validateRequestFieldType in H.
  destruct (kind_eqb (kind_of t) Message) eqn:K.
  - apply kind_eqb_eq in K. destruct (Hk K) as [Kf|Nf].
    + rewrite Kf in H. cbn in H. destruct Hr as [Hr|Hr]; [|inversion P; subst; cbn in Hr; discriminate].
      apply messages_sound; auto. intros a b E. destruct f as [fb r n o]. cbn in E. subst fb. unfold messages_ok in H.
      change (is_wrapper s (T (BSelector a b) r n o)) with false in H. cbn in H. discriminate H.
    + inversion P; subst; cbn in Nf; try discriminate Nf. apply c_null. right. destruct t as [b r n o].
      destruct b as [k|m|e|a v|a v]; cbn in K; try discriminate K; cbn [base_of]; [|left; eauto|right; left; eauto|exfalso; eapply Hsel; reflexivity].
      subst k. inversion P2 as [? ? ? Hx| | | | |]; subst. exfalso. apply Hx. cbn. auto.
  - destruct t as [b r n o]. cbn [base_of null rep] in *. subst n. destruct b as [k|m|e|a v|a v]; try discriminate K.
    + apply negb_true_iff in H. inversion P; subst; cbn [rep null] in Hr.
      * destruct Hr as [<-|Hr]; [|discriminate Hr]. apply scalars_sound; auto.
      * apply null_sound; assumption.
      * exfalso. revert H. unfold isDifferentType. cbn -[kind_eqb]. intros H. apply negb_false_iff in H. apply kind_eqb_eq in H.
        cbn in H. subst k. discriminate K.
      * destruct Hr as [<-|Hr]; [|discriminate Hr]. apply c_enum_number.
        unfold isDifferentType in H. change (is_number (T (BEnum e) r0 false o0)) with false in H. cbn [andb] in H.
        change (kind_eqb (kind_of (T (BEnum e) r0 false o0)) Enum) with true in H. cbn [andb] in H.
        destruct (is_number _) eqn:N; [apply is_number_number in N; exact N|]. cbn [null andb] in H. apply negb_false_iff in H.
        apply kind_eqb_eq in H. cbn in H. subst k. inversion P2 as [? ? ? Hx| | | | |]; subst. exfalso. apply Hx. cbn. auto.
      * exfalso. revert H. unfold isDifferentType. cbn -[kind_eqb]. intros H. apply negb_false_iff in H. apply kind_eqb_eq in H.
        cbn in H. subst k. discriminate K.
      * exfalso. revert H. unfold isDifferentType. cbn -[kind_eqb]. intros H. apply negb_false_iff in H. apply kind_eqb_eq in H.
        cbn in H. subst k. discriminate K.
    + specialize (He eq_refl). destruct f as [fb r2 n2 o2]. cbn [base_of] in *. destruct fb as [k|m|e2|a v|a v]; try discriminate He.
      * cbn in He. subst k. inversion P as [? ? ? Hx| | | | |]; subst. exfalso. apply Hx. cbn. auto.
      * inversion P; subst. cbn in Hr. destruct Hr as [<-|Hr]; [|discriminate Hr]. apply c_enum. unfold enums_ok in H.
        apply orb_true_iff in H. destruct H as [H|H]; [left; apply Nat.eqb_eq; exact H|right]. apply andb_true_iff in H.
        apply alias_enum. apply H.
Qed.
