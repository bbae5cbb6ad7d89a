(** A check of the hypotheses of C49 for a concrete schema, used by the examples. *)
From Coq Require Import String List Bool Arith.
From Verif.Cast Require Import Model.
From Verif.Conv Require Import Enum Model Decls DeclsSpec DeclsProofs.
Import ListNotations.
Local Open Scope nat_scope.

Definition kind_dec (a b : kind) : {a = b} + {a <> b}.
Proof. decide equality. Defined.
Definition option_dec_string (a b : option string) : {a = b} + {a <> b}.
Proof. decide equality. apply string_dec. Defined.
Definition option_dec_nat (a b : option nat) : {a = b} + {a <> b}.
Proof. decide equality. apply Nat.eq_dec. Defined.
Definition ty_dec (a b : ty) : {a = b} + {a <> b}.
Proof. decide equality; [apply option_dec_string | apply option_dec_nat | apply option_dec_nat | apply bool_dec | apply kind_dec]. Defined.
Definition pair_dec (a b : ty * ty) : {a = b} + {a <> b}.
Proof. decide equality; apply ty_dec. Defined.
Definition mem_ty (t : ty) (U : list ty) : bool := if in_dec ty_dec t U then true else false.
Definition mem_pair (p : ty * ty) (G : list (ty * ty)) : bool := if in_dec pair_dec p G then true else false.
Lemma mem_ty_in t U : mem_ty t U = true -> In t U.
Proof. unfold mem_ty. destruct (in_dec ty_dec t U); [auto|discriminate]. Qed.
Lemma mem_pair_in t U : mem_pair t U = true -> In t U.
Proof. unfold mem_pair. destruct (in_dec pair_dec t U); [auto|discriminate]. Qed.

Section Check.
  Variable msgs : nat -> message.
  Variable selector : nat -> bool.
  Variable depth : nat.
  Variable U : list ty.

  Definition nonmap (t : ty) : bool := match map_entry msgs t with None => true | Some _ => false end.
  Definition sel (t : ty) : bool := match t_msg t with Some m => selector m | None => false end.
  Lemma sel_spec t : is_selector selector t <-> sel t = true.
  Proof.
    unfold sel. split; [intros (m & -> & S); exact S|]. destruct (t_msg t) as [m|] eqn:E; [|discriminate]. intros S. exists m. auto.
  Qed.
  Definition check_entry (m : message) : bool :=
    match m_fields m with
    | [k; v] => String.eqb (f_name k) "key" && String.eqb (f_name v) "value" && nonmap (f_type k) && nonmap (f_type v)
    | _ => false
    end.
  Definition check_type (t : ty) : bool :=
    mem_ty (elem t) U && mem_ty (strip t) U && (nonmap t || negb (t_rep t)) && (negb (t_oneof t) || (negb (t_rep t) && negb (sel t))) &&
    match t_msg t with
    | None => true
    | Some m => forallb (fun fd => mem_ty (f_type fd) U && (selector m || negb (sel (f_type fd)))) (m_fields (msgs m)) && is_message t &&
                (negb (m_map (msgs m)) || check_entry (msgs m)) && (negb (selector m) || negb (m_map (msgs m))) &&
                (negb (selector m) || match leaves msgs selector depth m with Some _ => true | None => false end)
    end.
  Definition compatibleb (f t : ty) : bool :=
    negb (is_message f) ||
    (negb (sel f) && is_message t && match t_msg f, t_msg t with Some _, Some _ => true | _, _ => false end && Bool.eqb (nonmap f) (nonmap t)) ||
    (sel f && is_enum t && Bool.eqb (t_rep f) (t_rep t)).
  Definition check_pair (G : list (ty * ty)) (p : ty * ty) : bool :=
    let (f, t) := p in
    compatibleb f t && (negb (t_rep f) || mem_pair (elem f, elem t) G) && (negb (t_oneof f) || mem_pair (strip f, strip t) G) &&
    match t_msg f, t_msg t with
    | Some a, Some b => forallb (fun ff => forallb (fun tf => negb (String.eqb (f_name ff) (f_name tf)) || mem_pair (f_type ff, f_type tf) G) (m_fields (msgs b))) (m_fields (msgs a))
    | _, _ => true
    end &&
    match t_msg f with
    | Some m => if selector m then match leaves msgs selector depth m with Some l => forallb (fun x => mem_pair (x, t) G) l | None => false end else true
    | None => true
    end.
  Definition check (roots G : list (ty * ty)) : bool :=
    forallb check_type U && forallb (fun p => mem_ty (fst p) U && mem_ty (snd p) U && mem_pair p G) roots && forallb (check_pair G) G.

  Lemma nonmap_spec t : nonmap t = true <-> map_entry msgs t = None.
  Proof. unfold nonmap. destruct (map_entry msgs t); split; congruence. Qed.
  Lemma compatible_sound f t : compatibleb f t = true -> compatible msgs selector f t.
  Proof.
    unfold compatibleb. intros H M. rewrite M in H. cbn [negb orb] in H. apply orb_true_iff in H as [H|H].
    - left. rewrite !andb_true_iff in H. destruct H as [[[H1 H2] H3] H4]. split; [rewrite sel_spec; destruct (sel f); discriminate|].
      split; [exact H2|]. destruct (t_msg f); [|discriminate]. destruct (t_msg t); [|discriminate]. split; [discriminate|]. split; [discriminate|].
      rewrite <- !nonmap_spec. apply eqb_prop in H4. rewrite H4. tauto.
    - right. rewrite !andb_true_iff in H. destruct H as [[H1 H2] H3]. split; [apply sel_spec; exact H1|]. split; [exact H2 | apply eqb_prop; exact H3].
  Qed.

  Theorem check_sound roots G : check roots G = true -> assignments msgs selector depth U roots.
  Proof.
    unfold check. rewrite !andb_true_iff, !forallb_forall. intros [[HU HR] HG].
    assert (T : forall t, In t U -> _) by (intros t Ht; pose proof (HU t Ht) as H; unfold check_type in H; rewrite !andb_true_iff in H; exact H).
    constructor.
    - split.
      + intros t Ht. destruct (T t Ht) as [[[[H1 H2] _] _] _]. split; apply mem_ty_in; assumption.
      + intros t m fd Ht E Hf. destruct (T t Ht) as [_ H]. rewrite E in H. rewrite !andb_true_iff in H. destruct H as [[[[H _] _] _] _].
        rewrite forallb_forall in H. specialize (H _ Hf). apply andb_true_iff in H as [H _]. apply mem_ty_in. exact H.
    - constructor.
      + intros t m Ht E. destruct (T t Ht) as [_ H]. rewrite E in H. rewrite !andb_true_iff in H. tauto.
      + intros t m Ht E M. destruct (T t Ht) as [_ H]. rewrite E in H. rewrite !andb_true_iff in H. destruct H as [[[_ H] _] _]. rewrite M in H.
        cbn [negb orb] in H. unfold check_entry in H. destruct (m_fields (msgs m)) as [|k [|v [|? ?]]]; try discriminate.
        rewrite !andb_true_iff, !String.eqb_eq, !nonmap_spec in H. exists k, v. tauto.
      + intros t Ht N. destruct (T t Ht) as [[[_ H] _] _]. apply orb_true_iff in H as [H|H]; [apply nonmap_spec in H; tauto | destruct (t_rep t); [discriminate|reflexivity]].
      + intros m fd (t & Ht & E) Hf S. destruct (T t Ht) as [_ H]. rewrite E in H. rewrite !andb_true_iff in H. destruct H as [[[[H _] _] _] _].
        rewrite forallb_forall in H. specialize (H _ Hf). apply andb_true_iff in H as [_ H]. rewrite S in H. rewrite sel_spec.
        destruct (sel (f_type fd)); discriminate.
      + intros t Ht O. destruct (T t Ht) as [[_ H] _]. rewrite O in H. cbn [negb orb] in H. apply andb_true_iff in H as [A B].
        rewrite sel_spec. split; [destruct (t_rep t); [discriminate|reflexivity] | destruct (sel t); discriminate].
      + intros m (t & Ht & E) S. destruct (T t Ht) as [_ H]. rewrite E in H. rewrite !andb_true_iff in H. destruct H as [[_ H] _]. rewrite S in H.
        destruct (m_map (msgs m)); [discriminate|reflexivity].
    - intros f t Hr. specialize (HR _ Hr). cbn in HR. rewrite !andb_true_iff in HR. split; apply mem_ty_in; tauto.
    - intros m (t & Ht & E) S. destruct (T t Ht) as [_ H]. rewrite E in H. rewrite !andb_true_iff in H. destruct H as [_ H]. rewrite S in H.
      destruct (leaves msgs selector depth m); [discriminate | discriminate H].
    - assert (P : forall f t, meets msgs selector roots f t -> In (f, t) G).
      { induction 1 as [f t H | f t M IH R | f t M IH O | f t a b ff tf M IH A B Fa Fb N | f t m x M IH A S L].
        - specialize (HR _ H). cbn in HR. rewrite !andb_true_iff in HR. apply mem_pair_in. tauto.
        - specialize (HG _ IH). cbn in HG. rewrite !andb_true_iff in HG. destruct HG as [[[[_ H] _] _] _]. rewrite R in H. apply mem_pair_in. exact H.
        - specialize (HG _ IH). cbn in HG. rewrite !andb_true_iff in HG. destruct HG as [[[_ H] _] _]. rewrite O in H. apply mem_pair_in. exact H.
        - specialize (HG _ IH). cbn in HG. rewrite !andb_true_iff in HG. destruct HG as [[_ H] _]. rewrite A, B in H. rewrite forallb_forall in H.
          specialize (H _ Fa). rewrite forallb_forall in H. specialize (H _ Fb). rewrite N, String.eqb_refl in H. apply mem_pair_in. exact H.
        - specialize (HG _ IH). cbn in HG. rewrite !andb_true_iff in HG. destruct HG as [_ H]. rewrite A, S in H.
          destruct (leaves msgs selector depth m) as [l|] eqn:E; [|discriminate]. rewrite forallb_forall in H. apply mem_pair_in. apply H.
          apply (leaves_spec _ _ _ _ _ E). exact L. }
      intros f t M. specialize (HG _ (P _ _ M)). cbn in HG. rewrite !andb_true_iff in HG. apply compatible_sound. tauto.
  Qed.

  Definition alikeb (a b : ty) : bool :=
    (if ty_dec a b then true else false) ||
    (Bool.eqb (t_rep a) (t_rep b) && (if option_dec_string (t_member a) (t_member b) then true else false) &&
     match map_entry msgs a, map_entry msgs b with
     | Some ma, Some mb => match entry ma, entry mb with Some p, Some q => if pair_dec p q then true else false | _, _ => false end
     | _, _ => false
     end).
  Lemma alikeb_sound a b : alikeb a b = true -> alike msgs a b.
  Proof.
    unfold alikeb. intros H. apply orb_true_iff in H as [H|H]; [left; destruct (ty_dec a b); [assumption|discriminate]|].
    right. rewrite !andb_true_iff in H. destruct H as [[H1 H2] H3]. split; [apply eqb_prop; exact H1|].
    split; [destruct (option_dec_string (t_member a) (t_member b)); [assumption|discriminate]|].
    destruct (map_entry msgs a) as [ma|]; [|discriminate]. destruct (map_entry msgs b) as [mb|]; [|discriminate].
    destruct (entry ma) as [[k v]|] eqn:Ea; [|discriminate]. destruct (entry mb) as [q|] eqn:Eb; [|discriminate].
    destruct (pair_dec (k, v) q) as [<-|]; [|discriminate]. exists ma, mb, k, v. auto.
  Qed.

  Definition check_names (mname ename : nat -> string) : bool :=
    let ws := map (fun t => (t, written msgs mname ename t)) U in
    forallb (fun p => forallb (fun q => if String.eqb (snd p) (snd q) then alikeb (fst p) (fst q) else true) ws) ws &&
    let ps := map (fun p => (snd (fst p), (snd (fst p) ++ snd (snd p))%string)) (list_prod ws ws) in
    forallb (fun p => forallb (fun q => if String.eqb (snd p) (snd q) then String.eqb (fst p) (fst q) else true) ps) ps.
  Lemma check_names_sound mname ename : check_names mname ename = true -> unambiguous msgs mname ename U.
  Proof.
    unfold check_names. cbn zeta. intros H. apply andb_true_iff in H as [H1 H2]. rewrite forallb_forall in H1, H2.
    assert (W : forall t, In t U -> In (t, written msgs mname ename t) (map (fun t => (t, written msgs mname ename t)) U)).
    { intros t Ht. apply in_map_iff. exists t. auto. }
    split.
    - intros a b A B E. specialize (H1 _ (W a A)). rewrite forallb_forall in H1. specialize (H1 _ (W b B)). cbn [fst snd] in H1.
      rewrite E, String.eqb_refl in H1. apply alikeb_sound. exact H1.
    - intros a b c d A B C D E.
      assert (I : forall a b, In a U -> In b U -> In (written msgs mname ename a, (written msgs mname ename a ++ written msgs mname ename b)%string)
          (map (fun p => (snd (fst p), (snd (fst p) ++ snd (snd p))%string)) (list_prod (map (fun t => (t, written msgs mname ename t)) U) (map (fun t => (t, written msgs mname ename t)) U)))).
      { intros x y X Y. apply in_map_iff. exists ((x, written msgs mname ename x), (y, written msgs mname ename y)). split; [reflexivity|].
        apply in_prod; apply W; assumption. }
      specialize (H2 _ (I a b A B)). rewrite forallb_forall in H2. specialize (H2 _ (I c d C D)). cbn [fst snd] in H2.
      rewrite E, String.eqb_refl in H2. apply String.eqb_eq. exact H2.
  Qed.

  Definition check_alias : bool :=
    forallb (fun a => forallb (fun b =>
      match t_msg a, t_msg b with
      | Some a, Some b => forallb (fun tf => match toStructField msgs tf a with
                                             | Some (_, ft) => match find_field (msgs a) (f_name tf) with Some ff => if ty_dec (f_type ff) ft then true else false | None => false end
                                             | None => true
                                             end) (m_fields (msgs b))
      | _, _ => true
      end) U) U.
  Lemma check_alias_sound : check_alias = true -> not_renamed msgs U.
  Proof.
    unfold check_alias. rewrite forallb_forall. intros H a b tf n ft (ta & Ta & Ea) (tb & Tb & Eb) Htf Es.
    specialize (H _ Ta). rewrite forallb_forall in H. specialize (H _ Tb). rewrite Ea, Eb in H. rewrite forallb_forall in H. specialize (H _ Htf).
    rewrite Es in H. destruct (find_field (msgs a) (f_name tf)) as [ff|]; [|discriminate]. exists ff. split; [reflexivity|].
    destruct (ty_dec (f_type ff) ft); [assumption|discriminate].
  Qed.
End Check.
