From Coq Require Import Ascii String List Bool Arith ZArith Lia.
From Verif.Base Require Import Text.
From Verif.Base Require TextProofs.
From Verif.Ident Require Model.
From Verif.Logs Require Import Model Spec.
Import ListNotations.
Local Open Scope string_scope.

(** ** Sets of functions *)

Lemma has_spec : forall st f, has st f = true <-> exists d, In d st /\ d_name d = f.
Proof.
  intros st f. unfold has. rewrite existsb_exists. split; intros [d [I E]]; exists d; (split; [exact I | ]); apply String.eqb_eq; exact E.
Qed.
Lemma has_app : forall st new f, has st f = true -> has (st ++ new) f = true.
Proof. intros st new f H. apply has_spec in H. destruct H as [d [I E]]. apply has_spec. exists d. split; [apply in_or_app; left; exact I | exact E]. Qed.
Lemma has_add : forall d st, has (add d st) (d_name d) = true.
Proof.
  intros d st. unfold add. destruct (has st (d_name d)) eqn:E; [exact E | ].
  apply has_spec. exists d. split; [apply in_or_app; right; left; reflexivity | reflexivity].
Qed.

Lemma length_app_s : forall a b, String.length (a ++ b) = String.length a + String.length b.
Proof. induction a as [ | c a IH]; intros b; [reflexivity | cbn; rewrite IH; reflexivity]. Qed.

Section Service.
  Variable msgs : nat -> message.
  Variable enums : nat -> enum.
  Variable service : string.
  Variable roots : list nat.

  Notation used := (used msgs roots).

  (** Where a function comes from. *)
  Inductive made : def -> Prop :=
  | Made_message : forall i b l, used (Msg i b) -> attrs msgs enums (m_fields (msgs i)) = Some l -> made (message_def msgs i l)
  | Made_argument : forall i fs l, In i roots -> m_arg (msgs i) = Some fs -> attrs msgs enums fs = Some l -> made (argument_def msgs service i l)
  | Made_map : forall q k v b, used (Map q k v b) -> made (map_def msgs enums q k v)
  | Made_messages : forall i, used (Msg i true) -> made (repeated_def (Msg i false) (m_fqdn msgs i))
  | Made_enums : forall e, used (Enm e true) -> made (repeated_def (Enm e false) (e_fqdn (enums e)))
  | Made_enum : forall e b, used (Enm e b) -> made (enum_def enums e).

  Lemma made_named : forall d, made d -> named msgs enums service roots (d_name d) (d_param d).
  Proof using.
    intros d M. destruct M; cbn.
    - apply N_message with (b := b). exact H.
    - apply N_argument with (fs := fs); assumption.
    - apply N_map with (b := b). exact H.
    - apply N_messages. exact H.
    - apply N_enums. exact H.
    - apply N_enum with (b := b). exact H.
  Qed.

  (** The functions a type needs are there. *)
  Definition reg (st : list def) (t : ty) : Prop :=
    match t with
    | Scalar _ _ | Null _ => True
    | Msg i rep => has st (fn (m_fqdn msgs i)) = true /\ (rep = true -> has st (repeated_fn (m_fqdn msgs i)) = true)
    | Enm e rep => has st (fn (e_fqdn (enums e))) = true /\ (rep = true -> has st (repeated_fn (e_fqdn (enums e))) = true)
    | Map q _ _ _ => has st (fn q) = true
    end.
  Lemma reg_app : forall st new t, reg st t -> reg (st ++ new) t.
  Proof using.
    intros st new [k r | r | i r | e r | q k v r] H; cbn in *; try exact I.
    - destruct H as [A B]. split; [apply has_app; exact A | intros E; apply has_app; exact (B E)].
    - destruct H as [A B]. split; [apply has_app; exact A | intros E; apply has_app; exact (B E)].
    - apply has_app. exact H.
  Qed.

  Definition closed (st : list def) (d : def) : Prop :=
    match d_body d with
    | BMessage i _ => (forall t, In t (field_types (m_fields (msgs i))) \/ In t (m_nested (msgs i)) -> reg st t) /\
                      (forall e, In e (m_enums (msgs i)) -> has st (fn (e_fqdn (enums e))) = true)
    | BArgument i _ => forall fs t, m_arg (msgs i) = Some fs -> In t (field_types fs) -> reg st t
    | BMap v _ => reg st v
    | BRepeated _ f => has st f = true
    | BEnum _ _ => True
    end.
  Lemma closed_app : forall st new d, closed st d -> closed (st ++ new) d.
  Proof using.
    intros st new d H. unfold closed in *. destruct (d_body d).
    - destruct H as [A B]. split; [intros t I; apply reg_app; exact (A t I) | intros e I; apply has_app; exact (B e I)].
    - intros fs t E I. apply reg_app. exact (H fs t E I).
    - apply reg_app. exact H.
    - apply has_app. exact H.
    - exact I.
  Qed.

  (** What a visit does: it adds functions that are made for types in use, under new names, and what these need is there in the
      end; [later] are those the caller still cares for. *)
  Definition grows (later : list def) (st st' : list def) : Prop :=
    exists new, st' = (st ++ new)%list /\ (NoDup (map d_name st) -> NoDup (map d_name st')) /\
      (forall d, In d new -> made d) /\ (forall d, In d new -> In d later \/ closed st' d).

  Lemma grows_refl : forall later st, grows later st st.
  Proof using. intros later st. exists []. rewrite app_nil_r. repeat split; [intros H; exact H | intros d [] | intros d []]. Qed.
  Lemma grows_trans : forall later a b c, grows later a b -> grows later b c -> grows later a c.
  Proof using.
    intros later a b c [n [E [N [M C]]]] [n' [E' [N' [M' C']]]]. exists (n ++ n')%list. subst b.
    split; [rewrite app_assoc; exact E' | ]. split; [intros H; exact (N' (N H)) | ]. split.
    - intros d I. apply in_app_or in I. destruct I as [I | I]; [exact (M d I) | exact (M' d I)].
    - intros d I. apply in_app_or in I. destruct I as [I | I]; [ | exact (C' d I)].
      destruct (C d I) as [L | L]; [left; exact L | right; rewrite E'; apply closed_app; exact L].
  Qed.
  Lemma grows_has : forall later st st' f, grows later st st' -> has st f = true -> has st' f = true.
  Proof using. intros later st st' f [n [-> _]] H. apply has_app. exact H. Qed.
  Lemma grows_reg : forall later st st' t, grows later st st' -> reg st t -> reg st' t.
  Proof using. intros later st st' t [n [-> _]] H. apply reg_app. exact H. Qed.
  Lemma grows_later : forall l l' st st', (forall d, In d l -> In d l' \/ closed st' d) -> grows l st st' -> grows l' st st'.
  Proof using.
    intros l l' st st' H [n [E [N [M C]]]]. exists n. repeat split; try assumption.
    intros d I. destruct (C d I) as [L | L]; [exact (H d L) | right; exact L].
  Qed.

  Lemma NoDup_add : forall st d, has st (d_name d) = false -> NoDup (map d_name st) -> NoDup (map d_name (st ++ [d])).
  Proof using.
    intros st d H N. rewrite map_app. cbn [map].
    assert (X : ~ In (d_name d) (map d_name st)).
    { intros I. apply in_map_iff in I. destruct I as [e [E I]]. assert (Y : has st (d_name d) = true) by (apply has_spec; exists e; split; assumption). congruence. }
    clear H. induction st as [ | e st IH]; cbn.
    - constructor; [intros [] | constructor].
    - cbn in N. inversion N as [ | ? ? A B]; subst. constructor.
      + intros I. apply in_app_or in I. destruct I as [I | [I | []]]; [exact (A I) | ]. apply X. cbn. left. symmetry. exact I.
      + apply IH; [exact B | intros I; apply X; cbn; right; exact I].
  Qed.

  Lemma grows_add : forall later d st, made d -> In d later \/ closed (add d st) d -> grows later st (add d st).
  Proof using.
    intros later d st M C. unfold add in *. destruct (has st (d_name d)) eqn:E; [apply grows_refl | ].
    exists [d]. split; [reflexivity | ]. split; [intros N; apply NoDup_add; assumption | ]. split.
    - intros e [<- | []]. exact M.
    - intros e [<- | []]. exact C.
  Qed.

  Lemma each_grows : forall (A : Type) (f : A -> list def -> out) (P : A -> list def -> Prop) later l,
    (forall x st st', In x l -> f x st = Done st' -> grows later st st' /\ P x st') ->
    (forall x st st', grows later st st' -> P x st -> P x st') ->
    forall st st', each f l st = Done st' -> grows later st st' /\ forall x, In x l -> P x st'.
  Proof using.
    intros A f P later l F Mono. induction l as [ | x l IH]; intros st st' E; cbn [each] in E.
    - injection E as <-. split; [apply grows_refl | intros x []].
    - unfold bind in E. destruct (f x st) as [st1 | | ] eqn:E1; try discriminate E.
      destruct (F x st st1 (or_introl eq_refl) E1) as [G1 P1].
      destruct (IH (fun y s s' I => F y s s' (or_intror I)) st1 st' E) as [G2 P2].
      split; [exact (grows_trans _ _ _ _ G1 G2) | ]. intros y [<- | I]; [exact (Mono _ _ _ G2 P1) | exact (P2 y I)].
  Qed.

  (** A visit of a message. *)
  Definition visits (rec : nat -> list def -> out) : Prop := forall later i b st st', used (Msg i b) -> rec i st = Done st' ->
    grows later st st' /\ has st' (fn (m_fqdn msgs i)) = true.

  Lemma set_type_grows : forall rec, visits rec -> forall t later st st', used t -> set_type msgs enums rec t st = Done st' ->
    grows later st st' /\ reg st' t.
  Proof using.
    intros rec V t. induction t as [k r | r | i r | e r | q k _ v IH r]; intros later st st' U E; cbn [set_type] in E.
    - injection E as <-. split; [apply grows_refl | exact I].
    - injection E as <-. split; [apply grows_refl | exact I].
    - unfold bind in E. destruct (rec i st) as [st1 | | ] eqn:E1; try discriminate E. injection E as <-.
      destruct (V later i r st st1 U E1) as [G H]. destruct r.
      + set (d := repeated_def (Msg i false) (m_fqdn msgs i)).
        assert (G2 : grows later st1 (add d st1)).
        { apply grows_add; [apply Made_messages; exact U | right]. unfold closed. cbn [d d_body repeated_def].
          unfold add. destruct (has st1 (d_name d)); [exact H | apply has_app; exact H]. }
        split; [exact (grows_trans _ _ _ _ G G2) | ]. split; [exact (grows_has _ _ _ _ G2 H) | intros _; exact (has_add d st1)].
      + split; [exact G | split; [exact H | discriminate]].
    - injection E as <-. set (d := enum_def enums e).
      assert (G1 : grows later st (add d st)) by (apply grows_add; [apply Made_enum with (b := r); exact U | right; exact I]).
      assert (H : has (add d st) (fn (e_fqdn (enums e))) = true) by exact (has_add d st).
      destruct r; [ | split; [exact G1 | split; [exact H | discriminate]]].
      set (d2 := repeated_def (Enm e false) (e_fqdn (enums e))).
      assert (G2 : grows later (add d st) (add d2 (add d st))).
      { apply grows_add; [apply Made_enums; exact U | right]. unfold closed. cbn [d2 d_body repeated_def].
        unfold add at 1. destruct (has (add d st) (d_name d2)); [exact H | apply has_app; exact H]. }
      split; [exact (grows_trans _ _ _ _ G1 G2) | ]. split; [exact (grows_has _ _ _ _ G2 H) | intros _; exact (has_add d2 _)].
    - cbn [reg]. destruct (has st (fn q)) eqn:Hq.
      + injection E as <-. split; [apply grows_refl | exact Hq].
      + set (d := map_def msgs enums q k v) in *.
        destruct (IH (d :: later) (add d st) st' (U_value _ _ _ _ _ _ U) E) as [G R].
        assert (G1 : grows (d :: later) st (add d st)) by (apply grows_add; [apply Made_map with (b := r); exact U | left; left; reflexivity]).
        split.
        * apply (grows_later (d :: later)); [ | exact (grows_trans _ _ _ _ G1 G)].
          intros x [<- | I]; [right; exact R | left; exact I].
        * exact (grows_has _ _ _ _ G (has_add d st)).
  Qed.

  Lemma in_field_types : forall fs t, In t (field_types fs) -> exists n, In (n, t) fs.
  Proof using. intros fs t H. apply in_map_iff in H. destruct H as [[n u] [E I]]. cbn in E. subst u. exists n. exact I. Qed.
  Lemma field_types_in : forall fs n t, In (n, t) fs -> In t (field_types fs).
  Proof using. intros fs n t I. exact (in_map snd fs (n, t) I). Qed.

  Lemma set_message_visits : forall fuel, visits (set_message msgs enums fuel).
  Proof using.
    induction fuel as [ | fuel IH]; intros later i b st st' U E; cbn [set_message] in E; [discriminate E | ].
    destruct (has st (fn (m_fqdn msgs i))) eqn:Hm; [injection E as <-; split; [apply grows_refl | exact Hm] | ].
    destruct (attrs msgs enums (m_fields (msgs i))) as [l | ] eqn:El; [ | discriminate E].
    set (d := message_def msgs i l) in *.
    unfold bind at 1 in E. destruct (each _ _ (add d st)) as [st1 | | ] eqn:E1 in E; try discriminate E.
    unfold bind in E. destruct (each _ _ st1) as [st2 | | ] eqn:E2 in E; try discriminate E.
    assert (G0 : grows (d :: later) st (add d st)) by (apply grows_add; [apply Made_message with (b := b); assumption | left; left; reflexivity]).
    destruct (each_grows ty (set_type msgs enums (set_message msgs enums fuel)) (fun t s => reg s t) (d :: later) (field_types (m_fields (msgs i)))) with (st := add d st) (st' := st1) as [G1 P1]; [ | | exact E1 | ].
    { intros t s s' I Et. apply in_field_types in I. destruct I as [n I]. apply (set_type_grows _ IH t _ _ _ (U_field _ _ _ _ _ _ U I) Et). }
    { intros t s s' G R. exact (grows_reg _ _ _ _ G R). }
    destruct (each_grows ty (set_type msgs enums (set_message msgs enums fuel)) (fun t s => reg s t) (d :: later) (m_nested (msgs i))) with (st := st1) (st' := st2) as [G2 P2]; [ | | exact E2 | ].
    { intros t s s' I Et. apply (set_type_grows _ IH t _ _ _ (U_nested _ _ _ _ _ U I) Et). }
    { intros t s s' G R. exact (grows_reg _ _ _ _ G R). }
    destruct (each_grows nat (fun e st => Done (add (enum_def enums e) st)) (fun e s => has s (fn (e_fqdn (enums e))) = true) (d :: later) (m_enums (msgs i))) with (st := st2) (st' := st') as [G3 P3]; [ | | exact E | ].
    { intros e s s' I Ee. injection Ee as <-. split; [ | exact (has_add (enum_def enums e) s)].
      apply grows_add; [apply Made_enum with (b := false); exact (U_enum _ _ _ _ _ U I) | right; exact Logic.I]. }
    { intros e s s' G R. exact (grows_has _ _ _ _ G R). }
    pose proof (grows_trans _ _ _ _ G0 (grows_trans _ _ _ _ G1 (grows_trans _ _ _ _ G2 G3))) as G.
    split.
    - apply (grows_later (d :: later)); [ | exact G]. intros x [<- | I]; [right | left; exact I].
      split; [ | exact P3]. intros t [I | I].
      + exact (grows_reg _ _ _ _ G3 (grows_reg _ _ _ _ G2 (P1 t I))).
      + exact (grows_reg _ _ _ _ G3 (P2 t I)).
    - exact (grows_has _ _ _ _ G3 (grows_has _ _ _ _ G2 (grows_has _ _ _ _ G1 (has_add d st)))).
  Qed.

  Lemma set_argument_grows : forall fuel later i st st', In i roots -> set_argument msgs enums service fuel i st = Done st' ->
    grows later st st' /\ (forall fs, m_arg (msgs i) = Some fs -> has st' (fn (arg_fqdn msgs i)) = true).
  Proof using.
    intros fuel later i st st' Ir E. unfold set_argument in E. destruct (m_arg (msgs i)) as [fs | ] eqn:Ea.
    2:{ injection E as <-. split; [apply grows_refl | intros fs X; discriminate X]. }
    destruct (has st (fn (arg_fqdn msgs i))) eqn:Hm; [injection E as <-; split; [apply grows_refl | intros _ _; exact Hm] | ].
    destruct (attrs msgs enums fs) as [l | ] eqn:El; [ | discriminate E].
    set (d := argument_def msgs service i l) in *.
    assert (G0 : grows (d :: later) st (add d st)) by (apply grows_add; [apply Made_argument with (fs := fs); assumption | left; left; reflexivity]).
    destruct (each_grows ty (set_type msgs enums (set_message msgs enums fuel)) (fun t s => reg s t) (d :: later) (field_types fs)) with (st := add d st) (st' := st') as [G1 P1]; [ | | exact E | ].
    { intros t s s' I Et. apply in_field_types in I. destruct I as [n I]. apply (set_type_grows _ (set_message_visits fuel) t _ _ _ (U_argument _ _ _ _ _ _ Ir Ea I) Et). }
    { intros t s s' G R. exact (grows_reg _ _ _ _ G R). }
    split.
    - apply (grows_later (d :: later)); [ | exact (grows_trans _ _ _ _ G0 G1)]. intros x [<- | I]; [right | left; exact I].
      intros fs' t Ea' I. rewrite Ea in Ea'. injection Ea' as <-. exact (P1 t I).
    - intros _ _. exact (grows_has _ _ _ _ G1 (has_add d st)).
  Qed.

  Definition rooted (st : list def) (i : nat) : Prop :=
    (forall fs, m_arg (msgs i) = Some fs -> has st (fn (arg_fqdn msgs i)) = true) /\ has st (fn (m_fqdn msgs i)) = true.

  Lemma LogValues_grows : forall fuel own requests st, (own ++ requests)%list = roots -> LogValues msgs enums service fuel own requests = Done st ->
    grows [] [] st /\ forall i, In i roots -> rooted st i.
  Proof using.
    intros fuel own requests st R E. unfold LogValues in E. rewrite R in E.
    apply (each_grows nat (fun i st => bind (set_argument msgs enums service fuel i st) (set_message msgs enums fuel i)) (fun i s => rooted s i) [] roots) in E.
    - exact E.
    - intros i s s' I Ei. unfold bind in Ei. destruct (set_argument msgs enums service fuel i s) as [s1 | | ] eqn:E1; try discriminate Ei.
      destruct (set_argument_grows fuel [] i s s1 I E1) as [G1 P1].
      destruct (set_message_visits fuel [] i false s1 s' (U_root _ _ _ I) Ei) as [G2 P2].
      split; [exact (grows_trans _ _ _ _ G1 G2) | ]. split; [intros fs X; exact (grows_has _ _ _ _ G2 (P1 fs X)) | exact P2].
    - intros i s s' G [A B]. split; [intros fs X; exact (grows_has _ _ _ _ G (A fs X)) | exact (grows_has _ _ _ _ G B)].
  Qed.

  (** ** The end of the visits *)

  Variable n : nat.
  Hypothesis Closed : forall t, used t -> below n t.

  Definition unseen (st : list def) : nat := List.length (filter (fun i => negb (has st (fn (m_fqdn msgs i)))) (seq 0 n)).
  Lemma filter_le : forall (A : Type) (f g : A -> bool) l, (forall x, In x l -> f x = true -> g x = true) -> List.length (filter f l) <= List.length (filter g l).
  Proof using.
    intros A f g l H. induction l as [ | x l IH]; [apply le_n | ]. cbn [filter].
    assert (IH' : List.length (filter f l) <= List.length (filter g l)) by (apply IH; intros y I; apply H; right; exact I).
    destruct (f x) eqn:F; [rewrite (H x (or_introl eq_refl) F); cbn; lia | ]. destruct (g x); cbn; lia.
  Qed.
  Lemma filter_lt : forall (A : Type) (f g : A -> bool) l x, (forall x, In x l -> f x = true -> g x = true) -> In x l -> f x = false -> g x = true ->
    List.length (filter f l) < List.length (filter g l).
  Proof using.
    intros A f g l x H I F G. induction l as [ | y l IH]; [destruct I | ]. cbn [filter].
    assert (L : List.length (filter f l) <= List.length (filter g l)) by (apply filter_le; intros z J; apply H; right; exact J).
    destruct I as [-> | I].
    - rewrite F, G. cbn. lia.
    - assert (IH' : List.length (filter f l) < List.length (filter g l)) by (apply IH; [intros z J; apply H; right; exact J | exact I]).
      destruct (f y) eqn:Fy; [rewrite (H y (or_introl eq_refl) Fy); cbn; lia | ]. destruct (g y); cbn; lia.
  Qed.
  Lemma unseen_grows : forall later st st', grows later st st' -> unseen st' <= unseen st.
  Proof using.
    intros later st st' G. apply filter_le. intros i _ H. apply negb_true_iff in H. apply negb_true_iff.
    destruct (has st (fn (m_fqdn msgs i))) eqn:E; [ | reflexivity]. rewrite (grows_has _ _ _ _ G E) in H. discriminate H.
  Qed.
  Lemma unseen_add : forall i l st, i < n -> has st (fn (m_fqdn msgs i)) = false -> unseen (add (message_def msgs i l) st) < unseen st.
  Proof using.
    intros i l st Li H. apply (filter_lt _ _ _ _ i).
    - intros j _ X. apply negb_true_iff in X. apply negb_true_iff. destruct (has st (fn (m_fqdn msgs j))) eqn:E; [ | reflexivity].
      unfold add in X. destruct (has st (d_name (message_def msgs i l))); [congruence | ]. rewrite (has_app _ _ _ E) in X. discriminate X.
    - apply in_seq. lia.
    - apply negb_false_iff. exact (has_add (message_def msgs i l) st).
    - apply negb_true_iff. exact H.
  Qed.

  Lemma each_ends : forall (A : Type) (f : A -> list def -> out) l later m,
    (forall x st, In x l -> unseen st <= m -> f x st <> More) ->
    (forall x st st', In x l -> f x st = Done st' -> grows later st st') ->
    forall st, unseen st <= m -> each f l st <> More.
  Proof using.
    intros A f l later m F G. induction l as [ | x l IH]; intros st L; cbn [each]; [discriminate | ].
    unfold bind. destruct (f x st) as [st1 | | ] eqn:E.
    - apply IH; [intros y s I; apply F; right; exact I | intros y s s' I; apply G; right; exact I | ].
      pose proof (unseen_grows _ _ _ (G x st st1 (or_introl eq_refl) E)). lia.
    - discriminate.
    - exfalso. exact (F x st (or_introl eq_refl) L E).
  Qed.

  Lemma set_type_ends : forall rec m, (forall i b st, used (Msg i b) -> unseen st <= m -> rec i st <> More) ->
    forall t st, used t -> unseen st <= m -> set_type msgs enums rec t st <> More.
  Proof using service.
    intros rec m R t. induction t as [k r | r | i r | e r | q k _ v IH r]; intros st U L; cbn [set_type]; try discriminate.
    - unfold bind. destruct (rec i st) eqn:E; try discriminate. exfalso. exact (R i r st U L E).
    - destruct (has st (fn q)); [discriminate | ]. apply IH; [exact (U_value _ _ _ _ _ _ U) | ].
      assert (G : grows [map_def msgs enums q k v] st (add (map_def msgs enums q k v) st)) by (apply grows_add; [apply Made_map with (b := r); exact U | left; left; reflexivity]).
      pose proof (unseen_grows _ _ _ G). lia.
  Qed.

  Lemma set_message_ends : forall fuel i b st, used (Msg i b) -> unseen st < fuel -> set_message msgs enums fuel i st <> More.
  Proof using Closed service.
    assert (X : forall fuel i b st, used (Msg i b) -> i < n -> unseen st < fuel -> set_message msgs enums fuel i st <> More).
    2:{ intros fuel i b st U L. apply (X fuel i b st U); [ | exact L]. pose proof (Closed _ U) as B. inversion B; assumption. }
    induction fuel as [ | fuel IH]; intros i b st U Li L; [lia | ]. cbn [set_message].
    destruct (has st (fn (m_fqdn msgs i))) eqn:Hm; [discriminate | ].
    destruct (attrs msgs enums (m_fields (msgs i))) as [l | ]; [ | discriminate].
    set (d := message_def msgs i l).
    assert (L1 : unseen (add d st) < fuel) by (pose proof (unseen_add i l st Li Hm); fold d in H; lia).
    pose proof (set_message_visits fuel) as V.
    destruct fuel as [ | fuel']; [lia | ]. set (f := S fuel') in *.
    assert (T : forall t st, used t -> unseen st <= fuel' -> set_type msgs enums (set_message msgs enums f) t st <> More).
    { apply set_type_ends. intros j c s Uj Ls. apply (IH j c s Uj); [ | unfold f; lia]. pose proof (Closed _ Uj) as B. inversion B; assumption. }
    assert (E1 : each (set_type msgs enums (set_message msgs enums f)) (field_types (m_fields (msgs i))) (add d st) <> More).
    { apply (each_ends _ _ _ [] fuel'); [ | | lia].
      - intros t s I Ls. apply in_field_types in I. destruct I as [x I]. apply T; [exact (U_field _ _ _ _ _ _ U I) | lia].
      - intros t s s' I Et. apply in_field_types in I. destruct I as [x I]. apply (set_type_grows _ V t [] s s' (U_field _ _ _ _ _ _ U I) Et). }
    unfold bind at 1. destruct (each _ _ (add d st)) as [st1 | | ] eqn:X1; [ | discriminate | congruence].
    assert (G1 : grows [] (add d st) st1).
    { apply (each_grows _ _ (fun _ _ => True) [] (field_types (m_fields (msgs i)))) in X1; [exact (proj1 X1) | | intros; exact I].
      intros t s s' I Et. split; [ | exact Logic.I]. apply in_field_types in I. destruct I as [x I]. apply (set_type_grows _ V t [] s s' (U_field _ _ _ _ _ _ U I) Et). }
    pose proof (unseen_grows _ _ _ G1) as L2.
    assert (E2 : each (set_type msgs enums (set_message msgs enums f)) (m_nested (msgs i)) st1 <> More).
    { apply (each_ends _ _ _ [] fuel'); [ | | lia].
      - intros t s I Ls. apply T; [exact (U_nested _ _ _ _ _ U I) | lia].
      - intros t s s' I Et. apply (set_type_grows _ V t [] s s' (U_nested _ _ _ _ _ U I) Et). }
    unfold bind. destruct (each _ _ st1) as [st2 | | ]; [ | discriminate | congruence].
    clear. generalize (m_enums (msgs i)). intros es. revert st2. induction es as [ | e es IH]; intros s; cbn [each]; [discriminate | ]. cbn [bind]. apply IH.
  Qed.

  Lemma unseen_bound : forall st, unseen st <= n.
  Proof using.
    intros st. unfold unseen. assert (X : forall (f : nat -> bool) l, List.length (filter f l) <= List.length l).
    { intros f l. induction l as [ | x l IH]; [apply le_n | ]. cbn [filter]. destruct (f x); cbn [List.length]; lia. }
    pose proof (X (fun i => negb (has st (fn (m_fqdn msgs i)))) (seq 0 n)) as Y. rewrite seq_length in Y. exact Y.
  Qed.

  Lemma LogValues_ends : forall fuel own requests, (own ++ requests)%list = roots -> n < fuel -> LogValues msgs enums service fuel own requests <> More.
  Proof using Closed service.
    intros fuel own requests R L. unfold LogValues. rewrite R.
    assert (T : forall t st, used t -> unseen st <= n -> set_type msgs enums (set_message msgs enums fuel) t st <> More).
    { apply set_type_ends. intros j c s Uj Ls. apply (set_message_ends fuel j c s Uj). lia. }
    assert (F : forall i st, In i roots -> set_argument msgs enums service fuel i st <> More).
    { intros i st I. unfold set_argument. destruct (m_arg (msgs i)) as [fs | ] eqn:Ea; [ | discriminate].
      destruct (has st (fn (arg_fqdn msgs i))); [discriminate | ]. destruct (attrs msgs enums fs) as [l | ]; [ | discriminate].
      apply (each_ends _ _ _ [] n); [ | | apply unseen_bound].
      - intros t s J Ls. apply in_field_types in J. destruct J as [x J]. apply T; [exact (U_argument _ _ _ _ _ _ I Ea J) | exact Ls].
      - intros t s s' J Et. apply in_field_types in J. destruct J as [x J].
        apply (set_type_grows _ (set_message_visits fuel) t [] s s' (U_argument _ _ _ _ _ _ I Ea J) Et). }
    apply (each_ends _ _ _ [] n); [ | | apply unseen_bound].
    - intros i s I Ls. unfold bind. destruct (set_argument msgs enums service fuel i s) as [s1 | | ] eqn:E; [ | discriminate | exfalso; exact (F i s I E)].
      apply (set_message_ends fuel i false s1 (U_root _ _ _ I)). pose proof (unseen_bound s1). lia.
    - intros i s s' I Ei. unfold bind in Ei. destruct (set_argument msgs enums service fuel i s) as [s1 | | ] eqn:E1; try discriminate Ei.
      destruct (set_argument_grows fuel [] i s s1 I E1) as [G1 _].
      destruct (set_message_visits fuel [] i false s1 s' (U_root _ _ _ I) Ei) as [G2 _]. exact (grows_trans _ _ _ _ G1 G2).
  Qed.

  (** ** log.Fatalf *)

  Lemma attrs_some : forall fs, (exists l, attrs msgs enums fs = Some l) <-> ~ exists x, In (x, Null false) fs.
  Proof using.
    induction fs as [ | [x t] fs IH]; cbn [attrs].
    - split; [intros _ [x []] | intros _; exists []; reflexivity].
    - destruct (log_type t) as [s | ] eqn:Et.
      + assert (Nt : t <> Null false) by (intros ->; discriminate Et).
        destruct (attrs msgs enums fs) as [l | ].
        * split; [ | intros _; eexists; reflexivity]. intros _ [y [E | I]]; [congruence | ]. apply (proj1 IH); [exists l; reflexivity | exists y; exact I].
        * split; [intros [l E]; discriminate E | ]. intros H. exfalso. destruct (proj2 IH) as [l X]; [intros [y I]; apply H; exists y; right; exact I | discriminate X].
      + assert (Nt : t = Null false) by (destruct t as [k [] | [] | i [] | e [] | q k v []]; try discriminate Et; reflexivity). subst t.
        split; [intros [l E]; discriminate E | ]. intros H. exfalso. apply H. exists x. left. reflexivity.
  Qed.

  Definition fine (rec : nat -> list def -> out) : Prop := forall i b st, used (Msg i b) -> rec i st <> Fatal.
  Lemma each_fine : forall (A : Type) (f : A -> list def -> out) l, (forall x st, In x l -> f x st <> Fatal) -> forall st, each f l st <> Fatal.
  Proof using.
    intros A f l F. induction l as [ | x l IH]; intros st; cbn [each]; [discriminate | ]. unfold bind.
    destruct (f x st) eqn:E; [apply IH; intros y s I; apply F; right; exact I | exfalso; exact (F x st (or_introl eq_refl) E) | discriminate].
  Qed.
  Lemma set_type_fine : forall rec, fine rec -> forall t st, used t -> set_type msgs enums rec t st <> Fatal.
  Proof using.
    intros rec R t. induction t as [k r | r | i r | e r | q k _ v IH r]; intros st U; cbn [set_type]; try discriminate.
    - unfold bind. destruct (rec i st) eqn:E; try discriminate. exfalso. exact (R i r st U E).
    - destruct (has st (fn q)); [discriminate | ]. apply IH. exact (U_value _ _ _ _ _ _ U).
  Qed.
  Lemma set_message_fine : no_null msgs roots -> forall fuel, fine (set_message msgs enums fuel).
  Proof using.
    intros [N1 N2]. induction fuel as [ | fuel IH]; intros i b st U; cbn [set_message]; [discriminate | ].
    destruct (has st (fn (m_fqdn msgs i))); [discriminate | ].
    destruct (attrs msgs enums (m_fields (msgs i))) as [l | ] eqn:E.
    2:{ exfalso. destruct (proj2 (attrs_some (m_fields (msgs i)))) as [l X]; [intros [x I]; exact (N1 i b x U I) | congruence]. }
    unfold bind at 1. destruct (each _ _ (add (message_def msgs i l) st)) as [st1 | | ] eqn:E1; [ | exfalso; revert E1 | discriminate].
    2:{ apply each_fine. intros t s I. apply in_field_types in I. destruct I as [x I]. apply (set_type_fine _ IH). exact (U_field _ _ _ _ _ _ U I). }
    unfold bind. destruct (each _ _ st1) as [st2 | | ] eqn:E2; [ | exfalso; revert E2 | discriminate].
    2:{ apply each_fine. intros t s I. apply (set_type_fine _ IH). exact (U_nested _ _ _ _ _ U I). }
    apply each_fine. intros e s _. discriminate.
  Qed.
  Lemma LogValues_fine : forall fuel own requests, (own ++ requests)%list = roots -> no_null msgs roots -> LogValues msgs enums service fuel own requests <> Fatal.
  Proof using.
    intros fuel own requests R N. unfold LogValues. rewrite R. apply each_fine. intros i s I.
    unfold bind. destruct (set_argument msgs enums service fuel i s) as [s1 | | ] eqn:E; [ | exfalso; revert E | discriminate].
    - apply (set_message_fine N fuel i false s1). exact (U_root _ _ _ I).
    - unfold set_argument. destruct (m_arg (msgs i)) as [fs | ] eqn:Ea; [ | discriminate].
      destruct (has s (fn (arg_fqdn msgs i))); [discriminate | ].
      destruct (attrs msgs enums fs) as [l | ] eqn:El.
      + apply each_fine. intros t s' J. apply in_field_types in J. destruct J as [x J]. apply (set_type_fine _ (set_message_fine N fuel)). exact (U_argument _ _ _ _ _ _ I Ea J).
      + exfalso. destruct (proj2 (attrs_some fs)) as [l X]; [intros [x J]; exact (proj2 N i fs x I Ea J) | congruence].
  Qed.

  (** ** The functions are valid *)

  Section Final.
    Variable st : list def.
    Hypothesis Made : forall d, In d st -> made d.
    Hypothesis Cl : forall d, In d st -> closed st d.
    Hypothesis Roots : forall i, In i roots -> rooted st i.
    Hypothesis Clear : clear_names msgs enums service roots.
    Hypothesis Nm : forall i fs, In i roots -> m_arg (msgs i) = Some fs -> argument_named msgs i.

    Lemma declared_clear : forall f g, has st f = true -> named msgs enums service roots f g -> declared st f g.
    Proof using Made Clear.
      intros f g H N. apply has_spec in H. destruct H as [d [I E]]. exists d. split; [exact I | split; [exact E | ]].
      apply (Clear f); [ | exact N]. rewrite <- E. exact (made_named d (Made d I)).
    Qed.

    Lemma declared_type : forall t, used t -> reg st t -> match t with Scalar _ _ | Null _ => True | _ => declared st (func_name msgs enums t) (go_of t) end.
    Proof using Made Clear.
      intros [k r | r | i r | e r | q k v r] U R; cbn in *; try exact I.
      - destruct R as [A B]. destruct r; cbn; apply declared_clear.
        + exact (B eq_refl).
        + apply N_messages. exact U.
        + exact A.
        + apply N_message with (b := false). exact U.
      - destruct R as [A B]. destruct r; cbn; apply declared_clear.
        + exact (B eq_refl).
        + apply N_enums. exact U.
        + exact A.
        + apply N_enum with (b := false). exact U.
      - apply declared_clear; [exact R | apply N_map with (b := r); exact U].
    Qed.

    (** An attribute. *)
    Lemma attr_typed : forall (vars : string -> gotype -> Prop) x t s, used t -> reg st t -> vars x (go_of t) -> log_type t = Some s ->
      exists g, typed (declared st) vars (log_value msgs enums x t) g /\ takes s g.
    Proof using Made Clear.
      intros vars x t s U R V L. pose proof (declared_type t U R) as D.
      destruct t as [k r | r | i r | e r | q k v r].
      - destruct r; [injection L as <-; eexists; split; [apply T_var; exact V | apply K_any] | ].
        destruct k; injection L as <-; cbn [log_value go_of sliced scalar_text] in *;
          first [ eexists; split; [apply T_var; exact V | constructor; fail]
                | eexists; split; [eapply T_cast; [apply T_var; exact V | cbn; tauto] | constructor] ].
      - destruct r; [ | discriminate L]. injection L as <-. eexists. split; [apply T_var; exact V | apply K_any].
      - assert (s = "Any") as -> by (destruct r; injection L as <-; reflexivity). eexists. split; [eapply T_call; [apply T_var; exact V | exact D] | apply K_any].
      - destruct r; injection L as <-.
        + eexists. split; [eapply T_call; [apply T_var; exact V | exact D] | apply K_any].
        + eexists. split; [eapply T_string, T_call; [apply T_var; exact V | exact D] | apply K_string].
      - assert (s = "Any") as -> by (destruct r; injection L as <-; reflexivity). eexists. split; [eapply T_call; [apply T_var; exact V | exact D] | apply K_any].
    Qed.

    Lemma attrs_in : forall fs l a, attrs msgs enums fs = Some l -> In a l -> exists x t s, In (x, t) fs /\ log_type t = Some s /\ a = {| a_type := s; a_key := x; a_value := log_value msgs enums x t |}.
    Proof using.
      induction fs as [ | [x t] fs IH]; intros l a E I; cbn [attrs] in E; [injection E as <-; destruct I | ].
      destruct (log_type t) as [s | ] eqn:Et; [ | discriminate E]. destruct (attrs msgs enums fs) as [l' | ]; [ | discriminate E]. injection E as <-.
      destruct I as [<- | I].
      - exists x, t, s. split; [left; reflexivity | split; [exact Et | reflexivity]].
      - destruct (IH l' a eq_refl I) as [y [u [s' [J [K ->]]]]]. exists y, u, s'. split; [right; exact J | split; [exact K | reflexivity]].
    Qed.

    Lemma map_value_typed : forall v, used v -> reg st v ->
      typed (declared st) (fun x h => x = "value" /\ h = go_of v) (log_map_value msgs enums v) GValue \/ exists k, v = Scalar k true /\ k = Bytes.
    Proof using Made Clear.
      intros v U R. pose proof (declared_type v U R) as D.
      assert (V : typed (declared st) (fun x h => x = "value" /\ h = go_of v) (Var "value") (go_of v)) by (apply T_var; split; reflexivity).
      destruct v as [k r | r | i r | e r | q k v r]; cbn [log_map_value].
      - destruct k; try (left; eapply T_any_value; exact V). destruct r; [right; eexists; split; reflexivity | ].
        left. apply T_string_value. eapply T_cast; [exact V | cbn; tauto].
      - left. eapply T_any_value. exact V.
      - left. eapply T_call; [exact V | exact D].
      - left. destruct r; [eapply T_call; [exact V | exact D] | ]. apply T_string_value, T_string. eapply T_call; [exact V | exact D].
      - left. eapply T_call; [exact V | exact D].
    Qed.

    (** Every type in use is registered. *)
    Lemma message_made : forall i b, used (Msg i b) -> has st (fn (m_fqdn msgs i)) = true -> exists l, In (message_def msgs i l) st /\ attrs msgs enums (m_fields (msgs i)) = Some l.
    Proof using Made Clear.
      intros i b U H. apply has_spec in H. destruct H as [d [I E]]. pose proof (Made d I) as M.
      assert (P : d_param d = GMessage i) by (apply (Clear (d_name d)); [exact (made_named d M) | rewrite E; apply N_message with (b := b); exact U]).
      destruct M as [j c l U' El | j fs l Ir Ea El | q k v c U' | j U' | e U' | e c U']; cbn in P; try discriminate P. injection P as ->.
      exists l. split; [exact I | exact El].
    Qed.
    Lemma map_made : forall q k v b, used (Map q k v b) -> has st (fn q) = true ->
      exists q' k' v' b', In (map_def msgs enums q' k' v') st /\ used (Map q' k' v' b') /\ go_of v' = go_of v.
    Proof using Made Clear.
      intros q k v b U H. apply has_spec in H. destruct H as [d [I E]]. pose proof (Made d I) as M.
      assert (P : d_param d = GMap (go_of k) (go_of v)) by (apply (Clear (d_name d)); [exact (made_named d M) | rewrite E; apply N_map with (b := b); exact U]).
      destruct M as [j c l U' El | j fs l Ir Ea El | q' k' v' c U' | j U' | e U' | e c U']; cbn in P; try discriminate P. injection P as P1 P2.
      exists q', k', v', c. split; [exact I | split; [exact U' | exact P2]].
    Qed.
    Lemma enum_made : forall e b, used (Enm e b) -> has st (fn (e_fqdn (enums e))) = true -> In (enum_def enums e) st.
    Proof using Made Clear.
      intros e b U H. apply has_spec in H. destruct H as [d [I E]]. pose proof (Made d I) as M.
      assert (P : d_param d = GEnum e) by (apply (Clear (d_name d)); [exact (made_named d M) | rewrite E; apply N_enum with (b := b); exact U]).
      destruct M as [j c l U' El | j fs l Ir Ea El | q' k' v' c U' | j U' | e' U' | e' c U']; cbn in P; try discriminate P. injection P as ->. exact I.
    Qed.
    Lemma argument_made : forall i fs, In i roots -> m_arg (msgs i) = Some fs -> exists l, In (argument_def msgs service i l) st /\ attrs msgs enums fs = Some l.
    Proof using Made Clear Roots Nm.
      intros i fs Ir Ea. destruct (Roots i Ir) as [H _]. specialize (H fs Ea). apply has_spec in H. destruct H as [d [I E]]. pose proof (Made d I) as M.
      assert (P : d_param d = GStruct (service ++ "_" ++ Ident.Model.go_name (arg_fqdn msgs i))).
      { apply (Clear (d_name d)); [exact (made_named d M) | rewrite E; apply N_argument with (fs := fs); assumption]. }
      destruct M as [j c l U' El | j fs' l Ij Ej El | q' k' v' c U' | j U' | e U' | e c U']; cbn in P; try discriminate P.
      cbn in E. unfold fn in E. injection E as E. rewrite (Nm j fs' Ij Ej), (Nm i fs Ir Ea) in E.
      assert (X : GMessage j = GMessage i).
      { apply (Clear (fn (m_fqdn msgs j))); [apply N_message with (b := false); apply U_root; exact Ij | ].
        replace (fn (m_fqdn msgs j)) with (fn (m_fqdn msgs i)); [apply N_message with (b := false); apply U_root; exact Ir | ].
        unfold fn. f_equal. revert E. generalize (Ident.Model.go_name (m_fqdn msgs i)) (Ident.Model.go_name (m_fqdn msgs j)). clear. intros a b E.
        revert b E. induction a as [ | c a IH]; intros [ | d b] E; try reflexivity.
        - exfalso. apply (f_equal String.length) in E. cbn [append String.length] in E. rewrite length_app_s in E. cbn in E. lia.
        - exfalso. apply (f_equal String.length) in E. cbn [append String.length] in E. rewrite length_app_s in E. cbn in E. lia.
        - cbn in E. injection E as -> E. f_equal. exact (IH b E). }
      injection X as ->. rewrite Ea in Ej. injection Ej as ->. exists l. split; [exact I | exact El].
    Qed.

    Lemma go_message : forall t i b, go_of t = sliced b (GMessage i) -> t = Msg i b.
    Proof using. intros [k [] | [] | j [] | e [] | q k v []] i [] E; cbn in E; try destruct k; try discriminate E; injection E as ->; reflexivity. Qed.
    Lemma go_enum : forall t i b, go_of t = sliced b (GEnum i) -> t = Enm i b.
    Proof using. intros [k [] | [] | j [] | e [] | q k v []] i [] E; cbn in E; try destruct k; try discriminate E; injection E as ->; reflexivity. Qed.
    Lemma go_bytes : forall t, go_of t = GSlice (GText "[]byte") -> t = Scalar Bytes true.
    Proof using. intros [k [] | [] | j [] | e [] | q k v []] E; cbn in E; try destruct k; try discriminate E; reflexivity. Qed.

    Lemma complete : forall t, used t -> exists t', used t' /\ go_of t' = go_of t /\ reg st t'.
    Proof using Made Cl Roots Clear Nm.
      intros t U. induction U as [i Ir | i fs x t Ir Ea I | i b x t U IH I | i b t U IH I | i b e U IH I | q k v b U IH].
      - exists (Msg i false). split; [apply U_root; exact Ir | split; [reflexivity | ]]. split; [exact (proj2 (Roots i Ir)) | discriminate].
      - destruct (argument_made i fs Ir Ea) as [l [Il El]].
        exists t. split; [exact (U_argument _ _ _ _ _ _ Ir Ea I) | split; [reflexivity | ]]. exact (Cl _ Il fs t Ea (field_types_in _ _ _ I)).
      - destruct IH as [t' [_ [E R]]]. apply go_message in E. subst t'. destruct R as [R _]. destruct (message_made i b U R) as [l [Il El]].
        exists t. split; [exact (U_field _ _ _ _ _ _ U I) | split; [reflexivity | ]]. apply (proj1 (Cl _ Il)). left. exact (field_types_in _ _ _ I).
      - destruct IH as [t' [_ [E R]]]. apply go_message in E. subst t'. destruct R as [R _]. destruct (message_made i b U R) as [l [Il El]].
        exists t. split; [exact (U_nested _ _ _ _ _ U I) | split; [reflexivity | ]]. apply (proj1 (Cl _ Il)). right. exact I.
      - destruct IH as [t' [_ [E R]]]. apply go_message in E. subst t'. destruct R as [R _]. destruct (message_made i b U R) as [l [Il El]].
        exists (Enm e false). split; [exact (U_enum _ _ _ _ _ U I) | split; [reflexivity | ]]. split; [exact (proj2 (Cl _ Il) e I) | discriminate].
      - destruct IH as [t' [U' [E R]]]. destruct t' as [k' [] | [] | j [] | e [] | q' k' v' b']; cbn in E; try destruct k'; try discriminate E; injection E as E1 E2.
        all: destruct (map_made _ _ _ _ U' R) as [q2 [k2 [v2 [b2 [I2 [U2 E3]]]]]]; exists v2; (split; [exact (U_value _ _ _ _ _ _ U2) | split; [congruence | exact (Cl _ I2)]]).
    Qed.

    (** The fields of the struct. *)
    Lemma lookup_app : forall x l l', lookup x (l ++ l') = match lookup x l with Some g => Some g | None => lookup x l' end.
    Proof using. intros x l l'. induction l as [ | [m g] l IH]; [reflexivity | ]. cbn [app lookup]. destruct (String.eqb m x); [reflexivity | exact IH]. Qed.
    Lemma add_field_keeps : forall fs l x g, lookup x l = Some g -> lookup x (fold_left add_field fs l) = Some g.
    Proof using.
      induction fs as [ | y fs IH]; intros l x g H; [exact H | ]. cbn [fold_left]. apply IH. unfold add_field.
      destruct (lookup (Ident.Model.public (fst y)) l); [exact H | ]. rewrite lookup_app, H. reflexivity.
    Qed.
    Lemma add_field_finds : forall fs l x t, In (x, t) fs -> exists g, lookup (Ident.Model.public x) (fold_left add_field fs l) = Some g.
    Proof using.
      induction fs as [ | y fs IH]; intros l x t I; [destruct I | ]. cbn [fold_left]. destruct I as [-> | I]; [ | exact (IH _ x t I)].
      unfold add_field at 2. cbn [fst snd]. destruct (lookup (Ident.Model.public x) l) as [g | ] eqn:E.
      - exists g. apply add_field_keeps. exact E.
      - exists (go_of t). apply add_field_keeps. rewrite lookup_app, E. cbn [lookup]. rewrite String.eqb_refl. reflexivity.
    Qed.
    Lemma add_field_from : forall fs l x g, lookup x (fold_left add_field fs l) = Some g -> lookup x l = Some g \/ exists m u, In (m, u) fs /\ Ident.Model.public m = x /\ go_of u = g.
    Proof using.
      induction fs as [ | y fs IH]; intros l x g H; [left; exact H | ]. cbn [fold_left] in H. apply IH in H. destruct H as [H | [m [u [I E]]]].
      2:{ right. exists m, u. split; [right; exact I | exact E]. }
      unfold add_field in H. destruct (lookup (Ident.Model.public (fst y)) l) eqn:E; [left; exact H | ]. rewrite lookup_app in H.
      destruct (lookup x l); [left; exact H | ]. right. cbn [lookup] in H. destruct (String.eqb (Ident.Model.public (fst y)) x) eqn:X; [ | discriminate H].
      apply String.eqb_eq in X. injection H as H. exists (fst y), (snd y). split; [left; destruct y; reflexivity | split; [exact X | exact H]].
    Qed.
    Lemma struct_field : forall i fs x t, own_fields msgs i -> m_arg (msgs i) = Some fs -> In (x, t) fs -> argument_of msgs i fs x (go_of t).
    Proof using.
      intros i fs x t O Ea I. unfold argument_of, struct_fields.
      destruct (add_field_finds fs (fold_left add_field (m_vars (msgs i)) []) x t I) as [g H]. rewrite H. f_equal.
      apply add_field_from in H. destruct H as [H | [m [u [J [P <-]]]]].
      - apply add_field_from in H. destruct H as [H | [m [u [J [P <-]]]]]; [discriminate H | ].
        exact (O fs x t m u Ea I (or_introl J) P).
      - exact (O fs x t m u Ea I (or_intror J) P).
    Qed.

    Variable own : list nat.
    Hypothesis Own : forall i fs, In i roots -> m_arg (msgs i) = Some fs -> In i own.
    Hypothesis Fields : forall i, In i own -> own_fields msgs i.

    Lemma structs_in : forall i fs, In i own -> m_arg (msgs i) = Some fs -> In (service ++ "_" ++ Ident.Model.go_name (m_fqdn msgs i) ++ "Argument") (structs msgs service own).
    Proof using. intros i fs I Ea. apply in_flat_map. exists i. split; [exact I | rewrite Ea; left; reflexivity]. Qed.

    Lemma all_valid : no_aliases msgs enums roots -> no_byte_lists msgs roots ->
      forall d, In d st -> valid msgs (structs msgs service own) (declared st) (d_param d) (d_body d).
    Proof using Made Cl Clear Nm Own Fields.
      intros NA NB d I. pose proof (Cl d I) as C. destruct (Made d I) as [i b l U El | i fs l Ir Ea El | q k v b U | i U | e U | e b U]; cbn.
      - apply V_message. intros a Ia. destruct (attrs_in _ _ _ El Ia) as [x [t [s [J [Lt ->]]]]].
        apply (attr_typed (field_of (m_fields (msgs i))) x t s); [exact (U_field _ _ _ _ _ _ U J) | apply (proj1 C); left; exact (field_types_in _ _ _ J) | | exact Lt].
        exists t. split; [exact J | reflexivity].
      - apply V_argument with (fs := fs); [ | exact Ea | ].
        + rewrite (Nm i fs Ir Ea). exact (structs_in i fs (Own i fs Ir Ea) Ea).
        + intros a Ia. destruct (attrs_in _ _ _ El Ia) as [x [t [s [J [Lt ->]]]]].
          apply (attr_typed (argument_of msgs i fs) x t s); [exact (U_argument _ _ _ _ _ _ Ir Ea J) | exact (C fs t Ea (field_types_in _ _ _ J)) | | exact Lt].
          exact (struct_field i fs x t (Fields i (Own i fs Ir Ea)) Ea J).
      - apply V_map. destruct (map_value_typed v (U_value _ _ _ _ _ _ U) C) as [T | [k' [E1 E2]]]; [exact T | ].
        subst. exfalso. exact (NB q k b U).
      - apply V_repeated. apply declared_clear; [exact C | apply N_message with (b := true); exact U].
      - apply V_repeated. apply declared_clear; [exact C | apply N_enum with (b := true); exact U].
      - apply V_enum. exact (NA e b U).
    Qed.

    Lemma all_calls : forall called, (forall i, In i own -> In i roots) -> (forall i, In i called -> In i roots) ->
      forall f g, In (f, g) (calls msgs service own called) -> declared st f g.
    Proof using Made Roots Clear Nm.
      intros called Io Ic f g I. unfold calls in I. apply in_app_or in I. destruct I as [I | I].
      - apply in_flat_map in I. destruct I as [i [Ii I]]. destruct (m_arg (msgs i)) as [fs | ] eqn:Ea; [ | destruct I].
        destruct I as [I | [I | []]]; inversion I; subst.
        + rewrite <- (Nm i fs (Io i Ii) Ea). apply declared_clear; [exact (proj1 (Roots i (Io i Ii)) fs Ea) | apply N_argument with (fs := fs); [exact (Io i Ii) | exact Ea]].
        + apply declared_clear; [exact (proj2 (Roots i (Io i Ii))) | apply N_message with (b := false); apply U_root; exact (Io i Ii)].
      - apply in_map_iff in I. destruct I as [i [E Ii]]. inversion E; subst. apply declared_clear; [exact (proj2 (Roots i (Ic i Ii))) | apply N_message with (b := false); apply U_root; exact (Ic i Ii)].
    Qed.

    (** What valid functions tell. *)
    Lemma valid_aliases : (forall d, In d st -> valid msgs (structs msgs service own) (declared st) (d_param d) (d_body d)) -> no_aliases msgs enums roots.
    Proof using Made Cl Roots Clear Nm.
      intros V e b U. destruct (complete _ U) as [t' [U' [E R]]]. apply go_enum in E. subst t'. destruct R as [R _].
      pose proof (V _ (enum_made e b U R)) as X. cbn in X. inversion X; assumption.
    Qed.
    Lemma valid_byte_lists : (forall d, In d st -> valid msgs (structs msgs service own) (declared st) (d_param d) (d_body d)) -> no_byte_lists msgs roots.
    Proof using Made Cl Roots Clear Nm.
      intros V q k b U. destruct (complete _ U) as [t' [U' [E R]]]. destruct t' as [k' [] | [] | j [] | e [] | q' k' v' b']; cbn in E; try destruct k'; try discriminate E; injection E as E1 E2.
      all: destruct (map_made _ _ _ _ U' R) as [q2 [k2 [v2 [b2 [I2 [U2 E3]]]]]]; rewrite E2 in E3; apply go_bytes in E3; subst v2;
        pose proof (V _ I2) as X; cbn in X; inversion X as [ | | ? ? ? ? T | | ]; subst; inversion T as [ | | | | ? T1 | ]; subst; inversion T1 as [ | | | ? ? ? T2 | | ]; subst;
        inversion T2 as [? ? [_ Y] | | | | | ]; discriminate Y.
    Qed.
    Lemma made_null : no_null msgs roots.
    Proof using Made Cl Roots Clear Nm.
      split.
      - intros i b x U I. destruct (complete _ U) as [t' [U' [E R]]]. apply go_message in E. subst t'. destruct R as [R _].
        destruct (message_made i b U R) as [l [_ El]]. apply (proj1 (attrs_some (m_fields (msgs i)))); [exists l; exact El | exists x; exact I].
      - intros i fs x Ir Ea I. destruct (argument_made i fs Ir Ea) as [l [_ El]]. apply (proj1 (attrs_some fs)); [exists l; exact El | exists x; exact I].
    Qed.
  End Final.

  Lemma attrs_list : forall fs l, attrs msgs enums fs = Some l -> lists fs l.
  Proof using.
    induction fs as [ | [x t] fs IH]; intros l E; cbn [attrs] in E.
    - injection E as <-. constructor.
    - destruct (log_type t) as [s | ] eqn:Et; [ | discriminate E]. destruct (attrs msgs enums fs) as [l' | ]; [ | discriminate E]. injection E as <-.
      constructor; [ | exact (IH l' eq_refl)]. cbn. split; [reflexivity | ].
      destruct t as [k [] | [] | i [] | e [] | q k v []]; try destruct k; try discriminate Et; injection Et as <-; (split; [repeat constructor | constructor; clear; cbn; tauto]).
  Qed.
  Lemma made_shows : forall d, made d -> shows msgs enums d.
  Proof using.
    intros d M. destruct M; cbn.
    - apply attrs_list. assumption.
    - exists fs. split; [assumption | apply attrs_list; assumption].
    - destruct v as [k' [] | [] | j [] | e [] | q' k' v' []]; try destruct k'; repeat constructor.
    - exact I.
    - exact I.
    - reflexivity.
  Qed.
End Service.

(** ** The names of arguments *)

Fixpoint camel_state (prev : option ascii) (run : bool) (s : string) : option ascii * bool :=
  match s with
  | EmptyString => (prev, run)
  | String c r =>
      if run && Ident.Model.is_lower c then camel_state (Some c) true r
      else if Ascii.eqb c "."%char then camel_state (Some c) false r
      else if Ascii.eqb c "_"%char && match prev with None => true | Some p => Ascii.eqb p "."%char end then camel_state (Some c) false r
      else if Ascii.eqb c "_"%char && Ident.Model.lower_next r then camel_state (Some c) false r
      else if Ident.Model.is_digit c then camel_state (Some c) false r
      else camel_state (Some c) true r
  end.
Lemma camel_app : forall s t, Ident.Model.lower_next t = false -> forall p b, 
  Ident.Model.camel p b (s ++ t) = (Ident.Model.camel p b s ++ let (p', b') := camel_state p b s in Ident.Model.camel p' b' t)%string.
Proof.
  intros s t H. induction s as [ | c s IH]; intros p b; [reflexivity | ].
  assert (L : Ident.Model.lower_next (s ++ t) = Ident.Model.lower_next s) by (destruct s; [exact H | reflexivity]).
  cbn [append Ident.Model.camel camel_state]. rewrite L.
  destruct (b && Ident.Model.is_lower c)%bool; [rewrite IH; reflexivity | ].
  destruct (Ascii.eqb c "."%char); [destruct (Ident.Model.lower_next s); rewrite IH; reflexivity | ].
  destruct (Ascii.eqb c "_"%char && match p with None => true | Some q => Ascii.eqb q "."%char end)%bool; [rewrite IH; reflexivity | ].
  destruct (Ascii.eqb c "_"%char && Ident.Model.lower_next s)%bool; [rewrite IH; reflexivity | ].
  destruct (Ident.Model.is_digit c); rewrite IH; reflexivity.
Qed.
Lemma camel_state_prev : forall s p b, has_char "." s = false -> s <> "" -> exists c, fst (camel_state p b s) = Some c /\ Ascii.eqb c "."%char = false.
Proof.
  induction s as [ | c s IH]; intros p b H N; [congruence | ]. cbn [has_char] in H. apply orb_false_iff in H. destruct H as [Hc H].
  assert (X : forall b', exists c', fst (camel_state (Some c) b' s) = Some c' /\ Ascii.eqb c' "."%char = false).
  { intros b'. destruct s as [ | d s]; [exists c; split; [reflexivity | exact Hc] | apply IH; [exact H | discriminate]]. }
  cbn [camel_state]. rewrite Hc. repeat match goal with |- context [if ?x then _ else _] => destruct x end; apply X.
Qed.
Lemma upper_facts : forall c, Ident.Model.is_upper c = true ->
  Ident.Model.is_lower c = false /\ Ascii.eqb c "."%char = false /\ Ascii.eqb c "_"%char = false /\ Ident.Model.is_digit c = false /\ Ident.Model.upper c = c.
Proof. intros [[] [] [] [] [] [] [] []] H; vm_compute in H; try discriminate H; repeat split; reflexivity. Qed.
Lemma camel_upper : forall c r p b, Ident.Model.is_upper c = true -> Ident.Model.camel p b (String c r) = String c (Ident.Model.camel (Some c) true r).
Proof.
  intros c r p b U. destruct (upper_facts c U) as [A [B [C [D E]]]]. cbn [Ident.Model.camel]. rewrite A, B, C, D, E, andb_false_r. reflexivity.
Qed.
Lemma append_nil_r : forall s, (s ++ "")%string = s.
Proof. induction s as [ | c s IH]; [reflexivity | cbn; rewrite IH; reflexivity]. Qed.
Lemma public_app : forall s t, capitalised s -> Ident.Model.lower_next t = false ->
  exists p b, (exists c, p = Some c /\ Ascii.eqb c "."%char = false) /\ Ident.Model.public (s ++ t) = (Ident.Model.public s ++ Ident.Model.camel p b t)%string.
Proof.
  intros s t [[c [r [-> U]]] [H _]] L.
  destruct (camel_state_prev (String c r) None false H) as [c' [P Q]]; [discriminate | ].
  destruct (camel_state None false (String c r)) as [p b] eqn:E. cbn [fst] in P. exists p, b. split; [exists c'; split; [exact P | exact Q] | ].
  unfold Ident.Model.public, Ident.Model.go_camel. rewrite (camel_app _ _ L), E. rewrite (camel_upper c r None false U). cbn. reflexivity.
Qed.
Lemma public_upper : forall c r, Ident.Model.is_upper c = true -> Ident.Model.public (String c r) = String c (Ident.Model.camel (Some c) true r).
Proof.
  intros c r U. unfold Ident.Model.public, Ident.Model.go_camel. rewrite (camel_upper c r _ _ U). cbn. destruct (upper_facts c U) as [_ [_ [_ [_ E]]]]. rewrite E. reflexivity.
Qed.
Lemma public_argument : forall s, capitalised s -> Ident.Model.public (s ++ "Argument") = (Ident.Model.public s ++ "Argument")%string.
Proof.
  intros s C. destruct (public_app s "Argument" C eq_refl) as [p [b [_ E]]]. rewrite E. f_equal. rewrite (camel_upper "A" "rgument" p b eq_refl). reflexivity.
Qed.
Lemma public_next : forall s t, capitalised s -> capitalised t -> forall u, Ident.Model.public (s ++ "_" ++ t ++ u) = (Ident.Model.public s ++ "_" ++ Ident.Model.public (t ++ u))%string.
Proof.
  intros s t C [[c [r [-> U]]] _] u. destruct (public_app s ("_" ++ String c r ++ u) C eq_refl) as [p [b [[d [-> D]] E]]]. rewrite E. f_equal. cbn [append].
  destruct (upper_facts c U) as [A [B [C' [D' E']]]].
  cbn [Ident.Model.camel Ident.Model.lower_next]. rewrite D, A.
  rewrite (public_upper c (r ++ u) U). change (b && Ident.Model.is_lower "_")%bool with (b && false)%bool. rewrite andb_false_r.
  change (Ascii.eqb "_" ".") with false. change (Ascii.eqb "_" "_") with true. change (Ident.Model.is_digit "_") with false. change (Ident.Model.upper "_") with "_"%char.
  cbn [andb]. rewrite B, C', D', E'. reflexivity.
Qed.
Lemma capitalised_argument : forall s, capitalised s -> capitalised (s ++ "Argument").
Proof.
  intros s [[c [r [-> U]]] [A B]]. split; [exists c, (r ++ "Argument")%string; split; [reflexivity | exact U] | ].
  split; rewrite TextProofs.has_char_app; [rewrite A | rewrite B]; reflexivity.
Qed.
Lemma public_path : forall ps, ps <> [] -> Forall capitalised ps -> Ident.Model.public (join "_" ps) = join "_" (map Ident.Model.public ps).
Proof.
  induction ps as [ | p ps IH]; intros N F; [congruence | ]. inversion F as [ | ? ? Cp Fp]; subst. destruct ps as [ | q ps]; [reflexivity | ].
  change (join "_" (p :: q :: ps)) with (p ++ "_" ++ join "_" (q :: ps))%string.
  change (join "_" (map Ident.Model.public (p :: q :: ps))) with (Ident.Model.public p ++ "_" ++ join "_" (map Ident.Model.public (q :: ps)))%string.
  rewrite <- IH; [ | discriminate | exact Fp]. inversion Fp as [ | ? ? Cq Fq]; subst.
  destruct ps as [ | r ps].
  - change (join "_" [q]) with q. rewrite <- (append_nil_r q) at 1. rewrite (public_next p q Cp Cq ""), append_nil_r. reflexivity.
  - change (join "_" (q :: r :: ps)) with (q ++ "_" ++ join "_" (r :: ps))%string. apply public_next; assumption.
Qed.

Lemma replace_none : forall s, has_char "-" s = false -> Ident.Model.replace "-" "_" s = s.
Proof.
  induction s as [ | c s IH]; intros H; [reflexivity | ]. cbn [has_char] in H. apply orb_false_iff in H. destruct H as [A B]. cbn [Ident.Model.replace]. rewrite A, (IH B). reflexivity.
Qed.
Lemma split_path : forall ps, ps <> [] -> Forall capitalised ps -> split "." (join "." ps) = ps.
Proof.
  induction ps as [ | p ps IH]; intros N F; [congruence | ]. inversion F as [ | ? ? [_ [Cp _]] Fp]; subst. destruct ps as [ | q ps].
  - cbn [join]. apply TextProofs.split_no_sep. exact Cp.
  - change (join "." (p :: q :: ps)) with (p ++ String "." (join "." (q :: ps)))%string. rewrite (TextProofs.split_app _ _ _ Cp), IH; [reflexivity | discriminate | exact Fp].
Qed.
Lemma public_map : forall ps, Forall capitalised ps -> map (fun n => Ident.Model.public (Ident.Model.replace "-" "_" n)) ps = map Ident.Model.public ps.
Proof.
  intros ps F. induction F as [ | p ps [_ [_ C]] F IH]; [reflexivity | ]. cbn [map]. rewrite (replace_none _ C), IH. reflexivity.
Qed.
Lemma join_app : forall l l', l <> [] -> l' <> [] -> join "_" (l ++ l') = (join "_" l ++ "_" ++ join "_" l')%string.
Proof.
  induction l as [ | x l IH]; intros l' N N'; [congruence | ]. destruct l as [ | y l].
  - destruct l' as [ | z l']; [congruence | reflexivity].
  - change (join "_" ((x :: y :: l) ++ l')) with (x ++ "_" ++ join "_" ((y :: l) ++ l'))%string. rewrite IH; [ | discriminate | exact N'].
    change (join "_" (x :: y :: l)) with (x ++ "_" ++ join "_" (y :: l))%string.
    assert (A : forall a b c : string, ((a ++ b) ++ c = a ++ b ++ c)%string) by (induction a as [ | d a IHa]; intros b c; [reflexivity | cbn; rewrite IHa; reflexivity]).
    rewrite !A. reflexivity.
Qed.
Lemma append_assoc_s : forall a b c : string, ((a ++ b) ++ c = a ++ b ++ c)%string.
Proof. induction a as [ | d a IHa]; intros b c; [reflexivity | cbn; rewrite IHa; reflexivity]. Qed.
Lemma join_last : forall l x y, join "_" (l ++ [(x ++ y)%string]) = (join "_" (l ++ [x]) ++ y)%string.
Proof.
  induction l as [ | z l IH]; intros x y; [reflexivity | ].
  assert (E : forall w, join "_" ((z :: l) ++ [w]) = (z ++ "_" ++ join "_" (l ++ [w]))%string) by (intros w; cbn [app]; destruct l; reflexivity).
  rewrite !E, IH, !append_assoc_s. reflexivity.
Qed.
Lemma go_name_split : forall a b, Ident.Model.go_name (a ++ String "." b) = (Ident.Model.go_name a ++ "_" ++ Ident.Model.go_name b)%string.
Proof.
  intros a b. unfold Ident.Model.go_name. rewrite TextProofs.split_app_gen, map_app. apply join_app; intros H; apply map_eq_nil in H; exact (TextProofs.split_nonempty _ _ H).
Qed.

Lemma capitalised_named : forall msgs i, m_path (msgs i) <> [] -> Forall capitalised (m_path (msgs i)) -> argument_named msgs i.
Proof.
  intros msgs i N F. unfold argument_named, arg_fqdn, m_fqdn. set (pkg := m_pkg (msgs i)). set (ps := m_path (msgs i)) in *. clearbody pkg ps.
  change (join "." [pkg; join "_" (removelast ps ++ [(last ps "" ++ "Argument")%string])]) with (pkg ++ String "." (join "_" (removelast ps ++ [(last ps "" ++ "Argument")%string])))%string.
  assert (E : join "." (pkg :: ps) = (pkg ++ String "." (join "." ps))%string) by (destruct ps; [congruence | reflexivity]).
  rewrite E, !go_name_split, !append_assoc_s. f_equal. f_equal.
  assert (S : ps = (removelast ps ++ [last ps ""])%list) by (apply app_removelast_last; exact N).
  assert (Fl : Forall capitalised (removelast ps ++ [last ps ""])) by (rewrite <- S; exact F). apply Forall_app in Fl. destruct Fl as [F1 F2]. inversion F2 as [ | ? ? C2 _]; subst.
  set (ps' := (removelast ps ++ [(last ps "" ++ "Argument")%string])%list) in *.
  assert (F' : Forall capitalised ps') by (apply Forall_app; split; [exact F1 | repeat constructor; apply (capitalised_argument _ C2)]).
  assert (N' : ps' <> []) by (subst ps'; destruct (removelast ps); discriminate).
  unfold Ident.Model.go_name. rewrite (split_path ps N F), (public_map ps F).
  assert (X : has_char "." (join "_" ps') = false /\ has_char "-" (join "_" ps') = false).
  { clear - F'. induction F' as [ | p ps' [_ [A B]] F' IH]; [split; reflexivity | ]. destruct ps' as [ | q ps']; [split; [exact A | exact B] | ].
    change (join "_" (p :: q :: ps')) with (p ++ "_" ++ join "_" (q :: ps'))%string. rewrite !TextProofs.has_char_app, A, B, (proj1 IH), (proj2 IH). split; reflexivity. }
  rewrite (TextProofs.split_no_sep _ _ (proj1 X)). cbn [map]. rewrite (replace_none _ (proj2 X)). cbn [join].
  rewrite (public_path ps' N' F'). unfold ps'. rewrite map_app. cbn [map]. rewrite (public_argument _ C2), join_last. f_equal. rewrite S at 3. rewrite map_app. reflexivity.
Qed.
