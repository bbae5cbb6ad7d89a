(** * Proofs about the arguments of a message *)

From Coq Require Import String List Bool.
From Verif.Ident Require Model.
From Verif.Reqs Require Import Model Spec.
Import ListNotations.
Local Open Scope string_scope.
Local Open Scope list_scope.

Notation public := Ident.Model.public.

Lemma existsb_name : forall n l, existsb (String.eqb n) l = true <-> In n l.
Proof.
  intros n l. rewrite existsb_exists. split.
  - intros [k [I H]]. apply String.eqb_eq in H. subst k. exact I.
  - intros I. exists n. split; [exact I | apply String.eqb_refl].
Qed.

Section Tables.
  Context {V : Type}.
  Lemma get_put : forall (t : table V) k x k', get V (put V t k x) k' = if String.eqb k k' then Some x else get V t k'.
  Proof.
    induction t as [ | [k0 x0] r IH]; intros k x k'; cbn [put get].
    - reflexivity.
    - destruct (String.eqb k0 k) eqn:K; cbn [get].
      + apply String.eqb_eq in K. subst k0. destruct (String.eqb k k'); reflexivity.
      + destruct (String.eqb k0 k') eqn:K'.
        * apply String.eqb_eq in K'. subst k0. rewrite String.eqb_sym in K. rewrite K. reflexivity.
        * apply IH.
  Qed.

  Lemma assign_other : forall (zero : string -> V) s names req k, (forall n, In n names -> public n <> k) ->
    get V (assign V zero s names req) k = get V req k.
  Proof.
    intros zero s names. induction names as [ | n r IH]; intros req k H.
    - reflexivity.
    - unfold assign. cbn [fold_left]. change (get V (assign V zero s r (put V req (public n) match get V (vars V s) (public n) with Some x => x | None => zero n end)) k = get V req k).
      rewrite IH; [ | intros m I; apply H; right; exact I].
      rewrite get_put. assert (N : String.eqb (public n) k = false) by (apply String.eqb_neq; apply H; left; reflexivity). rewrite N. reflexivity.
  Qed.
  Lemma assign_in : forall (zero : string -> V) s names req n, NoDup (map public names) -> In n names ->
    get V (assign V zero s names req) (public n) = Some match get V (vars V s) (public n) with Some x => x | None => zero n end.
  Proof.
    intros zero s names. induction names as [ | m r IH]; intros req n N I; [destruct I | ].
    cbn [map] in N. inversion N as [ | ? ? X N']; subst.
    unfold assign. cbn [fold_left].
    match goal with |- get V (fold_left ?f r ?q) _ = _ => change (get V (assign V zero s r q) (public n) = Some match get V (vars V s) (public n) with Some x => x | None => zero n end) end.
    destruct I as [-> | I].
    - rewrite assign_other; [rewrite get_put, String.eqb_refl; reflexivity | ].
      intros k I E. apply X. rewrite <- E. apply in_map. exact I.
    - apply IH; assumption.
  Qed.

  Lemma given_in : forall (passed : list (string * V)) n x, given V passed n = Some x -> In n (map fst passed).
  Proof.
    induction passed as [ | [k y] r IH]; intros n x H; cbn in *; [discriminate H | ].
    destruct (String.eqb k n) eqn:K; [left; apply String.eqb_eq; exact K | right; apply (IH n x H)].
  Qed.
  Lemma request_given : forall (passed : list (string * V)) n, NoDup (map public (map fst passed)) -> In n (map fst passed) ->
    get V (request V passed) (public n) = given V passed n.
  Proof.
    induction passed as [ | [k y] r IH]; intros n N I; cbn in *; [destruct I | ].
    inversion N as [ | ? ? X N']; subst. destruct (String.eqb k n) eqn:K.
    - apply String.eqb_eq in K. subst k. rewrite String.eqb_refl. reflexivity.
    - destruct I as [-> | I]; [rewrite String.eqb_refl in K; discriminate K | ].
      assert (P : String.eqb (public k) (public n) = false).
      { apply String.eqb_neq. intros E. apply X. rewrite E. apply in_map. exact I. }
      rewrite P. apply IH; assumption.
  Qed.
End Tables.

Lemma NoDup_app_disjoint : forall A (a b : list A) x, NoDup (a ++ b) -> In x a -> ~ In x b.
Proof.
  induction a as [ | y a IH]; intros b x N I; [destruct I | ]. cbn in N. inversion N as [ | ? ? X N']; subst.
  destruct I as [-> | I]; [intros J; apply X; apply in_or_app; right; exact J | apply IH; assumption].
Qed.
Lemma NoDup_app_l : forall A (a b : list A), NoDup (a ++ b) -> NoDup a.
Proof.
  induction a as [ | y a IH]; intros b N; [constructor | ]. cbn in N. inversion N as [ | ? ? X N']; subst. constructor.
  - intros I. apply X. apply in_or_app. left. exact I.
  - apply (IH b N').
Qed.
Lemma NoDup_app_r : forall A (a b : list A), NoDup (a ++ b) -> NoDup b.
Proof. induction a as [ | y a IH]; intros b N; [exact N | ]. cbn in N. inversion N as [ | ? ? X N']; subst. apply IH. exact N'. Qed.
(** A part in the middle may be dropped. *)
Lemma NoDup_drop : forall A (a b c : list A), NoDup (a ++ b ++ c) -> NoDup (a ++ c).
Proof.
  induction a as [ | x a IH]; intros b c N; cbn in *; [apply (NoDup_app_r _ b c N) | ].
  inversion N as [ | ? ? X N']; subst. constructor.
  - intros I. apply X. apply in_app_or in I. apply in_or_app. destruct I as [I | I]; [left; exact I | right; apply in_or_app; right; exact I].
  - apply (IH b c N').
Qed.
Lemma NoDup_map_inj : forall A B (f : A -> B) l, NoDup (map f l) -> NoDup l.
Proof.
  induction l as [ | x l IH]; intros N; [constructor | ]. cbn in N. inversion N as [ | ? ? X N']; subst. constructor; [ | apply IH; exact N'].
  intros I. apply X. apply in_map. exact I.
Qed.

Section Message.
  Variables expr V E : Type.
  Variable refs : expr -> list string.
  Variable eval : expr -> (string -> option V) -> (string -> option V) -> V + E.
  Variable eval_bool : expr -> (string -> option V) -> (string -> option V) -> bool + E.
  Variable zero : string -> V.
  Variable custom : (string -> option V) -> table V + E.
  Variable custom_field : string -> (string -> option V) -> option (table V) -> V + E.
  Hypothesis eval_reads : reads expr V refs eval.
  Hypothesis bool_reads : reads expr V refs eval_bool.

  Notation def := (def expr).
  Notation names := (map (d_name expr)).
  Notation eval_defs := (eval_defs expr V E eval).
  Notation values := (values expr V E eval).

  (** The values are right for all names but [P]. *)
  Definition right (P : list string) (s : state V) (vs : string -> option V) : Prop := forall n, ~ In n P -> get V (vals V s) n = vs n.
  Definition stored (s : state V) (vs : string -> option V) : Prop := forall n x, vs n = Some x -> get V (vars V s) (public n) = Some x.

  Lemma values_keep : forall args ds vs vs', values args ds vs = inl vs' -> forall n, ~ In n (names ds) -> vs' n = vs n.
  Proof using.
    intros args. induction ds as [ | d r IH]; intros vs vs' H n I; cbn in H.
    - injection H as <-. reflexivity.
    - destruct (eval (d_expr expr d) vs args) as [x | e]; [ | discriminate H].
      rewrite (IH _ _ H n); [ | intros J; apply I; right; exact J]. unfold one_more.
      destruct (String.eqb n (d_name expr d)) eqn:K; [ | reflexivity]. apply String.eqb_eq in K. exfalso. apply I. left. symmetry. exact K.
  Qed.
  Lemma values_all : forall args ds vs vs', values args ds vs = inl vs' ->
    (forall n, vs n <> None -> vs' n <> None) /\ (forall n, In n (names ds) -> vs' n <> None).
  Proof using.
    intros args. induction ds as [ | d r IH]; intros vs vs' H; cbn in H.
    - injection H as <-. split; [intros n K; exact K | intros n []].
    - destruct (eval (d_expr expr d) vs args) as [x | e]; [ | discriminate H]. destruct (IH _ _ H) as [A B]. split.
      + intros n K. apply A. unfold one_more. destruct (String.eqb n (d_name expr d)); [discriminate | exact K].
      + intros n [<- | I]; [ | apply B; exact I]. apply A. unfold one_more. rewrite String.eqb_refl. discriminate.
  Qed.

  (** The definitions are evaluated as they should. *)
  Lemma eval_defs_values : forall (args : list string) req given, (forall n, arg V args req n = given n) ->
    forall ds s vs P L, right P s vs -> (forall n, vs n <> None -> In n L) -> NoDup (map public (L ++ names ds)) ->
    (forall d, In d ds -> ~ In (d_name expr d) P) -> (forall d n, In d ds -> In n (refs (d_expr expr d)) -> ~ In n P) ->
    match eval_defs args req ds s, values given ds vs with
    | inl s', inl vs' => right P s' vs' /\ (stored s vs -> stored s' vs')
    | inr e, inr e' => e = e'
    | _, _ => False
    end.
  Proof using eval_reads.
    intros args req given Ga. induction ds as [ | d r IH]; intros s vs P L R K N Nm Rf; cbn [Model.eval_defs Spec.values].
    - split; [exact R | intros X; exact X].
    - assert (Vn : vs (d_name expr d) = None).
      { destruct (vs (d_name expr d)) eqn:X; [ | reflexivity]. exfalso.
        rewrite map_app in N. apply (NoDup_app_disjoint _ _ _ (public (d_name expr d)) N).
        - apply in_map. apply K. rewrite X. discriminate.
        - left. reflexivity. }
      assert (Dn : ~ In (d_name expr d) P) by (apply Nm; left; reflexivity).
      rewrite (R _ Dn), Vn.
      rewrite (eval_reads (d_expr expr d) (get V (vals V s)) vs (arg V args req) given (fun n I => R n (Rf d n (or_introl eq_refl) I)) Ga).
      destruct (eval (d_expr expr d) vs given) as [x | e]; [ | reflexivity].
      set (s' := {| vars := put V (vars V s) (public (d_name expr d)) x; vals := put V (vals V s) (d_name expr d) x |}).
      assert (R' : right P s' (one_more V vs (d_name expr d) x)).
      { intros n I. unfold s'. cbn [vals]. rewrite get_put. unfold one_more. rewrite (String.eqb_sym n). destruct (String.eqb (d_name expr d) n); [reflexivity | apply R; exact I]. }
      assert (St : stored s vs -> stored s' (one_more V vs (d_name expr d) x)).
      { intros S n y. unfold one_more, s'. cbn [vars]. rewrite get_put. destruct (String.eqb n (d_name expr d)) eqn:Q.
        - apply String.eqb_eq in Q. subst n. rewrite String.eqb_refl. intros X. exact X.
        - intros X. assert (F : String.eqb (public (d_name expr d)) (public n) = false).
          { apply String.eqb_neq. intros Q'. rewrite map_app in N. apply (NoDup_app_disjoint _ _ _ (public n) N).
            + apply in_map. apply K. rewrite X. discriminate.
            + left. exact Q'. }
          rewrite F. apply S. exact X. }
      specialize (IH s' (one_more V vs (d_name expr d) x) P (L ++ [d_name expr d]) R').
      assert (IH' : match eval_defs args req r s', values given r (one_more V vs (d_name expr d) x) with
                    | inl s'', inl vs' => right P s'' vs' /\ (stored s' (one_more V vs (d_name expr d) x) -> stored s'' vs')
                    | inr e, inr e' => e = e'
                    | _, _ => False
                    end).
      { apply IH.
        - intros n. unfold one_more. intros X. destruct (String.eqb n (d_name expr d)) eqn:Q.
          + apply in_or_app. right. left. symmetry. apply String.eqb_eq. exact Q.
          + apply in_or_app. left. apply K. exact X.
        - rewrite <- app_assoc. exact N.
        - intros d' I. apply Nm. right. exact I.
        - intros d' n I. apply Rf. right. exact I. }
      destruct (eval_defs args req r s') as [s'' | e]; destruct (values given r (one_more V vs (d_name expr d) x)) as [vs' | e']; try exact IH'.
      destruct IH' as [A B]. split; [exact A | intros S; apply B; apply St; exact S].
  Qed.

  (** Cases are chosen as they should. *)
  Lemma choose_select : forall args req given, (forall n, arg V args req n = given n) -> forall s vs P, right P s vs ->
    forall default cases, (forall c a n, In (c, a) cases -> In n (refs c) -> ~ In n P) ->
    match conditions expr V E eval_bool args req s cases, choose expr V E eval_bool given vs cases default with
    | inl l, inl o => select expr l default = o
    | inr e, inr e' => e = e'
    | _, _ => False
    end.
  Proof using bool_reads.
    intros args req given Ga s vs P R default. induction cases as [ | [c a] r IH]; intros Rf; cbn [conditions choose]; [reflexivity | ].
    rewrite (bool_reads c (get V (vals V s)) vs (arg V args req) given (fun n I => R n (Rf c a n (or_introl eq_refl) I)) Ga).
    assert (IH' : match conditions expr V E eval_bool args req s r, choose expr V E eval_bool given vs r default with
                  | inl l, inl o => select expr l default = o
                  | inr e, inr e' => e = e'
                  | _, _ => False
                  end) by (apply IH; intros c' a' n I; apply (Rf c' a' n); right; exact I).
    destruct (eval_bool c vs given) as [b | e]; [ | reflexivity].
    destruct (conditions expr V E eval_bool args req s r) as [l | e]; destruct (choose expr V E eval_bool given vs r default) as [o | e']; try (destruct b; exact IH').
    destruct b; [reflexivity | ]. exact IH'.
  Qed.
  Lemma choose_in : forall given vs default cases a, choose expr V E eval_bool given vs cases default = inl (Some a) ->
    (exists c, In (c, a) cases) \/ default = Some a.
  Proof using.
    intros given vs default. induction cases as [ | [c a0] r IH]; intros a H; cbn in H.
    - injection H as ->. right. reflexivity.
    - destruct (eval_bool c vs given) as [[ | ] | e]; destruct (choose expr V E eval_bool given vs r default) as [o | e']; try discriminate H.
      + injection H as <-. left. exists c. left. reflexivity.
      + destruct (IH a H) as [[c' I] | D]; [left; exists c'; right; exact I | right; exact D].
  Qed.

  (** The definitions of an alternative are a part of those of its field. *)
  Lemma inner_part : forall cases default a, (exists c, In (c, a) cases) \/ default = Some a ->
    (exists x y, inner expr (Oneof expr cases default) = x ++ a_defs expr a ++ y) /\
    (forall e, In e (alt_exprs expr a) -> In e (exprs expr (Oneof expr cases default))).
  Proof using.
    intros cases default a [[c I] | ->]; unfold inner, exprs.
    - split.
      + apply in_split in I. destruct I as [l1 [l2 ->]]. rewrite flat_map_app. cbn [flat_map snd].
        exists (flat_map (fun c => a_defs expr (snd c)) l1), (flat_map (fun c => a_defs expr (snd c)) l2 ++ match default with Some a => a_defs expr a | None => [] end).
        rewrite <- !app_assoc. reflexivity.
      + intros e Ie. apply in_or_app. left. apply in_flat_map. exists (c, a). split; [exact I | right; exact Ie].
    - split; [exists (flat_map (fun c => a_defs expr (snd c)) cases), []; rewrite app_nil_r; reflexivity | ].
      intros e Ie. apply in_or_app. right. exact Ie.
  Qed.

  (** The fields are bound as they should. *)
  Lemma bind_fill : forall args req given, (forall n, arg V args req n = given n) -> forall from_custom vs L, (forall n, vs n <> None -> In n L) ->
    forall fs s P ret, right P s vs -> NoDup (map public (L ++ names (flat_map (inner expr) fs))) ->
    (forall d, In d (flat_map (inner expr) fs) -> ~ In (d_name expr d) P) ->
    (forall before f after, fs = before ++ f :: after -> forall e n, In e (exprs expr f) -> In n P \/ In n (names (flat_map (inner expr) before)) -> ~ In n (refs e)) ->
    bind expr V E eval eval_bool custom_field args req from_custom fs s ret = fill expr V E eval eval_bool custom_field given (get V req) from_custom vs fs ret.
  Proof using eval_reads bool_reads.
    intros args req given Ga from_custom vs L K. induction fs as [ | f r IH]; intros s P ret R N Nm Sc; [reflexivity | ].
    assert (Sc1 : forall e n, In e (exprs expr f) -> In n (refs e) -> ~ In n P).
    { intros e n Ie I Ip. apply (Sc [] f r eq_refl e n Ie (or_introl Ip)). exact I. }
    cbn [flat_map] in N, Nm.
    assert (Next : forall s' ret', right P s' vs -> inner expr f = [] \/ True ->
      bind expr V E eval eval_bool custom_field args req from_custom r s' ret' = fill expr V E eval eval_bool custom_field given (get V req) from_custom vs r ret').
    { intros s' ret' R' _. apply (IH s' P ret' R').
      - rewrite map_app in N. rewrite map_app, map_app in N. rewrite map_app. apply (NoDup_drop _ _ _ _ N).
      - intros d I. apply Nm. apply in_or_app. right. exact I.
      - intros before f' after Ef e n Ie In'. apply (Sc (f :: before) f' after); [rewrite Ef; reflexivity | exact Ie | ].
        destruct In' as [I | I]; [left; exact I | right; cbn [flat_map]; rewrite map_app; apply in_or_app; right; exact I]. }
    destruct f as [n e | n | cases default]; cbn [bind fill].
    - rewrite (eval_reads e (get V (vals V s)) vs (arg V args req) given (fun n I => R n (Sc1 e n (or_introl eq_refl) I)) Ga).
      destruct (eval e vs given) as [x | er]; [apply Next; [exact R | right; exact I] | reflexivity].
    - destruct (custom_field n (get V req) (if from_custom then Some ret else None)) as [x | er]; [apply Next; [exact R | right; exact I] | reflexivity].
    - assert (Ch := choose_select args req given Ga s vs P R default cases).
      assert (Ch' : match conditions expr V E eval_bool args req s cases, choose expr V E eval_bool given vs cases default with
                    | inl l, inl o => select expr l default = o
                    | inr e, inr e' => e = e'
                    | _, _ => False
                    end).
      { apply Ch. intros c a n I. apply Sc1. unfold exprs. apply in_or_app. left. apply in_flat_map. exists (c, a). split; [exact I | left; reflexivity]. }
      clear Ch. destruct (conditions expr V E eval_bool args req s cases) as [l | er]; destruct (choose expr V E eval_bool given vs cases default) as [o | er'] eqn:Co; try contradiction.
      2: { rewrite Ch'. reflexivity. }
      rewrite Ch'. destruct o as [a | ]; [ | apply Next; [exact R | right; exact I]].
      destruct (inner_part cases default a (choose_in _ _ _ _ _ Co)) as [[x [y Ein]] Ex].
      rewrite Ein in N, Nm.
      assert (Na : NoDup (map public (L ++ names (a_defs expr a)))).
      { rewrite !map_app in N. rewrite map_app. rewrite <- !app_assoc in N. apply NoDup_drop in N. rewrite app_assoc in N. apply (NoDup_app_l _ _ _ N). }
      assert (Nd : forall d, In d (a_defs expr a) -> ~ In (d_name expr d) P).
      { intros d I. apply Nm. apply in_or_app. left. apply in_or_app. right. apply in_or_app. left. exact I. }
      assert (Rd : forall d n, In d (a_defs expr a) -> In n (refs (d_expr expr d)) -> ~ In n P).
      { intros d n I. apply Sc1. apply Ex. right. apply in_map. exact I. }
      assert (Ev := eval_defs_values args req given Ga (a_defs expr a) s vs P L R K Na Nd Rd).
      destruct (eval_defs args req (a_defs expr a) s) as [s' | er]; destruct (values given (a_defs expr a) vs) as [vs' | er'] eqn:Va; try contradiction.
      2: { rewrite Ev. reflexivity. }
      destruct Ev as [R' _].
      rewrite (eval_reads (a_by expr a) (get V (vals V s')) vs' (arg V args req) given (fun n I => R' n (Sc1 _ n (Ex _ (or_introl eq_refl)) I)) Ga).
      destruct (eval (a_by expr a) vs' given) as [z | er]; [ | reflexivity].
      apply (IH s' (P ++ names (a_defs expr a))).
      + intros n I. rewrite (R' n); [ | intros J; apply I; apply in_or_app; left; exact J].
        apply (values_keep _ _ _ _ Va). intros J. apply I. apply in_or_app. right. exact J.
      + rewrite !map_app in N. rewrite map_app. apply (NoDup_drop _ _ _ _ N).
      + intros d Id I. apply in_app_or in I. destruct I as [I | I].
        * apply (Nm d); [apply in_or_app; right; exact Id | exact I].
        * rewrite !map_app in N. rewrite <- !app_assoc in N. apply NoDup_app_r in N. apply NoDup_app_r in N.
          apply (NoDup_app_disjoint _ _ _ (public (d_name expr d)) N); [apply in_map; exact I | ].
          apply in_or_app. right. apply in_map. apply in_map. exact Id.
      + intros before f' after Ef e n Ie In'. apply (Sc (Oneof expr cases default :: before) f' after); [rewrite Ef; reflexivity | exact Ie | ].
        cbn [flat_map]. rewrite map_app. destruct In' as [I | I].
        * apply in_app_or in I. destruct I as [I | I]; [left; exact I | right; apply in_or_app; left].
          rewrite Ein, !map_app. apply in_or_app. right. apply in_or_app. left. exact I.
        * right. apply in_or_app. right. exact I.
  Qed.

  Lemma arg_given : forall (passed : list (string * V)) req,
    (forall n, In n (map fst passed) -> get V req (public n) = given V passed n) -> forall n, arg V (map fst passed) req n = given V passed n.
  Proof using.
    intros passed req H n. unfold arg. destruct (existsb (String.eqb n) (map fst passed)) eqn:X.
    - apply H. apply existsb_name. exact X.
    - destruct (given V passed n) as [x | ] eqn:G; [ | reflexivity]. exfalso.
      apply given_in in G. apply existsb_name in G. rewrite G in X. discriminate X.
  Qed.

  Lemma used_alt_in : forall m n, In n (flat_map (fun f => flat_map (used_alt expr refs) (alts expr f)) (m_fields expr m)) -> In n (names (flat_map (inner expr) (m_fields expr m))).
  Proof using.
    intros m n I. apply in_flat_map in I. destruct I as [f [If I]]. apply in_flat_map in I. destruct I as [a [Ia I]].
    unfold used_alt in I. apply filter_In in I. destruct I as [I _].
    apply in_map_iff in I. destruct I as [d [<- Id]]. apply in_map. apply in_flat_map. exists f. split; [exact If | ].
    destruct f as [k e | k | cases default]; cbn [alts] in Ia; [destruct Ia | destruct Ia | ]. unfold inner. apply in_or_app. apply in_app_or in Ia. destruct Ia as [Ia | Ia].
    - left. apply in_map_iff in Ia. destruct Ia as [c [<- Ic]]. apply in_flat_map. exists c. split; [exact Ic | exact Id].
    - right. destruct default as [a' | ]; [destruct Ia as [<- | []]; exact Id | destruct Ia].
  Qed.
  Lemma assigned_names : forall m n, In n (assigned expr refs m) -> In n (all_names expr m).
  Proof using.
    intros m n I. unfold assigned in I. apply nodup_In in I. unfold all_names. rewrite map_app. apply in_or_app. apply in_app_or in I. destruct I as [I | I].
    - left. unfold used_defs in I. apply filter_In in I. destruct I as [I _]. exact I.
    - right. apply used_alt_in. exact I.
  Qed.
  Lemma assigned_nodup : forall m, NoDup (map public (all_names expr m)) -> NoDup (map public (assigned expr refs m)).
  Proof using.
    intros m N.
    assert (X : forall l l', NoDup (map public l) -> NoDup l' -> (forall n, In n l' -> In n l) -> NoDup (map public l')).
    { intros l l' Nl. induction l' as [ | n l' IH]; intros Nl' S; [constructor | ]. inversion Nl' as [ | ? ? Y Nl'']; subst. cbn. constructor.
      - intros I. apply in_map_iff in I. destruct I as [k [Ek Ik]]. apply Y.
        assert (Q : n = k); [ | rewrite Q; exact Ik].
        assert (In1 := S n (or_introl eq_refl)). assert (In2 := S k (or_intror Ik)). clear -Nl In1 In2 Ek. induction l as [ | z l IH]; [destruct In1 | ].
        cbn in Nl. inversion Nl as [ | ? ? Z Nl']; subst. destruct In1 as [-> | In1], In2 as [-> | In2]; [reflexivity | | | apply IH; assumption].
        + exfalso. apply Z. rewrite <- Ek. apply in_map. exact In2.
        + exfalso. apply Z. rewrite Ek. apply in_map. exact In1.
      - apply IH; [exact Nl'' | intros k I; apply S; right; exact I]. }
    apply (X (all_names expr m)); [exact N | unfold assigned; apply NoDup_nodup | apply assigned_names].
  Qed.

  Lemma custom_used : forall m d, has_custom expr m -> In d (m_defs expr m) -> In (d_name expr d) (assigned expr refs m).
  Proof using.
    intros m d H I. unfold assigned. apply nodup_In. apply in_or_app. left. unfold used_defs. apply filter_In. split; [apply in_map; exact I | ].
    assert (A : any_custom expr m = true); [ | rewrite A; reflexivity].
    unfold any_custom. destruct H as [-> | [n Hn]]; [reflexivity | ]. apply orb_true_iff. right. apply existsb_exists. exists (Custom expr n). split; [exact Hn | reflexivity].
  Qed.

  Theorem resolve_outcome : forall m passed, accepted expr refs m -> NoDup (map public (map fst passed)) ->
    (forall n a, In n (assigned expr refs m) -> In a (map fst passed) -> public n <> public a) ->
    outcome expr V E eval eval_bool custom custom_field m passed (resolve expr V E refs eval eval_bool zero custom custom_field m passed).
  Proof using eval_reads bool_reads.
    intros m passed [N Sc] Np Cl. unfold outcome, resolve.
    assert (Ga : forall n, arg V (map fst passed) (request V passed) n = given V passed n) by (apply arg_given; intros n I; apply request_given; assumption).
    unfold all_names in N. rewrite map_app in N.
    assert (Nm : NoDup (map public ([] ++ names (m_defs expr m)))) by (rewrite map_app in N; apply NoDup_app_l in N; exact N).
    assert (Ev := eval_defs_values (map fst passed) (request V passed) (given V passed) Ga (m_defs expr m) {| vars := []; vals := [] |} (fun _ => None) [] []
      (fun n _ => eq_refl) (fun n X => False_ind _ (X eq_refl)) Nm (fun d _ X => X) (fun d n _ _ X => X)).
    destruct (eval_defs (map fst passed) (request V passed) (m_defs expr m) {| vars := []; vals := [] |}) as [s | e];
      destruct (values (given V passed) (m_defs expr m) (fun _ => None)) as [vs | e'] eqn:Va; try contradiction; [ | rewrite Ev; reflexivity].
    destruct Ev as [R St]. assert (S : stored s vs) by (apply St; intros n x X; discriminate X). clear St.
    set (req := assign V zero s (assigned expr refs m) (request V passed)).
    assert (Gr : forall n, In n (map fst passed) -> get V req (public n) = given V passed n).
    { intros n I. unfold req. rewrite assign_other; [apply request_given; assumption | ]. intros k Ik. apply Cl; assumption. }
    exists (get V req). split.
    - intros H. split.
      + intros n x G. rewrite Gr; [exact G | apply (given_in _ _ _ G)].
      + intros d I. unfold req. rewrite assign_in; [ | apply assigned_nodup; unfold all_names; rewrite map_app; exact N | apply custom_used; assumption].
        destruct (values_all _ _ _ _ Va) as [_ A]. destruct (vs (d_name expr d)) as [x | ] eqn:X.
        * rewrite (S _ _ X). reflexivity.
        * exfalso. apply (A (d_name expr d)); [apply in_map; exact I | exact X].
    - destruct (if m_custom expr m then custom (get V req) else inl []) as [ret | e]; [ | reflexivity].
      apply (bind_fill (map fst passed) req (given V passed) (arg_given passed req Gr) (m_custom expr m) vs (names (m_defs expr m))) with (P := []).
      + intros n X. destruct (in_dec string_dec n (names (m_defs expr m))) as [I | I]; [exact I | ]. rewrite (values_keep _ _ _ _ Va n I) in X. contradiction.
      + exact R.
      + exact N.
      + intros d _ [].
      + intros before f after Ef e n Ie [[] | I]. apply in_map_iff in I. destruct I as [d [<- Id]]. apply (Sc before f after Ef e d Ie Id).
  Qed.

  (** Which variables are assigned. *)
  Lemma assigned_iff : forall m n, In n (assigned expr refs m) <-> exists d, n = d_name expr d /\ (used expr refs m d \/ used_inside expr refs m d).
  Proof using.
    intros m n. unfold assigned. rewrite nodup_In, in_app_iff. split.
    - intros [I | I].
      + unfold used_defs in I. apply filter_In in I. destruct I as [I U]. apply in_map_iff in I. destruct I as [d [<- Id]]. exists d. split; [reflexivity | left].
        apply orb_true_iff in U. destruct U as [U | U].
        * apply U_custom; [exact Id | ]. unfold any_custom in U. apply orb_true_iff in U. destruct U as [U | U]; [left; exact U | right].
          apply existsb_exists in U. destruct U as [f [If U]]. destruct f as [k e | k | cases default]; try discriminate U. exists k. exact If.
        * apply existsb_name in U. unfold reference_names in U. apply in_app_or in U. destruct U as [U | U].
          -- apply in_flat_map in U. destruct U as [d' [Id' U]]. apply (U_def _ _ _ _ d'); assumption.
          -- apply in_flat_map in U. destruct U as [f [If U]]. destruct f as [k e | k | cases default]; [apply (U_field _ _ _ _ k e); assumption | destruct U | ].
             apply in_flat_map in U. destruct U as [[c a] [Ic U]]. apply (U_oneof _ _ _ _ cases default c a); assumption.
      + apply in_flat_map in I. destruct I as [f [If I]]. apply in_flat_map in I. destruct I as [a [Ia I]]. unfold used_alt in I. apply filter_In in I. destruct I as [I U].
        apply in_map_iff in I. destruct I as [d [<- Id]]. apply existsb_name in U. exists d. split; [reflexivity | right].
        destruct f as [k e | k | cases default]; cbn [alts] in Ia; [destruct Ia | destruct Ia | ]. apply in_app_or in Ia. destruct Ia as [Ia | Ia].
        * apply in_map_iff in Ia. destruct Ia as [[c a'] [<- Ic]]. apply (I_case _ _ _ _ cases default c a'); assumption.
        * destruct default as [a' | ]; [ | destruct Ia]. destruct Ia as [<- | []]. apply (I_default _ _ _ _ cases a'); assumption.
    - intros [d [-> [U | U]]].
      + left. unfold used_defs. apply filter_In. destruct U as [Id H | d' Id Id' H | k e Id If H | cases default c a Id If Ic H]; (split; [apply in_map; exact Id | apply orb_true_iff]).
        * left. unfold any_custom. destruct H as [-> | [k Hk]]; [reflexivity | ]. apply orb_true_iff. right. apply existsb_exists. exists (Custom expr k). split; [exact Hk | reflexivity].
        * right. apply existsb_name. unfold reference_names. apply in_or_app. left. apply in_flat_map. exists d'. split; assumption.
        * right. apply existsb_name. unfold reference_names. apply in_or_app. right. apply in_flat_map. exists (ByExpr expr k e). split; assumption.
        * right. apply existsb_name. unfold reference_names. apply in_or_app. right. apply in_flat_map. exists (Oneof expr cases default). split; [exact If | ].
          apply in_flat_map. exists (c, a). split; assumption.
      + right. apply in_flat_map. destruct U as [cases default c a If Ic Id H | cases a If Id H].
        * exists (Oneof expr cases default). split; [exact If | ]. apply in_flat_map. exists a. split.
          -- cbn [alts]. apply in_or_app. left. apply in_map_iff. exists (c, a). split; [reflexivity | exact Ic].
          -- unfold used_alt. apply filter_In. split; [apply in_map; exact Id | apply existsb_name; exact H].
        * exists (Oneof expr cases (Some a)). split; [exact If | ]. apply in_flat_map. exists a. split.
          -- cbn [alts]. apply in_or_app. right. left. reflexivity.
          -- unfold used_alt. apply filter_In. split; [apply in_map; exact Id | apply existsb_name; exact H].
  Qed.

  (** The struct of the variables has the definitions evaluated only. *)
  Lemma eval_defs_vars : forall args req ds s s', eval_defs args req ds s = inl s' ->
    forall k, ~ In k (map public (names ds)) -> get V (vars V s') k = get V (vars V s) k.
  Proof using.
    intros args req. induction ds as [ | d r IH]; intros s s' H k I; cbn [Model.eval_defs] in H.
    - injection H as <-. reflexivity.
    - assert (I' : ~ In k (map public (names r))) by (intros J; apply I; right; exact J).
      destruct (get V (vals V s) (d_name expr d)); [apply (IH _ _ H k I') | ].
      destruct (eval (d_expr expr d) (get V (vals V s)) (arg V args req)) as [x | e]; [ | discriminate H].
      rewrite (IH _ _ H k I'). cbn [vars]. rewrite get_put.
      assert (F : String.eqb (public (d_name expr d)) k = false); [ | rewrite F; reflexivity].
      apply String.eqb_neq. intros Q. apply I. left. exact Q.
  Qed.

  Lemma used_in : forall m d, used expr refs m d -> In d (m_defs expr m).
  Proof using. intros m d U. destruct U; assumption. Qed.
  Lemma used_inside_in : forall m d, used_inside expr refs m d -> In d (flat_map (inner expr) (m_fields expr m)).
  Proof using.
    intros m d U. apply in_flat_map. destruct U as [cases default c a If Ic Id _ | cases a If Id _].
    - exists (Oneof expr cases default). split; [exact If | ]. unfold inner. apply in_or_app. left. apply in_flat_map. exists (c, a). split; assumption.
    - exists (Oneof expr cases (Some a)). split; [exact If | ]. unfold inner. apply in_or_app. right. exact Id.
  Qed.

  (** For every accepted message. *)
  Theorem resolve_seen : forall m passed, accepted expr refs m -> NoDup (map public (map fst passed)) ->
    outcome_seen expr V E refs eval eval_bool custom custom_field zero m passed (resolve expr V E refs eval eval_bool zero custom custom_field m passed).
  Proof using eval_reads bool_reads.
    intros m passed [N Sc] Np. unfold outcome_seen, resolve.
    assert (Ga : forall n, arg V (map fst passed) (request V passed) n = given V passed n) by (apply arg_given; intros n I; apply request_given; assumption).
    assert (N0 := N). unfold all_names in N. rewrite map_app in N.
    assert (Nm : NoDup (map public ([] ++ names (m_defs expr m)))) by (rewrite map_app in N; apply NoDup_app_l in N; exact N).
    assert (Ev := eval_defs_values (map fst passed) (request V passed) (given V passed) Ga (m_defs expr m) {| vars := []; vals := [] |} (fun _ => None) [] []
      (fun n _ => eq_refl) (fun n X => False_ind _ (X eq_refl)) Nm (fun d _ X => X) (fun d n _ _ X => X)).
    destruct (eval_defs (map fst passed) (request V passed) (m_defs expr m) {| vars := []; vals := [] |}) as [s | e] eqn:Es;
      destruct (values (given V passed) (m_defs expr m) (fun _ => None)) as [vs | e'] eqn:Va; try contradiction; [ | rewrite Ev; reflexivity].
    destruct Ev as [R St]. assert (S : stored s vs) by (apply St; intros n x X; discriminate X). clear St.
    set (req := assign V zero s (assigned expr refs m) (request V passed)).
    exists (get V req), (arg V (map fst passed) req). split; [ | split; [ | split]].
    - split; [ | split].
      + intros d U. unfold req. rewrite assign_in; [ | apply assigned_nodup; exact N0 | apply assigned_iff; exists d; split; [reflexivity | left; exact U]].
        destruct (values_all _ _ _ _ Va) as [_ A]. destruct (vs (d_name expr d)) as [x | ] eqn:X.
        * rewrite (S _ _ X). reflexivity.
        * exfalso. apply (A (d_name expr d)); [apply in_map; apply used_in; exact U | exact X].
      + intros d U. unfold req. rewrite assign_in; [ | apply assigned_nodup; exact N0 | apply assigned_iff; exists d; split; [reflexivity | right; exact U]].
        rewrite (eval_defs_vars _ _ _ _ _ Es); [reflexivity | ].
        intros I. rewrite map_app in N. apply (NoDup_app_disjoint _ _ _ _ N I). apply in_map. apply in_map. apply used_inside_in. exact U.
      + intros a I H. unfold req. rewrite assign_other; [apply request_given; assumption | ].
        intros n In'. apply assigned_iff in In'. destruct In' as [d [-> U]]. apply H. exact U.
    - intros n x G. unfold arg. apply given_in in G. apply existsb_name in G. rewrite G. reflexivity.
    - intros n G. unfold arg. destruct (existsb (String.eqb n) (map fst passed)) eqn:X; [ | reflexivity]. exfalso.
      apply existsb_name in X. clear -G X. induction passed as [ | [k y] r IH]; [destruct X | ]. cbn in *. destruct (String.eqb k n) eqn:K; [discriminate G | ].
      destruct X as [-> | X]; [rewrite String.eqb_refl in K; discriminate K | apply IH; assumption].
    - destruct (if m_custom expr m then custom (get V req) else inl []) as [ret | e]; [ | reflexivity].
      apply (bind_fill (map fst passed) req (arg V (map fst passed) req) (fun n => eq_refl) (m_custom expr m) vs (names (m_defs expr m))) with (P := []).
      + intros n X. destruct (in_dec string_dec n (names (m_defs expr m))) as [I | I]; [exact I | ]. rewrite (values_keep _ _ _ _ Va n I) in X. contradiction.
      + exact R.
      + exact N.
      + intros d _ [].
      + intros before f after Ef e n Ie [[] | I]. apply in_map_iff in I. destruct I as [d [<- Id]]. apply (Sc before f after Ef e d Ie Id).
  Qed.
End Message.
