From Coq Require Import String List ZArith Bool Lia Permutation Arith.
From Verif.Base Require Import Result.
From Verif.Cel Require Import Null NullSpec.
Import ListNotations.
Local Open Scope string_scope.

(** ** Induction on expressions *)
Section Ind.
  Variable P : expr -> Prop.
  Definition Popt (o : option expr) := match o with Some e => P e | None => True end.
  Hypothesis Hconst : forall i c, P (Node i (KConst c)).
  Hypothesis Hident : forall i n, P (Node i (KIdent n)).
  Hypothesis Hsel : forall i o f t, P o -> P (Node i (KSelect o f t)).
  Hypothesis Hcall : forall i t f args, Popt t -> Forall P args -> P (Node i (KCall t f args)).
  Hypothesis Hlist : forall i es, Forall P es -> P (Node i (KList es)).
  Hypothesis Hstruct : forall i n ents, Forall (fun '(key, _, v) => Popt key /\ P v) ents -> P (Node i (KStruct n ents)).
  Hypothesis Hcomp : forall i it ac a b c d f, P a -> P b -> P c -> P d -> P f -> P (Node i (KComp it ac a b c d f)).

  Fixpoint expr_ind' (e : expr) : P e :=
    match e with
    | Node i k =>
        match k with
        | KConst c => Hconst i c
        | KIdent n => Hident i n
        | KSelect o f t => Hsel i o f t (expr_ind' o)
        | KCall t f args =>
            Hcall i t f args
              (match t as t0 return Popt t0 with Some t1 => expr_ind' t1 | None => I end)
              ((fix go l : Forall P l := match l with [] => Forall_nil P | x :: l' => Forall_cons x (expr_ind' x) (go l') end) args)
        | KList es =>
            Hlist i es ((fix go l : Forall P l := match l with [] => Forall_nil P | x :: l' => Forall_cons x (expr_ind' x) (go l') end) es)
        | KStruct n ents =>
            Hstruct i n ents
              ((fix go l : Forall (fun '(key, _, v) => Popt key /\ P v) l :=
                  match l with
                  | [] => Forall_nil _
                  | ((key, f), v) :: l' =>
                      Forall_cons ((key, f), v)
                        (conj (match key as t0 return Popt t0 with Some t1 => expr_ind' t1 | None => I end) (expr_ind' v))
                        (go l')
                  end) ents)
        | KComp it ac a b c d f => Hcomp i it ac a b c d f (expr_ind' a) (expr_ind' b) (expr_ind' c) (expr_ind' d) (expr_ind' f)
        end
    end.
End Ind.

Scheme rw_ind := Induction for rewritten Sort Prop
  with rwo_ind := Induction for rewritten_opt Sort Prop
  with rwa_ind := Induction for rewritten_all Sort Prop
  with rwe_ind := Induction for rewritten_entries Sort Prop.
Combined Scheme rw_mut from rw_ind, rwo_ind, rwa_ind, rwe_ind.

(** ** The callback *)
Lemma null_const_spec e : is_null_const e = true <-> null_literal e.
Proof.
  destruct e as [i k]. unfold is_null_const, null_literal; cbn. split.
  - destruct k as [[]| | | | | |]; try discriminate. eauto.
  - intros [j [= _ ->]]. reflexivity.
Qed.
Lemma null_const_false e : is_null_const e = false <-> ~ null_literal e.
Proof. rewrite <- null_const_spec. destruct (is_null_const e); split; congruence. Qed.
Lemma cast_spec e : is_cast e = true <-> already_cast e.
Proof.
  destruct e as [i k]. unfold is_cast, already_cast; cbn. split.
  - destruct k; try discriminate. intros H. apply String.eqb_eq in H. subst. eauto.
  - intros (j & t & args & [= _ ->]). apply String.eqb_refl.
Qed.
Lemma cast_false e : is_cast e = false <-> ~ already_cast e.
Proof. rewrite <- cast_spec. destruct (is_cast e); split; congruence. Qed.
Lemma comparison_spec fn : String.eqb fn op_equals || String.eqb fn op_not_equals = true <-> comparison fn.
Proof. unfold comparison. rewrite orb_true_iff, !String.eqb_eq. reflexivity. Qed.

Lemma lookup_spec i t fn l r rest :
  match lookup (Node i (KCall t fn (l :: r :: rest))) with
  | Some L => compares_left fn l r
  | Some R => compares_right fn l r
  | None => ~ compares_left fn l r /\ ~ compares_right fn l r
  end.
Proof.
  unfold lookup, compares_left, compares_right. cbn [ekind].
  destruct (String.eqb fn op_equals || String.eqb fn op_not_equals) eqn:Ef.
  - apply comparison_spec in Ef.
    pose proof (null_const_spec l) as Hl. pose proof (null_const_spec r) as Hr.
    pose proof (cast_spec l) as Cl. pose proof (cast_spec r) as Cr.
    destruct (is_null_const l); destruct (is_null_const r).
    + tauto.
    + destruct (is_cast r); intuition congruence.
    + destruct (is_cast l); intuition congruence.
    + intuition congruence.
  - assert (~ comparison fn) by (rewrite <- comparison_spec; congruence). tauto.
Qed.

Lemma callback_other e s : (forall i t f l r rest, e <> Node i (KCall t f (l :: r :: rest))) -> callback e s = (e, s).
Proof.
  intros H. destruct e as [i k]. unfold callback, lookup. cbn [ekind].
  destruct k as [| | |t f [|l [|r rest]]| | |]; try reflexivity. exfalso. eapply H. reflexivity.
Qed.

(** ** The visitor computes the relation *)
Lemma omap_st_cons {A B S0} (f : A -> S0 -> option (B * S0)) x l s :
  omap_st f (x :: l) s = match f x s with None => None | Some (y, s1) => match omap_st f l s1 with None => None | Some (ys, s2) => Some (y :: ys, s2) end end.
Proof. reflexivity. Qed.

Lemma callback_wrap j l s : callback (wrap j l) s = (wrap j l, s).
Proof. apply callback_other. intros. unfold wrap. congruence. Qed.

Lemma visit_wrap fuel j l s : visit (S fuel) (wrap j l) s =
  match visit fuel l s with None => None | Some (l', s1) => Some (wrap j l', s1) end.
Proof.
  cbn [visit]. rewrite callback_wrap. unfold wrap at 1. cbn [omap_st]. destruct (visit fuel l s) as [[l' s1]|]; reflexivity.
Qed.

Section Fuel.
  Variable fuel : nat.
  Hypothesis IH : forall n, n <= fuel -> forall e s e' s', visit n e s = Some (e', s') -> rewritten e e'.

  Lemma all_rw n es s es' s' : n <= fuel -> omap_st (visit n) es s = Some (es', s') -> rewritten_all es es'.
  Proof.
    intros Hn. revert s es' s'. induction es as [|e es IHe]; intros s es' s' H.
    - injection H as <- _. constructor.
    - rewrite omap_st_cons in H. destruct (visit n e s) as [[e1 s1]|] eqn:E1; [|discriminate].
      destruct (omap_st (visit n) es s1) as [[es1 s2]|] eqn:E2; [|discriminate]. injection H as <- _.
      constructor; [eapply IH; eassumption|eapply IHe; eassumption].
  Qed.

  Lemma entries_rw n es s es' s' : n <= fuel ->
    omap_st (fun '(key, field, v) s => match visit n v s with None => None | Some (v, s) => Some ((key, field, v), s) end) es s = Some (es', s') ->
    rewritten_entries es es'.
  Proof.
    intros Hn. revert s es' s'. induction es as [|[[key f] v] es IHe]; intros s es' s' H.
    - injection H as <- _. constructor.
    - rewrite omap_st_cons in H. destruct (visit n v s) as [[v1 s1]|] eqn:E1; [|discriminate].
      match type of H with context [omap_st ?g es s1] => destruct (omap_st g es s1) as [[es1 s2]|] eqn:E2; [|discriminate] end.
      injection H as <- _. constructor; [eapply IH; eassumption|eapply IHe; eassumption].
  Qed.

  Lemma opt_rw n t s t' s' : n <= fuel -> visit n t s = Some (t', s') -> rewritten_opt (Some t) (Some t').
  Proof. intros Hn H. constructor. eapply IH; eassumption. Qed.
End Fuel.

Lemma visit_rewritten : forall fuel e s e' s', visit fuel e s = Some (e', s') -> rewritten e e'.
Proof.
  induction fuel as [fuel IH0] using lt_wf_ind. intros e s e' s' H.
  destruct fuel as [|n]; [discriminate|].
  assert (IH : forall m, m <= n -> forall e s e' s', visit m e s = Some (e', s') -> rewritten e e')
    by (intros m Hm; apply IH0; lia). clear IH0.
  destruct e as [i k]. destruct k as [c|nm|o f t|t f args|es|nm ents|it ac a b c d f].
  - cbn in H. injection H as <- _. constructor.
  - cbn in H. injection H as <- _. constructor.
  - cbn [visit] in H. rewrite callback_other in H by congruence. cbn iota beta in H.
    destruct (visit n o s) as [[o1 s1]|] eqn:E1; [|discriminate]. injection H as <- _. constructor. eapply IH; [|exact E1]; lia.
  - destruct args as [|l [|r rest]].
    + cbn [visit] in H. rewrite callback_other in H by congruence. cbn [omap_st] in H.
      destruct t as [t|].
      * destruct (visit n t s) as [[t1 s1]|] eqn:E1; [|discriminate]. injection H as <- _.
        apply RwCall; [discriminate|eapply opt_rw; eauto|constructor].
      * injection H as <- _. apply RwCall; [discriminate|constructor|constructor].
    + cbn [visit] in H. rewrite callback_other in H by congruence. cbn iota beta in H.
      destruct (omap_st (visit n) [l] s) as [[args1 s1]|] eqn:E1; [|discriminate].
      apply (all_rw n IH n) in E1; [|lia].
      destruct t as [t|].
      * destruct (visit n t s1) as [[t1 s2]|] eqn:E2; [|discriminate]. injection H as <- _.
        apply RwCall; [discriminate|eapply opt_rw; eauto|exact E1].
      * injection H as <- _. apply RwCall; [discriminate|constructor|exact E1].
    + cbn [visit] in H. unfold callback in H. pose proof (lookup_spec i t f l r rest) as Hl.
      destruct (lookup (Node i (KCall t f (l :: r :: rest)))) as [[]|].
      * (* left *)
        rewrite omap_st_cons in H. destruct n as [|m]; [cbn in H; discriminate H|]. rewrite visit_wrap in H.
        destruct (visit m l _) as [[l1 s1]|] eqn:E1; [|discriminate]. rewrite omap_st_cons in H.
        destruct (visit (S m) r s1) as [[r1 s2]|] eqn:E2; [|discriminate].
        destruct (omap_st (visit (S m)) rest s2) as [[rest1 s3]|] eqn:E3; [|discriminate].
        apply (all_rw (S m) IH (S m)) in E3; [|lia]. apply IH in E1; [|lia]. apply IH in E2; [|lia].
        destruct t as [t|].
        -- destruct (visit (S m) t s3) as [[t1 s4]|] eqn:E4; [|discriminate]. injection H as <- _.
           apply RwLeft; auto. eapply opt_rw; eauto.
        -- injection H as <- _. apply RwLeft; auto. constructor.
      * rewrite omap_st_cons in H. destruct n as [|m]; [cbn in H; discriminate H|].
        destruct (visit (S m) l _) as [[l1 s1]|] eqn:E1; [|discriminate]. rewrite omap_st_cons, visit_wrap in H.
        destruct (visit m r s1) as [[r1 s2]|] eqn:E2; [|discriminate].
        destruct (omap_st (visit (S m)) rest s2) as [[rest1 s3]|] eqn:E3; [|discriminate].
        apply (all_rw (S m) IH (S m)) in E3; [|lia]. apply IH in E1; [|lia]. apply IH in E2; [|lia].
        destruct t as [t|].
        -- destruct (visit (S m) t s3) as [[t1 s4]|] eqn:E4; [|discriminate]. injection H as <- _.
           apply RwRight; auto. eapply opt_rw; eauto.
        -- injection H as <- _. apply RwRight; auto. constructor.
      * destruct (omap_st (visit n) (l :: r :: rest) s) as [[args1 s1]|] eqn:E1; [|discriminate].
        apply (all_rw n IH n) in E1; [|lia].
        destruct t as [t|].
        -- destruct (visit n t s1) as [[t1 s2]|] eqn:E2; [|discriminate]. injection H as <- _.
           apply RwCall; [|eapply opt_rw; eauto|exact E1]. intros l0 r0 rest0 [= <- <- <-]. exact Hl.
        -- injection H as <- _. apply RwCall; [|constructor|exact E1]. intros l0 r0 rest0 [= <- <- <-]. exact Hl.
  - cbn [visit] in H. rewrite callback_other in H by congruence. cbn iota beta in H.
    destruct (omap_st (visit n) es s) as [[es1 s1]|] eqn:E1; [|discriminate]. injection H as <- _.
    constructor. eapply all_rw; eauto.
  - cbn [visit] in H. rewrite callback_other in H by congruence. cbn iota beta in H.
    match type of H with context [omap_st ?g ents s] => destruct (omap_st g ents s) as [[es1 s1]|] eqn:E1; [|discriminate] end.
    injection H as <- _. constructor. eapply entries_rw; eauto.
  - cbn [visit] in H. rewrite callback_other in H by congruence. cbn iota beta in H.
    destruct (visit n a s) as [[a1 s1]|] eqn:E1; [|discriminate].
    destruct (visit n b s1) as [[b1 s2]|] eqn:E2; [|discriminate].
    destruct (visit n c s2) as [[c1 s3]|] eqn:E3; [|discriminate].
    destruct (visit n d s3) as [[d1 s4]|] eqn:E4; [|discriminate].
    destruct (visit n f s4) as [[f1 s5]|] eqn:E5; [|discriminate]. injection H as <- _.
    constructor; eapply IH; try eassumption; lia.
Qed.

(** ** Enough fuel *)
Definition covers (n : nat) (e : expr) : Prop := forall fuel s, n <= fuel -> exists r, visit fuel e s = Some r.

Lemma covers_mono n m e : n <= m -> covers n e -> covers m e.
Proof. intros H C fuel s Hf. apply C. lia. Qed.

Lemma covers_all n es : Forall (covers n) es -> forall fuel s, n <= fuel -> exists r, omap_st (visit fuel) es s = Some r.
Proof.
  induction 1 as [|e es He _ IH]; intros fuel s Hf; [eexists; reflexivity|]. rewrite omap_st_cons.
  destruct (He fuel s Hf) as [[e1 s1] ->]. destruct (IH fuel s1 Hf) as [[es1 s2] ->]. eexists; reflexivity.
Qed.

Lemma bound_all (es : list expr) : Forall (fun e => exists n, covers n e) es -> exists n, Forall (covers n) es.
Proof.
  induction 1 as [|e es [n He] _ [m IH]]; [exists 0; constructor|]. exists (max n m). constructor.
  - eapply covers_mono; [|exact He]. lia.
  - eapply Forall_impl; [|exact IH]. intros e0. apply covers_mono. lia.
Qed.

Lemma covers_wrap n j e : covers n e -> covers (S n) (wrap j e).
Proof.
  intros C fuel s Hf. destruct fuel as [|fuel]; [lia|]. rewrite visit_wrap.
  destruct (C fuel s) as [[e1 s1] ->]; [lia|]. eexists; reflexivity.
Qed.

Lemma visit_total : forall e, exists n, covers n e.
Proof.
  induction e using expr_ind'.
  - exists 1. intros [|fuel] s Hf; [lia|]. eexists. reflexivity.
  - exists 1. intros [|fuel] s Hf; [lia|]. eexists. reflexivity.
  - destruct IHe as [n C]. exists (S n). intros [|fuel] s Hf; [lia|]. cbn [visit].
    rewrite callback_other by congruence. destruct (C fuel s) as [[e1 s1] ->]; [lia|]. eexists. reflexivity.
  - destruct (bound_all args H0) as [n C].
    assert (Ht : exists m, match t with Some t => covers m t | None => True end).
    { destruct t as [t|]; [exact H|exists 0; exact I]. }
    destruct Ht as [m Ct]. exists (S (S (max n m))). intros [|fuel] s Hf; [lia|]. cbn [visit].
    assert (Hcb : exists args1 s1, callback (Node i (KCall t f args)) s = (Node i (KCall t f args1), s1) /\ Forall (covers (S n)) args1).
    { unfold callback. destruct (lookup (Node i (KCall t f args))) as [[]|] eqn:El.
      - destruct args as [|l rest]; [discriminate|]. eexists _, _. split; [reflexivity|].
        inversion C; subst. constructor; [apply covers_wrap; assumption|].
        eapply Forall_impl; [|eassumption]. intros e0. apply covers_mono. lia.
      - destruct args as [|l [|r rest]]; [discriminate|discriminate|]. eexists _, _. split; [reflexivity|].
        inversion C as [|? ? C1 C2]; subst. inversion C2 as [|? ? C3 C4]; subst. constructor; [|constructor].
        + eapply covers_mono; [|eassumption]. lia.
        + apply covers_wrap; assumption.
        + eapply Forall_impl; [|eassumption]. intros e0. apply covers_mono. lia.
      - eexists _, _. split; [reflexivity|]. eapply Forall_impl; [|eassumption]. intros e0. apply covers_mono. lia. }
    destruct Hcb as (args1 & s1 & -> & C1). cbn iota beta.
    destruct (covers_all (S n) args1 C1 fuel s1) as [[args2 s2] ->]; [lia|].
    destruct t as [t|]; [|eexists; reflexivity]. destruct (Ct fuel s2) as [[t1 s3] ->]; [lia|]. eexists; reflexivity.
  - destruct (bound_all es H) as [n C]. exists (S n). intros [|fuel] s Hf; [lia|]. cbn [visit].
    rewrite callback_other by congruence. destruct (covers_all n es C fuel s) as [[es1 s1] ->]; [lia|]. eexists; reflexivity.
  - assert (Hb : exists m, Forall (fun '(_, _, v) => covers m v) ents).
    { induction H as [|[[key f] v] ents [_ [m1 Hv]] _ [m2 IH]]; [exists 0; constructor|]. exists (max m1 m2). constructor.
      - eapply covers_mono; [|exact Hv]. lia.
      - eapply Forall_impl; [|exact IH]. intros [[? ?] e0]. apply covers_mono. lia. }
    destruct Hb as [m C]. exists (S m). intros [|fuel] s Hf; [lia|]. cbn [visit]. rewrite callback_other by congruence.
    cbn iota beta. clear H.
    assert (G : forall s, exists r, omap_st (fun '(key, field, v) s => match visit fuel v s with None => None | Some (v, s) => Some ((key, field, v), s) end) ents s = Some r).
    { induction C as [|[[key f] v] ents Hv _ IH]; intros s0; [eexists; reflexivity|]. rewrite omap_st_cons.
      destruct (Hv fuel s0) as [[v1 s1] ->]; [lia|]. destruct (IH s1) as [[es1 s2] ->]. eexists; reflexivity. }
    destruct (G s) as [[es1 s1] ->]. eexists; reflexivity.
  - destruct IHe1 as [n1 C1], IHe2 as [n2 C2], IHe3 as [n3 C3], IHe4 as [n4 C4], IHe5 as [n5 C5].
    exists (S (n1 + n2 + n3 + n4 + n5)). intros [|fuel] s Hf; [lia|]. cbn [visit]. rewrite callback_other by congruence.
    destruct (C1 fuel s) as [[a1 s1] ->]; [lia|]. destruct (C2 fuel s1) as [[b1 s2] ->]; [lia|].
    destruct (C3 fuel s2) as [[c1 s3] ->]; [lia|]. destruct (C4 fuel s3) as [[d1 s4] ->]; [lia|].
    destruct (C5 fuel s4) as [[f1 s5] ->]; [lia|]. eexists; reflexivity.
Qed.

Lemma resolve_total e : exists n, forall fuel m, n <= fuel -> exists r, resolve fuel m e = Some r.
Proof.
  destruct (visit_total e) as [n C]. exists n. intros fuel m Hf. unfold resolve.
  destruct (C fuel {| last_id := m; resolved := false |} Hf) as [[e1 s1] ->]. eexists; reflexivity.
Qed.

(** ** Ids *)
Definition news_ok (a b : Z) (news : list Z) : Prop := NoDup news /\ (forall x, In x news -> (a < x <= b)%Z) /\ (a <= b)%Z.

Lemma news_nil a : news_ok a a [].
Proof. repeat split; [constructor|contradiction|contradiction|lia]. Qed.
Lemma news_app a b c n1 n2 : news_ok a b n1 -> news_ok b c n2 -> news_ok a c (n1 ++ n2).
Proof.
  intros (D1 & R1 & L1) (D2 & R2 & L2). split; [|split; [|lia]].
  - induction D1 as [|x n1 Hx D1 IH]; [exact D2|]. cbn. constructor.
    + rewrite in_app_iff. intros [Hin|Hin]; [contradiction|]. apply R2 in Hin. specialize (R1 x (or_introl eq_refl)). lia.
    + apply IH. intros y Hy. apply R1. right. exact Hy.
  - intros x H. apply in_app_iff in H as [H|H]; [apply R1 in H|apply R2 in H]; lia.
Qed.

Definition nonempty (l : list Z) : bool := match l with [] => false | _ => true end.
Lemma nonempty_app a b : nonempty (a ++ b) = nonempty a || nonempty b.
Proof. destruct a; reflexivity. Qed.

(** From [s] to [s'], the ids [old] became [new]; [same] holds if there are no new ids. *)
Definition track (s s' : rst) (old new : list Z) (same : Prop) : Prop :=
  exists news, Permutation new (old ++ news) /\ news_ok (last_id s) (last_id s') news /\
    resolved s' = resolved s || nonempty news /\ (news = [] -> same).

Lemma track_refl s l (P : Prop) : P -> track s s l l P.
Proof.
  intros HP. exists []. rewrite app_nil_r, orb_false_r. split; [reflexivity|]. split; [apply news_nil|]. auto.
Qed.
Lemma track_app s s1 s2 o1 n1 o2 n2 P Q : track s s1 o1 n1 P -> track s1 s2 o2 n2 Q ->
  track s s2 (o1 ++ o2) (n1 ++ n2) (P /\ Q).
Proof.
  intros (a & Pa & Oa & Ra & Sa) (b & Pb & Ob & Rb & Sb). exists (a ++ b)%list. split; [|split; [|split]].
  - rewrite Pa, Pb. rewrite !app_assoc. apply Permutation_app_tail. rewrite <- !app_assoc. apply Permutation_app_head.
    apply Permutation_app_comm.
  - eapply news_app; eassumption.
  - rewrite Rb, Ra, nonempty_app, orb_assoc. reflexivity.
  - intros H. apply app_eq_nil in H as [-> ->]. auto.
Qed.
Lemma track_trans s s1 s2 o m n P Q : track s s1 o m P -> track s1 s2 m n Q -> track s s2 o n (P /\ Q).
Proof.
  intros (a & Pa & Oa & Ra & Sa) (b & Pb & Ob & Rb & Sb). exists (a ++ b)%list. split; [|split; [|split]].
  - rewrite Pb, Pa, app_assoc. reflexivity.
  - eapply news_app; eassumption.
  - rewrite Rb, Ra, nonempty_app, orb_assoc. reflexivity.
  - intros H. apply app_eq_nil in H as [-> ->]. auto.
Qed.
Lemma track_impl s s' o n (P Q : Prop) : (P -> Q) -> track s s' o n P -> track s s' o n Q.
Proof. intros H (a & Pa & Oa & Ra & Sa). exists a. split; [exact Pa|split; [exact Oa|split; [exact Ra|auto]]]. Qed.
Lemma track_cons s s' x o n P : track s s' o n P -> track s s' (x :: o) (x :: n) P.
Proof. intros (a & Pa & Oa & Ra & Sa). exists a. split; [cbn; constructor; exact Pa|auto]. Qed.
Lemma track_keep s s' k o n P : track s s' o n P -> track s s' (k ++ o) (k ++ n) P.
Proof. induction k; [auto|]. intros H. apply track_cons. auto. Qed.

Lemma callback_track e s e1 s1 : callback e s = (e1, s1) -> track s s1 (ids e) (ids e1) (e1 = e).
Proof.
  unfold callback. destruct (lookup e) as [[]|] eqn:El.
  - destruct e as [i k]. destruct k as [| | |t f args| | |]; try discriminate El.
    destruct args as [|l rest]; [discriminate El|]. intros [= <- <-].
    exists [last_id s + 1]%Z. split; [|split; [|split]].
    + cbn. apply perm_skip. rewrite app_nil_r.
      eapply Permutation_trans; [apply Permutation_cons_append|]. rewrite <- !app_assoc. reflexivity.
    + cbn. split; [constructor; [tauto|constructor]|]. split; [|lia]. intros x [<-|[]]. lia.
    + cbn. rewrite orb_true_r. reflexivity.
    + discriminate.
  - destruct e as [i k]. destruct k as [| | |t f args| | |]; try discriminate El.
    destruct args as [|l [|r rest]]; [discriminate El|discriminate El|]. intros [= <- <-].
    exists [last_id s + 1]%Z. split; [|split; [|split]].
    + cbn. apply perm_skip. rewrite app_nil_r, <- !app_assoc. apply Permutation_app_head. cbn.
      eapply Permutation_trans; [apply Permutation_cons_append|]. rewrite <- !app_assoc. reflexivity.
    + cbn. split; [constructor; [tauto|constructor]|]. split; [|lia]. intros x [<-|[]]. lia.
    + cbn. rewrite orb_true_r. reflexivity.
    + discriminate.
  - intros H. assert (e1 = e /\ s1 = s) as [-> ->] by (destruct e as [? []]; injection H as <- <-; auto).
    apply track_refl. reflexivity.
Qed.

Lemma all_track n : (forall e s e' s', visit n e s = Some (e', s') -> track s s' (ids e) (ids e') (e' = e)) ->
  forall es s es' s', omap_st (visit n) es s = Some (es', s') -> track s s' (flat_map ids es) (flat_map ids es') (es' = es).
Proof.
  intros IH es. induction es as [|e es IHe]; intros s es' s' H.
  - injection H as <- <-. apply track_refl. reflexivity.
  - rewrite omap_st_cons in H. destruct (visit n e s) as [[e1 s1]|] eqn:E1; [|discriminate].
    destruct (omap_st (visit n) es s1) as [[es1 s2]|] eqn:E2; [|discriminate]. injection H as <- <-. cbn [flat_map].
    eapply track_impl; [|eapply track_app; [eapply IH; eassumption|eapply IHe; eassumption]]. intros [-> ->]. reflexivity.
Qed.

Lemma visit_track : forall fuel e s e' s', visit fuel e s = Some (e', s') -> track s s' (ids e) (ids e') (e' = e).
Proof.
  induction fuel as [|n IH]; intros e s e' s' H; [discriminate|]. cbn [visit] in H.
  destruct (callback e s) as [e1 s1] eqn:Ec. apply callback_track in Ec.
  eapply track_impl; [|eapply (track_trans _ _ _ _ _ _ _ (e' = e1)); [exact Ec|]]; [intros [-> ->]; reflexivity|]. clear Ec e s.
  destruct e1 as [i k]. destruct k as [c|nm|o f t|t f args|es|nm ents|it ac a b c d f].
  - injection H as <- <-. apply track_refl. reflexivity.
  - injection H as <- <-. apply track_refl. reflexivity.
  - destruct (visit n o s1) as [[o1 s2]|] eqn:E1; [|discriminate]. injection H as <- <-. cbn [ids].
    apply track_cons. eapply track_impl; [|eapply IH; exact E1]. intros ->. reflexivity.
  - destruct (omap_st (visit n) args s1) as [[args1 s2]|] eqn:E1; [|discriminate].
    apply (all_track n IH) in E1.
    destruct t as [t|].
    + destruct (visit n t s2) as [[t1 s3]|] eqn:E2; [|discriminate]. injection H as <- <-. cbn [ids].
      apply track_cons. eapply track_impl; [|eapply track_app; [exact E1|eapply IH; exact E2]]. intros [-> ->]. reflexivity.
    + injection H as <- <-. cbn [ids]. apply track_cons. rewrite !app_nil_r.
      eapply track_impl; [|exact E1]. intros ->. reflexivity.
  - destruct (omap_st (visit n) es s1) as [[es1 s2]|] eqn:E1; [|discriminate]. injection H as <- <-. cbn [ids].
    apply track_cons. eapply track_impl; [|eapply (all_track n IH); exact E1]. intros ->. reflexivity.
  - match type of H with context [omap_st ?g ents s1] => set (g0 := g) in *; destruct (omap_st g0 ents s1) as [[es1 s2]|] eqn:E1; [|discriminate] end.
    injection H as <- <-. cbn [ids]. apply track_cons.
    eapply (track_impl _ _ _ _ (es1 = ents)); [intros ->; reflexivity|].
    revert s1 es1 s2 E1. induction ents as [|[[key f] v] ents IHe]; intros s1 es1 s2 E1.
    + injection E1 as <- <-. apply track_refl. reflexivity.
    + rewrite omap_st_cons in E1. unfold g0 at 1 in E1. destruct (visit n v s1) as [[v1 s3]|] eqn:E2; [|discriminate].
      destruct (omap_st g0 ents s3) as [[es2 s4]|] eqn:E3; [|discriminate]. injection E1 as <- <-. cbn [flat_map].
      eapply track_impl; [|eapply track_app; [eapply track_keep; eapply IH; exact E2|eapply IHe; exact E3]].
      intros [-> ->]. reflexivity.
  - destruct (visit n a s1) as [[a1 s2]|] eqn:E1; [|discriminate].
    destruct (visit n b s2) as [[b1 s3]|] eqn:E2; [|discriminate].
    destruct (visit n c s3) as [[c1 s4]|] eqn:E3; [|discriminate].
    destruct (visit n d s4) as [[d1 s5]|] eqn:E4; [|discriminate].
    destruct (visit n f s5) as [[f1 s6]|] eqn:E5; [|discriminate]. injection H as <- <-. cbn [ids].
    apply track_cons. apply IH in E1, E2, E3, E4, E5.
    eapply track_impl; [|eapply track_app; [exact E1|eapply track_app; [exact E2|eapply track_app; [exact E3|eapply track_app; [exact E4|exact E5]]]]].
    intros (-> & -> & -> & -> & ->). reflexivity.
Qed.

Lemma resolve_ids fuel m e e' b : resolve fuel m e = Some (e', b) -> NoDup (ids e) -> (forall x, In x (ids e) -> (x <= m)%Z) ->
  NoDup (ids e') /\ (forall x, In x (ids e) -> In x (ids e')) /\
  (forall x, In x (ids e') -> ~ In x (ids e) -> (m < x)%Z) /\ (b = false -> e' = e) /\ (b = true -> e' <> e).
Proof.
  unfold resolve. destruct (visit fuel e _) as [[e1 s1]|] eqn:E1; [|discriminate]. intros [= <- <-] Hnd Hm.
  apply visit_track in E1. destruct E1 as (news & Hp & (Hn & Hr & _) & Hres & Hsame). cbn in *.
  split; [|split; [|split; [|split]]].
  - eapply Permutation_NoDup; [symmetry; exact Hp|].
    clear Hp Hres Hsame. induction (ids e) as [|x l IH]; [exact Hn|]. inversion Hnd; subst. cbn. constructor.
    + rewrite in_app_iff. intros [?|Hin]; [contradiction|]. apply Hr in Hin. specialize (Hm x (or_introl eq_refl)). lia.
    + apply IH; [assumption|]. intros y Hy. apply Hm. right. exact Hy.
  - intros x Hx. eapply Permutation_in; [symmetry; exact Hp|]. apply in_app_iff. auto.
  - intros x Hx Hnx. eapply Permutation_in in Hx; [|exact Hp]. apply in_app_iff in Hx as [?|Hx]; [contradiction|].
    apply Hr in Hx. lia.
  - rewrite Hres. intros Hb. apply Hsame. destruct news; [reflexivity|discriminate].
  - rewrite Hres. intros Hb ->. apply Permutation_length in Hp. rewrite app_length in Hp.
    destruct news; [discriminate|]. cbn in Hp. lia.
Qed.

(** ** Idempotence *)
Lemma rw_null e e' : rewritten e e' -> (null_literal e <-> null_literal e').
Proof. intros H; destruct H; unfold null_literal; split; intros [j0 Hj]; try discriminate; eauto. Qed.
Lemma rw_cast e e' : rewritten e e' -> (already_cast e <-> already_cast e').
Proof.
  intros H; destruct H; unfold already_cast; split; intros (j0 & u & ar & Hj); try discriminate; injection Hj; intros; subst; eauto.
Qed.
Lemma rw_compares fn l l' r r' : rewritten l l' -> rewritten r r' ->
  (compares_left fn l r <-> compares_left fn l' r') /\ (compares_right fn l r <-> compares_right fn l' r').
Proof.
  intros Hl Hr. unfold compares_left, compares_right.
  rewrite (rw_null _ _ Hl), (rw_null _ _ Hr), (rw_cast _ _ Hl), (rw_cast _ _ Hr). tauto.
Qed.
Lemma wrapped_cast j l : already_cast (Node j (KCall None "grpc.federation.cast.null_value" [l])).
Proof. unfold already_cast, cast_null. eauto. Qed.
Lemma wrapped_not_compares fn j l r : null_literal r ->
  ~ compares_left fn (Node j (KCall None "grpc.federation.cast.null_value" [l])) r /\
  ~ compares_right fn (Node j (KCall None "grpc.federation.cast.null_value" [l])) r /\
  ~ compares_left fn r (Node j (KCall None "grpc.federation.cast.null_value" [l])) /\
  ~ compares_right fn r (Node j (KCall None "grpc.federation.cast.null_value" [l])).
Proof.
  intros Hr. unfold compares_left, compares_right. pose proof (wrapped_cast j l).
  assert (~ null_literal (Node j (KCall None "grpc.federation.cast.null_value" [l]))) by (intros [? ?]; discriminate). tauto.
Qed.

Ltac inv H := inversion H; subst; clear H.

Lemma wrap_rw_inv j l e : (forall l2, rewritten l l2 -> l2 = l) ->
  rewritten (Node j (KCall None "grpc.federation.cast.null_value" [l])) e -> e = Node j (KCall None "grpc.federation.cast.null_value" [l]).
Proof.
  intros Hl H. inv H. match goal with H1 : rewritten_all [l] _ |- _ => inv H1 end.
  match goal with H1 : rewritten_all [] _ |- _ => inv H1 end.
  match goal with H1 : rewritten_opt None _ |- _ => inv H1 end.
  match goal with H1 : rewritten l _ |- _ => rewrite (Hl _ H1) end. reflexivity.
Qed.

Lemma rw_idempotent : (forall e e', rewritten e e' -> forall e'', rewritten e' e'' -> e'' = e') /\
  (forall o o', rewritten_opt o o' -> forall o'', rewritten_opt o' o'' -> o'' = o') /\
  (forall l l', rewritten_all l l' -> forall l'', rewritten_all l' l'' -> l'' = l') /\
  (forall l l', rewritten_entries l l' -> forall l'', rewritten_entries l' l'' -> l'' = l').
Proof.
  apply rw_mut.
  - intros i c e H. inv H. reflexivity.
  - intros i n e H. inv H. reflexivity.
  - intros i o o' f t Ho IHo e H. inv H. f_equal. f_equal. auto.
  - intros i t t' fn l l' r r' rest rest' j Hc Ht IHt Hl IHl Hr IHr Hrest IHrest e H.
    assert (Hn : null_literal r') by (rewrite <- (rw_null _ _ Hr); apply Hc).
    destruct (wrapped_not_compares fn j l' r' Hn) as (N1 & N2 & _).
    inversion H as [| | |? ? ? ? ? ? ? ? ? ? ? C1|? ? ? ? ? ? ? ? ? ? ? C1|? ? t2 ? ? args2 Nc Ht2 Ha2| | |]; subst; [contradiction|contradiction|].
    inversion Ha2 as [|? w2 ? es2 Hw2 Hes2]; subst. inversion Hes2 as [|? r2 ? rest2 Hr2 Hrest2]; subst.
    rewrite (wrap_rw_inv j l' w2 IHl Hw2), (IHr _ Hr2), (IHrest _ Hrest2), (IHt _ Ht2). reflexivity.
  - intros i t t' fn l l' r r' rest rest' j Hc Ht IHt Hl IHl Hr IHr Hrest IHrest e H.
    assert (Hn : null_literal l') by (rewrite <- (rw_null _ _ Hl); apply Hc).
    destruct (wrapped_not_compares fn j r' l' Hn) as (_ & _ & N1 & N2).
    inversion H as [| | |? ? ? ? ? ? ? ? ? ? ? C1|? ? ? ? ? ? ? ? ? ? ? C1|? ? t2 ? ? args2 Nc Ht2 Ha2| | |]; subst; [contradiction|contradiction|].
    inversion Ha2 as [|? l2 ? es2 Hl2 Hes2]; subst. inversion Hes2 as [|? w2 ? rest2 Hw2 Hrest2]; subst.
    rewrite (wrap_rw_inv j r' w2 IHr Hw2), (IHl _ Hl2), (IHrest _ Hrest2), (IHt _ Ht2). reflexivity.
  - intros i t t' fn args args' Nc Ht IHt Ha IHa e H.
    assert (N' : forall l r rest, args' = l :: r :: rest -> ~ compares_left fn l r /\ ~ compares_right fn l r).
    { intros l r rest ->. inversion Ha as [|l0 ? ? ? Hl0 Hes]; subst. inversion Hes as [|r0 ? ? ? Hr0 Hrest]; subst.
      destruct (rw_compares fn _ _ _ _ Hl0 Hr0) as [<- <-]. eapply Nc. reflexivity. }
    inversion H as [| | |? ? ? ? ? ? ? ? ? ? ? C1|? ? ? ? ? ? ? ? ? ? ? C1|? ? t2 ? ? args2 Nc2 Ht2 Ha2| | |]; subst.
    + destruct (N' _ _ _ eq_refl). contradiction.
    + destruct (N' _ _ _ eq_refl). contradiction.
    + rewrite (IHt _ Ht2), (IHa _ Ha2). reflexivity.
  - intros i es es' Hes IHes e H. inv H. f_equal. f_equal. auto.
  - intros i n es es' Hes IHes e H. inv H. f_equal. f_equal. auto.
  - intros i it ac a a' b b' c c' d d' f f' Ha IHa Hb IHb Hc IHc Hd IHd Hf IHf e H. inv H. f_equal. f_equal; auto.
  - intros o H. inv H. reflexivity.
  - intros e e' He IHe o H. inv H. f_equal. auto.
  - intros l H. inv H. reflexivity.
  - intros e e' es es' He IHe Hes IHes l H. inv H. f_equal; auto.
  - intros l H. inv H. reflexivity.
  - intros key f v v' es es' Hv IHv Hes IHes l H. inv H. f_equal; [|auto]. f_equal. auto.
Qed.

Lemma resolve_rewritten fuel m e e' b : resolve fuel m e = Some (e', b) -> rewritten e e'.
Proof.
  unfold resolve. destruct (visit fuel e _) as [[e1 s1]|] eqn:E1; [|discriminate]. intros [= <- _].
  eapply visit_rewritten. exact E1.
Qed.

Lemma resolve_same fuel m e b : resolve fuel m e = Some (e, b) -> b = false.
Proof.
  unfold resolve. destruct (visit fuel e _) as [[e1 s1]|] eqn:E1; [|discriminate]. intros [= -> <-].
  apply visit_track in E1. destruct E1 as (news & Hp & _ & -> & _). cbn. apply Permutation_length in Hp.
  rewrite app_length in Hp. destruct news; [reflexivity|cbn in Hp; lia].
Qed.

Lemma resolve_twice fuel fuel2 m m2 e e' e'' b b2 :
  resolve fuel m e = Some (e', b) -> resolve fuel2 m2 e' = Some (e'', b2) -> e'' = e' /\ b2 = false.
Proof.
  intros H1 H2. assert (E : e'' = e').
  { eapply (proj1 rw_idempotent); [eapply resolve_rewritten; exact H1|eapply resolve_rewritten; exact H2]. }
  split; [exact E|]. subst. eapply resolve_same. exact H2.
Qed.

(** ** Meaning *)
Section Meaning.
  Context {V E0 : Type}.
  Variable vnull : V.
  Variable nullish : V -> bool.
  Variable vbool : bool -> V.
  Variable vconst : string -> V.
  Variable vselect : V -> string -> bool -> result V E0.
  Variable apply : string -> option (result V E0) -> list (result V E0) -> result V E0.
  Variable vlist : list (result V E0) -> result V E0.
  Variable vstruct : string -> list (option (result V E0) * string * result V E0) -> result V E0.
  Variable fold : result V E0 -> result V E0 -> (V -> result V E0 -> result V E0) -> (V -> result V E0 -> result V E0) ->
                  (result V E0 -> result V E0) -> result V E0.
  Notation meaning := (meaning V E0 vnull vconst vselect apply vlist vstruct fold).
  Notation intended := (intended V E0 vnull nullish vbool vconst vselect apply vlist vstruct fold).
  Notation null_test := (null_test V E0 nullish vbool).

  Hypothesis Hnn : nullish vnull = true.
  (** the cast (cel/cast.go) *)
  Hypothesis Hcast : forall o, apply "grpc.federation.cast.null_value" None [o] =
    match o with Ok v => Ok (if nullish v then vnull else v) | Err e => Err e end.
  (** [==] and [!=] of CEL, on null and on anything that is not a nil message *)
  Hypothesis Hcmp : forall f o, f = "_==_" \/ f = "_!=_" ->
    (forall v, o = Ok v -> nullish v = true -> v = vnull) ->
    apply f None [o; Ok vnull] = null_test f o /\ apply f None [Ok vnull; o] = null_test f o.
  Hypothesis Hfold : forall a b c c' d d' f f', (forall x y, c x y = c' x y) -> (forall x y, d x y = d' x y) -> (forall x, f x = f' x) ->
    fold a b c d f = fold a b c' d' f'.

  Definition casted (o : result V E0) : result V E0 := match o with Ok v => Ok (if nullish v then vnull else v) | Err e => Err e end.
  Lemma casted_norm o v : casted o = Ok v -> nullish v = true -> v = vnull.
  Proof. destruct o as [w|]; [|discriminate]. cbn. intros [= <-]. destruct (nullish w) eqn:Ew; congruence. Qed.
  Lemma casted_test f o : null_test f (casted o) = null_test f o.
  Proof. destruct o as [w|]; [|reflexivity]. cbn. destruct (nullish w) eqn:Ew; rewrite ?Hnn, ?Ew; reflexivity. Qed.

  Definition iopt (r : env V E0) (t : option expr) := match t with Some t => Some (intended r t) | None => None end.
  Definition mopt (r : env V E0) (t : option expr) := match t with Some t => Some (meaning r t) | None => None end.

  Lemma eqb_cmp f : comparison f -> String.eqb f "_==_" || String.eqb f "_!=_" = true.
  Proof. apply comparison_spec. Qed.

  Lemma intended_right_null r i f a j : comparison f ->
    intended r (Node i (KCall None f [a; Node j (KConst CNull)])) = null_test f (intended r a).
  Proof. intros Hc. apply eqb_cmp in Hc. destruct a as [ia [[]| | | | | |]]; cbn [NullSpec.intended]; rewrite Hc; reflexivity. Qed.
  Lemma intended_left_null r i f b j : comparison f ->
    intended r (Node i (KCall None f [Node j (KConst CNull); b])) = null_test f (intended r b).
  Proof.
    intros Hc. apply eqb_cmp in Hc. destruct b as [ib kb]. destruct kb as [[]| | | | | |]; cbn [NullSpec.intended]; rewrite ?Hc; try reflexivity.
  Qed.
  Lemma intended_call r i t f args :
    ~ (comparison f /\ t = None /\ exists a b, args = [a; b] /\ (null_literal a \/ null_literal b)) ->
    intended r (Node i (KCall t f args)) = apply f (iopt r t) (map (intended r) args).
  Proof.
    intros H. destruct t as [t|]; [reflexivity|].
    destruct args as [|a [|b [|c rest]]]; [reflexivity|destruct a as [ia [[]| | | | | |]]; reflexivity| |].
    - destruct (null_const_spec b) as [Hb _]. destruct (null_const_spec a) as [Ha _].
      destruct (String.eqb f "_==_" || String.eqb f "_!=_") eqn:Ef.
      + assert (Hc : comparison f) by (apply comparison_spec; exact Ef).
        assert (Na : ~ null_literal a) by (intros ?; apply H; split; [exact Hc|split; [reflexivity|eauto 6]]).
        assert (Nb : ~ null_literal b) by (intros ?; apply H; split; [exact Hc|split; [reflexivity|eauto 6]]).
        destruct a as [ia ka]; destruct b as [ib kb].
        destruct kb as [[]| | | | | |]; try (exfalso; apply Nb; eexists; reflexivity);
          destruct ka as [[]| | | | | |]; try (exfalso; apply Na; eexists; reflexivity); reflexivity.
      + destruct a as [ia ka]; destruct b as [ib kb].
        destruct kb as [[]| | | | | |]; destruct ka as [[]| | | | | |]; cbn [NullSpec.intended iopt map]; rewrite ?Ef; reflexivity.
    - destruct a as [ia ka]; destruct b as [ib kb].
      destruct kb as [[]| | | | | |]; destruct ka as [[]| | | | | |]; reflexivity.
  Qed.

  (** the arguments after rewriting, when nothing at this node was wrapped *)
  Lemma call_plain r i t t' f args args' :
    (f = "_==_" \/ f = "_!=_" -> t = None /\ length args = 2) ->
    (forall l r0 rest, args = l :: r0 :: rest -> ~ compares_left f l r0 /\ ~ compares_right f l r0) ->
    mopt r t' = iopt r t -> map (meaning r) args' = map (intended r) args ->
    (forall l l', In (l, l') (combine args args') -> already_cast l -> forall v, meaning r l' = Ok v -> nullish v = true -> v = vnull) ->
    apply f (mopt r t') (map (meaning r) args') = intended r (Node i (KCall t f args)).
  Proof.
    intros Hp Nc Ht Ha Hn. destruct (String.eqb f "_==_" || String.eqb f "_!=_") eqn:Ef.
    - assert (Hc : comparison f) by (apply comparison_spec; exact Ef). destruct (Hp Hc) as [-> Hlen].
      destruct args as [|a [|b [|c rest]]]; try discriminate Hlen. destruct (Nc a b [] eq_refl) as [N1 N2].
      destruct args' as [|a' [|b' [|c' rest']]]; try discriminate Ha. cbn [map] in Ha. injection Ha as Ea Eb.
      destruct t' as [t'|]; [discriminate Ht|]. cbn [mopt map].
      destruct (is_null_const b) eqn:Enb.
      + apply null_const_spec in Enb as [j Hj]. subst b. rewrite intended_right_null by exact Hc.
        cbn [NullSpec.intended] in Eb. rewrite Eb. destruct (Hcmp f (meaning r a') Hc) as [-> _]; [|rewrite Ea; reflexivity].
        intros v Hv Hnv. destruct (is_null_const a) eqn:Ena.
        * apply null_const_spec in Ena as [ja Hja]. subst a. cbn in Ea. congruence.
        * apply null_const_false in Ena. destruct (is_cast a) eqn:Eca; [apply cast_spec in Eca|apply cast_false in Eca].
          -- eapply (Hn a a'); [left; reflexivity|exact Eca|exact Hv|exact Hnv].
          -- exfalso. apply N1. split; [exact Hc|]. split; [eexists; reflexivity|auto].
      + apply null_const_false in Enb. destruct (is_null_const a) eqn:Ena.
        * apply null_const_spec in Ena as [j Hj]. subst a. rewrite intended_left_null by exact Hc.
          cbn [NullSpec.intended] in Ea. rewrite Ea. destruct (Hcmp f (meaning r b') Hc) as [_ ->]; [|rewrite Eb; reflexivity].
          intros v Hv Hnv. destruct (is_cast b) eqn:Ecb; [apply cast_spec in Ecb|apply cast_false in Ecb].
          -- eapply (Hn b b'); [right; left; reflexivity|exact Ecb|exact Hv|exact Hnv].
          -- exfalso. apply N2. split; [exact Hc|]. split; [eexists; reflexivity|auto].
        * apply null_const_false in Ena. rewrite intended_call.
          -- cbn [map iopt]. rewrite Ea, Eb. reflexivity.
          -- intros (_ & _ & a0 & b0 & [= <- <-] & [?|?]); contradiction.
    - rewrite intended_call.
      + rewrite Ht, Ha. reflexivity.
      + intros (Hc & _). apply comparison_spec in Hc. unfold op_equals, op_not_equals in Hc. congruence.
  Qed.

  Lemma cast_meaning_norm r l : already_cast l -> parsed l -> forall v, meaning r l = Ok v -> nullish v = true -> v = vnull.
  Proof.
    intros (j & t & args & ->) Hp v Hv. cbn in Hp. destruct Hp as (_ & Hp & _). destruct (Hp eq_refl) as [-> Hlen].
    destruct args as [|x [|]]; try discriminate Hlen. cbn [NullSpec.meaning map] in Hv. unfold cast_null in Hv. rewrite Hcast in Hv.
    exact (casted_norm _ _ Hv).
  Qed.
  Lemma cast_rw_norm r l l' : already_cast l -> parsed l -> rewritten l l' -> forall v, meaning r l' = Ok v -> nullish v = true -> v = vnull.
  Proof.
    intros (j & t & args & ->) Hp Hrw v Hv. cbn in Hp. destruct Hp as (_ & Hp & _). destruct (Hp eq_refl) as [-> Hlen].
    destruct args as [|x [|]]; try discriminate Hlen. inv Hrw.
    match goal with H1 : rewritten_all [x] _ |- _ => inv H1 end.
    match goal with H1 : rewritten_all [] _ |- _ => inv H1 end.
    match goal with H1 : rewritten_opt None _ |- _ => inv H1 end.
    cbn [NullSpec.meaning map] in Hv. unfold cast_null in Hv. rewrite Hcast in Hv. exact (casted_norm _ _ Hv).
  Qed.

  Lemma parsed_args (l : list expr) : (fix all l := match l with [] => True | a :: l => parsed a /\ all l end) l -> Forall parsed l.
  Proof. induction l; intros H; constructor; [apply H|apply IHl, H]. Qed.

  Lemma combine_diag (args : list expr) l l' : In (l, l') (combine args args) -> l = l' /\ In l args.
  Proof. induction args as [|a args IH]; [contradiction|]. cbn. intros [[= <- <-]|H]; [auto|]. apply IH in H as [? ?]. auto. Qed.

  Lemma null_free_meaning : forall e, null_free e -> parsed e -> forall r, meaning r e = intended r e.
  Proof.
    induction e using expr_ind'; intros Hn Hp r.
    - destruct c; reflexivity.
    - reflexivity.
    - cbn in *. rewrite IHe by assumption. reflexivity.
    - cbn in Hn, Hp. destruct Hn as (Hn1 & Hn2 & Hn3), Hp as (Hp1 & Hp2 & Hp3 & Hp4).
      change (meaning r (Node i (KCall t f args))) with (apply f (mopt r t) (map (meaning r) args)).
      apply call_plain.
      + exact Hp1.
      + intros l r0 rest ->. destruct rest as [|x rest]; [exact Hn1|].
        assert (Nc : ~ comparison f). { intros Hc. destruct (Hp1 Hc) as [_ Hlen]. discriminate. }
        split; intros [? _]; contradiction.
      + destruct t as [t|]; [|reflexivity]. cbn. f_equal. apply H; assumption.
      + clear Hn1 Hp1 Hp2. induction H0 as [|a args Ha Hargs IHa]; [reflexivity|]. cbn. f_equal; [apply Ha; [apply Hn2|apply Hp3]|].
        apply IHa; [apply Hn2|apply Hp3].
      + intros l l' Hin Hc. apply combine_diag in Hin as [<- Hin]. apply cast_meaning_norm; [exact Hc|].
        apply parsed_args in Hp3. rewrite Forall_forall in Hp3. auto.
    - cbn in *. f_equal. induction H as [|a es Ha Hes IHa]; [reflexivity|]. cbn. f_equal; [apply Ha; [apply Hn|apply Hp]|].
      apply IHa; [apply Hn|apply Hp].
    - cbn in *. f_equal. induction H as [|[[key f] v] ents [Hk Hv] Hents IHe]; [reflexivity|]. cbn. destruct Hn as (Hn1 & Hn2 & Hn3), Hp as (Hp1 & Hp2 & Hp3).
      f_equal; [|apply IHe; assumption]. f_equal; [f_equal|].
      + destruct key as [key|]; [|reflexivity]. f_equal. apply Hk; assumption.
      + apply Hv; assumption.
    - cbn in *. destruct Hn as (? & ? & ? & ? & ?), Hp as (? & ? & ? & ? & ?).
      rewrite IHe1, IHe2 by assumption. apply Hfold; intros; auto.
  Qed.

  Lemma rw_meaning :
    (forall e e', rewritten e e' -> parsed e -> keys_null_free e -> forall r, meaning r e' = intended r e) /\
    (forall o o', rewritten_opt o o' -> match o with Some e => parsed e | None => True end ->
       match o with Some e => keys_null_free e | None => True end -> forall r, mopt r o' = iopt r o) /\
    (forall l l', rewritten_all l l' -> (fix all l := match l with [] => True | a :: l => parsed a /\ all l end) l ->
       (fix all l := match l with [] => True | a :: l => keys_null_free a /\ all l end) l ->
       forall r, map (meaning r) l' = map (intended r) l) /\
    (forall l l', rewritten_entries l l' ->
       (fix all l := match l with [] => True | (key, _, v) :: l => match key with Some k => parsed k | None => True end /\ parsed v /\ all l end) l ->
       (fix all l := match l with [] => True | (key, _, v) :: l => match key with Some k => null_free k | None => True end /\ keys_null_free v /\ all l end) l ->
       forall r, map (fun '(key, f, v) => (mopt r key, f, meaning r v)) l' = map (fun '(key, f, v) => (iopt r key, f, intended r v)) l).
  Proof.
    apply rw_mut.
    - intros i [] _ _ r; reflexivity.
    - reflexivity.
    - intros i o o' f t _ IH Hp Hk r. cbn in *. rewrite IH by assumption. reflexivity.
    - intros i t t' fn l l' r r' rest rest' j (Hc & [jr ->] & Hnl & Hncl) Ht IHt Hl IHl Hr IHr Hrest IHrest Hp Hk env.
      cbn in Hp, Hk. destruct Hp as (Hp1 & _ & Hp2 & _), Hk as (Hk1 & _). destruct (Hp1 Hc) as [-> Hlen].
      destruct rest; [|discriminate Hlen]. inv Hrest. inv Ht. inv Hr.
      rewrite intended_right_null by exact Hc. cbn [NullSpec.meaning map].
      rewrite Hcast. fold (casted (meaning env l')). destruct (Hcmp fn (casted (meaning env l')) Hc (casted_norm _)) as [-> _].
      rewrite casted_test. rewrite IHl; [reflexivity|apply Hp2|apply Hk1].
    - intros i t t' fn l l' r r' rest rest' j (Hc & [jr ->] & Hnl & Hncl) Ht IHt Hl IHl Hr IHr Hrest IHrest Hp Hk env.
      cbn in Hp, Hk. destruct Hp as (Hp1 & _ & Hp2 & _), Hk as (Hk1 & _). destruct (Hp1 Hc) as [-> Hlen].
      destruct rest; [|discriminate Hlen]. inv Hrest. inv Ht. inv Hl.
      rewrite intended_left_null by exact Hc. cbn [NullSpec.meaning map].
      rewrite Hcast. fold (casted (meaning env r')). destruct (Hcmp fn (casted (meaning env r')) Hc (casted_norm _)) as [_ ->].
      rewrite casted_test. rewrite IHr; [reflexivity|apply Hp2|apply Hk1].
    - intros i t t' f args args' Nc Ht IHt Ha IHa Hp Hk r. cbn in Hp, Hk.
      destruct Hp as (Hp1 & Hp2 & Hp3 & Hp4), Hk as (Hk1 & Hk2).
      change (meaning r (Node i (KCall t' f args'))) with (apply f (mopt r t') (map (meaning r) args')).
      apply call_plain; [exact Hp1|exact Nc|apply IHt; assumption|apply IHa; assumption|].
      intros l l' Hin Hcl. apply parsed_args in Hp3.
      assert (Hx : parsed l /\ rewritten l l').
      { clear - Ha Hin Hp3. induction Ha as [|e e' es es' He Hes IH]; [contradiction|]. cbn in Hin. inv Hp3.
        destruct Hin as [[= <- <-]|Hin]; [auto|]. apply IH; assumption. }
      apply cast_rw_norm with (l := l); tauto.
    - intros i es es' Hes IH Hp Hk r. cbn in *. rewrite IH by assumption. reflexivity.
    - intros i n es es' Hes IH Hp Hk r. cbn in Hp, Hk. specialize (IH Hp Hk r). cbn [NullSpec.meaning NullSpec.intended].
      f_equal. unfold mopt, iopt in IH. exact IH.
    - intros i it ac a a' b b' c c' d d' f f' _ IHa _ IHb _ IHc _ IHd _ IHf Hp Hk r. cbn in *.
      destruct Hp as (? & ? & ? & ? & ?), Hk as (? & ? & ? & ? & ?).
      rewrite IHa, IHb by assumption. apply Hfold; intros; auto.
    - reflexivity.
    - intros e e' _ IH Hp Hk r. cbn. rewrite IH by assumption. reflexivity.
    - reflexivity.
    - intros e e' es es' _ IHe _ IHes [Hp1 Hp2] [Hk1 Hk2] r. cbn. rewrite IHe, IHes by assumption. reflexivity.
    - reflexivity.
    - intros key f v v' es es' _ IHv _ IHes (Hp1 & Hp2 & Hp3) (Hk1 & Hk2 & Hk3) r. cbn. rewrite IHv, IHes by assumption.
      f_equal. f_equal. f_equal. destruct key as [key|]; [|reflexivity]. cbn. f_equal. apply null_free_meaning; assumption.
  Qed.
End Meaning.
