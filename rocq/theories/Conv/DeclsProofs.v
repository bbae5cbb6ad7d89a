(** Proofs about the collection of conversions. *)
From Coq Require Import String List Bool Arith Lia.
From Verif.Cast Require Import Model.
From Verif.Conv Require Import Enum Model Decls DeclsSpec.
Import ListNotations.
Local Open Scope nat_scope.

Lemma find_field_some m n f : find_field m n = Some f -> In f (m_fields m) /\ f_name f = n.
Proof. intros H. apply find_some in H as [H1 H2]. apply String.eqb_eq in H2. auto. Qed.
Lemma existsb_key k (l : list string) : existsb (String.eqb k) l = true <-> In k l.
Proof.
  rewrite existsb_exists. split.
  - intros (x & Hx & E). apply String.eqb_eq in E. subst. exact Hx.
  - intros H. exists k. split; [exact H | apply String.eqb_refl].
Qed.
Lemma elem_id t : t_rep t = false -> elem t = t.
Proof. destruct t. cbn. intros ->. reflexivity. Qed.
Lemma onat_eqb_refl a : onat_eqb a a = true.
Proof. destruct a; cbn; [apply Nat.eqb_refl | reflexivity]. Qed.
Lemma onat_eqb_eq a b : onat_eqb a b = true -> a = b.
Proof. destruct a, b; cbn; try discriminate; [rewrite Nat.eqb_eq; congruence | reflexivity]. Qed.

Section Proofs.
  Variable msgs : nat -> message.
  Variable mname ename : nat -> string.
  Variable selector : nat -> bool.
  Variable depth : nat.
  Variable U : list ty.
  Variable roots : list (ty * ty).

  Notation meets := (meets msgs selector roots).
  Notation key := (key msgs mname ename).
  Notation required := (required msgs).
  Notation expand := (expand msgs selector depth).
  Notation decls := (decls msgs mname ename selector depth).
  Notation alike := (alike msgs).
  Notation is_selector := (is_selector selector).

  Hypothesis AT : all_types msgs U.
  Hypothesis OK : schema_ok msgs selector U.
  Hypothesis RU : forall f t, In (f, t) roots -> In f U /\ In t U.
  Hypothesis LD : forall m, occurs U m -> selector m = true -> leaves msgs selector depth m <> None.
  Hypothesis UA : unambiguous msgs mname ename U.
  Hypothesis CM : forall f t, meets f t -> compatible msgs selector f t.

  Lemma fqdn_written t : In t U -> fqdn msgs mname ename t = written msgs mname ename t.
  Proof.
    intros Ht.
    assert (W : forall u, fqdn1 mname ename u = written1 mname ename u).
    { intros u. unfold fqdn1, written1. cbn zeta. destruct (t_rep u), (t_member u), (t_msg u), (t_enum u); reflexivity. }
    unfold fqdn, written, map_entry. rewrite !W.
    destruct (t_member t) eqn:Em.
    { destruct (is_message t); [|reflexivity]. destruct (t_msg t) as [m|]; [|reflexivity]. destruct (m_map (msgs m)); reflexivity. }
    destruct (t_msg t) as [m|] eqn:Et.
    - rewrite (ok_kind _ _ _ OK t m Ht Et). destruct (m_map (msgs m)); [|reflexivity]. destruct (entry (msgs m)) as [[k v]|]; [|reflexivity].
      rewrite !W. reflexivity.
    - destruct (is_message t); reflexivity.
  Qed.
  Lemma append_inj (a b c : string) : (a ++ b)%string = (a ++ c)%string -> b = c.
  Proof. induction a as [|x a IH]; cbn; [auto|]. intros H. injection H as H. auto. Qed.
  Lemma ND : forall f t f' t', In f U -> In t U -> In f' U -> In t' U -> key f t = key f' t' -> alike f f' /\ alike t t'.
  Proof.
    intros f t f' t' F T F' T' E. unfold Decls.key in E. rewrite !fqdn_written in E by assumption. destruct UA as [A B].
    pose proof (B _ _ _ _ F T F' T' E) as E1. split; [apply A; assumption|]. apply A; [assumption|assumption|].
    rewrite E1 in E. apply append_inj in E. exact E.
  Qed.

  Lemma leaves_spec n m l : leaves msgs selector n m = Some l -> forall x, In x l <-> leaf msgs selector m x.
  Proof.
    revert m l. induction n as [|n IH]; intros m l; cbn [leaves]; [discriminate|].
    destruct (selector m) eqn:Es.
    2:{ intros H x. injection H as <-. split; [intros [] | intros L; inversion L; congruence]. }
    assert (P : forall fs l, incl fs (m_fields (msgs m)) ->
      (fix go (l : list field) := match l with
                                      | [] => Some []
                                      | f :: l => match (match selects selector (f_type f) with Some m' => leaves msgs selector n m' | None => Some [f_type f] end), go l with
                                                  | Some a, Some b => Some (a ++ b)
                                                  | _, _ => None
                                                  end
                                      end) fs = Some l ->
      forall x, In x l <-> exists fd, In fd fs /\ ((~ (is_message (f_type fd) = true /\ is_selector (f_type fd)) /\ x = f_type fd) \/
                                            (is_message (f_type fd) = true /\ exists m', t_msg (f_type fd) = Some m' /\ leaf msgs selector m' x))).
    { induction fs as [|fd fs IHf]; intros l0 Hin H x.
      - injection H as <-. split; [intros [] | intros (fd & [] & _)].
      - destruct (match selects selector (f_type fd) with Some m' => leaves msgs selector n m' | None => Some [f_type fd] end) as [a|] eqn:Ea; [|discriminate].
        match type of H with match ?g with _ => _ end = _ => destruct g as [b|] eqn:Eb; [|discriminate] end.
        injection H as <-. rewrite in_app_iff.
        rewrite (IHf b (fun y Hy => Hin y (or_intror Hy)) eq_refl x).
        assert (A : In x a <-> ((~ (is_message (f_type fd) = true /\ is_selector (f_type fd)) /\ x = f_type fd) \/
                                            (is_message (f_type fd) = true /\ exists m', t_msg (f_type fd) = Some m' /\ leaf msgs selector m' x))).
        { unfold selects in Ea. destruct (is_message (f_type fd)) eqn:Em.
          - destruct (t_msg (f_type fd)) as [m'|] eqn:Et.
            + destruct (selector m') eqn:Es'.
              * rewrite (IH _ _ Ea x). split.
                -- intros L. right. split; [reflexivity|]. exists m'. auto.
                -- intros [[N _] | (_ & m2 & E2 & L)].
                   ++ exfalso. apply N. split; [reflexivity|]. exists m'. auto.
                   ++ injection E2 as <-. exact L.
              * injection Ea as <-. cbn. split.
                -- intros [<-|[]]. left. split; [|reflexivity]. intros (_ & m2 & E2 & S2). rewrite Et in E2. injection E2 as <-. congruence.
                -- intros [[_ ->] | (_ & m2 & E2 & L)]; [auto|]. injection E2 as <-. inversion L; congruence.
            + injection Ea as <-. cbn. split.
              * intros [<-|[]]. left. split; [|reflexivity]. intros (_ & m2 & E2 & S2). congruence.
              * intros [[_ ->] | (_ & m2 & E2 & L)]; [auto|]. discriminate.
          - injection Ea as <-. cbn. split.
            + intros [<-|[]]. left. split; [|reflexivity]. intros (? & _). discriminate.
            + intros [[_ ->] | (? & _)]; [auto|discriminate]. }
        rewrite A. split.
        + intros [D | (g & Hg & D)]; [exists fd; cbn; auto | exists g; cbn; auto].
        + intros (g & [<-|Hg] & D); [left; exact D | right; exists g; auto]. }
    intros H x. rewrite (P _ _ (incl_refl _) H x). split.
    - intros (fd & Hf & [[N ->] | (Em & m' & Et & L)]).
      + apply leaf_here; assumption.
      + eapply leaf_there; eassumption.
    - intros L. inversion L; subst.
      + eexists. split; [eassumption|]. left. auto.
      + eexists. split; [eassumption|]. right. split; [assumption|]. eexists. split; eassumption.
  Qed.
  Lemma occ t m : In t U -> t_msg t = Some m -> occurs U m.
  Proof. intros H E. exists t. auto. Qed.
  Lemma leaves_of_spec m x : occurs U m -> selector m = true -> In x (leaves_of msgs selector depth m) <-> leaf msgs selector m x.
  Proof.
    intros Oc S. unfold leaves_of. destruct (leaves msgs selector depth m) eqn:E; [apply (leaves_spec _ _ _ E)|].
    exfalso. exact (LD _ Oc S E).
  Qed.
  Lemma leaf_in m x : leaf msgs selector m x -> forall t, In t U -> t_msg t = Some m -> In x U.
  Proof.
    induction 1 as [m fd S Hf N | m fd m' t0 S Hf Em Et L IH]; intros t Ht E.
    - exact (proj2 AT _ _ _ Ht E Hf).
    - apply (IH (f_type fd)); [exact (proj2 AT _ _ _ Ht E Hf) | exact Et].
  Qed.
  Lemma leaf_not m x : leaf msgs selector m x -> ~ (is_message x = true /\ is_selector x).
  Proof. induction 1; assumption. Qed.

  Lemma named_in t n fd : named msgs t n = Some fd -> exists m, t_msg t = Some m /\ In fd (m_fields (msgs m)) /\ f_name fd = n.
  Proof.
    unfold named. destruct (t_msg t) as [m|]; [|discriminate]. intros H. apply find_field_some in H. exists m. tauto.
  Qed.

  Lemma selected_some f t m : selected selector f t = Some m -> t_msg f = Some m /\ selector m = true /\ is_enum t = true.
  Proof.
    unfold selected. destruct (t_msg f) as [m0|]; [|discriminate]. destruct (selector m0 && is_enum t) eqn:E; [|discriminate].
    intros H. injection H as <-. apply andb_true_iff in E. tauto.
  Qed.

  Lemma subs_meet f t own subs f' t' :
    meets f t -> In f U -> In t U -> expand f t = Some (own, subs) -> In (f', t') subs -> meets f' t' /\ In f' U /\ In t' U.
  Proof.
    intros M Hf Ht E Hs. unfold Decls.expand in E.
    destruct (is_message f && is_map_type msgs f && match t_msg t with Some _ => true | None => false end) eqn:E1.
    { injection E as <- <-. 
      assert (P : forall n, In (f', t') (pair_at msgs f t n) -> meets f' t' /\ In f' U /\ In t' U).
      { intros n. unfold pair_at. destruct (named msgs f n) as [a|] eqn:Ea; [|intros []].
        destruct (named msgs t n) as [b|] eqn:Eb; [|intros []]. intros [H|[]]. injection H as <- <-.
        apply named_in in Ea as (m1 & T1 & I1 & N1). apply named_in in Eb as (m2 & T2 & I2 & N2).
        split; [|split].
        - eapply meets_field; try eassumption. congruence.
        - exact (proj2 AT _ _ _ Hf T1 I1).
        - exact (proj2 AT _ _ _ Ht T2 I2). }
      apply in_app_iff in Hs as [Hs|Hs]; eapply P; exact Hs. }
    destruct (proj1 AT _ Hf) as [Hfe Hfs]. destruct (proj1 AT _ Ht) as [Hte Hts].
    destruct (t_rep f) eqn:Er.
    { destruct (selected selector (elem f) (elem t)) as [m|] eqn:Em.
      - injection E as <- <-. apply in_map_iff in Hs as (x & Hx & L). injection Hx as <- <-.
        apply selected_some in Em as (Tm & S & _). apply (leaves_of_spec _ _ (occ _ _ Hfe Tm) S) in L.
        split; [|split; [eapply leaf_in; [exact L| exact Hfe | exact Tm]|exact Hte]].
        eapply meets_leaf; [apply meets_elem; eassumption | exact Tm | exact S | exact L].
      - injection E as <- <-. destruct Hs as [Hs|[]]. injection Hs as <- <-.
        split; [apply meets_elem; assumption | auto]. }
    destruct (t_oneof f) eqn:Eo.
    { injection E as <- <-. destruct Hs as [Hs|[]]. injection Hs as <- <-. split; [apply meets_strip; assumption | auto]. }
    destruct (is_message f) eqn:Ei.
    2:{ injection E as <- <-. destruct Hs. }
    destruct (selected selector f t) as [m|] eqn:Em.
    - injection E as <- <-. apply in_map_iff in Hs as (x & Hx & L). injection Hx as <- <-.
      apply selected_some in Em as (Tm & S & _). apply (leaves_of_spec _ _ (occ _ _ Hf Tm) S) in L.
      split; [|split; [eapply leaf_in; [exact L| exact Hf | exact Tm]|exact Ht]].
      eapply meets_leaf; [eassumption | exact Tm | exact S | exact L].
    - destruct (t_msg f) as [a|] eqn:Ea; [|discriminate]. destruct (t_msg t) as [b|] eqn:Eb; [|discriminate].
      injection E as <- <-. apply in_flat_map in Hs as (tf & Itf & Hs).
      destruct (find_field (msgs a) (f_name tf)) as [ff|] eqn:Ef; [|destruct Hs]. destruct Hs as [Hs|[]]. injection Hs as <- <-.
      apply find_field_some in Ef as [Iff Nf]. split; [|split].
      + eapply meets_field; try eassumption.
      + exact (proj2 AT _ _ _ Hf Ea Iff).
      + exact (proj2 AT _ _ _ Ht Eb Itf).
  Qed.

  Lemma expand_some f t : meets f t -> exists own subs, expand f t = Some (own, subs).
  Proof.
    intros M. unfold Decls.expand.
    destruct (is_message f && is_map_type msgs f && match t_msg t with Some _ => true | None => false end); [eauto|].
    destruct (t_rep f); [destruct (selected selector (elem f) (elem t)); eauto|].
    destruct (t_oneof f); [eauto|]. destruct (is_message f) eqn:Ei; [|eauto].
    destruct (selected selector f t) eqn:Es; [eauto|].
    destruct (CM _ _ M Ei) as [(_ & _ & A & B & _) | ((m & Tm & S) & En & _)].
    - destruct (t_msg f); [|congruence]. destruct (t_msg t); [|congruence]. eauto.
    - exfalso. unfold selected in Es. rewrite Tm, S, En in Es. discriminate.
  Qed.

  (** ** Termination *)
  Definition unseen (vis : list string) (p : ty * ty) : bool := negb (existsb (String.eqb (key (fst p) (snd p))) vis).
  Definition measure (vis : list string) : nat := length (filter (unseen vis) (list_prod U U)).

  Lemma filter_le {A} (p q : A -> bool) l : (forall x, p x = true -> q x = true) -> length (filter p l) <= length (filter q l).
  Proof.
    intros H. induction l as [|x l IH]; [apply le_n|]. cbn. destruct (p x) eqn:E.
    - rewrite (H _ E). cbn. lia.
    - destruct (q x); cbn; lia.
  Qed.
  Lemma filter_lt {A} (p q : A -> bool) l x : (forall x, p x = true -> q x = true) -> In x l -> p x = false -> q x = true ->
    length (filter p l) < length (filter q l).
  Proof.
    intros H. induction l as [|y l IH]; intros Hi Hp Hq; [destruct Hi|]. destruct Hi as [->|Hi].
    - cbn. rewrite Hp, Hq. cbn. pose proof (filter_le p q l H). lia.
    - specialize (IH Hi Hp Hq). cbn. destruct (p y) eqn:E.
      + rewrite (H _ E). cbn. lia.
      + destruct (q y); cbn; lia.
  Qed.
  Lemma unseen_spec vis p : unseen vis p = true <-> ~ In (key (fst p) (snd p)) vis.
  Proof.
    unfold unseen. rewrite negb_true_iff. split.
    - intros H I. apply existsb_key in I. congruence.
    - intros H. destruct (existsb _ _) eqn:E; [|reflexivity]. apply existsb_key in E. tauto.
  Qed.
  Lemma measure_incl vis vis' : incl vis vis' -> measure vis' <= measure vis.
  Proof. intros H. apply filter_le. intros p. rewrite !unseen_spec. auto. Qed.
  Lemma measure_cons vis f t : In f U -> In t U -> ~ In (key f t) vis -> measure (key f t :: vis) < measure vis.
  Proof.
    intros Hf Ht N. apply (filter_lt _ _ _ (f, t)).
    - intros p. rewrite !unseen_spec. cbn. tauto.
    - apply in_prod; assumption.
    - destruct (unseen (key f t :: vis) (f, t)) eqn:E; [|reflexivity]. apply unseen_spec in E. exfalso. apply E. cbn. auto.
    - apply unseen_spec. exact N.
  Qed.

  (** ** The invariant *)
  Definition done (vis' : list string) (subs : list (ty * ty)) : Prop := forall f t, In (f, t) subs -> required f t = true -> In (key f t) vis'.
  Record inv (vis : list string) (d : list (ty * ty)) (vis' : list string) : Prop := {
    i_incl : incl vis vis';
    i_vis : forall k, In k vis' -> In k vis \/
      exists f t own subs, In f U /\ In t U /\ key f t = k /\ required f t = true /\ meets f t /\ expand f t = Some (own, subs) /\
                           (own = true -> In (f, t) d) /\ done vis' subs;
    i_d : forall f t, In (f, t) d -> In f U /\ In t U /\ meets f t /\ required f t = true /\ In (key f t) vis' /\ ~ In (key f t) vis /\
                                     exists subs, expand f t = Some (true, subs) /\ done vis' subs;
    i_nodup : NoDup (map (fun p => key (fst p) (snd p)) d) }.

  Lemma done_mono a b subs : incl a b -> done a subs -> done b subs.
  Proof. intros I D f t H R. apply I. exact (D f t H R). Qed.
  Lemma inv_refl vis : inv vis [] vis.
  Proof. constructor; [apply incl_refl | auto | intros f t [] | constructor]. Qed.
  Lemma nodup_app {A} (a b : list A) : NoDup a -> NoDup b -> (forall x, In x a -> In x b -> False) -> NoDup (a ++ b).
  Proof.
    induction a as [|x a IH]; intros Na Nb D; [exact Nb|]. cbn. inversion Na; subst. constructor.
    - rewrite in_app_iff. intros [H|H]; [tauto|]. apply (D x); [cbn; auto | exact H].
    - apply IH; [assumption|assumption|]. intros y Hy. apply D. cbn. auto.
  Qed.
  Lemma inv_trans v1 d1 v2 d2 v3 : inv v1 d1 v2 -> inv v2 d2 v3 -> inv v1 (d1 ++ d2) v3.
  Proof.
    intros [A1 B1 C1 D1] [A2 B2 C2 D2]. constructor.
    - eapply incl_tran; eassumption.
    - intros k Hk. destruct (B2 k Hk) as [Hk2 | (f & t & own & subs & F & T & K & R & M & E & O & D)].
      + destruct (B1 k Hk2) as [?|(f & t & own & subs & F & T & K & R & M & E & O & D)]; [auto|].
        right. exists f, t, own, subs. repeat (split; [assumption|]). split.
        * intros Ow. apply in_or_app. auto.
        * eapply done_mono; eassumption.
      + right. exists f, t, own, subs. repeat (split; [assumption|]). split; [|exact D]. intros Ow. apply in_or_app. auto.
    - intros f t H. apply in_app_iff in H as [H|H].
      + destruct (C1 f t H) as (F & T & M & R & K & N & subs & E & D). repeat (split; [assumption|]). split; [apply A2; exact K|].
        split; [exact N|]. exists subs. split; [exact E|]. eapply done_mono; eassumption.
      + destruct (C2 f t H) as (F & T & M & R & K & N & subs & E & D). repeat (split; [assumption|]).
        split; [intros H1; apply N; apply A1; exact H1|]. exists subs. auto.
    - rewrite map_app. apply nodup_app; [assumption|assumption|]. intros k H1 H2.
      apply in_map_iff in H1 as ([f1 t1] & K1 & I1). apply in_map_iff in H2 as ([f2 t2] & K2 & I2). cbn in *.
      destruct (C1 _ _ I1) as (_ & _ & _ & _ & K & _). destruct (C2 _ _ I2) as (_ & _ & _ & _ & _ & N & _). congruence.
  Qed.

  Lemma run_ok rec l vis :
    (forall f t vis', In (f, t) l -> incl vis vis' -> exists d v, rec f t vis' = Done d v /\ inv vis' d v /\ (required f t = true -> In (key f t) v)) ->
    exists d v, run rec l vis = Done d v /\ inv vis d v /\ done v l.
  Proof.
    revert vis. induction l as [|[f t] l IH]; intros vis H.
    - exists [], vis. split; [reflexivity|]. split; [apply inv_refl | intros f t []].
    - destruct (H f t vis (or_introl eq_refl) (incl_refl _)) as (d1 & v1 & E1 & I1 & K1).
      destruct (IH v1) as (d2 & v2 & E2 & I2 & K2).
      { intros f' t' v' Hi Hv. apply H; [cbn; auto | eapply incl_tran; [exact (i_incl _ _ _ I1) | exact Hv]]. }
      exists (d1 ++ d2), v2. cbn [run]. rewrite E1, E2. split; [reflexivity|]. split; [eapply inv_trans; eassumption|].
      intros f' t' [Hi|Hi] R; [injection Hi as <- <-; apply (i_incl _ _ _ I2); auto | apply K2; assumption].
  Qed.

  Lemma decls_ok fuel : forall f t vis, In f U -> In t U -> meets f t -> measure vis < fuel ->
    exists d v, decls fuel f t vis = Done d v /\ inv vis d v /\ (required f t = true -> In (key f t) v).
  Proof.
    induction fuel as [|fuel IH]; intros f t vis Hf Ht M L; [lia|]. cbn [Decls.decls].
    destruct (required f t) eqn:R; cbn [negb].
    2:{ exists [], vis. split; [reflexivity|]. split; [apply inv_refl | discriminate]. }
    destruct (existsb (String.eqb (key f t)) vis) eqn:X.
    { apply existsb_key in X. exists [], vis. split; [reflexivity|]. split; [apply inv_refl | auto]. }
    assert (NX : ~ In (key f t) vis) by (intros H; apply existsb_key in H; congruence).
    destruct (expand_some f t M) as (own & subs & E). rewrite E.
    destruct (run_ok (decls fuel) subs (key f t :: vis)) as (d & v & Er & I & D).
    { intros f' t' vis' Hs Hi. destruct (subs_meet _ _ _ _ _ _ M Hf Ht E Hs) as (M' & F' & T'). apply IH; try assumption.
      pose proof (measure_incl _ _ Hi). pose proof (measure_cons vis f t Hf Ht NX). lia. }
    rewrite Er. exists ((if own then [(f, t)] else []) ++ d), v. split; [reflexivity|].
    assert (Kv : In (key f t) v) by (apply (i_incl _ _ _ I); cbn; auto).
    split; [|auto]. destruct I as [A B C N]. constructor.
    - intros k Hk. apply A. cbn. auto.
    - intros k Hk. destruct (B k Hk) as [[<-|?]|(f1 & t1 & own1 & subs1 & F & T & K & R1 & M1 & E1 & O & D1)]; [|auto|].
      + right. exists f, t, own, subs. repeat (split; [assumption || reflexivity|]). split; [|exact D].
        intros ->. apply in_or_app. left. cbn. auto.
      + right. exists f1, t1, own1, subs1. repeat (split; [assumption|]). split; [|exact D1]. intros O1. apply in_or_app. auto.
    - intros f1 t1 H. apply in_app_iff in H as [H|H].
      + destruct own; [|destruct H]. destruct H as [H|[]]. injection H as <- <-. repeat (split; [assumption|]). exists subs. auto.
      + destruct (C _ _ H) as (F & T & M1 & R1 & K & Nk & subs1 & E1 & D1). repeat (split; [assumption|]).
        split; [intros Hv; apply Nk; cbn; auto|]. exists subs1. auto.
    - rewrite map_app. apply nodup_app; [destruct own; cbn; repeat constructor; intros [] | exact N |].
      intros k H1 H2. destruct own; [|destruct H1]. destruct H1 as [<-|[]]. apply in_map_iff in H2 as ([f2 t2] & K2 & I2).
      cbn in K2. destruct (C _ _ I2) as (_ & _ & _ & _ & _ & Nk & _). apply Nk. cbn. auto.
  Qed.

  (** ** Completeness *)
  Lemma map_entry_some t m : map_entry msgs t = Some m -> is_message t = true /\ exists n, t_msg t = Some n /\ m_map (msgs n) = true /\ m = msgs n.
  Proof.
    unfold map_entry. destruct (is_message t); [|discriminate]. destruct (t_msg t) as [n|]; [|discriminate].
    destruct (m_map (msgs n)) eqn:E; [|discriminate]. intros H. injection H as <-. split; [reflexivity|]. exists n. auto.
  Qed.
  Lemma map_type t : is_message t && is_map_type msgs t = match map_entry msgs t with Some _ => true | None => false end.
  Proof.
    unfold is_map_type, map_entry. destruct (is_message t); [|reflexivity]. destruct (t_msg t) as [n|]; [|reflexivity].
    destruct (m_map (msgs n)); reflexivity.
  Qed.
  Lemma named_entry t n : In t U -> t_msg t = Some n -> m_map (msgs n) = true ->
    exists k v, entry (msgs n) = Some (f_type k, f_type v) /\ named msgs t "key" = Some k /\ named msgs t "value" = Some v /\
                In k (m_fields (msgs n)) /\ In v (m_fields (msgs n)) /\ map_entry msgs (f_type k) = None /\ map_entry msgs (f_type v) = None.
  Proof.
    intros Ht E M. destruct (ok_entry _ _ _ OK t n Ht E M) as (k & v & Ef & Nk & Nv & Mk & Mv).
    exists k, v. unfold entry, named. rewrite E. unfold find_field. rewrite Ef. cbn [find]. rewrite Nk, Nv. cbn.
    repeat (split; [auto|]). assumption.
  Qed.

  Lemma required_of_cast f t : In f U -> In t U -> compatible msgs selector f t -> requiredCast msgs f t = true -> required f t = true.
  Proof.
    intros Hf Ht C R. unfold requiredCast in R. unfold Decls.required. rewrite map_type.
    destruct (map_entry msgs f) as [mf|] eqn:Ef.
    - destruct (map_entry_some _ _ Ef) as (If & n & Tn & Mn & ->).
      destruct (C If) as [(_ & It & _ & _ & Hm) | (S & _)].
      2:{ destruct S as (m & Tm & S). assert (m = n) by congruence. subst. rewrite (ok_nomap _ _ _ OK _ (occ _ _ Hf Tn) S) in Mn. discriminate. }
      destruct (map_entry msgs t) as [mt|] eqn:Et; [|destruct Hm as [_ Hm]; specialize (Hm eq_refl); congruence].
      destruct (map_entry_some _ _ Et) as (_ & n' & Tn' & Mn' & ->).
      destruct (named_entry f n Hf Tn Mn) as (k & v & Ee & K1 & V1 & _). destruct (named_entry t n' Ht Tn' Mn') as (k' & v' & Ee' & K2 & V2 & _).
      rewrite K1, V1, K2, V2. rewrite Ee, Ee' in R. exact R.
    - exact R.
  Qed.

  Lemma alike_plain f f' : alike f f' -> map_entry msgs f' = None -> f = f'.
  Proof. intros [E|(_ & _ & ma & mb & k & v & _ & E & _)] N; [exact E | congruence]. Qed.

  (** Whether the conversion is declared *)
  Lemma own_false f t subs : In f U -> expand f t = Some (false, subs) -> is_selector f /\ is_enum t = true.
  Proof.
    intros Hf E. unfold Decls.expand in E.
    destruct (is_message f && is_map_type msgs f && match t_msg t with Some _ => true | None => false end); [discriminate|].
    destruct (t_rep f).
    - destruct (selected selector (elem f) (elem t)) as [m|] eqn:Es; [|discriminate]. apply selected_some in Es as (T & S & En).
      split; [exists m; auto | exact En].
    - destruct (t_oneof f); [discriminate|]. destruct (is_message f); [|discriminate].
      destruct (selected selector f t) as [m|] eqn:Es.
      + apply selected_some in Es as (T & S & En). split; [exists m; auto | exact En].
      + destruct (t_msg f); [|discriminate]. destruct (t_msg t); discriminate.
  Qed.
  Lemma own_true f t subs : In f U -> In t U -> meets f t -> expand f t = Some (true, subs) -> ~ (is_selector f /\ is_enum t = true).
  Proof.
    intros Hf Ht M E ((m & T & S) & En). unfold Decls.expand in E. rewrite map_type in E.
    assert (Nm : map_entry msgs f = None).
    { unfold map_entry. destruct (is_message f); [|reflexivity]. rewrite T. rewrite (ok_nomap _ _ _ OK _ (occ _ _ Hf T) S). reflexivity. }
    rewrite Nm in E. cbn [andb] in E.
    assert (Sel : selected selector f t = Some m) by (unfold selected; rewrite T, S, En; reflexivity).
    destruct (t_rep f) eqn:Er.
    - change (selected selector (elem f) (elem t)) with (selected selector f t) in E. rewrite Sel in E. discriminate.
    - destruct (t_oneof f) eqn:Eo.
      + destruct (ok_member _ _ _ OK f Hf Eo) as [_ N]. apply N. exists m. auto.
      + rewrite (ok_kind _ _ _ OK f m Hf T) in E. rewrite Sel in E. discriminate.
  Qed.

  Lemma enum_plain t : is_enum t = true -> map_entry msgs t = None.
  Proof. unfold map_entry, is_message, is_enum. destruct (t_kind t); try discriminate; reflexivity. Qed.
  Lemma selector_plain f : In f U -> is_selector f -> map_entry msgs f = None.
  Proof. intros Hf (m & T & S). unfold map_entry. destruct (is_message f); [|reflexivity]. rewrite T, (ok_nomap _ _ _ OK _ (occ _ _ Hf T) S). reflexivity. Qed.

  (** A conversion whose name was visited is declared. *)
  Lemma visited_provided d v f t : inv [] d v -> In f U -> In t U -> ~ (is_selector f /\ is_enum t = true) -> In (key f t) v -> provided msgs d f t.
  Proof.
    intros I Hf Ht N K. destruct (i_vis _ _ _ I _ K) as [[]|(f2 & t2 & own & subs & F & T & Ek & R & M & E & O & D)].
    destruct (ND f t f2 t2 Hf Ht F T (eq_sym Ek)) as [A B].
    destruct own.
    - exists f2, t2. auto.
    - exfalso. destruct (own_false _ _ _ F E) as [S En]. apply N.
      rewrite (alike_plain _ _ A (selector_plain _ F S)), (alike_plain _ _ B (enum_plain _ En)). auto.
  Qed.

  Hypothesis NR : not_renamed msgs U.

  Lemma candidate_sub f t subs f' t' : In f U -> In t U -> meets f t -> expand f t = Some (true, subs) -> In (f', t') (candidates msgs f t) ->
    In (f', t') subs /\ ~ (is_selector f' /\ is_enum t' = true).
  Proof.
    intros Hf Ht M E Hc. pose proof (own_true _ _ _ Hf Ht M E) as NS. unfold Decls.expand in E. rewrite map_type in E. unfold candidates in Hc.
    destruct (t_rep f) eqn:Er.
    { assert (Em : map_entry msgs f = None).
      { destruct (map_entry msgs f) eqn:Em; [|reflexivity]. rewrite (ok_map _ _ _ OK f Hf) in Er; congruence. }
      rewrite Em in E. cbn [andb] in E. destruct Hc as [Hc|[]]. injection Hc as <- <-.
      destruct (selected selector (elem f) (elem t)); [discriminate|]. injection E as <-. split; [cbn; auto|].
      intros [S En]. apply NS. split; [exact S | exact En]. }
    destruct (map_entry msgs f) as [mf|] eqn:Ef.
    { destruct (map_entry_some _ _ Ef) as (If & n & Tn & Mn & ->).
      destruct (CM _ _ M If) as [(_ & It & _ & Tt & Hm) | (S & _)].
      2:{ rewrite (selector_plain _ Hf S) in Ef. discriminate. }
      destruct (t_msg t) as [b|] eqn:Tb; [|congruence]. cbn [andb] in E. injection E as <-.
      destruct (map_entry msgs t) as [mt|] eqn:Et; [|destruct Hm as [_ Hm]; specialize (Hm eq_refl); congruence].
      destruct (map_entry_some _ _ Et) as (_ & n' & Tn' & Mn' & ->). rewrite Tb in Tn'. injection Tn' as <-.
      destruct (named_entry f n Hf Tn Mn) as (k & v & Ee & K1 & V1 & Ik & Iv & _). destruct (named_entry t b Ht Tb Mn') as (k' & v' & Ee' & K2 & V2 & _).
      rewrite Ee, Ee' in Hc. unfold pair_at. rewrite K1, V1, K2, V2.
      assert (Sn : selector n = false) by (destruct (selector n) eqn:Sn; [rewrite (ok_nomap _ _ _ OK _ (occ _ _ Hf Tn) Sn) in Mn; discriminate | reflexivity]).
      split; [cbn; cbn in Hc; tauto|].
      destruct Hc as [Hc|[Hc|[]]]; injection Hc as <- <-; intros [S _]; [exact (ok_selector _ _ _ OK _ _ (occ _ _ Hf Tn) Ik Sn S) | exact (ok_selector _ _ _ OK _ _ (occ _ _ Hf Tn) Iv Sn S)]. }
    cbn [andb] in E.
    destruct (t_oneof f) eqn:Eo.
    { injection E as <-. destruct Hc as [Hc|[]]. injection Hc as <- <-. split; [cbn; auto|].
      intros [S _]. destruct (ok_member _ _ _ OK f Hf Eo) as [_ N]. apply N. exact S. }
    destruct (is_message f) eqn:If; [|destruct Hc].
    destruct (t_msg f) as [a|] eqn:Ta; [|destruct Hc]. destruct (t_msg t) as [b|] eqn:Tb; [|destruct Hc].
    destruct (selected selector f t); [discriminate|]. injection E as <-.
    apply in_flat_map in Hc as (tf & Itf & Hc). destruct (toStructField msgs tf a) as [[n ft]|] eqn:Es; [|destruct Hc].
    destruct Hc as [Hc|[]]. injection Hc as <- <-. destruct (NR _ _ _ _ _ (occ _ _ Hf Ta) (occ _ _ Ht Tb) Itf Es) as (ff & Eff & <-). split.
    - apply in_flat_map. exists tf. split; [exact Itf|]. rewrite Eff. cbn. auto.
    - intros [S En]. apply find_field_some in Eff as [Iff _].
      assert (Sa : selector a = false).
      { destruct (CM _ _ M If) as [(N & _) | (_ & Et & _)].
        - destruct (selector a) eqn:Sa; [|reflexivity]. exfalso. apply N. exists a. auto.
        - exfalso. pose proof (ok_kind _ _ _ OK t b Ht Tb) as Kt. unfold is_message in Kt. unfold is_enum in Et. destruct (t_kind t); discriminate. }
      exact (ok_selector _ _ _ OK _ _ (occ _ _ Hf Ta) Iff Sa S).
  Qed.

  Lemma calls_provided d v f t f' t' : inv [] d v -> In (f, t) d -> In (f', t') (calls msgs f t) -> provided msgs d f' t'.
  Proof.
    intros I Hd Hc. destruct (i_d _ _ _ I _ _ Hd) as (F & T & M & R & K & _ & subs & E & D).
    apply filter_In in Hc as [Hc Rc]. cbn [fst snd] in Rc.
    destruct (candidate_sub _ _ _ _ _ F T M E Hc) as [Hs N].
    destruct (subs_meet _ _ _ _ _ _ M F T E Hs) as (M' & F' & T').
    eapply visited_provided; [exact I | exact F' | exact T' | exact N|].
    apply D; [exact Hs|]. apply required_of_cast; auto.
  Qed.

  Lemma roots_provided d v f t f' t' : inv [] d v -> done v roots -> In (f, t) roots -> root_call msgs selector f t f' t' -> provided msgs d f' t'.
  Proof.
    intros I D Hr (Rc & Hc). destruct (RU _ _ Hr) as [F T]. pose proof (meets_root msgs selector roots f t Hr) as M.
    destruct Hc as [(N & -> & ->) | (En & m & Tm & S & L & ->)].
    - eapply visited_provided; [exact I|exact F|exact T|exact N|]. apply D; [exact Hr|]. apply required_of_cast; auto.
    - assert (Sf : is_selector f) by (exists m; auto). pose proof (ok_kind _ _ _ OK f m F Tm) as If.
      destruct (CM _ _ M If) as [(N & _)|(_ & _ & Rep)]; [tauto|].
      assert (Tt : t_msg t = None).
      { destruct (t_msg t) as [b|] eqn:Tb; [|reflexivity]. pose proof (ok_kind _ _ _ OK t b T Tb) as Kt. unfold is_message in Kt.
        unfold is_enum in En. destruct (t_kind t); discriminate. }
      assert (R : required f t = true).
      { unfold Decls.required. rewrite map_type, (selector_plain _ F Sf). unfold required1. rewrite If, Tm, Tt. reflexivity. }
      pose proof (D _ _ Hr R) as K.
      destruct (i_vis _ _ _ I _ K) as [[]|(f2 & t2 & own & subs & F2 & T2 & Ek & R2 & M2 & E & O & D2)].
      destruct (ND f t f2 t2 F T F2 T2 (eq_sym Ek)) as [A B].
      assert (f = f2). { destruct A as [A|(_ & _ & ma & mb & k & v0 & A & _)]; [exact A|]. rewrite (selector_plain _ F Sf) in A. discriminate. }
      assert (t = t2). { destruct B as [B|(_ & _ & ma & mb & k & v0 & B & _)]; [exact B|]. rewrite (enum_plain _ En) in B. discriminate. }
      subst f2 t2.
      assert (Hs : In (f', elem t) subs).
      { unfold Decls.expand in E. rewrite map_type, (selector_plain _ F Sf) in E. cbn [andb] in E.
        assert (Sel : selected selector f t = Some m) by (unfold selected; rewrite Tm, S, En; reflexivity).
        destruct (t_rep f) eqn:Er.
        - change (selected selector (elem f) (elem t)) with (selected selector f t) in E. rewrite Sel in E. injection E as _ <-.
          apply in_map_iff. exists f'. split; [reflexivity|]. apply (leaves_of_spec _ _ (occ _ _ F Tm)); assumption.
        - destruct (t_oneof f) eqn:Eo; [destruct (ok_member _ _ _ OK f F Eo) as [_ N]; tauto|]. rewrite If, Sel in E. injection E as _ <-.
          apply in_map_iff. exists f'. rewrite elem_id by congruence. split; [reflexivity|]. apply (leaves_of_spec _ _ (occ _ _ F Tm)); assumption. }
      destruct (subs_meet _ _ _ _ _ _ M F T E Hs) as (M' & F' & T').
      eapply visited_provided; [exact I | exact F' | exact T' | |].
      + intros [S' _]. apply (leaf_not _ _ L). destruct S' as (m' & Tm' & S'). split; [exact (ok_kind _ _ _ OK f' m' F' Tm')|]. exists m'. auto.
      + apply D2; [exact Hs|]. apply required_of_cast; auto.
  Qed.

  Lemma message_ok fuel : length (list_prod U U) < fuel ->
    exists d v, message_decls msgs mname ename selector depth fuel roots = Done d v /\ inv [] d v /\ done v roots.
  Proof.
    intros L. apply run_ok. intros f t vis Hr _. destruct (RU _ _ Hr) as [F T].
    apply decls_ok; [exact F|exact T|apply meets_root; exact Hr|].
    assert (G : forall (p : ty * ty -> bool) l, length (filter p l) <= length l).
    { intros p l. induction l as [|x l IHl]; [apply le_n|]. cbn. destruct (p x); cbn; lia. }
    unfold measure. specialize (G (unseen vis) (list_prod U U)). lia.
  Qed.
End Proofs.
