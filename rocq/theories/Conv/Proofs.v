From Coq Require Import String List Bool Arith ZArith Lia.
From Verif.Base Require Import Result.
From Verif.Cast Require Import Model Spec.
From Verif.Conv Require Import Enum Model Spec.
Import ListNotations.
Local Open Scope nat_scope.

Section ValueInd.
  Variable P : value -> Prop.
  Hypotheses (H1 : forall z, P (VNum z)) (H2 : forall n, P (VOther n)) (H3 : P (VMsg None))
    (H4 : forall fs, Forall (fun p => P (snd p)) fs -> P (VMsg (Some fs))) (H5 : forall l, Forall P l -> P (VList l))
    (H6 : forall l, Forall (fun p => P (fst p) /\ P (snd p)) l -> P (VMap l)) (H7 : forall v, P v -> P (VWrap v)).
  Fixpoint value_ind' (v : value) : P v :=
    match v with
    | VNum z => H1 z
    | VOther n => H2 n
    | VMsg None => H3
    | VMsg (Some fs) => H4 fs ((fix go l := match l return Forall (fun p => P (snd p)) l with [] => Forall_nil _ | p :: l => Forall_cons p (value_ind' (snd p)) (go l) end) fs)
    | VList l => H5 l ((fix go l := match l return Forall P l with [] => Forall_nil _ | x :: l => Forall_cons x (value_ind' x) (go l) end) l)
    | VMap l => H6 l ((fix go l := match l return Forall (fun p => P (fst p) /\ P (snd p)) l with
                                   | [] => Forall_nil _ | p :: l => Forall_cons p (conj (value_ind' (fst p)) (value_ind' (snd p))) (go l) end) l)
    | VWrap v => H7 v (value_ind' v)
    end.
End ValueInd.

Lemma onat_eqb_spec : forall a b, onat_eqb a b = true <-> a = b.
Proof.
  intros [a|] [b|]; cbn; split; intros H; try discriminate H; try reflexivity.
  - apply Nat.eqb_eq in H. congruence.
  - injection H as ->. apply Nat.eqb_refl.
Qed.
Lemma kind_eqb_spec : forall a b, kind_eqb a b = true <-> a = b.
Proof.
  intros a b. split; [|intros ->; apply String.eqb_refl]. unfold kind_eqb. intros H. apply String.eqb_eq in H. destruct a, b; try reflexivity; discriminate H.
Qed.
Lemma NoDup_name : forall (A : Type) (nm : A -> string) (l : list A) x y, NoDup (map nm l) -> In x l -> In y l -> nm x = nm y -> x = y.
Proof.
  intros A nm l x y. induction l as [|z l IH]; intros N Hx Hy E; [destruct Hx|]. cbn in N. inversion N as [|? ? N1 N2]; subst. destruct Hx as [->|Hx], Hy as [->|Hy].
  - reflexivity.
  - exfalso. apply N1. rewrite E. apply in_map, Hy.
  - exfalso. apply N1. rewrite <- E. apply in_map, Hx.
  - apply IH; assumption.
Qed.

Section Proofs.
  Variable enums : nat -> enum.
  Variable msgs : nat -> message.
  Variable other : kind -> kind -> value -> value.
  Notation cast := (cast enums msgs other). Notation body := (body enums msgs other).
  Notation same := (same msgs). Notation converts := (converts enums msgs other). Notation moved := (moved enums msgs other).
  Notation breaks := (breaks msgs). Notation typed := (typed msgs). Notation source_of := (source_of msgs).
  Notation is_map := (is_map msgs). Notation is_map_of := (is_map_of msgs). Notation is_msg := (is_msg msgs).
  Notation map_entry := (map_entry msgs). Notation requiredCast := (requiredCast msgs).
  Hypothesis W : forall m, well_formed msgs m.

  Lemma cast_eq : forall f t v, cast f t v = body cast (cast_zero enums msgs other) f t v.
  Proof. intros f t v. destruct v; reflexivity. Qed.
  Lemma zero_eq : forall f t, cast_zero enums msgs other f t = cast f t (zero msgs f).
  Proof.
    intros f t. rewrite cast_eq. unfold cast_zero. unfold zero. destruct (t_rep f) eqn:R; [unfold Model.body; rewrite R; reflexivity|].
    destruct (map_entry f) eqn:M; [unfold Model.body; rewrite R, M; destruct (map_entry t); [destruct (entry m), (entry m0); reflexivity|]|].
    - destruct (t_oneof f), (t_oneof t); try reflexivity; unfold cast_single; cbn [strip is_message t_kind]; unfold Model.map_entry in M; destruct (is_message f) eqn:E; try discriminate M;
        unfold is_message in *; cbn [strip t_kind]; rewrite ?E; reflexivity.
    - destruct (is_message f) eqn:E; [unfold Model.body; rewrite R, M; reflexivity|]. destruct (kind_gotype (t_kind f)).
      + unfold Model.body. rewrite R, M. unfold cast_single. unfold is_message in *. cbn [strip t_kind]. rewrite E. reflexivity.
      + unfold Model.body. rewrite R, M. unfold cast_single. unfold is_message in *. cbn [strip t_kind]. rewrite E. reflexivity.
  Qed.

  (** *** Types *)
  Lemma same1_spec : forall f t, requiredCast1 f t = false <-> same1 f t.
  Proof.
    intros f t. unfold requiredCast1, same1, is_message, is_enum. destruct (t_kind f) eqn:K; rewrite negb_false_iff, ?onat_eqb_spec, ?kind_eqb_spec; try tauto; split; congruence.
  Qed.
  Lemma map_entry_spec : forall t m, map_entry t = Some m -> exists n, t_kind t = Message /\ t_msg t = Some n /\ m_map (msgs n) = true /\ m = msgs n.
  Proof.
    intros t m. unfold Model.map_entry, is_message. destruct (t_kind t) eqn:K; try discriminate. destruct (t_msg t) as [n|] eqn:E; [|discriminate].
    destruct (m_map (msgs n)) eqn:M; [|discriminate]. intros H. injection H as <-. exists n. auto.
  Qed.
  Lemma map_entry_none : forall t, map_entry t = None <-> ~ is_map t.
  Proof.
    intros t. unfold Model.map_entry, is_message, Spec.is_map. split.
    - intros H (m & K & E & M). rewrite K, E, M in H. discriminate H.
    - intros H. destruct (t_kind t) eqn:K; try reflexivity. destruct (t_msg t) as [n|] eqn:E; [|reflexivity]. destruct (m_map (msgs n)) eqn:M; [|reflexivity].
      destruct H. exists n. auto.
  Qed.
  Lemma map_of_spec : forall t k v, is_map_of t k v <-> exists m, map_entry t = Some m /\ entry m = Some (k, v).
  Proof.
    intros t k v. unfold Spec.is_map_of. split.
    - intros (m & fk & fv & rest & K & E & M & F & <- & <-). exists (msgs m). unfold Model.map_entry, is_message, entry. rewrite K, E, M, F. auto.
    - intros (m & H & H2). apply map_entry_spec in H. destruct H as (n & K & E & M & ->). unfold entry in H2. destruct (m_fields (msgs n)) as [|fk [|fv rest]] eqn:F; try discriminate H2.
      injection H2 as <- <-. exists n, fk, fv, rest. auto 8.
  Qed.
  Lemma entry_some : forall t m, map_entry t = Some m -> exists k v, entry m = Some (k, v).
  Proof.
    intros t m H. apply map_entry_spec in H. destruct H as (n & _ & _ & M & ->). destruct (W n) as (_ & _ & _ & _ & X). destruct (X M) as (k & v & F & _).
    unfold entry. rewrite F. eauto.
  Qed.
  Lemma map_of_map : forall t k v, is_map_of t k v -> is_map t.
  Proof. intros t k v (m & fk & fv & rest & K & E & M & _). exists m. auto. Qed.
  Lemma same_spec : forall f t, requiredCast f t = false <-> same f t.
  Proof.
    intros f t. unfold Model.requiredCast, Spec.same. destruct (map_entry f) as [m|] eqn:Mf; [destruct (map_entry t) as [m'|] eqn:Mt|].
    - destruct (entry_some _ _ Mf) as (fk & fv & Ef). destruct (entry_some _ _ Mt) as (tk & tv & Et). rewrite Ef, Et, orb_false_iff, !same1_spec. split.
      + intros [A B]. left. exists fk, fv, tk, tv. rewrite !map_of_spec. split; [exists m; auto|]. split; [exists m'; auto|]. auto.
      + intros [(fk' & fv' & tk' & tv' & A & B & C & D)|[N _]].
        * apply map_of_spec in A, B. destruct A as (x & A1 & A2), B as (y & B1 & B2). assert (fk' = fk /\ fv' = fv) as [-> ->] by (split; congruence).
          assert (tk' = tk /\ tv' = tv) as [-> ->] by (split; congruence). auto.
        * exfalso. apply N. split; [|]; [assert (is_map_of f fk fv) by (apply map_of_spec; eauto)|assert (is_map_of t tk tv) by (apply map_of_spec; eauto)]; eapply map_of_map; eassumption.
    - rewrite same1_spec. apply map_entry_none in Mt. split; [intros H; right; split; [tauto|exact H]|]. intros [(? & ? & ? & ? & _ & A & _)|[_ H]]; [|exact H].
      exfalso. apply Mt. eapply map_of_map. exact A.
    - rewrite same1_spec. apply map_entry_none in Mf. split; [intros H; right; split; [tauto|exact H]|]. intros [(? & ? & ? & ? & A & _ & _)|[_ H]]; [|exact H].
      exfalso. apply Mf. eapply map_of_map. exact A.
  Qed.
  Lemma required_spec : forall f t, requiredCast f t = true <-> ~ same f t.
  Proof. intros f t. rewrite <- same_spec. destruct (requiredCast f t); split; congruence. Qed.

  (** *** Fields *)
  Lemma source_spec : forall b tf a n ft, In tf (m_fields (msgs b)) -> (toStructField msgs tf a = Some (n, ft) <-> source_of tf a n ft).
  Proof.
    intros b tf a n ft Htf. destruct (W b) as (_ & _ & _ & Wa & _). destruct (Wa tf Htf) as [ND _]. destruct (W a) as (NF & _). unfold toStructField, Spec.source_of.
    destruct (find (fun x => Nat.eqb (fst x) a) (f_aliases tf)) as [[a' [n' ft']]|] eqn:F.
    - apply find_some in F. destruct F as [F E]. cbn in E. apply Nat.eqb_eq in E. subst a'. cbn [snd]. split.
      + intros H. injection H as <- <-. left. exact F.
      + intros [H|(N & _)]; [|destruct (N _ F eq_refl)]. f_equal.
        assert (X : forall (l : list (nat * (string * ty))) x y, NoDup (map fst l) -> In (a, x) l -> In (a, y) l -> x = y).
        { clear. induction l as [|[c z] l IH]; intros x y N Hx Hy; [destruct Hx|]. cbn in N. inversion N as [|? ? N1 N2]; subst. destruct Hx as [Hx|Hx], Hy as [Hy|Hy]; try congruence.
          - injection Hx as <- <-. destruct N1. exact (in_map fst _ _ Hy).
          - injection Hy as <- <-. destruct N1. exact (in_map fst _ _ Hx).
          - eapply IH; eassumption. }
        exact (X _ _ _ ND F H).
    - assert (N : forall x, In x (f_aliases tf) -> fst x <> a).
      { intros x Hx E. pose proof (find_none _ _ F x Hx) as C. cbn in C. rewrite E, Nat.eqb_refl in C. discriminate C. }
      destruct (find_field (msgs a) (f_name tf)) as [f|] eqn:Ff; unfold find_field in Ff.
      + apply find_some in Ff. destruct Ff as [Hf E]. apply String.eqb_eq in E. split.
        * intros H. injection H as <- <-. right. split; [exact N|]. split; [exact E|]. exists f. auto.
        * intros [H|(_ & -> & g & Hg & En & <-)]; [destruct (N _ H eq_refl)|]. assert (g = f) as -> by (eapply NoDup_name; [exact NF|exact Hg|exact Hf|congruence]). congruence.
      + split; [discriminate|]. intros [H|(_ & -> & g & Hg & En & _)]; [destruct (N _ H eq_refl)|]. exfalso. pose proof (find_none _ _ Ff g Hg) as C. cbn in C.
        rewrite En, String.eqb_refl in C. discriminate C.
  Qed.
  Lemma source_unique : forall b tf a n ft n' ft', In tf (m_fields (msgs b)) -> source_of tf a n ft -> source_of tf a n' ft' -> n = n' /\ ft = ft'.
  Proof. intros b tf a n ft n' ft' H A B. apply (source_spec b) in A, B; try assumption. rewrite A in B. injection B as <- <-. auto. Qed.
  (** The source is a field of the message. *)
  Lemma source_field : forall b tf a n ft, In tf (m_fields (msgs b)) -> source_of tf a n ft -> exists f, In f (m_fields (msgs a)) /\ f_name f = n /\ f_type f = ft.
  Proof.
    intros b tf a n ft H [S|(_ & _ & f & Hf)]; [|exists f; exact Hf]. destruct (W b) as (_ & _ & _ & Wa & _). destruct (Wa tf H) as [_ X]. exact (X _ _ _ S).
  Qed.
  Lemma source_typed : forall b tf a n ft fs x, In tf (m_fields (msgs b)) -> source_of tf a n ft -> In (n, x) fs ->
    Forall (fun p => exists f, In f (m_fields (msgs a)) /\ f_name f = fst p /\ typed (f_type f) (snd p)) fs -> typed ft x.
  Proof.
    intros b tf a n ft fs x H S Hx Tf. rewrite Forall_forall in Tf. destruct (Tf _ Hx) as (f & Hf & En & Ty). cbn in *.
    destruct (source_field _ _ _ _ _ H S) as (g & Hg & Eg & <-). destruct (W a) as (NF & _). assert (g = f) as -> by (eapply NoDup_name; [exact NF|exact Hg|exact Hf|congruence]). exact Ty.
  Qed.
  Lemma default_zero : forall t, default msgs t (zero msgs t).
  Proof.
    intros t. unfold default, zero. destruct (t_rep t); [reflexivity|]. destruct (map_entry t) as [m|] eqn:M.
    - left. apply map_entry_spec in M. destruct M as (n & K & E & M & _). split; [exists n; auto|reflexivity].
    - apply map_entry_none in M. unfold is_message. destruct (t_kind t) eqn:K; try (right; left; auto; fail); right; right; (split; [discriminate|]); reflexivity.
  Qed.
  Lemma fst_unique : forall (fs : list (string * value)) n x y, NoDup (map fst fs) -> In (n, x) fs -> In (n, y) fs -> x = y.
  Proof.
    intros fs n x y N Hx Hy. assert ((n, x) = (n, y)) as E by (eapply (NoDup_name _ fst); [exact N|exact Hx|exact Hy|reflexivity]). congruence.
  Qed.

  Variable G : ty -> ty -> Prop.
  Hypothesis WG : all_writable enums msgs G.

  Definition good (f t : ty) (v : value) (r : res) : Prop := match r with Val w => converts f t v w | Fail => breaks f t v | Stuck => False end.
  Definition fine (v : value) : Prop := forall f t, G f t -> typed f v -> good f t v (cast f t v).
  Definition moved_good (f t : ty) (v : value) (r : res) : Prop :=
    match r with Val w => moved f t v w | Fail => ~ same f t /\ breaks f t v | Stuck => False end.

  Lemma conv_good : forall f t v, same f t \/ G f t -> typed f v -> fine v -> moved_good f t v (conv msgs cast f t v).
  Proof.
    intros f t v C T F. unfold conv. destruct (requiredCast f t) eqn:R.
    - apply required_spec in R. destruct C as [C|C]; [contradiction|]. specialize (F f t C T). unfold good, moved_good in *. destruct (cast f t v); [constructor; assumption|auto|exact F].
    - apply same_spec in R. cbn. constructor. exact R.
  Qed.

  Lemma list_good : forall f t l, same f t \/ G f t -> Forall (typed f) l -> Forall fine l ->
    match cast_list msgs cast f t l with PVal l' => Forall2 (moved f t) l l' | PFail => exists x, In x l /\ ~ same f t /\ breaks f t x | PStuck => False end.
  Proof.
    intros f t l C T F. induction l as [|x l IH]; [constructor|]. inversion T as [|? ? T1 T2]; subst. inversion F as [|? ? F1 F2]; subst.
    specialize (IH T2 F2). cbn [cast_list]. pose proof (conv_good f t x C T1 F1) as X. destruct (conv msgs cast f t x); cbn [to_pres pbind]; [|exists x; split; [left; reflexivity|exact X]|destruct X].
    fold (cast_list msgs cast f t). destruct (cast_list msgs cast f t l); cbn [pbind]; [constructor; assumption| |exact IH]. destruct IH as (z & Hz & B). exists z. split; [right; exact Hz|exact B].
  Qed.

  Lemma insert_in : forall k v l q, In q (insert k v l) -> q = (k, v) \/ In q l.
  Proof.
    intros k v l q. induction l as [|[k' v'] l IH]; intros H; cbn in H; [destruct H as [<-|[]]; auto|].
    destruct (key_eqb k k') eqn:E.
    - destruct H as [<-|H]; [|right; right; exact H]. left. f_equal. destruct k, k'; try discriminate E; cbn in E; [apply Z.eqb_eq in E|apply Nat.eqb_eq in E]; congruence.
    - destruct H as [<-|H]; [right; left; reflexivity|]. destruct (IH H) as [->|Hi]; [left; reflexivity|right; right; exact Hi].
  Qed.
  Lemma insert_key : forall k v l, exists q, In q (insert k v l) /\ fst q = k.
  Proof.
    intros k v l. induction l as [|[k' v'] l IH]; cbn; [exists (k, v); split; [left; reflexivity|reflexivity]|]. destruct (key_eqb k k') eqn:E; [|destruct IH as (q & H & Eq); exists q; split; [right; exact H|exact Eq]].
    exists (k', v). split; [left; reflexivity|]. destruct k, k'; try discriminate E; cbn in E; [apply Z.eqb_eq in E|apply Nat.eqb_eq in E]; cbn; congruence.
  Qed.
  Lemma insert_keep : forall k v l p, In p l -> exists q, In q (insert k v l) /\ fst q = fst p.
  Proof.
    intros k v l p. induction l as [|[k' v'] l IH]; intros H; [destruct H|]. cbn. destruct (key_eqb k k').
    - destruct H as [<-|H]; [exists (k', v); cbn; auto|]. exists p. cbn. auto.
    - destruct H as [<-|H]; [exists (k', v'); cbn; auto|]. destruct (IH H) as (q & Hq & E). exists q. cbn. auto.
  Qed.
  Lemma entries_good : forall fk tk fv tv l acc, same fk tk \/ G fk tk -> same fv tv \/ G fv tv ->
    Forall (fun p => typed fk (fst p) /\ typed fv (snd p)) l -> Forall (fun p => fine (fst p) /\ fine (snd p)) l ->
    match cast_entries msgs cast fk tk fv tv l acc with
    | PVal out => (forall p, In p acc -> exists q, In q out /\ fst q = fst p) /\
                  (forall p, In p l -> exists y, moved fv tv (snd p) y) /\
                  (forall p, In p l -> exists q, In q out /\ moved fk tk (fst p) (fst q)) /\
                  (forall q, In q out -> In q acc \/ exists p, In p l /\ moved fk tk (fst p) (fst q) /\ moved fv tv (snd p) (snd q))
    | PFail => exists p, In p l /\ ((~ same fk tk /\ breaks fk tk (fst p)) \/ (~ same fv tv /\ breaks fv tv (snd p)))
    | PStuck => False
    end.
  Proof.
    intros fk tk fv tv l acc Ck Cv T F. revert acc. induction l as [|[k x] l IH]; intros acc.
    - cbn. split; [intros p Hp; exists p; auto|]. split; [intros p []|]. split; [intros p []|]. auto.
    - inversion T as [|? ? [T1 T2] T3]; subst. inversion F as [|? ? [F1 F2] F3]; subst. specialize (IH T3 F3). cbn [fst snd] in *. cbn [cast_entries].
      pose proof (conv_good fk tk k Ck T1 F1) as Xk. destruct (conv msgs cast fk tk k) as [k'| |]; cbn [to_pres pbind]; [|exists (k, x); split; [left; reflexivity|left; exact Xk]|destruct Xk].
      pose proof (conv_good fv tv x Cv T2 F2) as Xv. destruct (conv msgs cast fv tv x) as [x'| |]; cbn [to_pres pbind]; [|exists (k, x); split; [left; reflexivity|right; exact Xv]|destruct Xv].
      fold (cast_entries msgs cast fk tk fv tv). specialize (IH (insert k' x' acc)). destruct (cast_entries msgs cast fk tk fv tv l (insert k' x' acc)) as [out| |].
      + cbn [moved_good] in Xk, Xv. destruct IH as (A & V & B & C). split; [|split; [|split]].
        2:{ intros p [<-|Hp]; [exists x'; exact Xv|apply V, Hp]. }
        * intros p Hp. destruct (insert_keep k' x' acc p Hp) as (q & Hq & Eq). destruct (A q Hq) as (q' & Hq' & Eq'). exists q'. split; [exact Hq'|congruence].
        * intros p [<-|Hp]; [|apply B, Hp]. destruct (insert_key k' x' acc) as (q & Hq & Eq). destruct (A q Hq) as (q' & Hq' & Eq'). exists q'. split; [exact Hq'|].
          cbn [fst]. rewrite Eq', Eq. exact Xk.
        * intros q Hq. destruct (C q Hq) as [Hi|(p & Hp & Hm)]; [|right; exists p; split; [right; exact Hp|exact Hm]]. apply insert_in in Hi. destruct Hi as [->|Hi]; [|left; exact Hi].
          right. exists (k, x). split; [left; reflexivity|]. auto.
      + destruct IH as (p & Hp & B). exists p. split; [right; exact Hp|exact B].
      + exact IH.
  Qed.

  (** *** Values without conversions inside *)
  Ltac kinds := unfold is_message in *; cbn [strip elem t_kind t_rep t_oneof t_msg t_enum] in *.
  Lemma not_map : forall t a, is_msg t a -> map_entry t = None.
  Proof. intros t a (K & E & M). apply map_entry_none. intros (m & _ & E' & M'). congruence. Qed.
  Lemma kind_not_map : forall t, t_kind t <> Message -> map_entry t = None.
  Proof. intros t K. apply map_entry_none. intros (m & K' & _). contradiction. Qed.
  Lemma kind_not_msg : forall t, t_kind t <> Message -> is_message t = false.
  Proof. intros t K. unfold is_message. destruct (t_kind t); congruence. Qed.

  Lemma case_list : forall l, Forall fine l -> fine (VList l).
  Proof.
    intros l F f t Hg T. pose proof (WG f t Hg) as (NS & Wr). inversion T as [? ? R Tl| | | | |]; subst. destruct Wr as [(_ & Of & Ot & C)|[(R' & _)|[(R' & _)|(R' & _)]]]; try congruence.
    rewrite cast_eq. unfold Model.body. rewrite R. pose proof (list_good (elem f) (elem t) l C Tl F) as X. destruct (cast_list msgs cast (elem f) (elem t) l) as [l'| |]; cbn [of_pres]; unfold wrap; rewrite Ot.
    - constructor; assumption.
    - destruct X as (x & Hx & N & B). eapply b_list; eassumption.
    - exact X.
  Qed.
  Lemma case_map : forall l, Forall (fun p => fine (fst p) /\ fine (snd p)) l -> fine (VMap l).
  Proof.
    intros l F f t Hg T. pose proof (WG f t Hg) as (NS & Wr). inversion T as [|? k x ? R M Tl| | | |]; subst.
    destruct Wr as [(R' & _)|[(_ & fk & fv & tk & tv & Mf & Mt & Ot & Ck & Cv)|[(_ & a & b & If & _)|(_ & _ & K & _)]]]; try congruence.
    - assert (fk = k /\ fv = x) as [-> ->].
      { apply map_of_spec in Mf, M. destruct Mf as (? & E1 & E2), M as (? & E3 & E4). split; congruence. }
      pose proof Mf as Mf'. pose proof Mt as Mt'. apply map_of_spec in Mf', Mt'. destruct Mf' as (mf & Ef & Nf), Mt' as (mt & Et & Nt).
      rewrite cast_eq. unfold Model.body. rewrite R, Ef, Et, Nf, Nt. pose proof (entries_good k tk x tv l [] Ck Cv Tl F) as X.
      destruct (cast_entries msgs cast k tk x tv l []) as [out| |]; cbn [of_pres]; unfold wrap; rewrite Ot.
      + destruct X as (_ & V & B & C). eapply c_map; try eassumption. intros q Hq. destruct (C q Hq) as [[]|Hp]. exact Hp.
      + destruct X as (p & Hp & [[N B]|[N B]]); [eapply b_key|eapply b_value]; eassumption.
      + exact X.
    - apply not_map in If. apply map_of_spec in M. destruct M as (? & E & _). congruence.
    - apply kind_not_map in K. apply map_of_spec in M. destruct M as (? & E & _). congruence.
  Qed.
  Lemma case_nil : fine (VMsg None).
  Proof.
    intros f t Hg T. pose proof (WG f t Hg) as (NS & Wr). inversion T as [| |? a R M| | |]; subst.
    destruct Wr as [(R' & _)|[(_ & fk & fv & tk & tv & Mf & _)|[(_ & c & b & If & It & Oo & _)|(_ & _ & K & _)]]]; try congruence.
    - apply not_map in M. apply map_of_spec in Mf. destruct Mf as (? & E & _). congruence.
    - pose proof If as (K & _). rewrite cast_eq. unfold Model.body. rewrite R, (not_map _ _ If). destruct (t_oneof f) eqn:Of.
      + rewrite (Oo eq_refl). constructor; assumption.
      + unfold is_message. rewrite K. constructor; assumption.
    - destruct M as (K' & _). contradiction.
  Qed.
  Lemma int_cast_kinds : forall k k' z r, generated_int_cast k k' z = Some r -> ~ (k = Enum /\ k' = Enum).
  Proof. intros k k' z r H [-> ->]. discriminate H. Qed.
  Lemma scalar_good : forall f t z g, t_rep f = false -> t_oneof t = false -> t_kind f <> Message -> kind_gotype (t_kind f) = Some g ->
    match kind_gotype (t_kind f), kind_gotype (t_kind t) with
    | Some _, Some _ => if is_enum f && is_enum t
                        then exists a b, t_enum f = Some a /\ t_enum t = Some b /\ ToEnum enums a b <> None
                        else forall z, generated_int_cast (t_kind f) (t_kind t) z <> None
    | _, _ => True
    end -> good f t (VNum z) (scalar enums other f t (VNum z)).
  Proof.
    intros f t z g R Ot NM Kg X. unfold scalar. rewrite Kg in *. destruct (kind_gotype (t_kind t)) as [g'|] eqn:Kt.
    2:{ apply c_other; auto. }
    destruct (is_enum f && is_enum t) eqn:D.
    - apply andb_true_iff in D. destruct D as [D1 D2]. assert (Kf : t_kind f = Enum) by (unfold is_enum in D1; destruct (t_kind f); congruence).
      assert (Kt' : t_kind t = Enum) by (unfold is_enum in D2; destruct (t_kind t); congruence).
      destruct X as (a & b & Ef & Et & N). rewrite Ef, Et. destruct (ToEnum enums a b) as [c|] eqn:Ec; [|contradiction]. eapply c_enum; eassumption.
    - specialize (X z). destruct (generated_int_cast (t_kind f) (t_kind t) z) as [[z'|e]|] eqn:Eg; [| |contradiction].
      + apply c_num; assumption.
      + eapply b_num; eassumption.
  Qed.
  Lemma same_strip : forall f t, same (strip f) (strip t) <-> same f t.
  Proof. intros f t. reflexivity. Qed.
  Lemma scalar_strip : forall f t v, scalar enums other (strip f) (strip t) v = scalar enums other f t v.
  Proof. reflexivity. Qed.
  (** The wrapper of a oneof *)
  Lemma wrap_good : forall f t v, t_rep f = false -> ~ same f t -> v <> VMsg None -> (forall r, breaks (strip f) (strip t) r -> breaks f t r) ->
    forall r, (t_oneof t = false -> good f t v r) -> good (strip f) (strip t) v r -> good f t v (wrap t r).
  Proof.
    intros f t v R NS NV B r H1 H2. unfold wrap. destruct (t_oneof t) eqn:Ot; [|apply H1; reflexivity]. destruct r as [w| |]; cbn [bind] in *.
    - apply c_member; try assumption. apply m_convert; [exact NS|exact H2].
    - apply B, H2.
    - exact H2.
  Qed.
  Lemma breaks_strip : forall f t v, t_rep f = false -> breaks (strip f) (strip t) v -> breaks f t v.
  Proof.
    intros f t v R H. inversion H; subst; cbn [strip t_rep t_msg t_kind] in *; try congruence.
    - eapply b_num; eassumption.
    - eapply b_key; eassumption.
    - eapply b_value; eassumption.
    - eapply b_field; eassumption.
    - eapply b_member; eassumption.
  Qed.
  Lemma case_num : forall z, fine (VNum z).
  Proof.
    intros z f t Hg T. pose proof (WG f t Hg) as (NS & Wr). inversion T as [| | | |? g ? R K Fz|]; subst.
    assert (NM : t_kind f <> Message) by (intros E; rewrite E in K; discriminate K).
    destruct Wr as [(R' & _)|[(_ & fk & fv & tk & tv & Mf & _)|[(_ & c & b & (K' & _) & _)|(_ & Of & _ & X)]]]; try congruence.
    - apply map_of_spec in Mf. destruct Mf as (? & E & _). rewrite (kind_not_map _ NM) in E. discriminate E.
    - rewrite cast_eq. unfold Model.body. rewrite R, (kind_not_map _ NM), Of. unfold cast_single. rewrite (kind_not_msg _ NM).
      apply wrap_good; [exact R|exact NS|discriminate|intros; eapply breaks_strip; eassumption| |].
      + intros Ot. eapply scalar_good; eassumption.
      + rewrite <- scalar_strip. eapply scalar_good; try eassumption. reflexivity.
  Qed.
  Lemma case_other : forall n, fine (VOther n).
  Proof.
    intros n f t Hg T. pose proof (WG f t Hg) as (NS & Wr). inversion T as [| | | | |? ? R NM K]; subst.
    destruct Wr as [(R' & _)|[(_ & fk & fv & tk & tv & Mf & _)|[(_ & c & b & (K' & _) & _)|(_ & Of & _ & X)]]]; try congruence.
    - apply map_of_spec in Mf. destruct Mf as (? & E & _). rewrite (kind_not_map _ NM) in E. discriminate E.
    - rewrite cast_eq. unfold Model.body. rewrite R, (kind_not_map _ NM), Of. unfold cast_single. rewrite (kind_not_msg _ NM).
      apply wrap_good; [exact R|exact NS|discriminate|intros; eapply breaks_strip; eassumption| |].
      + intros Ot. apply c_other; auto.
      + exact (c_other enums msgs other (strip f) (strip t) (VOther n) R eq_refl NM (or_introl K)).
  Qed.

  (** A field that is not set *)
  Lemma zero_typed : forall f t, G f t -> typed f (zero msgs f).
  Proof.
    intros f t Hg. pose proof (WG f t Hg) as (_ & Wr). unfold zero.
    destruct Wr as [(R & _)|[(R & fk & fv & tk & tv & Mf & _)|[(R & c & b & M & _)|(R & _ & NM & _)]]]; rewrite R.
    - apply t_list; [exact R|constructor].
    - pose proof Mf as E. apply map_of_spec in E. destruct E as (m & E & _). rewrite E. eapply t_map; [exact R|exact Mf|constructor].
    - rewrite (not_map _ _ M). pose proof M as (K & _). unfold is_message. rewrite K. eapply t_nil; eassumption.
    - rewrite (kind_not_map _ NM), (kind_not_msg _ NM). destruct (kind_gotype (t_kind f)) as [g|] eqn:K; [|apply t_other; assumption].
      eapply t_num; [exact R|exact K|]. destruct g; unfold fits, lo, hi; lia.
  Qed.
  Lemma zero_fine : forall f, fine (zero msgs f).
  Proof.
    intros f. unfold zero. destruct (t_rep f); [apply case_list; constructor|]. destruct (map_entry f); [apply case_map; constructor|].
    destruct (is_message f); [apply case_nil|]. destruct (kind_gotype (t_kind f)); [apply case_num|apply case_other].
  Qed.
  Lemma zero_does_not_break : forall f t, ~ breaks f t (zero msgs f).
  Proof.
    intros f t H. unfold zero in H. destruct (t_rep f) eqn:R; [inversion H; subst; match goal with X : In _ [] |- _ => destruct X end|].
    destruct (map_entry f) eqn:M; [inversion H; subst; match goal with X : In _ [] |- _ => destruct X end|].
    destruct (is_message f); [inversion H|]. destruct (kind_gotype (t_kind f)); [|inversion H]. inversion H as [? ? ? e R' E| | | | |]; subst.
    destruct (t_kind f), (t_kind t); vm_compute in E; discriminate E.
  Qed.

  Lemma get_good : forall n f t fs, same f t \/ G f t -> (forall x, In (n, x) fs -> typed f x) -> Forall (fun p => fine (snd p)) fs -> NoDup (map fst fs) ->
    match get_conv msgs cast (cast_zero enums msgs other) n f t fs with
    | Val y => exists x, value_of msgs n f fs x /\ moved f t x y
    | Fail => exists x, In (n, x) fs /\ ~ same f t /\ breaks f t x
    | Stuck => False
    end.
  Proof.
    intros n f t fs C T F N. induction fs as [|[n' x] fs IH].
    - cbn. unfold zconv. destruct (requiredCast f t) eqn:R.
      + apply required_spec in R. destruct C as [C|C]; [contradiction|]. rewrite zero_eq. pose proof (zero_fine f f t C (zero_typed f t C)) as X.
        destruct (cast f t (zero msgs f)) as [w| |]; cbn in X.
        * exists (zero msgs f). split; [right; split; [intros y []|apply default_zero]|]. constructor; assumption.
        * destruct (zero_does_not_break _ _ X).
        * exact X.
      + apply same_spec in R. exists (zero msgs f). split; [right; split; [intros y []|apply default_zero]|]. constructor. exact R.
    - cbn [get_conv]. inversion F as [|? ? F1 F2]; subst. cbn [map fst] in N. inversion N as [|? ? N1 N2]; subst. destruct (String.eqb n' n) eqn:E.
      + apply String.eqb_eq in E. subst n'. assert (Tx : typed f x) by (apply T; left; reflexivity). pose proof (conv_good f t x C Tx F1) as X.
        destruct (conv msgs cast f t x) as [y| |]; cbn in X; [|exists x; split; [left; reflexivity|exact X]|exact X]. exists x. split; [left; left; reflexivity|exact X].
      + fold (get_conv msgs cast (cast_zero enums msgs other) n f t). assert (n' <> n) as E' by (intros ->; rewrite String.eqb_refl in E; discriminate E).
        specialize (IH (fun x Hx => T x (or_intror Hx)) F2 N2). destruct (get_conv msgs cast (cast_zero enums msgs other) n f t fs) as [y| |].
        * destruct IH as (z & [Hz|[Hz D]] & M); exists z; (split; [|exact M]); [left; right; exact Hz|right; split; [|exact D]].
          intros y' [Ey|Hy]; [injection Ey as <- _; contradiction|exact (Hz y' Hy)].
        * destruct IH as (z & Hz & B). exists z. split; [right; exact Hz|exact B].
        * exact IH.
  Qed.

  Section Struct.
    Variables a b : nat.
    Variable fs : list (string * value).
    Hypotheses (Tf : Forall (fun p => exists f, In f (m_fields (msgs a)) /\ f_name f = fst p /\ typed (f_type f) (snd p)) fs)
      (Ff : Forall (fun p => fine (snd p)) fs) (Nf : NoDup (map fst fs)).
    Hypothesis S : forall tf n ft, In tf (m_fields (msgs b)) -> source_of tf a n ft ->
      if t_oneof (f_type tf) then G ft (f_type tf) /\ t_rep ft = false /\ exists c, is_msg ft c else same ft (f_type tf) \/ G ft (f_type tf).

    Lemma fields_good : forall l, incl l (m_fields (msgs b)) -> NoDup (map f_name l) ->
      match cast_fields msgs cast (cast_zero enums msgs other) a fs l with
      | PVal out => (forall tf n ft, In tf l -> t_oneof (f_type tf) = false -> source_of tf a n ft ->
                       exists x y, value_of msgs n ft fs x /\ In (f_name tf, y) out /\ moved ft (f_type tf) x y) /\
                    (forall n' y, In (n', y) out -> exists tf n ft, In tf l /\ f_name tf = n' /\ t_oneof (f_type tf) = false /\ source_of tf a n ft) /\
                    NoDup (map fst out)
      | PFail => exists tf n ft x, In tf l /\ t_oneof (f_type tf) = false /\ source_of tf a n ft /\ In (n, x) fs /\ ~ same ft (f_type tf) /\ breaks ft (f_type tf) x
      | PStuck => False
      end.
    Proof.
      induction l as [|tf l IH]; intros I N.
      - cbn. split; [intros ? ? ? []|]. split; [intros ? ? []|constructor].
      - assert (Htf : In tf (m_fields (msgs b))) by (apply I; left; reflexivity). cbn [map] in N. inversion N as [|? ? N1 N2]; subst.
        specialize (IH (fun x Hx => I x (or_intror Hx)) N2). cbn [cast_fields]. fold (cast_fields msgs cast (cast_zero enums msgs other) a fs).
        destruct (t_oneof (f_type tf)) eqn:Oo.
        + destruct (cast_fields msgs cast (cast_zero enums msgs other) a fs l) as [out| |].
          * destruct IH as (A & B & C). split; [|split; [|exact C]].
            -- intros tf' n ft [<-|Hi] Ho Hs; [congruence|]. eapply A; eassumption.
            -- intros n' y Hy. destruct (B n' y Hy) as (tf' & n & ft & Hi & X). exists tf', n, ft. split; [right; exact Hi|exact X].
          * destruct IH as (tf' & n & ft & x & Hi & X). exists tf', n, ft, x. split; [right; exact Hi|exact X].
          * exact IH.
        + destruct (toStructField msgs tf a) as [[n ft]|] eqn:Es.
          * apply (source_spec b) in Es; [|exact Htf]. pose proof (S tf n ft Htf Es) as Sc. rewrite Oo in Sc.
            pose proof (get_good n ft (f_type tf) fs Sc (fun x Hx => source_typed _ _ _ _ _ _ _ Htf Es Hx Tf) Ff Nf) as X.
            destruct (get_conv msgs cast (cast_zero enums msgs other) n ft (f_type tf) fs) as [y| |]; cbn [to_pres pbind].
            -- destruct (cast_fields msgs cast (cast_zero enums msgs other) a fs l) as [out| |]; cbn [pbind].
               ++ destruct IH as (A & B & C). destruct X as (x & Vx & Mx). split; [|split].
                  ** intros tf' n' ft' [<-|Hi] Ho Hs.
                     --- destruct (source_unique _ _ _ _ _ _ _ Htf Es Hs) as [<- <-]. exists x, y. split; [exact Vx|]. split; [left; reflexivity|exact Mx].
                     --- destruct (A tf' n' ft' Hi Ho Hs) as (x' & y' & V' & I' & M'). exists x', y'. split; [exact V'|]. split; [right; exact I'|exact M'].
                  ** intros n' y' [E|Hy].
                     --- injection E as <- <-. exists tf, n, ft. split; [left; reflexivity|]. auto.
                     --- destruct (B n' y' Hy) as (tf' & n2 & ft' & Hi & X). exists tf', n2, ft'. split; [right; exact Hi|exact X].
                  ** cbn [map fst]. constructor; [|exact C]. intros Hi. apply in_map_iff in Hi. destruct Hi as ([n' y'] & E & Hi). cbn in E. subst n'.
                     destruct (B _ _ Hi) as (tf' & _ & _ & Hi' & En & _). apply N1. rewrite <- En. apply in_map, Hi'.
               ++ destruct IH as (tf' & n' & ft' & x' & Hi & Y). exists tf', n', ft', x'. split; [right; exact Hi|exact Y].
               ++ exact IH.
            -- destruct X as (x & Hx & NS & B). exists tf, n, ft, x. split; [left; reflexivity|]. auto.
            -- exact X.
          * assert (NSrc : forall n ft, ~ source_of tf a n ft) by (intros n ft Hs; apply (source_spec b) in Hs; [congruence|exact Htf]).
            destruct (cast_fields msgs cast (cast_zero enums msgs other) a fs l) as [out| |].
            -- destruct IH as (A & B & C). split; [|split; [|exact C]].
               ++ intros tf' n ft [<-|Hi] Ho Hs; [destruct (NSrc _ _ Hs)|]. eapply A; eassumption.
               ++ intros n' y Hy. destruct (B n' y Hy) as (tf' & n & ft & Hi & X). exists tf', n, ft. split; [right; exact Hi|exact X].
            -- destruct IH as (tf' & n & ft & x & Hi & X). exists tf', n, ft, x. split; [right; exact Hi|exact X].
            -- exact IH.
    Qed.

    Lemma member_good : forall n f t l, G f t -> t_rep f = false -> (exists c, is_msg f c) -> t_oneof t = true -> incl l fs -> NoDup (map fst l) ->
      (forall x, In (n, x) l -> typed f x) -> Forall (fun p => fine (snd p)) l ->
      match get_member msgs cast n f t l with
      | None => forall x, ~ holds_message n l x
      | Some r => exists x, holds_message n l x /\
          match to_pres r with PVal y => exists y', y = VWrap y' /\ converts f t x (VWrap y') | PFail => breaks f t x | PStuck => False end
      end.
    Proof.
      intros n f t l Hg R [c M] Ot. induction l as [|[n' x] l IH]; intros I N T F; [intros x [[] _]|]. cbn [get_member]. inversion F as [|? ? F1 F2]; subst.
      cbn [map fst] in N. inversion N as [|? ? N1 N2]; subst. destruct (String.eqb n' n) eqn:E.
      - apply String.eqb_eq in E. subst n'. assert (Tx : typed f x) by (apply T; left; reflexivity). pose proof M as (K & Em & Mm). inversion Tx; subst; try congruence.
        + match goal with X : Spec.is_map_of _ f _ _ |- _ => apply map_of_spec in X; destruct X as (? & E & _); rewrite (not_map _ _ M) in E; discriminate E end.
        + intros x' [[Hq|Hq] (l' & ->)]; [discriminate Hq|]. apply N1. exact (in_map fst _ _ Hq).
        + destruct (requiredCast f t) eqn:Rq.
          * eexists. split; [split; [left; reflexivity|eexists; reflexivity]|]. pose proof (F1 f t Hg Tx) as X. cbn [snd] in X.
            match goal with |- context[cast f t ?v] => destruct (cast f t v) as [w| |] end; cbn in *; [|exact X|exact X].
            inversion X; subst; try congruence. eexists. split; [reflexivity|exact X].
          * apply same_spec in Rq. destruct (WG f t Hg) as [NS _]. contradiction.
        + exfalso. match goal with X : kind_gotype (t_kind f) = Some _ |- _ => rewrite K in X; discriminate X end.
      - assert (n' <> n) as E' by (intros ->; rewrite String.eqb_refl in E; discriminate E). fold (get_member msgs cast n f t).
        specialize (IH (fun y Hy => I y (or_intror Hy)) N2 (fun y Hy => T y (or_intror Hy)) F2). destruct (get_member msgs cast n f t l) as [r|].
        + destruct IH as (z & [Hz Hl] & X). exists z. split; [split; [right; exact Hz|exact Hl]|exact X].
        + intros y [[H|H] Hl]; [injection H as <- _; contradiction|]. exact (IH y (conj H Hl)).
    Qed.

    Lemma oneof_good : forall o, In o (m_oneofs (msgs b)) -> forall l o1, o = o1 ++ l ->
      (forall tf' n' ft' x', In tf' o1 -> source_of tf' a n' ft' -> ~ holds_message n' fs x') ->
      match cast_oneof msgs cast a fs l with
      | PVal out => (out = [] /\ forall tf' n' ft' x', In tf' o -> source_of tf' a n' ft' -> ~ holds_message n' fs x') \/
                    (exists tf n ft x y, selected msgs a fs o tf n ft x /\ out = [(f_name tf, y)] /\ converts ft (f_type tf) x (VWrap y))
      | PFail => exists tf n ft x, selected msgs a fs o tf n ft x /\ breaks ft (f_type tf) x
      | PStuck => False
      end.
    Proof.
      intros o Ho. induction l as [|tf l IH]; intros o1 Eo U.
      - cbn. left. split; [reflexivity|]. rewrite Eo, app_nil_r. exact U.
      - destruct (W b) as (_ & _ & Wo & _). assert (Hin : In tf o) by (rewrite Eo; apply in_or_app; right; left; reflexivity). destruct (Wo o tf Ho Hin) as [Htf Ot].
        assert (IH' : (forall n' ft' x', source_of tf a n' ft' -> ~ holds_message n' fs x') ->
          match cast_oneof msgs cast a fs l with
          | PVal out => (out = [] /\ forall tf' n' ft' x', In tf' o -> source_of tf' a n' ft' -> ~ holds_message n' fs x') \/
                    (exists tf n ft x y, selected msgs a fs o tf n ft x /\ out = [(f_name tf, y)] /\ converts ft (f_type tf) x (VWrap y))
          | PFail => exists tf n ft x, selected msgs a fs o tf n ft x /\ breaks ft (f_type tf) x
          | PStuck => False
          end).
        { intros U'. apply (IH (o1 ++ [tf])); [rewrite <- app_assoc; exact Eo|]. intros tf' n' ft' x' Hi Hs. apply in_app_or in Hi. destruct Hi as [Hi|[<-|[]]]; [eapply U; eassumption|eapply U'; eassumption]. }
        cbn [cast_oneof]. rewrite Ot. cbn [negb]. fold (cast_oneof msgs cast a fs). destruct (toStructField msgs tf a) as [[n ft]|] eqn:Es.
        + apply (source_spec b) in Es; [|exact Htf]. pose proof (S tf n ft Htf Es) as Sc. rewrite Ot in Sc. destruct Sc as (Hg & R & M).
          pose proof (member_good n ft (f_type tf) fs Hg R M Ot (incl_refl _) Nf (fun x Hx => source_typed _ _ _ _ _ _ _ Htf Es Hx Tf) Ff) as X.
          destruct (get_member msgs cast n ft (f_type tf) fs) as [r|].
          * destruct X as (x & Hx & X). destruct (to_pres r) as [y| |]; cbn [pbind].
            -- destruct X as (y' & -> & X). right. exists tf, n, ft, x, y'. split; [|auto]. exists o1, l. auto.
            -- exists tf, n, ft, x. split; [|exact X]. exists o1, l. auto.
            -- exact X.
          * apply IH'. intros n' ft' x' Hs. destruct (source_unique _ _ _ _ _ _ _ Htf Es Hs) as [<- <-]. apply X.
        + apply IH'. intros n' ft' x' Hs. apply (source_spec b) in Hs; [|exact Htf]. congruence.
    Qed.

    Lemma selected_unique : forall o tf n ft x tf' n' ft' x', In o (m_oneofs (msgs b)) -> selected msgs a fs o tf n ft x -> selected msgs a fs o tf' n' ft' x' ->
      tf = tf' /\ n = n' /\ ft = ft' /\ x = x'.
    Proof.
      intros o tf n ft x tf' n' ft' x' Ho (o1 & o2 & E & Sr & H & U) (o1' & o2' & E' & Sr' & H' & U').
      assert (tf = tf') as ->.
      { rewrite E in E'. apply app_eq_app in E'. destruct E' as (l & [[E1 E2]|[E1 E2]]); destruct l as [|z l]; cbn in E2; try congruence.
        - injection E2 as -> E2. exfalso. eapply (U z); [rewrite E1; apply in_or_app; right; left; reflexivity|exact Sr'|exact H'].
        - injection E2 as -> E2. exfalso. eapply (U' z); [rewrite E1; apply in_or_app; right; left; reflexivity|exact Sr|exact H]. }
      destruct (W b) as (_ & _ & Wo & _). assert (Hin : In tf' o) by (rewrite E; apply in_or_app; right; left; reflexivity). destruct (Wo o tf' Ho Hin) as [Htf _].
      destruct (source_unique _ _ _ _ _ _ _ Htf Sr Sr') as [<- <-]. split; [reflexivity|]. split; [reflexivity|]. split; [reflexivity|].
      eapply fst_unique; [exact Nf|apply H|apply H'].
    Qed.

    Lemma oneofs_good : forall l, incl l (m_oneofs (msgs b)) -> NoDup (map f_name (concat l)) ->
      match cast_oneofs msgs cast a fs l with
      | PVal out => (forall o tf n ft x, In o l -> selected msgs a fs o tf n ft x -> exists y, In (f_name tf, y) out /\ converts ft (f_type tf) x (VWrap y)) /\
                    (forall n' y, In (n', y) out -> exists o tf n ft x, In o l /\ selected msgs a fs o tf n ft x /\ f_name tf = n') /\
                    NoDup (map fst out)
      | PFail => exists o tf n ft x, In o l /\ selected msgs a fs o tf n ft x /\ breaks ft (f_type tf) x
      | PStuck => False
      end.
    Proof.
      induction l as [|o l IH]; intros I N.
      - cbn. split; [intros ? ? ? ? ? []|]. split; [intros ? ? []|constructor].
      - assert (Ho : In o (m_oneofs (msgs b))) by (apply I; left; reflexivity). cbn [concat] in N. rewrite map_app in N.
        assert (N2 : NoDup (map f_name (concat l))). { clear - N. induction (map f_name o) as [|z r IH]; [exact N|]. inversion N; subst. auto. }
        specialize (IH (fun x Hx => I x (or_intror Hx)) N2). cbn [cast_oneofs]. fold (cast_oneofs msgs cast a fs).
        pose proof (oneof_good o Ho o [] eq_refl (fun tf' n' ft' x' (H : In tf' []) => match H with end)) as X. destruct (cast_oneof msgs cast a fs o) as [ho| |]; cbn [pbind].
        + destruct (cast_oneofs msgs cast a fs l) as [out| |]; cbn [pbind].
          * destruct IH as (A & B & C). destruct X as [[-> X]|(tf & n & ft & x & y & Sel & -> & Cv)].
            -- cbn [app]. split; [|split; [|exact C]].
               ++ intros o' tf n ft x [<-|Hi] Hs; [|eapply A; eassumption]. destruct Hs as (o1 & o2 & E & Sr & H & _). exfalso. eapply (X tf); [rewrite E; apply in_or_app; right; left; reflexivity|exact Sr|exact H].
               ++ intros n' y Hy. destruct (B n' y Hy) as (o' & tf & n & ft & x & Hi & Z). exists o', tf, n, ft, x. split; [right; exact Hi|exact Z].
            -- cbn [app]. split; [|split].
               ++ intros o' tf' n' ft' x' [<-|Hi] Hs.
                  ** destruct (selected_unique _ _ _ _ _ _ _ _ _ Ho Sel Hs) as (-> & -> & -> & ->). exists y. split; [left; reflexivity|exact Cv].
                  ** destruct (A _ _ _ _ _ Hi Hs) as (y' & Hy & Cv'). exists y'. split; [right; exact Hy|exact Cv'].
               ++ intros n' y' [E|Hy].
                  ** injection E as <- <-. exists o, tf, n, ft, x. split; [left; reflexivity|]. auto.
                  ** destruct (B n' y' Hy) as (o' & tf' & n2 & ft' & x' & Hi & Z). exists o', tf', n2, ft', x'. split; [right; exact Hi|exact Z].
               ++ cbn [map fst]. constructor; [|exact C]. intros Hi. apply in_map_iff in Hi. destruct Hi as ([n' y'] & E & Hi). cbn in E. subst n'.
                  destruct (B _ _ Hi) as (o' & tf' & n2 & ft' & x' & Hi' & (p1 & p2 & E' & _) & En). destruct Sel as (q1 & q2 & E2 & _).
                  assert (In1 : In (f_name tf) (map f_name o)) by (apply in_map; rewrite E2; apply in_or_app; right; left; reflexivity).
                  assert (In2 : In (f_name tf) (map f_name (concat l))).
                  { rewrite <- En. apply in_map. apply in_concat. exists o'. split; [exact Hi'|]. rewrite E'. apply in_or_app. right. left. reflexivity. }
                  clear - N In1 In2. induction (map f_name o) as [|z r IHr]; [destruct In1|]. cbn in N. inversion N as [|? ? M1 M2]; subst. destruct In1 as [->|In1].
                  --- apply M1. apply in_or_app. right. exact In2.
                  --- exact (IHr M2 In1).
          * destruct IH as (o' & tf & n & ft & x & Hi & Z). exists o', tf, n, ft, x. split; [right; exact Hi|exact Z].
          * exact IH.
        + destruct X as (tf & n & ft & x & Sel & B). exists o, tf, n, ft, x. split; [left; reflexivity|]. auto.
        + exact X.
    Qed.

    Lemma struct_good : forall f t, t_rep f = false -> is_msg f a -> t_msg t = Some b -> t_oneof t = false ->
      good f t (VMsg (Some fs)) (of_pres (cast_struct msgs cast (cast_zero enums msgs other) a b fs) (fun x => VMsg (Some x))).
    Proof.
      intros f t R M Et Ot. unfold cast_struct. destruct (W b) as (NF & NO & Wo & _).
      pose proof (fields_good (m_fields (msgs b)) (incl_refl _) NF) as X. destruct (cast_fields msgs cast (cast_zero enums msgs other) a fs (m_fields (msgs b))) as [o1| |]; cbn [pbind].
      - pose proof (oneofs_good (m_oneofs (msgs b)) (incl_refl _) NO) as Y. destruct (cast_oneofs msgs cast a fs (m_oneofs (msgs b))) as [o2| |]; cbn [pbind of_pres good].
        + destruct X as (A & B & C), Y as (D & E & F). eapply c_msg; try eassumption.
          * intros tf n ft Hi Ho Hs. destruct (A tf n ft Hi Ho Hs) as (x & y & V & Hy & Mv). exists x, y. split; [exact V|]. split; [apply in_or_app; left; exact Hy|exact Mv].
          * intros o tf n ft x Ho Hs. destruct (D o tf n ft x Ho Hs) as (y & Hy & Cv). exists y. split; [apply in_or_app; right; exact Hy|exact Cv].
          * rewrite map_app. 
            assert (Dj : forall n', In n' (map fst o1) -> ~ In n' (map fst o2)).
            { intros n' H1 H2. apply in_map_iff in H1, H2. destruct H1 as ([n1 y1] & E1 & H1), H2 as ([n2 y2] & E2 & H2). cbn in E1, E2. subst n1 n2.
              destruct (B _ _ H1) as (tf & _ & _ & Hi & En & Oo & _). destruct (E _ _ H2) as (o & tf' & _ & _ & _ & Ho & (p1 & p2 & Eo & _) & En').
              assert (Hin : In tf' o) by (rewrite Eo; apply in_or_app; right; left; reflexivity). destruct (Wo o tf' Ho Hin) as [Htf' Oo'].
              assert (tf = tf') as -> by (eapply NoDup_name; [exact NF|exact Hi|exact Htf'|congruence]). congruence. }
            clear - C F Dj. induction (map fst o1) as [|z r IH]; [exact F|]. cbn. inversion C as [|? ? C1 C2]; subst. constructor.
            -- intros H. apply in_app_or in H. destruct H as [H|H]; [exact (C1 H)|]. exact (Dj z (or_introl eq_refl) H).
            -- apply IH; [exact C2|]. intros n' Hn. apply Dj. right. exact Hn.
          * intros n' y Hy. apply in_app_or in Hy. destruct Hy as [Hy|Hy].
            -- destruct (B n' y Hy) as (tf & n & ft & Hi & En & Oo & Hs). exists tf, n, ft. split; [exact Hi|]. split; [exact En|]. split; [exact Hs|]. congruence.
            -- destruct (E n' y Hy) as (o & tf & n & ft & x & Ho & Sel & En). exists tf, n, ft. pose proof Sel as (p1 & p2 & Eo & Sr & _).
               assert (Hin : In tf o) by (rewrite Eo; apply in_or_app; right; left; reflexivity). destruct (Wo o tf Ho Hin) as [Htf _].
               split; [exact Htf|]. split; [exact En|]. split; [exact Sr|]. intros _. exists o, x. auto.
        + destruct Y as (o & tf & n & ft & x & Ho & Sel & Br). eapply b_member; try eassumption. pose proof Sel as (p1 & p2 & Eo & Sr & _).
          assert (Hin : In tf o) by (rewrite Eo; apply in_or_app; right; left; reflexivity). destruct (Wo o tf Ho Hin) as [Htf Oo].
          pose proof (S tf n ft Htf Sr) as Sc. rewrite Oo in Sc. destruct Sc as (Hg & _). apply (WG ft (f_type tf) Hg).
        + exact Y.
      - destruct X as (tf & n & ft & x & Hi & Oo & Hs & Hx & NS & Br). eapply b_field; eassumption.
      - exact X.
    Qed.
  End Struct.

  Lemma case_msg : forall fs, Forall (fun p => fine (snd p)) fs -> fine (VMsg (Some fs)).
  Proof.
    intros fs F f t Hg T. pose proof (WG f t Hg) as (NS & Wr). inversion T as [| | |? a ? R M ND Tf| |]; subst.
    destruct Wr as [(R' & _)|[(_ & fk & fv & tk & tv & Mf & _)|[(_ & c & b & If & It & Oo & S)|(_ & _ & K & _)]]]; try congruence.
    - apply not_map in M. apply map_of_spec in Mf. destruct Mf as (? & E & _). congruence.
    - assert (c = a) as -> by (destruct If as (_ & E1 & _), M as (_ & E2 & _); congruence). pose proof If as (K & Ea & Ma). pose proof It as (Kt & Eb & Mb).
      rewrite cast_eq. unfold Model.body. rewrite R, (not_map _ _ If).
      assert (X : good f t (VMsg (Some fs)) (wrap t (of_pres (cast_struct msgs cast (cast_zero enums msgs other) a b fs) (fun x => VMsg (Some x))))).
      { apply wrap_good; [exact R|exact NS|discriminate|intros; eapply breaks_strip; eassumption| |].
        - intros Ot. apply struct_good; assumption.
        - apply struct_good; try assumption. reflexivity. }
      destruct (t_oneof f) eqn:Of.
      + rewrite (Oo eq_refl). assert (Rq : requiredCast (strip f) (strip t) = true) by (apply required_spec; exact NS). rewrite Rq. unfold cast_single. kinds. rewrite K, Ea, Eb. exact X.
      + unfold cast_single. kinds. rewrite K, Ea, Eb. exact X.
    - destruct M as (K' & _). contradiction.
  Qed.

  (** *** What breaks does not convert. *)
  Lemma strip_breaks : forall f t v, t_rep f = false -> breaks f t v -> breaks (strip f) (strip t) v.
  Proof.
    intros f t v R H. inversion H; subst; try congruence.
    - eapply b_num; eassumption.
    - eapply b_key; eassumption.
    - eapply b_value; eassumption.
    - eapply b_field; eassumption.
    - eapply b_member; eassumption.
  Qed.
  Definition exclusive (v : value) : Prop := forall f t w, ~ same f t -> typed f v -> breaks f t v -> converts f t v w -> False.
  Lemma map_unique : forall t k v k' v', is_map_of t k v -> is_map_of t k' v' -> k = k' /\ v = v'.
  Proof. intros t k v k' v' A B. apply map_of_spec in A, B. destruct A as (? & E1 & E2), B as (? & E3 & E4). split; congruence. Qed.
  Lemma strip_converts : forall f t v w, t_rep f = false -> ~ same f t -> converts f t v w -> exists u, converts (strip f) (strip t) v u.
  Proof.
    intros f t v w R NS C. inversion C; subst; try congruence.
    - eexists. eapply c_map; eassumption.
    - eexists. apply c_nil; assumption.
    - eexists. eapply c_msg; try eassumption. reflexivity.
    - eexists. eapply c_enum; try eassumption. reflexivity.
    - eexists. eapply c_num; try eassumption. reflexivity.
    - eexists. apply (c_other enums msgs other (strip f) (strip t)); try eassumption. reflexivity.
    - match goal with Hm : Spec.moved _ _ _ _ _ _ _ |- _ => inversion Hm; subst end; [contradiction|]. eexists. eassumption.
  Qed.
  Lemma exclusive_core : forall v, (forall l, v <> VList l) ->
    (forall f t w, t_rep f = false -> t_oneof t = false -> ~ same f t -> typed f v -> breaks f t v -> converts f t v w -> False) -> exclusive v.
  Proof.
    intros v NL H f t w NS T B C.
    assert (R : t_rep f = false) by (inversion T; subst; try assumption; destruct (NL l eq_refl)).
    destruct (strip_converts f t v w R NS C) as [u Cu]. apply (H (strip f) (strip t) u); [exact R|reflexivity|exact NS| |apply strip_breaks; assumption|exact Cu].
    inversion T; subst; [congruence|eapply t_map; eassumption|eapply t_nil; eassumption|eapply t_message; eassumption|eapply t_num; eassumption|apply t_other; assumption].
  Qed.
  Lemma int_cast_gotypes : forall k k' z r, generated_int_cast k k' z = Some r -> kind_gotype k <> None /\ kind_gotype k' <> None.
  Proof. intros k k' z r H. unfold generated_int_cast in H. destruct (kind_gotype k); [|discriminate H]. destruct (kind_gotype k'); [|discriminate H]. split; discriminate. Qed.
  Lemma moved_convert : forall f t x y, ~ same f t -> moved f t x y -> converts f t x y.
  Proof. intros f t x y N M. inversion M; subst; [contradiction|assumption]. Qed.

  Theorem break_or_convert : forall v, exclusive v.
  Proof.
    intros v. induction v using value_ind'.
    - apply exclusive_core; [discriminate|]. intros f t w R Ot NS T B C. inversion B as [? ? ? e R' E| | | | |]; subst. inversion C; subst; try congruence.
      + apply (int_cast_kinds _ _ _ _ E). auto.
      + destruct (int_cast_gotypes _ _ _ _ E) as [X Y]. match goal with D : _ \/ _ |- _ => destruct D; contradiction end.
    - apply exclusive_core; [discriminate|]. intros f t w R Ot NS T B C. inversion B.
    - apply exclusive_core; [discriminate|]. intros f t w R Ot NS T B C. inversion B.
    - apply exclusive_core; [discriminate|]. intros f t w R Ot NS T B C. rewrite Forall_forall in H. inversion T as [| | |? a ? _ M ND Tf| |]; subst.
      inversion C as [| | |? ? a' b ? out R1 M1 Et _ F1 F2 _ _| | | |]; subst; try congruence; [|destruct M; contradiction].
      assert (a' = a) as -> by (destruct M as (_ & E1 & _), M1 as (_ & E2 & _); congruence).
      inversion B as [| | | |? ? a' b' ? tf n ft x R2 M2 Et2 Hi Oo Hs Hx NSf Bf|? ? a' b' ? o tf n ft x R2 M2 Et2 Ho Sel NSf Bf]; subst;
        (assert (a' = a) as -> by (destruct M as (_ & E1 & _), M2 as (_ & E2 & _); congruence)); (assert (b' = b) as -> by congruence).
      + destruct (F1 tf n ft Hi Oo Hs) as (x' & y & V & _ & Mv). destruct V as [V|[V _]]; [|destruct (V x Hx)].
        rewrite (fst_unique _ _ _ _ ND V Hx) in Mv. apply (H _ Hx ft (f_type tf) y NSf); [|exact Bf|apply moved_convert; assumption].
        eapply source_typed; eassumption.
      + destruct (F2 o tf n ft x Ho Sel) as (y & _ & Cv). pose proof Sel as (p1 & p2 & Eo & Sr & (Hx & _) & _).
        destruct (W b) as (_ & _ & Wo & _). assert (Hin : In tf o) by (rewrite Eo; apply in_or_app; right; left; reflexivity). destruct (Wo o tf Ho Hin) as [Htf _].
        apply (H _ Hx ft (f_type tf) (VWrap y) NSf); [|exact Bf|exact Cv]. eapply source_typed; eassumption.
    - intros f t w NS T B C. inversion B as [|? ? ? x R Hx NSe Be| | | |]; subst. inversion T as [? ? _ Tl| | | | |]; subst.
      inversion C as [? ? ? l' _ F2| | | | | | |]; subst; try congruence. rewrite Forall_forall in H, Tl.
      assert (X : exists y, moved (elem f) (elem t) x y).
      { clear - F2 Hx. induction F2 as [|a b l l' M F IH]; [destruct Hx|]. destruct Hx as [<-|Hx]; [exists b; exact M|exact (IH Hx)]. }
      destruct X as [y M]. apply (H x Hx (elem f) (elem t) y NSe (Tl x Hx) Be). apply moved_convert; assumption.
    - apply exclusive_core; [discriminate|]. intros f t w R Ot NS T B C. rewrite Forall_forall in H. inversion T as [|? k x ? _ M Tl| | | |]; subst. rewrite Forall_forall in Tl.
      inversion C as [|? ? fk fv tk tv ? out R1 Mf Mt V K _| | | | | |]; subst; try congruence.
      2:{ destruct M as (m & _ & _ & _ & Km & _). contradiction. }
      destruct (map_unique _ _ _ _ _ M Mf) as [-> ->].
      inversion B as [| |? ? fk' fv' tk' tv' ? p R2 Mf' Mt' Hp NSk Bk|? ? fk' fv' tk' tv' ? p R2 Mf' Mt' Hp NSk Bk| |]; subst;
        destruct (map_unique _ _ _ _ _ Mf Mf') as [<- <-]; destruct (map_unique _ _ _ _ _ Mt Mt') as [<- <-]; destruct (H p Hp) as [H1 H2]; destruct (Tl p Hp) as [T1 T2].
      + destruct (K p Hp) as (q & _ & Mq). apply (H1 fk tk (fst q) NSk T1 Bk). apply moved_convert; assumption.
      + destruct (V p Hp) as (y & My). apply (H2 fv tv y NSk T2 Bk). apply moved_convert; assumption.
    - intros f t w NS T. inversion T.
  Qed.

  Theorem main : forall v, fine v.
  Proof.
    intros v. induction v using value_ind'.
    - apply case_num. - apply case_other. - apply case_nil. - apply case_msg; assumption. - apply case_list; assumption. - apply case_map; assumption.
    - intros f t _ T. inversion T.
  Qed.

  (** *** Keys that need no conversion *)
  Lemma insert_new : forall k v l, ~ In k (map fst l) -> insert k v l = l ++ [(k, v)].
  Proof.
    intros k v l. induction l as [|[k' v'] l IH]; intros H; [reflexivity|]. cbn in *. destruct (key_eqb k k') eqn:E.
    - exfalso. apply H. left. destruct k, k'; try discriminate E; cbn in E; [apply Z.eqb_eq in E|apply Nat.eqb_eq in E]; congruence.
    - rewrite IH by tauto. reflexivity.
  Qed.
  Lemma entries_keys : forall fk tk fv tv l acc out, same fk tk -> NoDup (map fst acc ++ map fst l) ->
    cast_entries msgs cast fk tk fv tv l acc = PVal out -> map fst out = map fst acc ++ map fst l.
  Proof.
    intros fk tk fv tv l. induction l as [|[k x] l IH]; intros acc out Sm N H.
    - cbn in H. injection H as <-. cbn. rewrite app_nil_r. reflexivity.
    - cbn [cast_entries] in H. unfold conv in H at 1. apply same_spec in Sm as Sm'. rewrite Sm' in H. cbn [to_pres pbind] in H.
      destruct (conv msgs cast fv tv x) as [x'| |]; cbn [to_pres pbind] in H; try discriminate H.
      fold (cast_entries msgs cast fk tk fv tv) in H. cbn [map fst] in N. rewrite insert_new in H by (intros Hi; apply NoDup_remove_2 in N; apply N; apply in_or_app; left; exact Hi).
      assert (E : map fst (acc ++ [(k, x')]) = map fst acc ++ [k]) by (rewrite map_app; reflexivity).
      apply IH in H; [|exact Sm|]; rewrite E in *; rewrite <- app_assoc in *; cbn [app map fst] in *; [exact H|exact N].
  Qed.
End Proofs.
