(** * Lemmas about the enums and plugins of a file *)

From Coq Require Import Ascii String List Bool Arith ZArith Lia Sorted Permutation.
From Verif.Base Require Import Sort SortProofs.
From Verif.Enums Require Import Model Spec.
Import ListNotations.
Local Open Scope string_scope.

Section FileInd.
  Variable Q : file -> Prop.
  Hypothesis H : forall n es ms ps imports, Forall Q imports -> Q (File n es ms ps imports).
  Fixpoint file_ind2 (f : file) : Q f :=
    let fix all (l : list file) : Forall Q l :=
      match l with [] => Forall_nil Q | x :: r => Forall_cons x (file_ind2 x) (all r) end in
    match f with File n es ms ps imports => H n es ms ps imports (all imports) end.
End FileInd.

Section MessageInd.
  Variable Q : message -> Prop.
  Hypothesis H : forall es nested, Forall Q nested -> Q (Message es nested).
  Fixpoint message_ind2 (m : message) : Q m :=
    let fix all (l : list message) : Forall Q l :=
      match l with [] => Forall_nil Q | x :: r => Forall_cons x (message_ind2 x) (all r) end in
    match m with Message es nested => H es nested (all nested) end.
End MessageInd.

Lemma message_enums_in : forall m e, In e (message_enums m) <-> in_message m e.
Proof.
  intros m e. induction m as [es nested IH] using message_ind2. cbn [message_enums]. rewrite in_app_iff, in_flat_map. split.
  - intros [I | [m [Im I]]]; [constructor; exact I | ]. rewrite Forall_forall in IH. apply (in_nested es nested m e Im). apply (IH m Im). exact I.
  - intros I. inversion I as [? ? ? J | ? ? m ? Im J]; subst; [left; exact J | ]. right. exists m. split; [exact Im | ].
    rewrite Forall_forall in IH. apply (IH m Im). exact J.
Qed.

Lemma own_enums_in : forall n es ms ps imports e, In e (own_enums es ms) <-> declares (File n es ms ps imports) e.
Proof.
  intros n es ms ps imports e. unfold own_enums. rewrite in_app_iff, in_flat_map. split.
  - intros [I | [m [Im I]]]; [apply declares_top; exact I | ]. apply (declares_message n es ms ps imports m e Im). apply message_enums_in. exact I.
  - intros D. inversion D as [? ? ? ? ? ? I | ? ? ? ? ? m ? Im I]; subst; [left; exact I | right]. exists m. split; [exact Im | apply message_enums_in; exact I].
Qed.

(** ** Maps *)
Section Maps.
  Context {A : Type}.
  Variable key : A -> string.

  Lemma put_in : forall x m y, In y (put key x m) -> y = x \/ In y m.
  Proof.
    intros x m y. induction m as [ | z m IH]; cbn.
    - intros [E | []]. left. symmetry. exact E.
    - destruct (String.eqb (key z) (key x)).
      + intros [E | I]; [left; symmetry; exact E | right; right; exact I].
      + intros [E | I]; [right; left; exact E | ]. destruct (IH I) as [E | J]; [left; exact E | right; right; exact J].
  Qed.

  Lemma put_keys : forall x m k, In k (map key (put key x m)) <-> k = key x \/ In k (map key m).
  Proof.
    intros x m k. induction m as [ | z m IH]; cbn.
    - split; [intros [E | []]; left; symmetry; exact E | intros [E | []]; left; symmetry; exact E].
    - destruct (String.eqb_spec (key z) (key x)) as [E | N]; cbn.
      + split.
        * intros [X | I]; [left; symmetry; exact X | right; right; exact I].
        * intros [X | [X | I]]; [left; symmetry; exact X | left; congruence | right; exact I].
      + rewrite IH. split.
        * intros [X | [X | I]]; [right; left; exact X | left; exact X | right; right; exact I].
        * intros [X | [X | I]]; [right; left; exact X | left; exact X | right; right; exact I].
  Qed.

  Lemma put_nodup : forall x m, NoDup (map key m) -> NoDup (map key (put key x m)).
  Proof.
    intros x m. induction m as [ | z m IH]; cbn; intros N.
    - constructor; [intros [] | constructor].
    - inversion N as [ | ? ? N1 N2]; subst. destruct (String.eqb_spec (key z) (key x)) as [E | NE]; cbn.
      + rewrite <- E. exact N.
      + constructor; [ | apply IH; exact N2]. intros I. apply put_keys in I. destruct I as [I | I]; contradiction.
  Qed.

  Lemma puts_in : forall l m y, In y (puts key l m) -> In y l \/ In y m.
  Proof.
    induction l as [ | x l IH]; intros m y; [intros I; right; exact I | ]. cbn. intros I. destruct (IH _ _ I) as [J | J]; [left; right; exact J | ].
    destruct (put_in _ _ _ J) as [E | K]; [left; left; symmetry; exact E | right; exact K].
  Qed.

  Lemma puts_keys : forall l m k, In k (map key (puts key l m)) <-> In k (map key l) \/ In k (map key m).
  Proof.
    induction l as [ | x l IH]; intros m k; cbn; [tauto | ]. rewrite IH, put_keys. intuition.
  Qed.

  Lemma puts_nodup : forall l m, NoDup (map key m) -> NoDup (map key (puts key l m)).
  Proof. induction l as [ | x l IH]; intros m N; [exact N | ]. cbn. apply IH, put_nodup, N. Qed.

  Lemma sorted_ascending : forall l, NoDup (map key l) -> ascending key (sort_by key l).
  Proof.
    intros l N. assert (N2 : NoDup (map key (sort_by key l))).
    { eapply Permutation_NoDup; [ | exact N]. apply Permutation_map, Permutation_sym, sort_by_perm. }
    pose proof (sort_by_sorted key l) as S. revert N2 S. generalize (sort_by key l) as s.
    induction s as [ | x s IH]; intros N2 S; [constructor | ]. inversion S as [ | ? ? S1 S2]; subst. inversion N2 as [ | ? ? M1 M2]; subst.
    constructor; [apply IH; assumption | ]. apply Forall_forall. intros y I. rewrite Forall_forall in S2. split; [exact (S2 y I) | ].
    intros E. apply M1. rewrite E. apply in_map. exact I.
  Qed.

  Lemma ascending_unique : forall l m, ascending key l -> ascending key m -> (forall x, In x l <-> In x m) -> l = m.
  Proof.
    induction l as [ | x l IH]; intros m Sl Sm E.
    - destruct m as [ | y m]; [reflexivity | ]. destruct (proj2 (E y) (or_introl eq_refl)).
    - destruct m as [ | y m]; [destruct (proj1 (E x) (or_introl eq_refl)) | ].
      inversion Sl as [ | ? ? Sl1 Sl2]; subst. inversion Sm as [ | ? ? Sm1 Sm2]; subst. rewrite Forall_forall in Sl2, Sm2.
      assert (X : x = y).
      { destruct (proj1 (E x) (or_introl eq_refl)) as [X | I]; [symmetry; exact X | ].
        destruct (proj2 (E y) (or_introl eq_refl)) as [X | J]; [exact X | ].
        destruct (Sm2 x I) as [L1 N1]. destruct (Sl2 y J) as [L2 _]. exfalso. apply N1. apply str_leb_antisym; assumption. }
      subst y. f_equal. apply IH; [exact Sl1 | exact Sm1 | ]. intros z. split; intros I.
      + destruct (proj1 (E z) (or_intror I)) as [X | J]; [ | exact J]. subst z. destruct (Sl2 x I) as [_ N]. exfalso. apply N. reflexivity.
      + destruct (proj2 (E z) (or_intror I)) as [X | J]; [ | exact J]. subst z. destruct (Sm2 x I) as [_ N]. exfalso. apply N. reflexivity.
  Qed.

  Lemma sort_order : forall o1 o2 m, NoDup (map key m) -> Permutation (o1 m) m -> Permutation (o2 m) m -> sort_by key (o1 m) = sort_by key (o2 m).
  Proof.
    intros o1 o2 m N P1 P2. apply ascending_unique.
    - apply sorted_ascending. eapply Permutation_NoDup; [apply Permutation_map, Permutation_sym; exact P1 | exact N].
    - apply sorted_ascending. eapply Permutation_NoDup; [apply Permutation_map, Permutation_sym; exact P2 | exact N].
    - intros x. rewrite !sort_by_In. split; intros I.
      + apply (Permutation_in x (Permutation_sym P2)). apply (Permutation_in x P1). exact I.
      + apply (Permutation_in x (Permutation_sym P1)). apply (Permutation_in x P2). exact I.
  Qed.
End Maps.

(** ** Enums *)

Definition good (f : file) (l : list enum) : Prop :=
  ascending fqdn l /\ (forall e, In e l -> available f e) /\ (forall e, available f e -> In (fqdn e) (map fqdn l)).

Definition cache_ok (U : file -> Prop) (c : list (string * list enum)) : Prop :=
  forall g l, U g -> cached (fname g) c = Some l -> good g l.

Lemma available_import : forall n es ms ps imports g e, In g imports -> available g e -> available (File n es ms ps imports) e.
Proof. intros n es ms ps imports g e I [h [R D]]. exists h. split; [apply (reaches_import n es ms ps imports g h I R) | exact D]. Qed.

Lemma available_cases : forall n es ms ps imports e, available (File n es ms ps imports) e ->
  declares (File n es ms ps imports) e \/ exists g, In g imports /\ available g e.
Proof.
  intros n es ms ps imports e [h [R D]]. inversion R as [? | ? ? ? ? ? g ? I R2]; subst; [left; exact D | ].
  right. exists g. split; [exact I | ]. exists h. split; assumption.
Qed.

Lemma all_enums_good : forall order, (forall m, Permutation (order m) m) ->
  forall (U : file -> Prop), (forall f g, U f -> reaches f g -> U g) -> (forall f g, U f -> U g -> fname f = fname g -> f = g) ->
  forall f c, U f -> cache_ok U c -> good f (fst (all_enums order f c)) /\ cache_ok U (snd (all_enums order f c)).
Proof.
  intros order Ho U Hc Hn f. induction f as [n es ms ps imports IH] using file_ind2. intros c Uf Oc. cbn [all_enums].
  destruct (cached n c) as [l | ] eqn:C; [split; [exact (Oc (File n es ms ps imports) l Uf C) | exact Oc] | ].
  assert (Ui : forall g, In g imports -> U g).
  { intros g I. apply (Hc _ g Uf). apply (reaches_import n es ms ps imports g g I). constructor. }
  set (go := fix go (l : list file) (m : list enum) (c : list (string * list enum)) :=
                 match l with
                 | [] => (m, c)
                 | g :: r => let '(es', c') := all_enums order g c in go r (puts fqdn es' m) c'
                 end).
  assert (G : forall l m c, (forall g, In g l -> In g imports) -> cache_ok U c -> NoDup (map fqdn m) ->
    let '(m', c') := go l m c in
    cache_ok U c' /\ NoDup (map fqdn m') /\
    (forall e, In e m' -> In e m \/ exists g, In g l /\ available g e) /\
    (forall k, In k (map fqdn m) -> In k (map fqdn m')) /\
    (forall g e, In g l -> available g e -> In (fqdn e) (map fqdn m'))).
  { induction l as [ | g l IHl]; intros m c0 Il Oc0 Nd; cbn [go].
    - split; [exact Oc0 | ]. split; [exact Nd | ]. split; [intros e I; left; exact I | ]. split; [intros k I; exact I | intros g e []].
    - rewrite Forall_forall in IH. destruct (IH g (Il g (or_introl eq_refl)) c0 (Ui g (Il g (or_introl eq_refl))) Oc0) as [[A [B D]] Oc1].
      destruct (all_enums order g c0) as [es' c1]. cbn [fst snd] in *.
      specialize (IHl (puts fqdn es' m) c1 (fun h I => Il h (or_intror I)) Oc1 (puts_nodup fqdn es' m Nd)).
      fold go. destruct (go l (puts fqdn es' m) c1) as [m' c']. destruct IHl as [O' [N' [S' [K' C']]]].
      split; [exact O' | ]. split; [exact N' | ]. split; [ | split].
      + intros e I. destruct (S' e I) as [J | [h [Ih J]]].
        * apply puts_in in J. destruct J as [J | J]; [right; exists g; split; [left; reflexivity | exact (B e J)] | left; exact J].
        * right. exists h. split; [right; exact Ih | exact J].
      + intros k I. apply K'. apply puts_keys. right. exact I.
      + intros h e [<- | I] Av; [apply K', puts_keys; left; exact (D e Av) | exact (C' h e I Av)]. }
  specialize (G imports (puts fqdn (own_enums es ms) []) c (fun g I => I) Oc (puts_nodup fqdn _ [] (NoDup_nil _))).
  destruct (go imports (puts fqdn (own_enums es ms) []) c) as [m' c']. destruct G as [O' [N' [S' [K' C']]]]. cbn [fst snd].
  assert (GF : good (File n es ms ps imports) (sort_by fqdn (order m'))).
  { split; [ | split].
    - apply sorted_ascending. eapply Permutation_NoDup; [apply Permutation_map, Permutation_sym, Ho | exact N'].
    - intros e I. apply sort_by_In in I. apply (Permutation_in e (Ho m')) in I. destruct (S' e I) as [J | [g [Ig J]]].
      + apply puts_in in J. destruct J as [J | []]. exists (File n es ms ps imports). split; [constructor | ]. apply own_enums_in. exact J.
      + exact (available_import n es ms ps imports g e Ig J).
    - intros e Av. apply (Permutation_in (l := map fqdn m')).
      { apply Permutation_map, Permutation_sym. eapply perm_trans; [apply sort_by_perm | apply Ho]. }
      destruct (available_cases n es ms ps imports e Av) as [D | [g [Ig D]]].
      + apply K', puts_keys. left. apply in_map. apply (own_enums_in n es ms ps imports). exact D.
      + exact (C' g e Ig D). }
  split; [exact GF | ]. intros g l Ug. cbn [cached]. destruct (String.eqb_spec n (fname g)) as [E | NE]; [ | apply O'; exact Ug].
  intros X. injection X as <-. rewrite <- (Hn (File n es ms ps imports) g Uf Ug E). exact GF.
Qed.

Lemma all_enums_order : forall o1 o2, (forall m, Permutation (o1 m) m) -> (forall m, Permutation (o2 m) m) ->
  forall f c, all_enums o1 f c = all_enums o2 f c.
Proof.
  intros o1 o2 H1 H2 f. induction f as [n es ms ps imports IH] using file_ind2. intros c. cbn [all_enums].
  destruct (cached n c) as [l | ]; [reflexivity | ].
  set (go o := fix go (l : list file) (m : list enum) (c : list (string * list enum)) :=
                 match l with
                 | [] => (m, c)
                 | g :: r => let '(es', c') := all_enums o g c in go r (puts fqdn es' m) c'
                 end).
  change (match go o1 imports (puts fqdn (own_enums es ms) []) c with (m, c') => (sort_by fqdn (o1 m), (n, sort_by fqdn (o1 m)) :: c') end =
          match go o2 imports (puts fqdn (own_enums es ms) []) c with (m, c') => (sort_by fqdn (o2 m), (n, sort_by fqdn (o2 m)) :: c') end).
  assert (G : forall l m c, Forall (fun f => forall c, all_enums o1 f c = all_enums o2 f c) l -> NoDup (map fqdn m) ->
    go o1 l m c = go o2 l m c /\ NoDup (map fqdn (fst (go o1 l m c)))).
  { induction l as [ | g l IHl]; intros m c0 F N; cbn [go]; [split; [reflexivity | exact N] | ].
    inversion F as [ | ? ? F1 F2]; subst. rewrite F1. destruct (all_enums o2 g c0) as [es' c1].
    apply (IHl (puts fqdn es' m) c1 F2). apply puts_nodup. exact N. }
  destruct (G imports (puts fqdn (own_enums es ms) []) c IH (puts_nodup fqdn _ [] (NoDup_nil _))) as [E N]. rewrite <- E.
  destruct (go o1 imports _ c) as [m c']. cbn [fst] in N. rewrite (sort_order fqdn o1 o2 m N (H1 m) (H2 m)). reflexivity.
Qed.

(** ** Plugins *)

Lemma all_plugins_good : forall order, (forall m, Permutation (order m) m) -> forall f,
  ascending pname (all_plugins order f) /\ (forall p, In p (all_plugins order f) -> plugin_available f p) /\
  (forall p, plugin_available f p -> In (pname p) (map pname (all_plugins order f))).
Proof.
  intros order Ho f. induction f as [n es ms ps imports IH] using file_ind2. cbn [all_plugins].
  set (go := fix go (l : list file) (m : list plugin) :=
              match l with [] => m | g :: r => go r (puts pname (all_plugins order g) m) end).
  assert (G : forall l m, (forall g, In g l -> In g imports) -> NoDup (map pname m) ->
    NoDup (map pname (go l m)) /\
    (forall p, In p (go l m) -> In p m \/ exists g, In g l /\ plugin_available g p) /\
    (forall k, In k (map pname m) -> In k (map pname (go l m))) /\
    (forall g p, In g l -> plugin_available g p -> In (pname p) (map pname (go l m)))).
  { induction l as [ | g l IHl]; intros m Il Nd; cbn [go].
    - split; [exact Nd | ]. split; [intros e I; left; exact I | ]. split; [intros k I; exact I | intros g e []].
    - rewrite Forall_forall in IH. destruct (IH g (Il g (or_introl eq_refl))) as [A [B D]].
      specialize (IHl (puts pname (all_plugins order g) m) (fun h I => Il h (or_intror I)) (puts_nodup pname _ m Nd)).
      fold go. destruct IHl as [N' [S' [K' C']]]. split; [exact N' | ]. split; [ | split].
      + intros e I. destruct (S' e I) as [J | [h [Ih J]]].
        * apply puts_in in J. destruct J as [J | J]; [right; exists g; split; [left; reflexivity | exact (B e J)] | left; exact J].
        * right. exists h. split; [right; exact Ih | exact J].
      + intros k I. apply K'. apply puts_keys. right. exact I.
      + intros h e [<- | I] Av; [apply K', puts_keys; left; exact (D e Av) | exact (C' h e I Av)]. }
  destruct (G imports (puts pname ps []) (fun g I => I) (puts_nodup pname _ [] (NoDup_nil _))) as [N' [S' [K' C']]].
  split; [ | split].
  - apply sorted_ascending. eapply Permutation_NoDup; [apply Permutation_map, Permutation_sym, Ho | exact N'].
  - intros e I. apply sort_by_In in I. apply (Permutation_in e (Ho _)) in I. destruct (S' e I) as [J | [g [Ig J]]].
    + apply puts_in in J. destruct J as [J | []]. exists (File n es ms ps imports). split; [constructor | exact J].
    + destruct J as [h [R D]]. exists h. split; [apply (reaches_import n es ms ps imports g h Ig R) | exact D].
  - intros e [h [R D]].
    apply (Permutation_in (l := map pname (go imports (puts pname ps [])))).
    { apply Permutation_map, Permutation_sym. eapply perm_trans; [apply sort_by_perm | apply Ho]. }
    inversion R as [? | ? ? ? ? ? g ? I R2]; subst.
    + apply K', puts_keys. left. apply in_map. exact D.
    + apply (C' g e I). exists h. split; assumption.
Qed.

Lemma all_plugins_order : forall o1 o2, (forall m, Permutation (o1 m) m) -> (forall m, Permutation (o2 m) m) ->
  forall f, all_plugins o1 f = all_plugins o2 f.
Proof.
  intros o1 o2 H1 H2 f. induction f as [n es ms ps imports IH] using file_ind2. cbn [all_plugins].
  set (go o := fix go (l : list file) (m : list plugin) :=
              match l with [] => m | g :: r => go r (puts pname (all_plugins o g) m) end).
  change (sort_by pname (o1 (go o1 imports (puts pname ps []))) = sort_by pname (o2 (go o2 imports (puts pname ps [])))).
  assert (G : forall l m, Forall (fun f => all_plugins o1 f = all_plugins o2 f) l -> NoDup (map pname m) ->
    go o1 l m = go o2 l m /\ NoDup (map pname (go o1 l m))).
  { induction l as [ | g l IHl]; intros m F N; cbn [go]; [split; [reflexivity | exact N] | ].
    inversion F as [ | ? ? F1 F2]; subst. rewrite F1. apply (IHl _ F2). apply puts_nodup. exact N. }
  destruct (G imports (puts pname ps []) IH (puts_nodup pname _ [] (NoDup_nil _))) as [E N]. rewrite <- E.
  apply sort_order; [exact N | apply H1 | apply H2].
Qed.

(** ** A sequence of files *)

Lemma resolved_good : forall order, (forall m, Permutation (order m) m) ->
  forall (U : file -> Prop), (forall f g, U f -> reaches f g -> U g) -> (forall f g, U f -> U g -> fname f = fname g -> f = g) ->
  forall fs c, (forall f, In f fs -> U f) -> cache_ok U c -> Forall2 good fs (resolved order fs c).
Proof.
  intros order Ho U Hc Hn. induction fs as [ | f fs IH]; intros c Hf Oc; cbn [resolved]; [constructor | ].
  destruct (all_enums_good order Ho U Hc Hn f c (Hf f (or_introl eq_refl)) Oc) as [G O]. destruct (all_enums order f c) as [l c']. cbn [fst snd] in *.
  constructor; [exact G | ]. apply IH; [intros g I; apply Hf; right; exact I | exact O].
Qed.

Lemma reaches_trans : forall f g h, reaches f g -> reaches g h -> reaches f h.
Proof. intros f g h R. induction R as [f | n es ms ps imports g h' I R IH]; intros S; [exact S | ]. apply (reaches_import n es ms ps imports g h I (IH S)). Qed.

(** ** Prefixes *)
Lemma has_prefix_spec : forall p s, has_prefix p s = true <-> exists r, s = p ++ r.
Proof.
  induction p as [ | a p IH]; intros s; cbn.
  - split; [intros _; exists s; reflexivity | reflexivity].
  - destruct s as [ | b s]; [split; [discriminate | intros [r E]; discriminate E] | ]. rewrite andb_true_iff, IH. split.
    + intros [E [r ->]]. apply Ascii.eqb_eq in E. subst. exists r. reflexivity.
    + intros [r E]. injection E as -> ->. split; [apply Ascii.eqb_refl | exists r; reflexivity].
Qed.

Lemma has_attributes_spec : forall e, has_attributes e = true <-> exists v a r, In v (values e) /\ rule v = Some (a :: r).
Proof.
  intros e. unfold has_attributes. rewrite existsb_exists. split.
  - intros [v [I H]]. destruct (rule v) as [[ | a r] | ] eqn:R; try discriminate H. exists v, a, r. split; assumption.
  - intros [v [a [r [I E]]]]. exists v. rewrite E. split; [exact I | reflexivity].
Qed.
