(** * Proofs about the constants of dependent methods *)

From Coq Require Import String List Bool Arith Lia Sorted Permutation.
From Verif.Base Require Import Sort SortProofs.
From Verif.Ident Require Import Model.
From Verif.Deps Require Import Model Spec Proofs.
From Verif.Consts Require Import Model Spec.
Import ListNotations.
Local Open Scope string_scope.

Lemma not_call : forall d, (forall k, ~ calls d k) <-> match expr_of d with XCall _ _ => False | _ => True end.
Proof.
  intros d. unfold calls. destruct (expr_of d) as [ | k errs | m | m | e]; split; intros H; try exact I;
    try (intros k' [errs' E]; discriminate E).
  - apply (H k). exists errs. reflexivity.
  - destruct H.
Qed.

Lemma walked_spec : forall s m d,
  ms_rule (msg s m) = true /\ In d (walked (msg s m)) <-> defines s m d.
Proof.
  intros s m d. unfold walked. split.
  - intros [R H]. apply in_app_or in H. destruct H as [H | H]; [apply defines_own; assumption | ].
    apply in_flat_map in H. destruct H as [f [Hf H]]. destruct (fd_rule f) eqn:Rf; [ | destruct H].
    eapply defines_oneof; eassumption.
  - intros H. inversion H as [x R I | f x R Hf Rf I]; subst; (split; [exact R | ]); apply in_or_app.
    + left. exact I.
    + right. apply in_flat_map. exists f. split; [exact Hf | ]. rewrite Rf. exact I.
Qed.

Lemma dependent_spec : forall s n m l k, dependent s n m = Done l ->
  (In k l <-> exists m' d, made_plainly s m m' /\ defines s m' d /\ calls d k).
Proof.
  intros s n. induction n as [ | n IH]; intros m l k H; cbn in H; [discriminate H | ].
  destruct (ms_rule (msg s m)) eqn:R.
  - rewrite (gather_in _ _ _ _ _ H). split.
    + intros [d [zs [Hd [E Hk]]]].
      assert (D : defines s m d) by (apply walked_spec; split; assumption).
      unfold of_def in E. destruct (expr_of d) as [ | k' errs | m1 | m1 | e] eqn:X.
      2:{ injection E as <-. destruct Hk as [-> | []]. exists m, d.
          split; [constructor | split; [exact D | exists errs; exact X]]. }
      all: assert (N : forall k, ~ calls d k) by (apply not_call; rewrite X; exact I);
        apply (proj1 (gather_in _ _ _ _ _ E k)) in Hk; destruct Hk as [x [ws [Hx [Ex Hk]]]];
        apply (IH _ _ k Ex) in Hk; destruct Hk as [m' [d' [M [D' C]]]];
        destruct (message_exprs_within d x Hx) as [d1 [W Cr]];
        exists m', d'; (split; [ | split; assumption]);
        eapply plainly_step; eassumption.
    + intros [m' [d [M [D C]]]].
      inversion M as [x E1 E2 | x d0 d1 m1 x' D0 N W Cr M1 E1 E2]; subst.
      * exists d, [k]. split; [apply (proj2 (walked_spec s m' d)), D | ]. split; [ | left; reflexivity].
        destruct C as [errs X]. unfold of_def. rewrite X. reflexivity.
      * pose proof (proj2 (proj2 (walked_spec s m d0) D0)) as I0.
        destruct (gather_each _ _ _ _ _ d0 H I0) as [zs E].
        exists d0, zs. split; [exact I0 | split; [exact E | ]].
        pose proof (within_message_exprs d0 d1 m1 W Cr) as Hx.
        apply not_call in N. unfold of_def in E.
        destruct (expr_of d0) as [ | k' errs | m2 | m2 | e]; try destruct N;
          destruct (gather_each _ _ _ _ _ m1 E Hx) as [ws Ex];
          apply (gather_in _ _ _ _ _ E); exists m1, ws; (split; [exact Hx | split; [exact Ex | ]]);
          apply (IH _ _ k Ex); exists m', d; (split; [exact M1 | split; [exact D | exact C]]).
  - injection H as <-. split; [intros [] | ]. intros [m' [d [M [D C]]]].
    inversion M as [x E1 E2 | x d0 d1 m1 x' D0 N W Cr M1 E1 E2]; subst.
    + apply defines_rule in D. congruence.
    + apply defines_rule in D0. congruence.
Qed.

Lemma dependent_total : forall s (rank : nat -> nat),
  (forall m d m', has_definition s m d -> creates d m' -> rank m' < rank m) ->
  forall n m, rank m < n -> exists l, dependent s n m = Done l.
Proof.
  intros s rank Hr. induction n as [ | n IH]; intros m L; [lia | ].
  cbn. destruct (ms_rule (msg s m)) eqn:R; [ | exists []; reflexivity].
  apply gather_total. intros d Hd.
  assert (D : defines s m d) by (apply walked_spec; split; assumption).
  assert (G : exists y, gather (dependent s n) (message_exprs d) = Done y).
  { apply gather_total. intros x Hx. destruct (message_exprs_within d x Hx) as [d' [W C]].
    apply IH. assert (rank x < rank m); [ | lia]. apply (Hr m d' x); [ | exact C].
    exists d. split; assumption. }
  unfold of_def. destruct (expr_of d); try exact G. eexists. reflexivity.
Qed.

(** ** The map *)

Lemma put_in : forall c l x, In x (put c l) -> x = c \/ In x l.
Proof.
  intros c l x. induction l as [ | y r IH]; cbn; [intros [H | []]; auto | ].
  destruct (cn_name y =? cn_name c); intros [H | H]; auto. destruct (IH H); auto.
Qed.

Lemma put_has : forall c l, In c (put c l).
Proof.
  intros c l. induction l as [ | y r IH]; cbn; [left; reflexivity | ].
  destruct (cn_name y =? cn_name c); [left; reflexivity | right; exact IH].
Qed.

Lemma put_keeps : forall c l x, In x l -> cn_name x <> cn_name c -> In x (put c l).
Proof.
  intros c l x. induction l as [ | y r IH]; cbn; [intros [] | ].
  intros [-> | H] N.
  - destruct (String.eqb_spec (cn_name x) (cn_name c)); [contradiction | left; reflexivity].
  - destruct (cn_name y =? cn_name c); right; [exact H | exact (IH H N)].
Qed.

Lemma put_names : forall c l n, In n (map cn_name (put c l)) <-> n = cn_name c \/ In n (map cn_name l).
Proof.
  intros c l n. induction l as [ | y r IH]; cbn; [intuition | ].
  destruct (String.eqb_spec (cn_name y) (cn_name c)) as [E | E]; cbn; [rewrite E; intuition | rewrite IH; intuition].
Qed.

Lemma put_nodup : forall c l, NoDup (map cn_name l) -> NoDup (map cn_name (put c l)).
Proof.
  intros c l. induction l as [ | y r IH]; cbn; intros N; [constructor; [intros [] | constructor] | ].
  inversion N as [ | a b Ny Nr]; subst.
  destruct (String.eqb_spec (cn_name y) (cn_name c)) as [E | E]; cbn.
  - rewrite <- E. exact N.
  - constructor; [ | exact (IH Nr)]. rewrite put_names. intros [H | H]; contradiction.
Qed.

Section Table.
Variable table : nat -> remote.
Local Notation puts ks l := (fold_left (fun l k => put (constant_of table k) l) ks l).

Lemma puts_nodup : forall ks l, NoDup (map cn_name l) -> NoDup (map cn_name (puts ks l)).
Proof. intros ks. induction ks as [ | k ks IH]; intros l N; cbn; [exact N | apply IH, put_nodup, N]. Qed.

Lemma puts_in : forall ks l x, In x (puts ks l) -> In x l \/ exists k, In k ks /\ x = constant_of table k.
Proof.
  intros ks. induction ks as [ | k ks IH]; intros l x H; cbn in H; [left; exact H | ].
  destruct (IH _ _ H) as [H1 | [k' [Hk E]]]; [ | right; exists k'; split; [right; exact Hk | exact E]].
  destruct (put_in _ _ _ H1) as [-> | H2]; [right; exists k; split; [left; reflexivity | reflexivity] | left; exact H2].
Qed.

Lemma puts_names : forall ks l n, In n (map cn_name (puts ks l)) <->
  In n (map cn_name l) \/ exists k, In k ks /\ n = cn_name (constant_of table k).
Proof.
  intros ks. induction ks as [ | k ks IH]; intros l n; cbn.
  - split; [auto | intros [H | [k [[] _]]]; exact H].
  - rewrite IH, put_names. split.
    + intros [[H | H] | [k' [H E]]]; [right; exists k; auto | left; exact H | right; exists k'; auto].
    + intros [H | [k' [[<- | H] E]]]; [left; right; exact H | left; left; exact E | right; exists k'; auto].
Qed.
End Table.

Lemma constant_same : forall table k k', table k = table k' -> constant_of table k = constant_of table k'.
Proof. intros table k k' E. unfold constant_of. rewrite E. reflexivity. Qed.

Lemma nodup_names_same : forall l (x y : constant), NoDup (map cn_name l) -> In x l -> In y l -> cn_name x = cn_name y -> x = y.
Proof.
  intros l x y. induction l as [ | z r IH]; cbn; [intros _ [] | ].
  intros N Hx Hy E. inversion N as [ | a b Nz Nr]; subst.
  destruct Hx as [-> | Hx], Hy as [-> | Hy]; [reflexivity | | | apply IH; assumption].
  - exfalso. apply Nz. rewrite E. apply in_map, Hy.
  - exfalso. apply Nz. rewrite <- E. apply in_map, Hx.
Qed.

Lemma find_constant : forall l c, NoDup (map cn_name l) -> In c l ->
  find (fun x => cn_name x =? cn_name c) l = Some c.
Proof.
  intros l c N H. destruct (find (fun x => cn_name x =? cn_name c) l) as [x | ] eqn:F.
  - apply find_some in F. destruct F as [Hx E]. apply String.eqb_eq in E.
    f_equal. eapply nodup_names_same; eassumption.
  - apply find_none with (x := c) in F; [ | exact H]. rewrite String.eqb_refl in F. discriminate F.
Qed.

(** ** The methods of a service *)

Lemma federation_response_spec : forall mt, federation_response mt = response mt.
Proof. reflexivity. Qed.

Lemma methods_spec : forall s n sv ks k,
  gather (fun mt => dependent s n (federation_response mt)) (sv_methods sv) = Done ks ->
  (In k ks <-> called_plainly s sv k).
Proof.
  intros s n sv ks k H. rewrite (gather_in _ _ _ _ _ H). split.
  - intros [mt [zs [Hm [E Hk]]]]. apply (dependent_spec _ _ _ _ k E) in Hk.
    destruct Hk as [m [d [M [D C]]]]. exists mt, m, d. split; [exact Hm | split; [exact M | split; assumption]].
  - intros [mt [m [d [Hm [M [D C]]]]]]. destruct (gather_each _ _ _ _ _ mt H Hm) as [zs E].
    exists mt, zs. split; [exact Hm | split; [exact E | ]].
    apply (dependent_spec _ _ _ _ k E). exists m, d. split; [exact M | split; assumption].
Qed.

Lemma made_plainly_made : forall s m m', made_plainly s m m' -> made_from s m m'.
Proof.
  intros s m m' H. induction H as [m | m d0 d m1 m' D N W C M IH]; [constructor | ].
  eapply made_step; [exists d0; split; eassumption | exact C | exact IH].
Qed.

Lemma plainly_called : forall s sv k, called_plainly s sv k -> called s sv k.
Proof.
  intros s sv k [mt [m [d [Hm [M [D C]]]]]]. exists m, d. split; [ | split; [ | exact C]].
  - exists (response mt). split; [left; exists mt; split; [exact Hm | reflexivity] | apply made_plainly_made, M].
  - exists d. split; [exact D | constructor].
Qed.

Lemma calls_dec : forall d, (exists k, calls d k) \/ (forall k, ~ calls d k).
Proof.
  intros d. destruct (expr_of d) as [ | k errs | m | m | e] eqn:X.
  2:{ left. exists k, errs. exact X. }
  all: right; apply not_call; rewrite X; exact I.
Qed.

Lemma plain_made : forall s, plain_rules s -> forall m m', made_from s m m' -> made_plainly s m m'.
Proof.
  intros s P m m' H. induction H as [m | m d m1 m' Hd C M IH]; [constructor | ].
  destruct Hd as [d0 [D W]].
  assert (N : forall k, ~ calls d0 k).
  { destruct (calls_dec d0) as [Y | N]; [ | exact N]. exfalso.
    inversion W as [x E1 E2 | x e d1 x' Hr Hb W1 E1 E2]; subst.
    - destruct Y as [k [errs X]]. destruct C as [C | C]; rewrite X in C; discriminate C.
    - destruct (P _ _ _ _ _ D Hr Hb W1) as [_ Q]. exact (Q Y _ C). }
  eapply plainly_step; eassumption.
Qed.

Lemma plain_called : forall s sv k, plain_rules s -> sv_vars sv = [] -> called s sv k -> called_plainly s sv k.
Proof.
  intros s sv k P V [m [d [[m0 [S M]] [[d0 [D W]] C]]]].
  destruct S as [[mt [Hm E]] | S]; [ | rewrite V in S; destruct S]. subst m0.
  exists mt, m, d. split; [exact Hm | ]. split; [apply plain_made; assumption | ].
  split; [ | exact C].
  inversion W as [x E1 E2 | x e d1 x' Hr Hb W1 E1 E2]; subst; [exact D | ].
  destruct (P _ _ _ _ _ D Hr Hb W1) as [Q _]. exfalso. exact (Q k C).
Qed.

(** ** The list *)

Lemma listed_in : forall s table n sv l c, dependent_methods s table n sv = Done l -> In c l ->
  exists k, called_plainly s sv k /\ c = constant_of table k.
Proof.
  intros s table n sv l c H Hc. unfold dependent_methods in H.
  destruct (gather _ (sv_methods sv)) as [ks | | ] eqn:G; try discriminate H. injection H as <-.
  apply sort_by_In in Hc. apply puts_in in Hc. destruct Hc as [[] | [k [Hk E]]].
  exists k. split; [ | exact E]. eapply methods_spec; eassumption.
Qed.

Lemma listed_names : forall s table n sv l x, dependent_methods s table n sv = Done l ->
  (In x (map cn_name l) <-> exists k, called_plainly s sv k /\ x = cn_name (constant_of table k)).
Proof.
  intros s table n sv l x H. unfold dependent_methods in H.
  destruct (gather _ (sv_methods sv)) as [ks | | ] eqn:G; try discriminate H. injection H as <-.
  assert (Q : forall l, In x (map cn_name (sort_by cn_name l)) <-> In x (map cn_name l)).
  { intros l. rewrite !in_map_iff. split; intros [c [E I]]; exists c; (split; [exact E | ]); apply (sort_by_In cn_name); exact I. }
  rewrite Q, puts_names. cbn. split.
  - intros [[] | [k [Hk E]]]. exists k. split; [ | exact E]. eapply methods_spec; eassumption.
  - intros [k [Hk E]]. right. exists k. split; [ | exact E]. eapply methods_spec; eassumption.
Qed.

Lemma listed_nodup : forall s table n sv l, dependent_methods s table n sv = Done l -> NoDup (map cn_name l).
Proof.
  intros s table n sv l H. unfold dependent_methods in H.
  destruct (gather _ (sv_methods sv)) as [ks | | ] eqn:G; try discriminate H. injection H as <-.
  eapply Permutation_NoDup; [apply Permutation_map, Permutation_sym, sort_by_perm | ].
  apply puts_nodup. constructor.
Qed.
