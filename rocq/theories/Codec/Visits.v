(** * Visiting a graph once per id *)

From Coq Require Import String List Arith Bool Lia.
From Verif.Codec Require Import Model.
Import ListNotations.
Local Open Scope string_scope.

Definition key_dec : forall x y : string * string, {x = y} + {x <> y}.
Proof. decide equality; apply string_dec. Defined.

Lemma key_eqb : forall x y : string * string,
  String.eqb (fst x) (fst y) && String.eqb (snd x) (snd y) = true <-> x = y.
Proof.
  intros [a b] [c d]. cbn. rewrite andb_true_iff, !String.eqb_eq. split.
  - now intros [-> ->].
  - intros H. now inversion H.
Qed.

Lemma tfind_same : forall B (x : string * string) (b : B) t, tfind x ((x, b) :: t) = Some b.
Proof. intros. cbn. now rewrite (proj2 (key_eqb x x) eq_refl). Qed.

Lemma tfind_other : forall B (x y : string * string) (b : B) t,
  x <> y -> tfind x ((y, b) :: t) = tfind x t.
Proof.
  intros B x y b t N. cbn.
  destruct (String.eqb (fst x) (fst y) && String.eqb (snd x) (snd y)) eqn:E; [|reflexivity].
  apply key_eqb in E. contradiction.
Qed.

Section Visits.
Variables X B : Type.
Variable key : X -> string * string.
Variable expand : X -> res (B * list X).
Variable P : X -> Prop.
Variable U : list (string * string).
Hypothesis P_expand : forall x, P x ->
  exists b ys, expand x = Ok (b, ys) /\ (forall y, In y ys -> P y).
Hypothesis P_key : forall x, P x -> In (key x) U.

Notation visit := (visit X B key expand).
Notation visits := (visits X B key expand).

Lemma visit_unfold : forall n t x,
  visit n t x =
  match tfind (key x) t with
  | Some _ => Ok t
  | None =>
      match n with
      | O => OutOfFuel
      | S m =>
          match expand x with
          | Ok (b, ys) => visits m ((key x, b) :: t) ys
          | Missing k id => Missing k id
          | Refused k id => Refused k id
          | OutOfFuel => OutOfFuel
          end
      end
  end.
Proof.
  intros n t x. destruct n as [|n]; [reflexivity|]. cbn [Model.visit].
  destruct (tfind (key x) t); [reflexivity|].
  destruct (expand x) as [[b ys]| | |]; try reflexivity.
  generalize ((key x, b) :: t). induction ys as [|y ys IH]; intros t'; [reflexivity|].
  cbn [Model.visits]. destruct (visit n t' y); try reflexivity. apply IH.
Qed.

Definition missing (t : table B) (k : string * string) : bool :=
  match tfind k t with Some _ => false | None => true end.

Definition pending (t : table B) : nat := List.length (filter (missing t) U).

Lemma filter_le : forall A (f g : A -> bool) l,
  (forall x, In x l -> f x = true -> g x = true) ->
  List.length (filter f l) <= List.length (filter g l).
Proof.
  induction l as [|x l IH]; intros H; [apply le_n|].
  assert (K := IH (fun y Hy => H y (or_intror Hy))).
  cbn [filter]. destruct (f x) eqn:F.
  - rewrite (H x (or_introl eq_refl) F). cbn. lia.
  - destruct (g x); cbn; lia.
Qed.

Lemma filter_lt : forall A (f g : A -> bool) l z,
  (forall x, In x l -> f x = true -> g x = true) ->
  In z l -> f z = false -> g z = true ->
  List.length (filter f l) < List.length (filter g l).
Proof.
  induction l as [|x l IH]; intros z H Hz Fz Gz; [destruct Hz|].
  assert (Hl := fun y Hy => H y (or_intror Hy)).
  cbn [filter]. destruct Hz as [->|Hz].
  - rewrite Fz, Gz. cbn. assert (K := filter_le A f g l Hl). lia.
  - assert (K := IH z Hl Hz Fz Gz). destruct (f x) eqn:F.
    + rewrite (H x (or_introl eq_refl) F). cbn. lia.
    + destruct (g x); cbn; lia.
Qed.

Definition extends (t t' : table B) : Prop :=
  forall k b, tfind k t = Some b -> tfind k t' = Some b.

Lemma extends_pending : forall t t', extends t t' -> pending t' <= pending t.
Proof.
  intros t t' E. apply filter_le. intros k _ H. unfold missing in *.
  destruct (tfind k t) as [b|] eqn:F; [|reflexivity]. now rewrite (E k b F) in H.
Qed.

(** New entries hold the content of a node whose children are entered too. *)
Definition sound (t t' : table B) : Prop :=
  forall k b, tfind k t' = Some b -> tfind k t = None ->
    exists x ys, P x /\ key x = k /\ expand x = Ok (b, ys) /\
      (forall y, In y ys -> tfind (key y) t' <> None).

Lemma keeps : forall t t' k, extends t t' -> tfind k t <> None -> tfind k t' <> None.
Proof.
  intros t t' k E H. destruct (tfind k t) as [b|] eqn:F; [|congruence].
  rewrite (E k b F). discriminate.
Qed.

Lemma visit_visits : forall n,
  (forall t x, P x -> pending t <= n ->
     exists t', visit n t x = Ok t' /\ extends t t' /\ sound t t' /\
                tfind (key x) t' <> None) /\
  (forall xs t, (forall x, In x xs -> P x) -> pending t <= n ->
     exists t', visits n t xs = Ok t' /\ extends t t' /\ sound t t' /\
                (forall x, In x xs -> tfind (key x) t' <> None)).
Proof.
  assert (Lists : forall n,
    (forall t x, P x -> pending t <= n ->
       exists t', visit n t x = Ok t' /\ extends t t' /\ sound t t' /\
                  tfind (key x) t' <> None) ->
    (forall xs t, (forall x, In x xs -> P x) -> pending t <= n ->
       exists t', visits n t xs = Ok t' /\ extends t t' /\ sound t t' /\
                  (forall x, In x xs -> tfind (key x) t' <> None))).
  { intros n V. induction xs as [|x xs IH]; intros t HP Hn.
    - exists t. cbn. split; [reflexivity|]. split; [intros k b H; exact H|].
      split; [intros k b H1 H2; congruence|intros x []].
    - destruct (V t x (HP x (or_introl eq_refl)) Hn) as (t1 & E1 & X1 & S1 & K1).
      destruct (IH t1 (fun y Hy => HP y (or_intror Hy))) as (t2 & E2 & X2 & S2 & K2).
      { assert (Z := extends_pending t t1 X1). lia. }
      exists t2. cbn [Model.visits]. rewrite E1, E2. split; [reflexivity|].
      split; [intros k b H; apply X2, X1, H|]. split.
      + intros k b H2 H0. destruct (tfind k t1) as [b1|] eqn:F1.
        * destruct (S1 k b1 F1 H0) as (y & ys & Py & Ky & Ey & Hys).
          assert (b1 = b) by (apply X2 in F1; congruence). subst b1.
          exists y, ys. split; [exact Py|]. split; [exact Ky|]. split; [exact Ey|].
          intros z Hz. apply (keeps t1 t2); auto.
        * exact (S2 k b H2 F1).
      + intros y [<-|Hy]; [now apply (keeps t1 t2)|auto]. }
  assert (V : forall n t x, P x -> pending t <= n ->
     exists t', visit n t x = Ok t' /\ extends t t' /\ sound t t' /\
                tfind (key x) t' <> None).
  { induction n as [|n IH]; intros t x Px Hn; rewrite visit_unfold.
    - destruct (tfind (key x) t) as [b|] eqn:F.
      + exists t. split; [reflexivity|]. split; [intros k b' H; exact H|].
        split; [intros k b' H1 H2; congruence|congruence].
      + exfalso. unfold pending in Hn.
        assert (I : In (key x) (filter (missing t) U)).
        { apply filter_In. split; [now apply P_key|]. unfold missing. now rewrite F. }
        destruct (filter (missing t) U); [destruct I|cbn in Hn; lia].
    - destruct (tfind (key x) t) as [b|] eqn:F.
      + exists t. split; [reflexivity|]. split; [intros k b' H; exact H|].
        split; [intros k b' H1 H2; congruence|congruence].
      + destruct (P_expand x Px) as (b & ys & E & Pys). rewrite E.
        set (t1 := (key x, b) :: t).
        assert (X1 : extends t t1).
        { intros k b' H. unfold t1. rewrite tfind_other; [exact H|].
          intros ->. congruence. }
        destruct (Lists n IH ys t1 Pys) as (t2 & E2 & X2 & S2 & K2).
        { assert (L : pending t1 < pending t).
          { apply (filter_lt _ _ _ _ (key x)).
            - intros k _ H. unfold missing in *.
              destruct (tfind k t) as [b'|] eqn:F'; [|reflexivity].
              now rewrite (X1 k b' F') in H.
            - now apply P_key.
            - unfold missing, t1. now rewrite tfind_same.
            - unfold missing. now rewrite F. }
          lia. }
        exists t2. split; [exact E2|]. split; [intros k b' H; apply X2, X1, H|].
        assert (Fx : tfind (key x) t2 = Some b) by (apply X2; apply tfind_same).
        split; [|congruence].
        intros k b' H2 H0. destruct (key_dec k (key x)) as [->|Ne].
        * rewrite Fx in H2. inversion H2; subst b'.
          exists x, ys. auto.
        * apply (S2 k b' H2). unfold t1. now rewrite tfind_other. }
  intros n. split; [apply V|]. apply Lists, V.
Qed.

(** From the empty table. *)
Lemma visits_all : forall n xs,
  (forall x, In x xs -> P x) -> List.length U <= n ->
  exists t, visits n [] xs = Ok t /\
    (forall x, In x xs -> tfind (key x) t <> None) /\
    (forall k b, tfind k t = Some b ->
       exists x ys, P x /\ key x = k /\ expand x = Ok (b, ys) /\
         (forall y, In y ys -> tfind (key y) t <> None)).
Proof.
  intros n xs HP Hn.
  assert (L : pending [] <= n).
  { unfold pending. assert (Z : List.length (filter (missing []) U) <= List.length U).
    { clear. induction U as [|u l IH]; cbn; [lia|]. lia. }
    lia. }
  destruct (proj2 (visit_visits n) xs [] HP L) as (t & E & _ & S & K).
  exists t. split; [exact E|]. split; [exact K|].
  intros k b H. apply (S k b H). reflexivity.
Qed.

End Visits.
