From Coq Require Import String Ascii List Bool.
From Verif.Base Require Import Result Text TextProofs.
From Verif.Call Require Import Panic Spec.
Import ListNotations.
Local Open Scope string_scope.

Scheme ends_ind2 := Induction for ends Sort Prop
  with ends_all_ind2 := Induction for ends_all Sort Prop.
Combined Scheme ends_mut from ends_ind2, ends_all_ind2.

Lemma first_line_exists v : first_line (hd "" (split nl v)) v.
Proof.
  destruct (split_head nl v) as (t & H & Hv). split.
  - pose proof (split_parts_no_sep nl v) as F. rewrite H in F. inversion F; subst; assumption.
  - destruct Hv as [[_ Hv]|(r & _ & Hv)]; [left; exact Hv|right; exists r; exact Hv].
Qed.

Lemma message_first_line v st : message (recover_error v st) = hd "" (split nl v).
Proof.
  unfold recover_error. pose proof (split_nonempty nl v) as Hn.
  destruct (split_head nl v) as (t & H & Hv).
  destruct (split nl v) as [|h [|h2 t2]] eqn:Es; [congruence| |reflexivity]. cbn in *.
  destruct Hv as [[_ Hv]|(r & Ht & Hv)]; [exact Hv|].
  injection H as <-. destruct (split nl r) eqn:Er; [|discriminate]. exfalso. exact (split_nonempty nl r Er).
Qed.

Lemma head_app v st : hd "" (split nl (rethrown v st)) = hd "" (split nl v).
Proof.
  unfold rethrown. rewrite split_app_gen. pose proof (split_nonempty nl v).
  destruct (split nl v); [congruence|reflexivity].
Qed.

Definition from_leaf (c : comp) (m : string) : Prop := exists v, raised v c /\ m = hd "" (split nl v).

Definition good_end (c : comp) (o : ending) : Prop :=
  match o with
  | Good => True
  | Bad (ERecovered r) => from_leaf c (message r)
  | Bad _ => True
  | Panicking v => from_leaf c (hd "" (split nl v))
  | Crash => False
  end.

Lemma from_sub c c' m : (forall v, raised v c -> raised v c') -> from_leaf c m -> from_leaf c' m.
Proof. intros H (v & Hv & ->). exists v. auto. Qed.

Lemma good_sub c c' o : (forall v, raised v c -> raised v c') -> good_end c o -> good_end c' o.
Proof. intros H. destruct o as [|[]| |]; cbn; auto; apply from_sub; assumption. Qed.

Lemma good_goroutine c o st : good_end c o -> good_end c (goroutine_top (with_recover st o)).
Proof. destruct o as [|[]| |]; cbn; auto. rewrite message_first_line. auto. Qed.

Lemma ends_good : (forall c o, ends c o -> good_end c o) /\
  (forall cs os, ends_all cs os -> forall o, In o os -> exists c, In c cs /\ good_end c o).
Proof.
  apply ends_mut; intros.
  - exact I.
  - exact I.
  - exists v. split; [constructor|reflexivity].
  - exact I.
  - eapply good_sub; [|exact H0]. intros v Hv. inversion Hv; subst. econstructor; [right; eassumption|assumption].
  - eapply good_sub; [|exact H]. intros v Hv. econstructor; [left; reflexivity|assumption].
  - eapply good_sub; [|exact H]. intros v Hv. constructor. assumption.
  - cbn. rewrite head_app. eapply from_sub; [|exact H]. intros v0 Hv. constructor. assumption.
  - destruct w as [os Hc|os Hg|os e0 Hc Hb].
    + destruct (H _ Hc) as (c & _ & []).
    + exact I.
    + destruct (H _ Hb) as (c & Hin & Hg). eapply good_sub; [|exact Hg]. intros v Hv. econstructor; eassumption.
  - apply good_goroutine. eapply good_sub; [|exact H]. intros v Hv. constructor. assumption.
  - exact I.
  - contradiction.
  - destruct H1 as [<-|Hin].
    + exists c. split; [left; reflexivity|]. apply good_goroutine. exact H.
    + destruct (H0 o0 Hin) as (c0 & H2 & H3). exists c0. split; [right; exact H2|exact H3].
Qed.

Lemma method_good c o : method_ends c o ->
  match o with
  | Good => True
  | Bad (ERecovered r) => exists v, raised v c /\ first_line (message r) v
  | Bad _ => True
  | Panicking _ | Crash => False
  end.
Proof.
  intros (o' & st & H & ->). pose proof (good_goroutine _ _ st (proj1 ends_good _ _ H)) as G.
  destruct o' as [|[| |]|v|]; cbn in *; auto.
  - destruct G as (v & Hv & ->). exists v. split; [exact Hv|apply first_line_exists].
  - destruct G as (v0 & Hv & ->). exists v0. split; [exact Hv|apply first_line_exists].
Qed.

Lemma goroutine_good o st : goroutine_top (with_recover st o) = Good -> o = Good.
Proof. destruct o; cbn; congruence. Qed.

Lemma ends_fine : (forall c o, ends c o -> o = Good -> all_fine c) /\
  (forall cs os, ends_all cs os -> (forall o, In o os -> o = Good) -> forall c, In c cs -> all_fine c).
Proof.
  apply ends_mut; intros; try discriminate.
  - constructor.
  - constructor. contradiction.
  - constructor. intros c0 [<-|Hin]; [auto|]. specialize (H0 H1). inversion H0; subst. auto.
  - contradiction.
  - constructor. auto.
  - constructor. destruct w as [os Hc|os Hg|os e0 Hc Hb]; try discriminate. intros c Hin. apply (H Hg c Hin).
  - constructor. apply H. eapply goroutine_good. eassumption.
  - contradiction.
  - destruct H2 as [<-|Hin].
    + apply H. eapply goroutine_good. apply H1. left. reflexivity.
    + apply H0; [|exact Hin]. intros o0 Ho. apply H1. right. exact Ho.
Qed.

Lemma method_fine c : method_ends c Good -> all_fine c.
Proof. intros (o & st & H & Ho). symmetry in Ho. apply goroutine_good in Ho. exact (proj1 ends_fine _ _ H Ho). Qed.

Lemma stack_lines_kept ls : kept ls (stack_lines ls).
Proof.
  induction ls as [|l ls IH]; cbn [stack_lines]; [constructor|].
  destruct l as [|c l]; cbn [String.eqb]; [constructor; exact IH|].
  unfold trim_prefix1. destruct (Ascii.eqb_spec tab c) as [<-|Hc]; constructor; auto.
Qed.

Lemma split_lines s : lines_of s (split nl s).
Proof.
  split; [apply split_nonempty|]. split; [symmetry; apply join_split|apply split_parts_no_sep].
Qed.

Lemma lines_unique s ls : lines_of s ls -> ls = split nl s.
Proof.
  intros (Hn & -> & F). induction F as [|l ls Hl F IH]; [congruence|].
  destruct ls as [|l2 ls]; [cbn; symmetry; apply split_no_sep; exact Hl|].
  cbn [join]. change (String nl "" ++ ?x) with (String nl x). rewrite (split_app nl l _ Hl).
  f_equal. apply IH. discriminate.
Qed.

Lemma recover_single v raw ls : has_char nl v = false -> lines_of raw ls ->
  message (recover_error v raw) = v /\ kept ls (stack (recover_error v raw)).
Proof.
  intros Hv Hl. apply lines_unique in Hl. subst ls. unfold recover_error. rewrite (split_no_sep nl v Hv). cbn.
  split; [reflexivity|apply stack_lines_kept].
Qed.

Lemma recover_flight v st raw ls : has_char nl v = false -> lines_of st ls ->
  message (recover_error (rethrown v st) raw) = v /\ kept ls (stack (recover_error (rethrown v st) raw)).
Proof.
  intros Hv Hl. apply lines_unique in Hl. subst ls. unfold recover_error, rethrown.
  rewrite (split_app nl v _ Hv). replace (split nl (String nl st)) with ("" :: split nl st) by reflexivity. cbn.
  split; [reflexivity|apply stack_lines_kept].
Qed.
