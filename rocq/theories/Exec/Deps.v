(** Every plan, self references or not, respects the dependencies. *)
From Coq Require Import String List Arith Lia Permutation.
From Verif.Base Require Import Sort SortProofs.
From Verif.Graph Require Import Dfs.
From Verif.Plan Require Import Model Spec GraphProofs Proofs.
Import ListNotations.

Section G.
  Variable g : graph.
  Variable key : nat -> string.
  Hypothesis Hnd : forall i, NoDup (parents g i).

  Lemma mk_group_waits : forall f x gr, mk_group g key f x = Some gr ->
    waits (fun i j => In i (parents g j)) gr.
  Proof.
    induction f as [|f IH]; intros x gr H; [discriminate|].
    apply mk_group_inv in H as [[E ->]|[(p & s & E & Hs & ->)|(ss & HF & ->)]].
    - constructor. intros i. rewrite E. intros [].
    - constructor; [eapply IH, Hs|]. intros i. rewrite E, (mk_group_last _ _ _ _ _ Hs). simpl.
      split; [intros [->|[]]; reflexivity|intros ->; auto].
    - pose proof (F2_last _ _ _ _ _ HF) as Hl. constructor.
      + apply Forall_forall. intros s Hs. destruct (F2_in_r _ _ _ _ HF Hs) as (q & _ & Hq). eapply IH, Hq.
      + rewrite Hl. eapply Permutation_NoDup; [apply Permutation_sym, sort_by_perm|apply Hnd].
      + intros i. rewrite Hl, sort_by_In. reflexivity.
  Qed.

  Variable n : nat.
  Hypothesis Hp : forall i j, j < n -> In i (parents g j) -> i < n.
  Hypothesis Hc : forall i j, i < n -> In j (children g i) -> j < n.

  Lemma mk_group_below : forall f x gr, mk_group g key f x = Some gr -> x < n ->
    forall y, In y (group_defs gr) -> y < n.
  Proof.
    induction f as [|f IH]; intros x gr H Hx y Hy; [discriminate|].
    apply mk_group_inv in H as [[E ->]|[(p & s & E & Hs & ->)|(ss & HF & ->)]]; simpl in Hy.
    - intuition congruence.
    - apply in_app_iff in Hy as [Hy|[<-|[]]]; [|exact Hx].
      eapply IH; [exact Hs| |exact Hy]. eapply Hp; [exact Hx|]. rewrite E; left; reflexivity.
    - apply in_app_iff in Hy as [Hy|[<-|[]]]; [|exact Hx].
      apply in_concat in Hy as (l & Hl & Hy). apply in_map_iff in Hl as (s & <- & Hs).
      destruct (F2_in_r _ _ _ _ HF Hs) as (q & Hq & Hqs). apply sort_by_In in Hq.
      eapply IH; [exact Hqs| |exact Hy]. eapply Hp; [exact Hx|exact Hq].
  Qed.

  Lemma leaves_below : forall f x l, leaves g f x = Some l -> x < n -> forall y, In y l -> y < n.
  Proof.
    induction f as [|f IH]; intros x l H Hx y Hy; [discriminate|]. cbn [leaves] in H.
    destruct (children g x) as [|c cs] eqn:E.
    - injection H as <-. destruct Hy as [<-|[]]; exact Hx.
    - destruct (map_opt (leaves g f) (c :: cs)) as [ls|] eqn:El; [|discriminate]. injection H as <-.
      apply map_opt_F2 in El. apply in_concat in Hy as (l & Hl & Hy).
      destruct (F2_in_r _ _ _ _ El Hl) as (z & Hz & Hzl). rewrite <- E in Hz.
      eapply IH; [exact Hzl|eapply Hc; eassumption|exact Hy].
  Qed.
End G.

Lemma setup_waits ds fuel gs : setup fuel ds = Planned gs ->
  Forall (waits (depends ds)) gs /\ (forall i, In i (planned_defs gs) -> i < length ds).
Proof.
  intros Hs. destruct (build_graph_edges ds) as (Hc & Hp & Hndc & Hndp). unfold setup in Hs.
  set (g := build_graph ds) in *. destruct (roots_of g (length ds)) as [|r rs] eqn:Er; [discriminate|].
  destruct (validate _ _ _); try discriminate.
  destruct (groups g (node_key ds) fuel (r :: rs)) as [gs'|] eqn:Eg; [|discriminate].
  injection Hs as <-. unfold groups in Eg.
  destruct (unique_children g (node_key ds) fuel (r :: rs)) as [us|] eqn:Eu; [|discriminate].
  apply map_opt_F2 in Eg.
  assert (P : forall i j, j < length ds -> In i (parents g j) -> i < length ds).
  { intros i j Hj Hi. apply Hp in Hi. apply depends_forward in Hi. lia. }
  assert (C : forall i j, i < length ds -> In j (children g i) -> j < length ds).
  { intros i j Hj Hi. apply Hc in Hi. apply depends_forward in Hi. lia. }
  split.
  - apply Forall_forall. intros gr Hgr. destruct (F2_in_r _ _ _ _ Eg Hgr) as (x & _ & Hx).
    apply (mk_group_waits g (node_key ds) Hndp) in Hx. revert gr Hgr Hx.
    assert (W : forall gr, waits (fun i j => In i (parents g j)) gr -> waits (depends ds) gr).
    { clear -Hp. fix W 2. intros gr [e H|s e H1 H2|ss e H1 H2 H3].
      - constructor. intros i Hi. apply (H i). apply Hp, Hi.
      - constructor; [apply W, H1|]. intros i. rewrite <- H2. symmetry. apply Hp.
      - constructor; [|exact H2|intros i; rewrite <- H3; symmetry; apply Hp].
        clear H2 H3. induction H1; constructor; [apply W; assumption|assumption]. }
    intros gr _. apply W.
  - intros i Hi. unfold planned_defs in Hi. apply in_concat in Hi as (l & Hl & Hi).
    apply in_map_iff in Hl as (gr & <- & Hgr). destruct (F2_in_r _ _ _ _ Eg Hgr) as (x & Hx & Hxg).
    eapply mk_group_below; [exact P|exact Hxg| |exact Hi].
    unfold unique_children in Eu. destruct (map_opt (leaves g fuel) (r :: rs)) as [ls|] eqn:El; [|discriminate].
    injection Eu as <-. apply sort_by_In, nodup_In in Hx.
    apply in_concat in Hx as (l & Hl & Hx). apply map_opt_F2 in El.
    destruct (F2_in_r _ _ _ _ El Hl) as (z & Hz & Hzl).
    eapply leaves_below; [exact C|exact Hzl| |exact Hx].
    rewrite <- Er in Hz. apply roots_In in Hz. apply Hz.
Qed.

Lemma node_key_inj ds i j : NoDup (map vname ds) -> i < length ds -> j < length ds ->
  node_key ds i = node_key ds j -> i = j.
Proof.
  intros Hnd Hi Hj. unfold node_key.
  destruct (nth_error ds i) as [di|] eqn:Ei; [|apply nth_error_None in Ei; lia].
  destruct (nth_error ds j) as [dj|] eqn:Ej; [|apply nth_error_None in Ej; lia].
  intros E. apply (NoDup_nth_error (map vname ds)); [exact Hnd|rewrite map_length; exact Hi|].
  rewrite !nth_error_map, Ei, Ej. simpl. congruence.
Qed.
