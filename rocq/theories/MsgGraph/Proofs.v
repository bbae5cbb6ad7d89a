From Coq Require Import String List Arith Bool Lia.
From Verif.Base Require Import Sort SortProofs.
From Verif.Graph Require Import Dfs Spec Proofs.
From Verif.MsgGraph Require Import Model Spec.
Import ListNotations.

Section P.
  Variable ms : list message.

  Definition node_of (m : nat) : nat := if in_map ms m then m else length ms + m.

  (** A builder step adds exactly the nodes of the messages in [R]. *)
  Definition adds (h : bstate -> bstate) (R : nat -> Prop) : Prop :=
    forall st c, In c (fst (h st)) <-> In c (fst st) \/ exists m, R m /\ c = node_of m.

  Lemma adds_ext h R R' : adds h R -> (forall m, R m <-> R' m) -> adds h R'.
  Proof.
    intros H HR st c. rewrite (H st c). split; intros [Hc|(m & Hm & ->)]; auto; right; exists m; split; auto; apply HR, Hm.
  Qed.

  Lemma adds_dep m : adds (build_dep ms m) (fun x => m = Some x).
  Proof.
    intros [ks errs] c. unfold build_dep. destruct m as [m|]; simpl.
    - destruct (in_map ms m) eqn:E.
      + destruct (existsb (Nat.eqb m) ks) eqn:Ex; simpl.
        * apply existsb_eqb_In in Ex. split; [auto|].
          intros [H|(x & [= <-] & ->)]; [exact H|]. unfold node_of; rewrite E; exact Ex.
        * rewrite in_app_iff; simpl. unfold node_of. split.
          -- intros [H|[<-|[]]]; [auto|]. right; exists m; rewrite E; auto.
          -- intros [H|(x & [= <-] & ->)]; [auto|]. rewrite E; auto.
      + simpl. rewrite in_app_iff; simpl. unfold node_of. split.
        * intros [H|[<-|[]]]; [auto|]. right; exists m; rewrite E; auto.
        * intros [H|(x & [= <-] & ->)]; [auto|]. rewrite E; auto.
    - split; [auto|]. intros [H|(x & [=] & _)]; exact H.
  Qed.

  Lemma adds_id : adds (fun st => st) (fun _ => False).
  Proof. intros st c; split; [auto|intros [H|(m & [] & _)]; exact H]. Qed.

  Lemma adds_comp h1 h2 R1 R2 :
    adds h1 R1 -> adds h2 R2 -> adds (fun st => h2 (h1 st)) (fun m => R1 m \/ R2 m).
  Proof.
    intros H1 H2 st c. rewrite (H2 (h1 st) c), (H1 st c). split.
    - intros [[H|(m & Hm & ->)]|(m & Hm & ->)]; [auto|right; exists m; auto..].
    - intros [H|(m & [Hm|Hm] & ->)]; [auto|left; right; exists m; auto|right; exists m; auto].
  Qed.

  Lemma adds_fold {A} (f : A -> bstate -> bstate) (R : A -> nat -> Prop) (l : list A) :
    Forall (fun e => adds (f e) (R e)) l ->
    adds (fun st => fold_left (fun st e => f e st) l st) (fun m => exists e, In e l /\ R e m).
  Proof.
    induction 1 as [|e l He _ IH]; simpl.
    - eapply adds_ext; [apply adds_id|]. intros m; split; [tauto|]. intros (e & [] & _).
    - eapply adds_ext; [exact (adds_comp _ _ _ _ He IH)|]. intros m; split.
      + intros [H|(e' & H1 & H2)]; [exists e|exists e']; auto.
      + intros (e' & [<-|H1] & H2); [auto|right; exists e'; auto].
  Qed.

  Fixpoint adds_def (x : mexpr) : adds (build_def ms x) (mentions x)
  with adds_err (e : gerr) : adds (build_err ms e) (err_mentions e)
  with adds_detail (d : gdetail) : adds (build_detail ms d) (detail_mentions d).
  Proof.
    - destruct x as [|m|[m|]|errs|[e|]]; simpl build_def.
      + eapply adds_ext; [apply adds_id|]. intros m; split; [tauto|]. intros H; inversion H.
      + eapply adds_ext; [apply adds_dep|]. intros x; split; [intros ->; constructor|].
        intros H; inversion H; reflexivity.
      + eapply adds_ext; [apply adds_dep|]. intros x; split; [intros ->; constructor|].
        intros H; inversion H; reflexivity.
      + eapply adds_ext; [apply adds_id|]. intros m; split; [tauto|]. intros H; inversion H.
      + eapply adds_ext.
        * apply (adds_fold (build_err ms) err_mentions errs).
          induction errs as [|e es IH]; constructor; [apply adds_err|exact IH].
        * intros m; split.
          -- intros (e & H1 & H2). econstructor; eassumption.
          -- intros H; inversion H; subst. eauto.
      + eapply adds_ext; [apply adds_err|]. intros m; split; [intros H; constructor; exact H|].
        intros H; inversion H; assumption.
      + eapply adds_ext; [apply adds_id|]. intros m; split; [tauto|]. intros H; inversion H.
    - destruct e as [defs dts]; simpl build_err.
      eapply adds_ext.
      + eapply (adds_comp (fun st => fold_left (fun st d => build_def ms d st) defs st)
                          (fun st => fold_left (fun st d => build_detail ms d st) dts st)).
        * apply (adds_fold (build_def ms) mentions defs).
          induction defs as [|x xs IH]; constructor; [apply adds_def|exact IH].
        * apply (adds_fold (build_detail ms) detail_mentions dts).
          induction dts as [|x xs IH]; constructor; [apply adds_detail|exact IH].
      + intros m; split.
        * intros [(x & H1 & H2)|(x & H1 & H2)]; [eapply in_def|eapply in_detail]; eassumption.
        * intros H; inversion H; subst; [left|right]; eauto.
    - destruct d as [defs msgs]; simpl build_detail.
      eapply adds_ext.
      + eapply (adds_comp (fun st => fold_left (fun st d => build_def ms d st) defs st)
                          (fun st => fold_left (fun st d => build_def ms d st) msgs st)).
        * apply (adds_fold (build_def ms) mentions defs).
          induction defs as [|x xs IH]; constructor; [apply adds_def|exact IH].
        * apply (adds_fold (build_def ms) mentions msgs).
          induction msgs as [|x xs IH]; constructor; [apply adds_def|exact IH].
      + intros m; split.
        * intros [(x & H1 & H2)|(x & H1 & H2)]; econstructor; try eassumption;
            apply in_or_app; auto.
        * intros H; inversion H as [? ? x ? Hin Hm]; subst. apply in_app_iff in Hin as [H1|H1]; eauto.
  Qed.

  Lemma build_In d c :
    In c (fst (build ms d)) <->
    exists x m, In x (msg_defs d ++ concat (oneof_defs d)) /\ mentions x m /\ c = node_of m.
  Proof.
    unfold build.
    assert (H1' : adds (fun st => fold_left (fun st x => build_def ms x st) (msg_defs d) st)
                       (fun m => exists x, In x (msg_defs d) /\ mentions x m)).
    { apply (adds_fold (build_def ms) mentions). apply Forall_forall; intros x _; apply adds_def. }
    assert (H2' : adds (fun st => fold_left (fun st ds => fold_left (fun st x => build_def ms x st) ds st) (oneof_defs d) st)
                       (fun m => exists ds, In ds (oneof_defs d) /\ exists x, In x ds /\ mentions x m)).
    { apply (adds_fold (fun ds st => fold_left (fun st x => build_def ms x st) ds st)
                       (fun ds m => exists x, In x ds /\ mentions x m)).
      apply Forall_forall; intros ds _. apply (adds_fold (build_def ms) mentions ds).
      apply Forall_forall; intros x _; apply adds_def. }
    rewrite (H2' (fold_left (fun st x => build_def ms x st) (msg_defs d) ([], [])) c).
    rewrite (H1' ([], []) c); simpl.
    split.
    - intros [[[]|(m & (x & Hx & Hm) & ->)]|(m & (ds & Hds & x & Hx & Hm) & ->)].
      + exists x, m. split; [apply in_or_app; auto|auto].
      + exists x, m. split; [apply in_or_app; right; apply in_concat; eauto|auto].
    - intros (x & m & Hx & Hm & ->). apply in_app_iff in Hx as [Hx|Hx].
      + left; right. exists m; split; [exists x; auto|reflexivity].
      + right. apply in_concat in Hx as (ds & Hds & Hx). exists m; split; [exists ds; eauto|reflexivity].
  Qed.

  Lemma in_map_true m : in_map ms m = true <-> exists d, nth_error ms m = Some d /\ has_rule d = true.
  Proof.
    unfold in_map. destruct (nth_error ms m) as [d|]; split.
    - intros H; exists d; auto.
    - intros (d' & [= <-] & H); exact H.
    - discriminate.
    - intros (d' & H & _); discriminate.
  Qed.

  Lemma in_map_lt m : in_map ms m = true -> m < length ms.
  Proof. rewrite in_map_true. intros (d & H & _). apply nth_error_Some; congruence. Qed.

  Lemma kids_needs a b : b < length ms -> (In b (kids ms a) <-> needs ms a b).
  Proof.
    intros Hb. unfold kids. destruct (nth_error ms a) as [da|] eqn:Ea.
    - destruct (has_rule da) eqn:Er.
      + rewrite build_In. split.
        * intros (x & m & Hx & Hm & E). unfold node_of in E. destruct (in_map ms m) eqn:Em; [|lia].
          subst m. apply in_map_true in Em as (db & Hdb & Hr). exists da, db, x. auto 10.
        * intros (da' & db & x & H1 & H2 & _ & H4 & H5 & H6).
          assert (da' = da) by congruence; subst da'. exists x, b. repeat split; auto.
          unfold node_of. assert (Em : in_map ms b = true) by (apply in_map_true; eauto).
          rewrite Em; reflexivity.
      + split; [intros []|]. intros (da' & db & x & H1 & _ & H3 & _).
        assert (da' = da) by congruence; subst; congruence.
    - split; [intros []|]. intros (da' & db & x & H1 & _); congruence.
  Qed.

  Lemma needs_lt a b : needs ms a b -> a < length ms /\ b < length ms.
  Proof. intros (da & db & x & H1 & H2 & _). split; apply nth_error_Some; congruence. Qed.

  Lemma kids_lt : well_formed ms -> forall a c, In c (kids ms a) -> c < length ms + length ms.
  Proof.
    intros Hcl a c. unfold kids. destruct (nth_error ms a) as [da|] eqn:Ea; [|intros []].
    destruct (has_rule da); [|intros []]. rewrite build_In. intros (x & m & Hx & Hm & ->).
    pose proof (Hcl da x m (nth_error_In _ _ Ea) Hx Hm). unfold node_of.
    destruct (in_map ms m); lia.
  Qed.

  Lemma kids_high a : length ms <= a -> kids ms a = [].
  Proof. intros H. unfold kids. apply nth_error_None in H. rewrite H. reflexivity. Qed.

  Lemma has_parent_true i : i < length ms -> (has_parent ms i = true <-> exists a, needs ms a i).
  Proof.
    intros Hi. unfold has_parent. rewrite existsb_exists. split.
    - intros (p & _ & H). apply existsb_eqb_In in H. exists p. apply kids_needs; auto.
    - intros (a & Ha). pose proof (needs_lt _ _ Ha). exists a. split; [apply in_seq; lia|].
      apply existsb_eqb_In, kids_needs; auto.
  Qed.

  Lemma roots_In r : In r (roots ms) <-> is_root ms r.
  Proof.
    unfold roots. rewrite sort_by_In, filter_In, in_seq, andb_true_iff, negb_true_iff, in_map_true.
    unfold is_root. split.
    - intros (Hr & Hm & Hp). split; [exact Hm|]. intros a Ha.
      assert (has_parent ms r = true) by (apply has_parent_true; [lia|eauto]). congruence.
    - intros (Hm & Hn). assert (Hr : r < length ms) by (apply in_map_lt, in_map_true, Hm).
      split; [lia|]. split; [exact Hm|].
      destruct (has_parent ms r) eqn:E; [|reflexivity]. apply has_parent_true in E as (a & Ha); [|exact Hr].
      exfalso; eapply Hn, Ha.
  Qed.

  (** Graph reachability is [needs]. *)
  Lemma reach_low a b : reach (kids ms) a b -> b < length ms ->
    a = b \/ needs_plus ms a b.
  Proof.
    induction 1 as [|u v Hr IH Hv]; intros Hb; [auto|]. right.
    assert (Hu : u < length ms).
    { destruct (Nat.lt_ge_cases u (length ms)) as [H|H]; [exact H|]. rewrite kids_high in Hv by exact H. destruct Hv. }
    apply kids_needs in Hv; [|exact Hb]. destruct (IH Hu) as [->|H]; [constructor; exact Hv|econstructor; eassumption].
  Qed.

  Lemma needs_plus_reach a b : needs_plus ms a b -> reach (kids ms) a b /\ a < length ms /\ b < length ms.
  Proof.
    induction 1 as [b H|b c H IH H2].
    - pose proof (needs_lt _ _ H). split; [|lia]. apply reach_edge, kids_needs; tauto.
    - destruct IH as (IH & Ha & Hb). pose proof (needs_lt _ _ H2). split; [|lia].
      econstructor; [exact IH|]. apply kids_needs; tauto.
  Qed.

  Lemma needs_plus_first a b : needs_plus ms a b -> exists c, needs ms a c /\ (c = b \/ needs_plus ms c b).
  Proof.
    induction 1 as [b H|b c H (d & Hd & IH) H2]; [eauto|].
    exists d; split; [exact Hd|]. right. destruct IH as [->|IH]; [constructor; exact H2|econstructor; eassumption].
  Qed.

  Lemma needs_plus_cons a b c : needs ms a b -> needs_plus ms b c -> needs_plus ms a c.
  Proof.
    intros Hab. induction 1 as [c H|c d H IH H2].
    - econstructor; [constructor; exact Hab|exact H].
    - econstructor; [exact IH|exact H2].
  Qed.

  Lemma on_cycle_cyclic u : on_cycle (kids ms) u <-> cyclic ms u.
  Proof.
    split.
    - intros (v & Hv & Hr).
      assert (Hu : u < length ms).
      { destruct (Nat.lt_ge_cases u (length ms)) as [H|H]; [exact H|]. rewrite kids_high in Hv by exact H. destruct Hv. }
      assert (Hvl : v < length ms).
      { destruct (Nat.lt_ge_cases v (length ms)) as [H|H]; [exact H|]. exfalso.
        assert (E : v = u).
        { clear Hv. induction Hr as [|x y Hr IH Hy]; [reflexivity|].
          destruct (Nat.lt_ge_cases x (length ms)) as [Hx|Hx].
          - specialize (IH Hx). lia.
          - rewrite kids_high in Hy by exact Hx. destruct Hy. }
        lia. }
      apply kids_needs in Hv; [|exact Hvl]. destruct (reach_low _ _ Hr Hu) as [->|H].
      + constructor; exact Hv.
      + unfold cyclic. exact (needs_plus_cons _ _ _ Hv H).
    - intros H. apply needs_plus_first in H as (c & Hc & Hr). pose proof (needs_lt _ _ Hc).
      exists c; split; [apply kids_needs; tauto|]. destruct Hr as [->|Hr]; [constructor|].
      apply needs_plus_reach, Hr.
  Qed.

  (** Building never reports a cycle; only the check does. *)
  Definition clean (st : bstate) : Prop := forall p, ~ In (CyclicDependency p) (snd st).

  Lemma clean_dep m st : clean st -> clean (build_dep ms m st).
  Proof.
    destruct st as [ks es]. intros H p. unfold build_dep. destruct m as [m|]; simpl.
    - destruct (in_map ms m); [destruct (existsb _ _); apply H|]. simpl.
      destruct (nth_error ms m) as [d|]; [destruct (every_field_rule d)|]; try apply H.
      rewrite in_app_iff; simpl. intros [Hi|[Hi|[]]]; [eapply H, Hi|discriminate Hi].
    - rewrite in_app_iff; simpl. intros [Hi|[Hi|[]]]; [eapply H, Hi|discriminate Hi].
  Qed.

  Lemma clean_fold {A} (f : A -> bstate -> bstate) l :
    Forall (fun a => forall st, clean st -> clean (f a st)) l ->
    forall st, clean st -> clean (fold_left (fun st a => f a st) l st).
  Proof.
    induction 1 as [|a l Ha _ IH]; intros st Hst; simpl; [exact Hst|apply IH, Ha, Hst].
  Qed.

  Fixpoint clean_def (x : mexpr) : forall st, clean st -> clean (build_def ms x st)
  with clean_err (e : gerr) : forall st, clean st -> clean (build_err ms e st)
  with clean_detail (d : gdetail) : forall st, clean st -> clean (build_detail ms d st).
  Proof.
    - destruct x as [|m|[m|]|errs|[e|]]; simpl; intros st Hst; try exact Hst; try (apply clean_dep, Hst).
      + apply (clean_fold (build_err ms)); [|exact Hst].
        induction errs; constructor; [apply clean_err|assumption].
      + apply clean_err, Hst.
    - destruct e as [defs dts]; simpl; intros st Hst.
      apply (clean_fold (build_detail ms)); [induction dts; constructor; [apply clean_detail|assumption]|].
      apply (clean_fold (build_def ms)); [induction defs; constructor; [apply clean_def|assumption]|exact Hst].
    - destruct d as [defs msgs]; simpl; intros st Hst.
      apply (clean_fold (build_def ms)); [induction msgs; constructor; [apply clean_def|assumption]|].
      apply (clean_fold (build_def ms)); [induction defs; constructor; [apply clean_def|assumption]|exact Hst].
  Qed.

  Lemma build_errors_clean p : ~ In (CyclicDependency p) (build_errors ms).
  Proof.
    intros Hin. unfold build_errors in Hin. apply in_concat in Hin as (l & Hl & Hin).
    apply in_map_iff in Hl as (d & <- & _). destruct (has_rule d); [|destruct Hin].
    revert Hin. unfold build.
    assert (C : clean (fold_left (fun st ds => fold_left (fun st x => build_def ms x st) ds st) (oneof_defs d)
      (fold_left (fun st x => build_def ms x st) (msg_defs d) ([], [])))).
    { apply (clean_fold (fun ds st => fold_left (fun st x => build_def ms x st) ds st)).
      - apply Forall_forall. intros ds _ st Hst. apply (clean_fold (build_def ms)); [|exact Hst].
        apply Forall_forall. intros x _; apply clean_def.
      - apply (clean_fold (build_def ms)); [apply Forall_forall; intros x _; apply clean_def|]. intros q []. }
    apply C.
  Qed.

  Theorem create_graph_spec fuel :
    well_formed ms -> length ms + length ms < fuel ->
    create_graph ms fuel <> None /\
    (reports_cycle (create_graph ms fuel) <-> exists u, used_from_root ms u /\ cyclic ms u).
  Proof.
    intros Hcl Hf.
    assert (Hrs : forall r, In r (roots ms) -> r < length ms + length ms).
    { intros r Hr. apply roots_In in Hr as [(d & Hd & _) _].
      assert (r < length ms) by (apply nth_error_Some; congruence). lia. }
    destruct (validate_spec (kids ms) (length ms + length ms) fuel (roots ms) (kids_lt Hcl) Hrs Hf) as [Hv Hnf].
    assert (Hno : forall es p, In (CyclicDependency p) es -> es = build_errors ms -> False).
    { intros es p Hin ->. eapply build_errors_clean, Hin. }
    unfold create_graph.
    assert (Hcyc : (exists u, used_from_root ms u /\ cyclic ms u) <-> ~ (forall r, In r (roots ms) -> acyclic_from (kids ms) r)).
    { split.
      - intros (u & (r & Hr & Hru) & Hc) Hall. apply roots_In in Hr. apply (Hall r Hr u).
        + destruct Hru as [->|Hru]; [constructor|apply needs_plus_reach, Hru].
        + apply on_cycle_cyclic, Hc.
      - intros Hn. destruct (validate (kids ms) fuel (roots ms)) as [|p|] eqn:Ev.
        + exfalso; apply Hn, Hv; reflexivity.
        + apply validate_fail in Ev as (r & Hr & Ed); [|discriminate].
          destruct (dfs_cycle_path _ _ _ _ _ (I : walk (kids ms) (rev [r])) Ed) as (q & u & -> & Hw & Hu & s & Hs).
          simpl in Hs. apply in_split in Hu as (q1 & q2 & ->).
          assert (Hreach : reach (kids ms) r u).
          { rewrite Hs in Hw. apply (walk_reach (kids ms) s); [exact Hw|]. rewrite <- Hs.
            apply in_or_app; right; left; reflexivity. }
          assert (Hoc : on_cycle (kids ms) u).
          { rewrite <- app_assoc in Hw. apply walk_app_inv in Hw. simpl in Hw.
            destruct q2 as [|v q2]; simpl in Hw.
            - exists u; split; [apply Hw|constructor].
            - destruct Hw as [Huv Hw]. exists v; split; [exact Huv|].
              apply (walk_reach (kids ms) (q2 ++ [u])); [exact Hw|]. right; apply in_or_app; right; left; reflexivity. }
          exists u. split; [|apply on_cycle_cyclic, Hoc].
          exists r. split; [apply roots_In, Hr|].
          apply on_cycle_cyclic in Hoc. apply needs_plus_reach in Hoc as (_ & Hul & _).
          apply reach_low; assumption.
        + congruence. }
    split.
    - destruct (roots ms) as [|r rs]; [discriminate|]. destruct (validate _ _ _); congruence.
    - rewrite Hcyc. destruct (roots ms) as [|r rs] eqn:Er.
      + split.
        * intros (b & es & p & [= <- <-] & Hin). exfalso; eapply Hno; eauto.
        * intros H; exfalso; apply H; intros r [].
      + destruct (validate (kids ms) fuel (r :: rs)) as [|p|] eqn:Ev.
        * split; [|intros H; exfalso; apply H, Hv; reflexivity].
          intros (b & es & p & [= <- <-] & Hin). exfalso; eapply Hno; eauto.
        * split; [intros _ H; apply Hv in H; discriminate|]. intros _.
          exists false, (build_errors ms ++ [CyclicDependency p]), p. split; [reflexivity|].
          apply in_or_app; right; left; reflexivity.
        * congruence.
  Qed.
End P.
