From Coq Require Import List Arith Bool Lia.
From Verif.Graph Require Import Dfs Spec.
Import ListNotations.

Lemma existsb_eqb_In t l : existsb (Nat.eqb t) l = true <-> In t l.
Proof.
  rewrite existsb_exists; split.
  - intros (x & Hx & E); apply Nat.eqb_eq in E; subst; exact Hx.
  - intros H; exists t; split; [exact H|apply Nat.eqb_refl].
Qed.

Lemma existsb_eqb_not_In t l : existsb (Nat.eqb t) l = false <-> ~ In t l.
Proof.
  rewrite <- existsb_eqb_In; destruct (existsb _ _); split; intros H; try congruence.
Qed.

Section S.
  Variable children : nat -> list nat.
  Notation dfs := (dfs children).
  Notation walk := (walk children).
  Notation reach := (reach children).

  Definition go f visited target :=
    fix go (cs : list nat) : vres :=
      match cs with
      | [] => VOk
      | c :: cs' =>
          match dfs f (target :: visited) c with
          | VOk => go cs'
          | r => r
          end
      end.

  Lemma dfs_S f visited target :
    dfs (S f) visited target =
    if existsb (Nat.eqb target) visited then VCycle (rev (target :: visited))
    else go f visited target (children target).
  Proof. reflexivity. Qed.

  Lemma go_ok f visited target cs :
    go f visited target cs = VOk <->
    (forall c, In c cs -> dfs f (target :: visited) c = VOk).
  Proof.
    induction cs as [|c cs IH]; simpl.
    - split; [intros _ c []|reflexivity].
    - destruct (dfs f (target :: visited) c) eqn:E.
      + rewrite IH; split.
        * intros H c' [<-|Hc]; [exact E|apply H, Hc].
        * intros H c' Hc; apply H; right; exact Hc.
      + split; [discriminate|]. intros H. rewrite <- E. apply H; left; reflexivity.
      + split; [discriminate|]. intros H. rewrite <- E. apply H; left; reflexivity.
  Qed.

  Lemma go_fail f visited target cs r :
    go f visited target cs = r -> r <> VOk ->
    exists c, In c cs /\ dfs f (target :: visited) c = r.
  Proof.
    induction cs as [|c cs IH]; simpl; intros H Hr; [congruence|].
    destruct (dfs f (target :: visited) c) eqn:E.
    - destruct (IH H Hr) as (c' & Hc' & E'); exists c'; auto.
    - exists c; split; [left; reflexivity|congruence].
    - exists c; split; [left; reflexivity|congruence].
  Qed.

  Lemma dfs_ok_walks f :
    forall visited t, dfs f visited t = VOk ->
    forall l, walk (t :: l) ->
      (forall x, In x (t :: l) -> ~ In x visited) /\ NoDup (t :: l).
  Proof.
    induction f as [|f IH]; intros visited t H l Hw; [discriminate H|].
    rewrite dfs_S in H.
    destruct (existsb (Nat.eqb t) visited) eqn:E; [discriminate H|].
    apply existsb_eqb_not_In in E.
    destruct l as [|c l].
    - split.
      + intros x [<-|[]]; exact E.
      + constructor; [intros []|constructor].
    - destruct Hw as [Hc Hw].
      rewrite go_ok in H. specialize (H c Hc).
      destruct (IH _ _ H l Hw) as [H1 H2].
      split.
      + intros x [<-|Hx]; [exact E|].
        intros Hv; apply (H1 x Hx); right; exact Hv.
      + constructor; [|exact H2].
        intros Ht; apply (H1 t Ht); left; reflexivity.
  Qed.

  Lemma walk_app_edge l a b : walk (l ++ [a]) -> In b (children a) -> walk (l ++ [a; b]).
  Proof.
    induction l as [|x l IH]; simpl; intros Hw Hb; [auto|].
    destruct l as [|y l]; simpl in *.
    - destruct Hw as [H1 _]; auto.
    - destruct Hw as [H1 Hw]; split; [exact H1|apply IH; assumption].
  Qed.

  Lemma walk_join l a b l2 :
    walk (l ++ [a]) -> In b (children a) -> walk (b :: l2) -> walk ((l ++ [a]) ++ b :: l2).
  Proof.
    induction l as [|x l IH]; simpl; intros Hw Hb H2; [auto|].
    destruct l as [|y l]; simpl in *.
    - destruct Hw as [H1 _]; auto.
    - destruct Hw as [H1 Hw]; split; [exact H1|apply IH; assumption].
  Qed.

  Lemma reach_walk t u : reach t u -> exists l l', walk (t :: l) /\ t :: l = l' ++ [u].
  Proof.
    induction 1 as [|u v Hr (l & l' & Hw & Hl) He].
    - exists [], []; simpl; auto.
    - exists (l ++ [v]), (t :: l). split; [|reflexivity].
      change (t :: l ++ [v]) with ((t :: l) ++ [v]). rewrite Hl.
      apply walk_join; [rewrite <- Hl; exact Hw|exact He|exact I].
  Qed.

  Lemma reach_trans a b c : reach a b -> reach b c -> reach a c.
  Proof.
    intros H1 H2; induction H2 as [|u v _ IH He]; [exact H1|].
    eapply reach_step; eassumption.
  Qed.

  Lemma reach_edge a b : In b (children a) -> reach a b.
  Proof. intros H; eapply reach_step; [apply reach_refl|exact H]. Qed.

  Lemma walk_app_inv l1 l2 : walk (l1 ++ l2) -> walk l2.
  Proof.
    induction l1 as [|a l1 IH]; simpl; [auto|].
    destruct (l1 ++ l2) eqn:E; intros H.
    - destruct l1; [simpl in E; subst; exact I|discriminate E].
    - apply IH; apply H.
  Qed.

  Lemma NoDup_app_disjoint (l1 l2 : list nat) x : NoDup (l1 ++ l2) -> In x l1 -> ~ In x l2.
  Proof.
    induction l1 as [|a l1 IH]; simpl; intros Hnd Hx Hx2; [destruct Hx|].
    inversion Hnd as [|? ? Ha Hnd']; subst. destruct Hx as [->|Hx].
    - apply Ha, in_or_app; right; exact Hx2.
    - exact (IH Hnd' Hx Hx2).
  Qed.

  Lemma dfs_ok_acyclic f t : dfs f [] t = VOk -> acyclic_from children t.
  Proof.
    intros H u Hu (v & Hv & Hr).
    destruct (reach_walk _ _ Hu) as (l1 & l1' & Hw1 & Hl1).
    destruct (reach_walk _ _ Hr) as (l2 & l2' & Hw2 & Hl2).
    assert (Hw : walk ((t :: l1) ++ v :: l2)).
    { rewrite Hl1. apply walk_join; [rewrite <- Hl1; exact Hw1|exact Hv|exact Hw2]. }
    destruct (dfs_ok_walks _ _ _ H (l1 ++ v :: l2) Hw) as [_ Hnd].
    apply (NoDup_app_disjoint (t :: l1) (v :: l2) u Hnd).
    - rewrite Hl1; apply in_or_app; right; left; reflexivity.
    - rewrite Hl2; apply in_or_app; right; left; reflexivity.
  Qed.

  (** A reported path is a walk from the root whose last node occurs earlier on it. *)
  Lemma dfs_cycle_path f :
    forall visited t p, walk (rev (t :: visited)) -> dfs f visited t = VCycle p ->
    exists q u, p = q ++ [u] /\ walk p /\ In u q /\ exists suffix, p = rev (t :: visited) ++ suffix.
  Proof.
    induction f as [|f IH]; intros visited t p Hw H; [discriminate H|].
    rewrite dfs_S in H.
    destruct (existsb (Nat.eqb t) visited) eqn:E.
    - injection H as <-. apply existsb_eqb_In in E.
      exists (rev visited), t. split; [reflexivity|]. split; [exact Hw|].
      split; [apply in_rev in E; exact E|]. exists []. rewrite app_nil_r; reflexivity.
    - destruct (go_fail _ _ _ _ _ H) as (c & Hc & Ec); [discriminate|].
      assert (Hw' : walk (rev (c :: t :: visited))).
      { simpl. simpl in Hw. apply walk_join; [exact Hw|exact Hc|exact I]. }
      destruct (IH _ _ _ Hw' Ec) as (q & u & E1 & E2 & E3 & s & E4).
      exists q, u. repeat split; try assumption.
      exists (c :: s). rewrite E4. simpl. rewrite <- !app_assoc. reflexivity.
  Qed.

  Lemma walk_reach l : forall t x, walk (t :: l) -> In x (t :: l) -> reach t x.
  Proof.
    induction l as [|c l IH]; intros t x Hw Hx.
    - destruct Hx as [<-|[]]; apply reach_refl.
    - destruct Hw as [Hc Hw]. destruct Hx as [<-|Hx]; [apply reach_refl|].
      eapply reach_trans; [apply reach_edge, Hc|]. apply IH; assumption.
  Qed.

  Lemma dfs_cycle_sound f t p : dfs f [] t = VCycle p -> ~ acyclic_from children t.
  Proof.
    intros H Hac.
    destruct (dfs_cycle_path _ _ _ _ (I : walk (rev [t])) H) as (q & u & -> & Hw & Hu & s & Hs).
    simpl in Hs.
    apply in_split in Hu as (q1 & q2 & ->).
    assert (Ht : exists l, (q1 ++ u :: q2) ++ [u] = t :: l) by (exists s; exact Hs).
    destruct Ht as [l Hl].
    apply (Hac u).
    - apply (walk_reach l t u); [rewrite <- Hl; exact Hw|].
      rewrite <- Hl. apply in_or_app; right; left; reflexivity.
    - rewrite <- app_assoc in Hw. apply walk_app_inv in Hw. simpl in Hw.
      destruct q2 as [|b q2]; simpl in Hw.
      + exists u; split; [apply Hw|apply reach_refl].
      + exists b. split; [apply Hw|]. apply (walk_reach (q2 ++ [u])); [apply Hw|].
        change (b :: q2 ++ [u]) with ((b :: q2) ++ [u]).
        apply in_or_app; right; left; reflexivity.
  Qed.

  (** With more fuel than nodes the search always finishes. *)
  Lemma dfs_fuel n :
    (forall t c, In c (children t) -> c < n) ->
    forall f visited t, t < n -> NoDup visited -> (forall x, In x visited -> x < n) ->
      n < f + length visited -> dfs f visited t <> VFuel.
  Proof.
    intros Hcl. induction f as [|f IH]; intros visited t Ht Hnd Hb Hf.
    - exfalso.
      assert (length visited <= length (seq 0 n)).
      { apply NoDup_incl_length; [exact Hnd|]. intros x Hx. apply in_seq. specialize (Hb x Hx); lia. }
      rewrite seq_length in H; simpl in Hf; lia.
    - rewrite dfs_S. destruct (existsb (Nat.eqb t) visited) eqn:E; [discriminate|].
      apply existsb_eqb_not_In in E. intros H.
      destruct (go_fail _ _ _ _ _ H) as (c & Hc & Ec); [discriminate|].
      revert Ec. apply IH.
      + exact (Hcl _ _ Hc).
      + constructor; assumption.
      + intros x [<-|Hx]; [exact Ht|exact (Hb x Hx)].
      + simpl; lia.
  Qed.

  Lemma dfs_mono f1 : forall f2 visited t, f1 <= f2 ->
    dfs f1 visited t <> VFuel -> dfs f2 visited t = dfs f1 visited t.
  Proof.
    induction f1 as [|f1 IH]; intros f2 visited t Hle Hn; [exfalso; apply Hn; reflexivity|].
    destruct f2 as [|f2]; [lia|].
    rewrite !dfs_S in *. destruct (existsb (Nat.eqb t) visited); [reflexivity|].
    induction (children t) as [|c cs IHc]; [reflexivity|].
    simpl in *. rewrite (IH f2); [|lia|destruct (dfs f1 (t :: visited) c); congruence].
    destruct (dfs f1 (t :: visited) c); [apply IHc; exact Hn|reflexivity|reflexivity].
  Qed.

  Lemma validate_ok f roots :
    validate children f roots = VOk <-> (forall r, In r roots -> dfs f [] r = VOk).
  Proof.
    induction roots as [|r rs IH]; simpl.
    - split; [intros _ r []|reflexivity].
    - destruct (dfs f [] r) eqn:E.
      + rewrite IH; split; [intros H x [<-|Hx]; [exact E|apply H, Hx]|intros H x Hx; apply H; right; exact Hx].
      + split; [discriminate|intros H; rewrite <- E; apply H; left; reflexivity].
      + split; [discriminate|intros H; rewrite <- E; apply H; left; reflexivity].
  Qed.

  Lemma validate_fail f roots v :
    validate children f roots = v -> v <> VOk -> exists r, In r roots /\ dfs f [] r = v.
  Proof.
    induction roots as [|r rs IH]; simpl; intros H Hv; [congruence|].
    destruct (dfs f [] r) eqn:E.
    - destruct (IH H Hv) as (x & Hx & Ex); exists x; auto.
    - exists r; split; [left; reflexivity|congruence].
    - exists r; split; [left; reflexivity|congruence].
  Qed.

  (** Soundness and completeness of [validate] over a finite graph. *)
  Lemma validate_spec n f roots :
    (forall t c, In c (children t) -> c < n) ->
    (forall r, In r roots -> r < n) -> n < f ->
    (validate children f roots = VOk <-> forall r, In r roots -> acyclic_from children r) /\
    validate children f roots <> VFuel.
  Proof.
    intros Hcl Hr Hf.
    assert (Hnf : forall r, In r roots -> dfs f [] r <> VFuel).
    { intros r Hin. apply (dfs_fuel n); auto.
      - constructor.
      - intros x [].
      - simpl; lia. }
    split.
    - rewrite validate_ok; split; intros H r Hin.
      + apply (dfs_ok_acyclic f), H, Hin.
      + destruct (dfs f [] r) as [|p|] eqn:E; [reflexivity| |].
        * exfalso; exact (dfs_cycle_sound _ _ _ E (H r Hin)).
        * exfalso; exact (Hnf r Hin E).
    - intros H. destruct (validate_fail _ _ _ H) as (r & Hin & E); [discriminate|].
      exact (Hnf r Hin E).
  Qed.
End S.
