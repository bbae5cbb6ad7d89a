(** C32: contexts in generated code. *)
From Coq Require Import List Arith Lia.
From Verif.Plan Require Import Model Spec Proofs.
From Verif.Scope Require Import Model Spec Proofs.
Import ListNotations.

(** Full property: the code of the resolver compiles (every context, group and definition it uses is declared in an enclosing
    scope, and none twice in a scope), never uses a group or a context after the group has been waited for, waits for
    every group it makes before going on to the next definition and before returning, gives every
    definition the context of the goroutine group it runs in, makes groups below the context they are made in, and evaluates
    every definition. *)
Definition well_scoped (m : message) : Prop :=
  exists t, exec_function (resolver m) = Some t /\ Forall own_context (log t) /\
            forall k, In k (message_keys m) -> exists c, In (Called k c c) (log t).
Definition C32_statement : Prop := forall m, everywhere exactly (fun _ => True) m -> NoDup (message_keys m) -> well_scoped m.

(** It holds of all messages, at any depth of groups, calls, error rules and details, except that a call may have at most one
    error rule whose definitions start a group. *)
Theorem C32_contexts_partial : forall m, everywhere exactly one_concurrent m -> NoDup (message_keys m) -> well_scoped m.
Proof. exact resolver_ok. Qed.
Print Assumptions C32_contexts_partial.

(** Two rules that start a group declare eg and ctx1 twice in one function, which Go rejects (error_handler.go.tmpl:32-37). *)
Definition two (k : nat) : dset := Set_ [Def k Plain; Def (k + 1) Plain] [Seq None k; Seq None (k + 1)].
Definition two_rules : message := {| defs := Set_ [Def 0 (Call [Rule (two 1) []; Rule (two 3) []])] [Seq None 0]; cases := [] |}.
Theorem C32_refuted : ~ C32_statement.
Proof.
  intros H. destruct (H two_rules) as (t & E & _).
  - cbn. repeat split; try (intros x; exact x).
  - cbn. repeat constructor; cbn; lia.
  - vm_compute in E. discriminate.
Qed.
Print Assumptions C32_refuted.

(** No variable the code declares is left unused, which Go rejects too. This needs the plan to evaluate every definition. *)
Theorem C32_names_used : forall m, everywhere exactly (fun _ => True) m -> NoDup (message_keys m) -> all_used_block (resolver m).
Proof. exact (resolver_used (fun _ => True)). Qed.
Print Assumptions C32_names_used.

(** The plans the resolver makes are such: see C04 for when it makes one. [f] gives the keys of the definitions. *)
Theorem C32_plans : forall ds fuel gs f l, no_self_reference ds -> ds <> [] -> length ds < fuel -> setup fuel ds = Planned gs ->
  map key_of l = map f (seq 0 (length ds)) -> exactly l (map (rename f) gs).
Proof.
  intros ds fuel gs f l S N Hf H El. destruct (setup_planned ds S N) as (gs' & H1 & _ & H3 & _). rewrite (H1 fuel Hf) in H. injection H as ->.
  split.
  - intros k. rewrite El. unfold planned_defs in *. rewrite map_map, in_map_iff. split.
    + intros (i & <- & Hi). apply in_seq in Hi. assert (Hp : In i (concat (map group_defs gs))) by (apply H3; lia).
      apply in_concat in Hp as (x & Hx & Hi2). apply in_map_iff in Hx as (g & <- & Hg). apply in_concat. exists (group_defs (rename f g)).
      split; [apply in_map_iff; exists g; auto|]. rewrite rename_defs. apply in_map. exact Hi2.
    + intros Hk. apply in_concat in Hk as (x & Hx & Hk). apply in_map_iff in Hx as (g & <- & Hg). rewrite rename_defs in Hk. apply in_map_iff in Hk as (i & <- & Hi).
      exists i. split; [reflexivity|]. apply in_seq. assert (i < length ds); [|lia]. apply H3. apply in_concat. exists (group_defs g). split; [apply in_map; exact Hg|exact Hi].
  - pose proof (setup_nonempty _ _ _ (H1 fuel Hf)) as NE. clear - NE. induction gs as [|g gs IH]; [reflexivity|]. cbn in *. rewrite rename_nonempty.
    apply Bool.andb_true_iff in NE as [-> NE2]. cbn. apply IH. exact NE2.
Qed.
Print Assumptions C32_plans.

(** Nested groups, a call with two error rules (one of them concurrent) with details, a validation, and a oneof case. *)
Definition sample : message :=
  {| defs := Set_ [Def 0 Plain; Def 1 (Call [Rule (two 10) [Detail (two 12) (two 14)]; Rule (Set_ [] []) []]); Def 2 Plain;
                   Def 3 (Validation (Rule (two 16) [])); Def 4 Plain]
                  [Seq (Some (Conc [Seq (Some (Seq None 0)) 1; Conc [Seq None 0; Seq None 2] 3] 4)) 4; Seq None 2];
     cases := [two 18] |}.
Lemma same_keys (a b : list nat) : nodup Nat.eq_dec b = nodup Nat.eq_dec a -> forall k, In k a <-> In k b.
Proof. intros E k. rewrite <- (nodup_In Nat.eq_dec a), <- (nodup_In Nat.eq_dec b), E. reflexivity. Qed.
Lemma two_exactly k : exactly [Def k Plain; Def (k + 1) Plain] [Seq None k; Seq None (k + 1)].
Proof. split; [intros x; reflexivity|reflexivity]. Qed.
Example C32_sample : everywhere exactly one_concurrent sample /\ NoDup (message_keys sample) /\ length (message_keys sample) = 15.
Proof.
  split; [|split; [cbn; repeat constructor; cbn; lia|reflexivity]].
  unfold everywhere, sample. cbn [defs cases two fine_set map fold_right fine_def fine_kind fine_rule fine_detail].
  repeat match goal with |- _ /\ _ => split | |- True => exact I end; try apply two_exactly; try (unfold one_concurrent, at_most_one; cbn; lia).
  - split; [|reflexivity]. intros k. unfold planned_defs. cbn [map concat group_defs app key_of]. cbn [In]. lia.
  - split; [intros k; reflexivity|reflexivity].
Qed.
