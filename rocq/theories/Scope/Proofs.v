(** Proofs about the scopes of generated code. *)
From Coq Require Import List Arith Bool Lia Permutation.
From Verif.Plan Require Import Model Spec.
From Verif.Scope Require Import Model Spec.
From Verif.Graph Require Import Dfs.
From Verif.Base Require Import Sort SortProofs.
Import ListNotations.

(** ** Induction *)
Fixpoint group_ind' (P : group -> Prop) (H0 : forall e, P (Seq None e)) (H1 : forall s e, P s -> P (Seq (Some s) e))
  (H2 : forall ss e, Forall P ss -> P (Conc ss e)) (g : group) : P g :=
  match g with
  | Seq None e => H0 e
  | Seq (Some s) e => H1 s e (group_ind' P H0 H1 H2 s)
  | Conc ss e => H2 ss e ((fix all l := match l return Forall P l with [] => Forall_nil _ | x :: l => Forall_cons _ (group_ind' P H0 H1 H2 x) (all l) end) ss)
  end.
Section Ind.
  Variables (Ps : dset -> Prop) (Pd : ddef -> Prop) (Pk : dkind -> Prop) (Pr : rule -> Prop) (Pt : detail -> Prop).
  Hypothesis Hs : forall ds gs, Forall Pd ds -> Ps (Set_ ds gs).
  Hypothesis Hd : forall k kind, Pk kind -> Pd (Def k kind).
  Hypothesis Hp : Pk Plain.
  Hypothesis Hc : forall rs, Forall Pr rs -> Pk (Call rs).
  Hypothesis Hv : forall r, Pr r -> Pk (Validation r).
  Hypothesis Hr : forall s ds, Ps s -> Forall Pt ds -> Pr (Rule s ds).
  Hypothesis Ht : forall s m, Ps s -> Ps m -> Pt (Detail s m).
  Fixpoint set_ind' (s : dset) : Ps s :=
    match s with Set_ ds gs => Hs ds gs ((fix all l := match l return Forall Pd l with [] => Forall_nil _ | x :: l => Forall_cons _ (def_ind' x) (all l) end) ds) end
  with def_ind' (d : ddef) : Pd d := match d with Def k kind => Hd k kind (kind_ind' kind) end
  with kind_ind' (k : dkind) : Pk k :=
    match k with
    | Plain => Hp
    | Call rs => Hc rs ((fix all l := match l return Forall Pr l with [] => Forall_nil _ | x :: l => Forall_cons _ (rule_ind' x) (all l) end) rs)
    | Validation r => Hv r (rule_ind' r)
    end
  with rule_ind' (r : rule) : Pr r :=
    match r with Rule s ds => Hr s ds (set_ind' s) ((fix all l := match l return Forall Pt l with [] => Forall_nil _ | x :: l => Forall_cons _ (detail_ind' x) (all l) end) ds) end
  with detail_ind' (d : detail) : Pt d := match d with Detail s m => Ht s m (set_ind' s) (set_ind' m) end.
End Ind.

(** ** Running blocks *)
Lemma name_eqb_eq a b : name_eqb a b = true <-> a = b.
Proof.
  destruct a, b; cbn; split; intros H; try discriminate; try reflexivity.
  - apply Nat.eqb_eq in H. congruence.
  - injection H as <-. apply Nat.eqb_refl.
  - apply Nat.eqb_eq in H. congruence.
  - injection H as <-. apply Nat.eqb_refl.
Qed.
Lemma name_eqb_refl a : name_eqb a a = true. Proof. apply name_eqb_eq. reflexivity. Qed.
Lemma name_eqb_neq a b : a <> b -> name_eqb a b = false.
Proof. intros H. destruct (name_eqb a b) eqn:E; [apply name_eqb_eq in E; contradiction|reflexivity]. Qed.

Definition exec_body (b : scope) (l : list stmt) (cur : nat) (t : st) : option st :=
  match exec_block l cur {| env := b :: env t; next := next t; cancelled := cancelled t; log := log t |} with
  | Some t' => if pending t' then None else Some {| env := tl (env t'); next := next t'; cancelled := cancelled t'; log := log t' |}
  | None => None
  end.
Lemma exec_Go l cur t : exec (Go l) cur t =
  match lookup Eg (env t) with Some (VEg id) => if alive id t then exec_body [] l id t else None | _ => None end.
Proof. reflexivity. Qed.
Lemma exec_Func l cur t : exec (Func l) cur t = exec_body [] l cur t.
Proof. reflexivity. Qed.
Lemma exec_DeclDef k l cur t : exec (DeclDef k l) cur t =
  if declared (DefName k) (env t) then None
  else match exec_body [(Ctx, VCtx (next t))] l (next t) {| env := env t; next := S (next t); cancelled := cancelled t; log := log t |} with
       | Some t => Some {| env := declare [(DefName k, VDef)] (env t); next := next t; cancelled := cancelled t; log := log t |}
       | None => None
       end.
Proof. reflexivity. Qed.
Lemma exec_block_app a b cur t : exec_block (a ++ b) cur t = match exec_block a cur t with Some t => exec_block b cur t | None => None end.
Proof. revert t. induction a as [|s a IH]; intros t; [reflexivity|]. cbn [app exec_block]. destruct (exec s cur t); [apply IH|reflexivity]. Qed.

Lemma find_app x a b : find x (a ++ b) = match find x a with Some v => Some v | None => find x b end.
Proof. induction a as [|[y v] a IH]; [reflexivity|]. cbn. destruct (name_eqb x y); [reflexivity|exact IH]. Qed.

(** Contexts cancelled are old ones, or made in between. *)
Definition wf (t : st) : Prop := forall d, In d (cancelled t) -> d < next t.
Definition live (cur : nat) (t : st) : Prop := cur < next t /\ ~ In cur (cancelled t).
Record grows (t t' : st) (ks : list nat) : Prop := {
  g_next : next t <= next t';
  g_kept : forall d, In d (cancelled t) -> In d (cancelled t');
  g_cancelled : forall d, In d (cancelled t') -> In d (cancelled t) \/ next t <= d < next t';
  g_log : exists new, log t' = new ++ log t /\ Forall own_context new /\ forall k, In k ks -> exists c, In (Called k c c) new }.
Lemma grows_refl t : grows t t [].
Proof. constructor; [lia|auto|auto|]. exists []. repeat split; [constructor|]. intros k []. Qed.
Lemma grows_trans t u v ks ls : grows t u ks -> grows u v ls -> grows t v (ks ++ ls).
Proof.
  intros [A1 A0 A2 (n1 & A3 & A4 & A5)] [B1 B0 B2 (n2 & B3 & B4 & B5)]. constructor; [lia|auto| |].
  - intros d H. apply B2 in H as [H|H]; [apply A2 in H as [H|H]; [auto|right; lia]|right; lia].
  - exists (n2 ++ n1). rewrite B3, A3, app_assoc. split; [reflexivity|]. split; [apply Forall_app; auto|].
    intros k H. apply in_app_iff in H as [H|H]; [destruct (A5 k H) as [c Hc]|destruct (B5 k H) as [c Hc]]; exists c; apply in_app_iff; auto.
Qed.
Lemma grows_wf t u ks : grows t u ks -> wf t -> wf u.
Proof. intros [A1 _ A2 _] W d H. apply A2 in H as [H|H]; [apply W in H; lia|lia]. Qed.
Lemma grows_live t u ks cur : grows t u ks -> live cur t -> live cur u.
Proof. intros [A1 _ A2 _] [L N]. split; [lia|]. intros H. apply A2 in H as [H|H]; [auto|lia]. Qed.
Lemma grows_incl t u ks ls : (forall k, In k ls -> In k ks) -> grows t u ks -> grows t u ls.
Proof. intros I [A1 A0 A2 (n & A3 & A4 & A5)]. constructor; [exact A1|exact A0|exact A2|]. exists n. auto. Qed.
Lemma live_alive cur t : live cur t -> alive cur t = true.
Proof.
  intros [_ N]. unfold alive. apply negb_true_iff. destruct (existsb (Nat.eqb cur) (cancelled t)) eqn:E; [|reflexivity].
  apply existsb_exists in E as (y & Hy & Ey). apply Nat.eqb_eq in Ey. subst y. contradiction.
Qed.
Definition set_env (t : st) (e : list scope) : st := {| env := e; next := next t; cancelled := cancelled t; log := log t |}.
Lemma grows_env t u ks e f : grows t u ks -> grows (set_env t e) (set_env u f) ks.
Proof. intros [A1 A0 A2 A3]. constructor; assumption. Qed.
Lemma grows_pending t u ks : grows t u ks -> env u = env t -> pending t = false -> pending u = false.
Proof.
  intros [_ A0 _ _] E. unfold pending. rewrite E. destruct (env t) as [|s e]; [auto|]. destruct (find Eg s) as [[id|id|]|]; auto.
  unfold alive. rewrite !negb_false_iff, !existsb_exists. intros (d & Hd & Ed). exists d. auto.
Qed.

Lemma grows_pending_scope t u ks s s' o o' : grows t u ks -> env t = s :: o -> env u = s' :: o' -> find Eg s' = find Eg s -> pending t = false -> pending u = false.
Proof.
  intros [_ A0 _ _] E1 E2 Ef. unfold pending. rewrite E1, E2, Ef. destruct (find Eg s) as [[id|id|]|]; auto.
  unfold alive. rewrite !negb_false_iff, !existsb_exists. intros (d & Hd & Ed). exists d. auto.
Qed.

(** Running a body in its own scope *)
Lemma body_ok b l cur t t' inner ks :
  exec_block l cur (set_env t (b :: env t)) = Some t' -> env t' = inner :: env t -> grows (set_env t (b :: env t)) t' ks -> pending t' = false ->
  exists u, exec_body b l cur t = Some u /\ env u = env t /\ grows t u ks.
Proof.
  intros E En G NP. unfold exec_body. fold (set_env t (b :: env t)). rewrite E, NP. eexists. split; [reflexivity|]. cbn. rewrite En. split; [reflexivity|].
  destruct G as [A1 A0 A2 A3]. constructor; assumption.
Qed.

Lemma parent_ctx_not_eg level : ParentCtx level <> Eg.
Proof. destruct level as [|[|level]]; discriminate. Qed.
Lemma parent_ctx_not_self level : 1 <= level -> ParentCtx level <> CtxN level.
Proof. destruct level as [|[|level]]; cbn; [lia|discriminate|intros _ H; injection H as H; lia]. Qed.
Lemma parent_ctx_S level : 1 <= level -> ParentCtx (level + 1) = CtxN level.
Proof. rewrite Nat.add_1_r. destruct level as [|level]; cbn; [lia|reflexivity]. Qed.

Definition group_goal (g : group) : Prop := forall level cur t inner outer,
  1 <= level -> wf t -> env t = inner :: outer -> lookup (ParentCtx level) (env t) = Some (VCtx cur) -> live cur t ->
  (forall k, In k (group_defs g) -> lookup (DefName k) (env t) = Some VDef) ->
  (forks g = true -> find Eg inner = None) -> pending t = false ->
  exists t' extra, exec_block (evalDefGroup level g) cur t = Some t' /\
    env t' = (extra ++ inner) :: outer /\ (forall x, x <> Eg -> x <> CtxN level -> find x extra = None) /\ (forks g = false -> extra = []) /\ pending t' = false /\
    grows t t' (group_defs g).

Lemma call_ok k c cur t : lookup (DefName k) (env t) = Some VDef -> lookup c (env t) = Some (VCtx cur) -> live cur t -> pending t = false ->
  exists t', exec (CallDef k c) cur t = Some t' /\ env t' = env t /\ grows t t' [k].
Proof.
  intros Hk Hc L NP. cbn. rewrite NP, Hk, Hc, (live_alive _ _ L). eexists. split; [reflexivity|]. split; [reflexivity|].
  constructor; cbn; [lia|auto|auto|]. exists [Called k cur cur]. split; [reflexivity|]. split; [constructor; [reflexivity|constructor]|].
  intros x [<-|[]]. exists cur. cbn. auto.
Qed.

Lemma gos_ok lvl ss : Forall group_goal ss -> forall id cur t, 1 <= lvl -> wf t ->
  lookup Eg (env t) = Some (VEg id) -> lookup (ParentCtx lvl) (env t) = Some (VCtx id) -> live id t ->
  (forall k, In k (concat (map group_defs ss)) -> lookup (DefName k) (env t) = Some VDef) ->
  exists t', exec_block (map (fun s => Go (evalDefGroup lvl s)) ss) cur t = Some t' /\ env t' = env t /\ grows t t' (concat (map group_defs ss)).
Proof.
  induction 1 as [|s ss Hs Hss IH]; intros id cur t L1 W Heg Hp L K.
  - exists t. split; [reflexivity|]. split; [reflexivity|]. apply grows_refl.
  - cbn [map exec_block]. rewrite exec_Go, Heg, (live_alive _ _ L).
    destruct (Hs lvl id (set_env t ([] :: env t)) [] (env t) L1 W eq_refl) as (t1 & extra & E1 & En1 & _ & _ & NP1 & G1).
    + exact Hp.
    + exact L.
    + intros k Hk. cbn. apply K. cbn. apply in_app_iff. auto.
    + reflexivity.
    + reflexivity.
    + destruct (body_ok [] _ _ _ _ _ _ E1 En1 G1 NP1) as (u & Eu & Enu & Gu). rewrite Eu.
      destruct (IH id cur u L1) as (t' & E' & En' & G').
      * exact (grows_wf _ _ _ Gu W).
      * rewrite Enu. exact Heg.
      * rewrite Enu. exact Hp.
      * exact (grows_live _ _ _ _ Gu L).
      * intros k Hk. rewrite Enu. apply K. cbn. apply in_app_iff. auto.
      * exists t'. split; [exact E'|]. split; [congruence|]. cbn. eapply grows_trans; eassumption.
Qed.

(** Making a group, running its goroutines and waiting for them *)
Lemma fork_ok lvl ss p cur t inner outer : Forall group_goal ss -> 1 <= lvl -> wf t -> env t = inner :: outer ->
  lookup p (env t) = Some (VCtx cur) -> live cur t -> find Eg inner = None ->
  (forall k, In k (concat (map group_defs ss)) -> lookup (DefName k) (env t) = Some VDef) ->
  exists t' id, exec_block ([NewGroup (CtxN lvl) p] ++ map (fun s => Go (evalDefGroup (lvl + 1) s)) ss ++ [Wait]) cur t = Some t' /\
    env t' = ([(CtxN lvl, VCtx id); (Eg, VEg id)] ++ inner) :: outer /\ pending t' = false /\ grows t t' (concat (map group_defs ss)).
Proof.
  intros Hss L1 W En Hp L NE K. rewrite exec_block_app. cbn [exec_block exec]. rewrite En. cbn [declared]. rewrite NE. cbn [andb]. rewrite <- En, Hp, (live_alive _ _ L).
  set (n := next t). set (t1 := {| env := declare [(CtxN lvl, VCtx n); (Eg, VEg n)] (env t); next := S n; cancelled := cancelled t; log := Made n cur cur :: log t |}).
  assert (G1 : grows t t1 []).
  { constructor; cbn; [unfold n; lia|auto|auto|]. exists [Made n cur cur]. split; [reflexivity|]. split; [constructor; [reflexivity|constructor]|]. intros k []. }
  assert (E1 : env t1 = ([(CtxN lvl, VCtx n); (Eg, VEg n)] ++ inner) :: outer) by (cbn; rewrite En; reflexivity).
  assert (W1 : wf t1) by exact (grows_wf _ _ _ G1 W).
  assert (L2 : live n t1). { split; cbn; [lia|]. intros H. apply W in H. unfold n in H. lia. }
  rewrite exec_block_app.
  destruct (gos_ok (lvl + 1) ss Hss n cur t1) as (t2 & E2 & En2 & G2); [lia|exact W1| | |exact L2| |].
  - rewrite E1. reflexivity.
  - rewrite (parent_ctx_S _ L1), E1. cbn. rewrite Nat.eqb_refl. reflexivity.
  - intros k Hk. rewrite E1. specialize (K k Hk). rewrite En in K. cbn in *. exact K.
  - rewrite E2. cbn [exec_block exec]. rewrite En2, E1. cbn [app lookup find name_eqb]. rewrite (live_alive _ _ (grows_live _ _ _ _ G2 L2)).
    eexists. exists n. split; [reflexivity|]. split; [reflexivity|]. split; [unfold pending, alive; cbn; rewrite Nat.eqb_refl; reflexivity|].
    pose proof (grows_trans _ _ _ _ _ G1 G2) as [A1 A0 A2 A3]. cbn [app] in A3. constructor; cbn; [exact A1|auto| |exact A3].
    intros d [<-|H]; [|auto]. right. destruct G2 as [B1 _ _ _]. cbn in B1. unfold n. split; [lia|]. unfold n in B1. lia.
Qed.

Lemma group_ok g : group_goal g.
Proof.
  induction g as [e|s e IH|ss e IH] using group_ind'; intros level cur t inner outer L1 W En Hp L K NE NP.
  - cbn [evalDefGroup exec_block].
    destruct (call_ok e (ParentCtx level) cur t (K e (or_introl eq_refl)) Hp L NP) as (t' & E' & En' & G').
    rewrite E'. exists t', []. split; [reflexivity|]. split; [rewrite En'; exact En|]. split; [reflexivity|]. split; [reflexivity|]. split; [exact (grows_pending _ _ _ G' En' NP)|exact G'].
  - cbn [evalDefGroup]. rewrite exec_block_app.
    destruct (IH level cur t inner outer L1 W En Hp L) as (t1 & ex & E1 & En1 & F1 & N1 & NP1 & G1).
    + intros k Hk. apply K. cbn. apply in_app_iff. auto.
    + exact NE.
    + exact NP.
    + rewrite E1. cbn [exec_block].
      assert (Hl : forall x, x <> Eg -> x <> CtxN level -> lookup x (env t1) = lookup x (env t)).
      { intros x X1 X2. rewrite En1, En. cbn [lookup]. rewrite find_app, (F1 x X1 X2). reflexivity. }
      destruct (call_ok e (ParentCtx level) cur t1) as (t2 & E2 & En2 & G2).
      * rewrite Hl by discriminate. apply K. cbn. apply in_app_iff. cbn. auto.
      * rewrite Hl; [exact Hp|apply parent_ctx_not_eg|apply parent_ctx_not_self; exact L1].
      * exact (grows_live _ _ _ _ G1 L).
      * exact NP1.
      * rewrite E2. exists t2, ex. split; [reflexivity|]. split; [congruence|]. split; [exact F1|]. split; [exact N1|]. split; [exact (grows_pending _ _ _ G2 En2 NP1)|].
        cbn. eapply grows_trans; eassumption.
  - destruct (fork_ok level ss (ParentCtx level) cur t inner outer IH L1 W En Hp L (NE eq_refl)) as (t1 & id & E1 & En1 & NP1 & G1).
    + intros k Hk. apply K. cbn. apply in_app_iff. auto.
    + cbn [evalDefGroup].
      replace ([NewGroup (CtxN level) (ParentCtx level)] ++ map (fun s => Go (evalDefGroup (level + 1) s)) ss ++ [Wait; CallDef e (ParentCtx level)])
        with (([NewGroup (CtxN level) (ParentCtx level)] ++ map (fun s => Go (evalDefGroup (level + 1) s)) ss ++ [Wait]) ++ [CallDef e (ParentCtx level)])
        by (rewrite <- !app_assoc; reflexivity).
      rewrite exec_block_app, E1. cbn [exec_block].
      assert (Hl : forall x, x <> Eg -> x <> CtxN level -> lookup x (env t1) = lookup x (env t)).
      { intros x X1 X2. rewrite En1, En. cbn [lookup]. rewrite find_app. cbn [find]. rewrite (name_eqb_neq _ _ X1), (name_eqb_neq _ _ X2). reflexivity. }
      destruct (call_ok e (ParentCtx level) cur t1) as (t2 & E2 & En2 & G2).
      * rewrite Hl by discriminate. apply K. cbn. apply in_app_iff. cbn. auto.
      * rewrite Hl; [exact Hp|apply parent_ctx_not_eg|apply parent_ctx_not_self; exact L1].
      * exact (grows_live _ _ _ _ G1 L).
      * exact NP1.
      * rewrite E2. exists t2, [(CtxN level, VCtx id); (Eg, VEg id)]. split; [reflexivity|]. split; [congruence|].
        split; [intros x X1 X2; cbn [find]; rewrite (name_eqb_neq _ _ X1), (name_eqb_neq _ _ X2); reflexivity|]. split; [discriminate|]. split; [exact (grows_pending _ _ _ G2 En2 NP1)|].
        cbn. eapply grows_trans; eassumption.
Qed.

Definition groups_fork (gs : list group) : bool := match gs with [g] => forks g | [] => false | _ => true end.
Lemma groups_ok gs cur t inner outer : wf t -> env t = inner :: outer -> lookup Ctx (env t) = Some (VCtx cur) -> live cur t ->
  (forall k, In k (planned_defs gs) -> lookup (DefName k) (env t) = Some VDef) ->
  (groups_fork gs = true -> find Eg inner = None) -> pending t = false ->
  exists t' extra, exec_block (evalDefGroups gs) cur t = Some t' /\
    env t' = (extra ++ inner) :: outer /\ (forall x, x <> Eg -> x <> CtxN 1 -> find x extra = None) /\ (groups_fork gs = false -> extra = []) /\ pending t' = false /\
    grows t t' (planned_defs gs).
Proof.
  intros W En Hp L K NE NP. destruct gs as [|g [|g2 gs]].
  - exists t, []. split; [reflexivity|]. split; [exact En|]. split; [reflexivity|]. split; [reflexivity|]. split; [exact NP|apply grows_refl].
  - unfold planned_defs in *. cbn [map concat] in *. rewrite app_nil_r in *.
    destruct (group_ok g 1 cur t inner outer (le_n 1) W En Hp L K NE NP) as (t' & ex & A). exists t', ex. exact A.
  - set (gg := g :: g2 :: gs) in *.
    destruct (fork_ok 1 gg Ctx cur t inner outer) as (t1 & id & E1 & En1 & NP1 & G1); try assumption.
    + apply Forall_forall. intros x _. apply group_ok.
    + lia.
    + apply NE. reflexivity.
    + exists t1, [(CtxN 1, VCtx id); (Eg, VEg id)]. split; [exact E1|]. split; [exact En1|]. split; [|split; [discriminate|split; [exact NP1|exact G1]]].
      intros x X1 X2. cbn [find]. rewrite (name_eqb_neq _ _ X1), (name_eqb_neq _ _ X2). reflexivity.
Qed.

(** ** Sets *)
Definition set_goal (s : dset) : Prop := forall cur t inner outer,
  wf t -> env t = inner :: outer -> lookup Ctx (env t) = Some (VCtx cur) -> live cur t ->
  fine_set exactly one_concurrent s -> NoDup (set_keys s) -> (forall k, In k (set_keys s) -> find (DefName k) inner = None) ->
  (concurrent s = true -> find Eg inner = None) -> pending t = false ->
  exists t' extra, exec_block (evalDefSet s) cur t = Some t' /\ env t' = (extra ++ inner) :: outer /\ (forall x, x <> Eg -> x <> CtxN 1 -> (forall k, In k (set_keys s) -> x <> DefName k) -> find x extra = None) /\ (concurrent s = false -> find Eg extra = None) /\ pending t' = false /\ grows t t' (set_keys s).
Definition def_goal (d : ddef) : Prop := forall cur t inner outer,
  wf t -> env t = inner :: outer -> fine_def exactly one_concurrent d -> NoDup (def_keys d) -> find (DefName (key_of d)) inner = None ->
  exists t', exec (declDef d) cur t = Some t' /\ env t' = ((DefName (key_of d), VDef) :: inner) :: outer /\ grows t t' (tl (def_keys d)).
(** Code that declares nothing in the scope it is in *)
Definition closed_goal (l : list stmt) (ks : list nat) : Prop := forall cur t,
  wf t -> lookup Ctx (env t) = Some (VCtx cur) -> live cur t -> exists t', exec_block l cur t = Some t' /\ env t' = env t /\ grows t t' ks.
Definition kind_goal (k : dkind) : Prop := fine_kind exactly one_concurrent k -> NoDup (kind_keys k) -> closed_goal (defBody k) (kind_keys k).
Definition detail_goal (d : detail) : Prop := fine_detail exactly one_concurrent d -> NoDup (detail_keys d) -> closed_goal (detailCode d) (detail_keys d).
Definition rule_goal (r : rule) : Prop := match r with Rule s ds => set_goal s /\ Forall detail_goal ds end.

Lemma closed_app a b ks ls : closed_goal a ks -> closed_goal b ls -> closed_goal (a ++ b) (ks ++ ls).
Proof.
  intros A B cur t W H L. destruct (A cur t W H L) as (u & Eu & Enu & Gu). rewrite exec_block_app, Eu.
  destruct (B cur u) as (v & Ev & Env & Gv); [exact (grows_wf _ _ _ Gu W)|rewrite Enu; exact H|exact (grows_live _ _ _ _ Gu L)|].
  exists v. split; [exact Ev|]. split; [congruence|]. eapply grows_trans; eassumption.
Qed.
Lemma closed_nil : closed_goal [] [].
Proof. intros cur t _ _ _. exists t. split; [reflexivity|]. split; [reflexivity|apply grows_refl]. Qed.
Lemma closed_func l ks : closed_goal l ks -> closed_goal [Func l] ks.
Proof.
  intros A cur t W H L. cbn [exec_block]. rewrite exec_Func.
  destruct (A cur (set_env t ([] :: env t)) W H L) as (u & Eu & Enu & Gu).
  assert (NP : pending u = false) by (unfold pending; rewrite Enu; reflexivity).
  destruct (body_ok [] l cur t u [] ks Eu Enu Gu NP) as (v & Ev & Env & Gv). rewrite Ev. exists v. auto.
Qed.
Lemma set_func s : set_goal s -> fine_set exactly one_concurrent s -> NoDup (set_keys s) -> closed_goal [Func (evalDefSet s)] (set_keys s).
Proof.
  intros A F N cur t W H L. cbn [exec_block]. rewrite exec_Func.
  destruct (A cur (set_env t ([] :: env t)) [] (env t) W eq_refl H L F N) as (u & ex & Eu & Enu & _ & _ & NP & Gu); [reflexivity|reflexivity|reflexivity|].
  destruct (body_ok [] (evalDefSet s) cur t u _ _ Eu Enu Gu NP) as (v & Ev & Env & Gv). rewrite Ev. exists v. auto.
Qed.
Lemma NoDup_app_l {A} (a b : list A) : NoDup (a ++ b) -> NoDup a.
Proof. induction a as [|x a IH]; intros H; [constructor|]. inversion H as [|? ? N M]; subst. constructor; [|auto]. rewrite in_app_iff in N. tauto. Qed.
Lemma NoDup_app_r {A} (a b : list A) : NoDup (a ++ b) -> NoDup b.
Proof. induction a as [|x a IH]; intros H; [exact H|]. inversion H; subst. auto. Qed.
Lemma NoDup_app_disj {A} (a b : list A) x : NoDup (a ++ b) -> In x a -> In x b -> False.
Proof. induction a as [|y a IH]; intros H []; inversion H as [|? ? N M]; subst; intros Hb; [apply N, in_app_iff; auto|eauto]. Qed.
Lemma details_ok ds : Forall detail_goal ds -> fold_right and True (map (fine_detail exactly one_concurrent) ds) -> NoDup (concat (map detail_keys ds)) ->
  closed_goal (concat (map detailCode ds)) (concat (map detail_keys ds)).
Proof.
  induction 1 as [|d ds Hd _ IH]; intros F N; [exact closed_nil|]. cbn in *. destruct F as [F1 F2].
  apply closed_app; [apply Hd; [exact F1|exact (NoDup_app_l _ _ N)]|apply IH; [exact F2|exact (NoDup_app_r _ _ N)]].
Qed.

(** The declarations of a set *)
Lemma decls_ok ds : Forall def_goal ds -> forall cur t inner outer,
  wf t -> env t = inner :: outer -> fold_right and True (map (fine_def exactly one_concurrent) ds) -> NoDup (concat (map def_keys ds)) ->
  (forall k, In k (map key_of ds) -> find (DefName k) inner = None) ->
  exists t' extra, exec_block (map declDef ds) cur t = Some t' /\ env t' = (extra ++ inner) :: outer /\ (forall x, (forall k, In k (map key_of ds) -> x <> DefName k) -> find x extra = None) /\ (forall k, In k (map key_of ds) -> find (DefName k) extra = Some VDef) /\ grows t t' (concat (map (fun d => tl (def_keys d)) ds)).
Proof.
  induction 1 as [|d ds Hd _ IH]; intros cur t inner outer W En F N NE.
  - exists t, []. split; [reflexivity|]. split; [exact En|]. split; [reflexivity|]. split; [intros k []|apply grows_refl].
  - cbn [map fold_right concat] in *. destruct F as [F1 F2].
    destruct (Hd cur t inner outer W En F1 (NoDup_app_l _ _ N)) as (t1 & E1 & En1 & G1); [apply NE; cbn; auto|].
    assert (Nk : forall k, In k (map key_of ds) -> k <> key_of d).
    { intros k Hk ->. apply (NoDup_app_disj _ _ (key_of d) N).
      - destruct d as [k0 kd]. cbn. auto.
      - apply in_concat. apply in_map_iff in Hk as (d2 & Ek & Hd2). exists (def_keys d2). split; [apply in_map; exact Hd2|]. rewrite <- Ek. destruct d2; cbn; auto. }
    destruct (IH cur t1 ((DefName (key_of d), VDef) :: inner) outer (grows_wf _ _ _ G1 W) En1 F2 (NoDup_app_r _ _ N)) as (t2 & ex & E2 & En2 & A2 & B2 & G2).
    + intros k Hk. cbn. specialize (Nk k Hk). apply Nat.eqb_neq in Nk. rewrite Nk. apply NE. cbn. auto.
    + exists t2, (ex ++ [(DefName (key_of d), VDef)]). cbn [exec_block]. rewrite E1. split; [exact E2|]. split; [rewrite En2, <- app_assoc; reflexivity|]. split; [|split].
      * intros x Hx. rewrite find_app, A2 by (intros k Hk; apply Hx; cbn; auto). cbn. rewrite name_eqb_neq; [reflexivity|]. apply Hx. cbn. auto.
      * intros k Hk. rewrite find_app. destruct (in_dec Nat.eq_dec k (map key_of ds)) as [I|I]; [rewrite (B2 k I); reflexivity|].
        destruct Hk as [<-|Hk]; [|contradiction]. rewrite A2; [cbn; rewrite Nat.eqb_refl; reflexivity|]. intros k0 Hk0 X. injection X as X. apply I. rewrite X. exact Hk0.
      * eapply grows_trans; eassumption.
Qed.

Lemma keys_split ds k : In k (concat (map def_keys ds)) -> In k (map key_of ds) \/ In k (concat (map (fun d => tl (def_keys d)) ds)).
Proof.
  induction ds as [|d ds IH]; cbn; [tauto|]. rewrite !in_app_iff. intros [H|H]; [|apply IH in H as [H|H]; auto].
  destruct d as [k0 kd]. cbn in *. destruct H as [->|H]; auto.
Qed.
Lemma keys_in ds k : In k (map key_of ds) -> In k (concat (map def_keys ds)).
Proof. induction ds as [|d ds IH]; cbn; [tauto|]. rewrite in_app_iff. intros [<-|H]; [left; destruct d; cbn; auto|auto]. Qed.

(** The rules of a call, in one scope *)
Lemma rules_ok rs : Forall rule_goal rs -> forall cur t inner outer,
  wf t -> env t = inner :: outer -> lookup Ctx (env t) = Some (VCtx cur) -> live cur t ->
  fold_right and True (map (fine_rule exactly one_concurrent) rs) -> NoDup (concat (map rule_keys rs)) ->
  (forall k, In k (concat (map rule_keys rs)) -> find (DefName k) inner = None) ->
  length (filter (fun r => concurrent (rule_set r)) rs) <= (match find Eg inner with None => 1 | Some _ => 0 end) -> pending t = false ->
  exists t' inner', exec_block (concat (map ruleCode rs)) cur t = Some t' /\ env t' = inner' :: outer /\ pending t' = false /\ grows t t' (concat (map rule_keys rs)).
Proof.
  induction 1 as [|r rs Hr _ IH]; intros cur t inner outer W En H L F N NE C NP.
  - exists t, inner. split; [reflexivity|]. split; [exact En|]. split; [exact NP|apply grows_refl].
  - destruct r as [s ds]. destruct Hr as [Hs Hds]. cbn [map fold_right concat ruleCode rule_keys fine_rule filter rule_set] in *. destruct F as [[Fs Fd] F2].
    rewrite !exec_block_app.
    pose proof (NoDup_app_l _ _ N) as N1. pose proof (NoDup_app_r _ _ N) as N2.
    destruct (Hs cur t inner outer W En H L Fs (NoDup_app_l _ _ N1)) as (t1 & ex & E1 & En1 & A1 & B1 & NP1 & G1).
    + intros k Hk. apply NE. rewrite !in_app_iff. auto.
    + intros Hc. rewrite Hc in C. cbn in C. destruct (find Eg inner); [lia|reflexivity].
    + exact NP.
    + rewrite E1.
      assert (H1 : lookup Ctx (env t1) = Some (VCtx cur)).
      { rewrite En1. cbn [lookup]. rewrite find_app, A1 by discriminate. rewrite En in H. exact H. }
      destruct (closed_func _ _ (details_ok ds Hds Fd (NoDup_app_r _ _ N1)) cur t1 (grows_wf _ _ _ G1 W) H1 (grows_live _ _ _ _ G1 L)) as (t2 & E2 & En2 & G2).
      rewrite E2. pose proof (grows_trans _ _ _ _ _ G1 G2) as G12.
      destruct (IH cur t2 (ex ++ inner) outer) as (t3 & inner' & E3 & En3 & NP3 & G3).
      * exact (grows_wf _ _ _ G12 W).
      * rewrite En2; exact En1.
      * rewrite En2. exact H1.
      * exact (grows_live _ _ _ _ G12 L).
      * exact F2.
      * exact N2.
      * intros k Hk. rewrite find_app, A1; [|discriminate|discriminate|].
        -- apply NE. rewrite !in_app_iff. auto.
        -- intros k2 Hk2 X. injection X as <-. apply (NoDup_app_disj _ _ k N); [rewrite in_app_iff; auto|exact Hk].
      * rewrite find_app. destruct (concurrent s) eqn:Ec; cbn [length] in C.
        -- destruct (find Eg inner); [lia|]. destruct (find Eg ex); lia.
        -- rewrite (B1 eq_refl). exact C.
      * exact (grows_pending _ _ _ G2 En2 NP1).
      * exists t3, inner'. split; [exact E3|]. split; [exact En3|]. split; [exact NP3|]. eapply grows_trans; [exact G12|exact G3].
Qed.

Lemma sets_ok : (forall s, set_goal s).
Proof.
  apply (set_ind' set_goal def_goal kind_goal rule_goal detail_goal).
  - intros ds gs Hds cur t inner outer W En H L [[P _] F] N NE C NP. cbn [set_keys evalDefSet] in *. rewrite exec_block_app.
    destruct (decls_ok ds Hds cur t inner outer W En F N) as (t1 & ex & E1 & En1 & A1 & B1 & G1).
    { intros k Hk. apply NE, keys_in, Hk. }
    rewrite E1.
    assert (Hl : forall x, (forall k, In k (map key_of ds) -> x <> DefName k) -> find x (ex ++ inner) = find x inner).
    { intros x Hx. rewrite find_app, (A1 x Hx). reflexivity. }
    destruct (groups_ok gs cur t1 (ex ++ inner) outer) as (t2 & ex2 & E2 & En2 & A2 & B2 & NP2 & G2).
    + exact (grows_wf _ _ _ G1 W).
    + exact En1.
    + rewrite En1. cbn [lookup]. rewrite Hl by discriminate. rewrite En in H. exact H.
    + exact (grows_live _ _ _ _ G1 L).
    + intros k Hk. apply P in Hk. rewrite En1. cbn [lookup]. rewrite find_app, (B1 k Hk). reflexivity.
    + intros Hg. rewrite Hl by discriminate. apply C. destruct gs as [|g [|g2 gs]]; exact Hg.
    + eapply grows_pending_scope; [exact G1|exact En|exact En1|apply Hl; discriminate|exact NP].
    + exists t2, (ex2 ++ ex). split; [exact E2|]. split; [rewrite En2, app_assoc; reflexivity|]. split; [|split; [|split; [exact NP2|]]].
      * intros x X1 X2 X3. rewrite find_app, (A2 x X1 X2). apply A1. intros k Hk. apply X3, keys_in, Hk.
      * intros Hc. rewrite B2; [|destruct gs as [|g [|g2 gs]]; exact Hc]. cbn [app]. apply A1. discriminate.
      * eapply grows_incl; [|eapply grows_trans; eassumption]. intros k Hk. apply keys_split in Hk as [Hk|Hk]; rewrite in_app_iff; [right; apply P; exact Hk|auto].
  - intros k kind Hk cur t inner outer W En F N NE. cbn [declDef key_of] in *. rewrite exec_DeclDef. rewrite En. cbn [declared]. rewrite NE.
    cbn [def_keys tl fine_def] in *. inversion N as [|? ? Nk N1]; subst.
    set (t0 := {| env := inner :: outer; next := S (next t); cancelled := cancelled t; log := log t |}).
    assert (G0 : grows t t0 []). { constructor; cbn; [lia|auto|auto|]. exists []. repeat split; [constructor|]. intros x []. }
    destruct (Hk F N1 (next t) (set_env t0 ([(Ctx, VCtx (next t))] :: env t0))) as (u & Eu & Enu & Gu).
    + exact (grows_wf _ _ _ G0 W).
    + reflexivity.
    + split; cbn; [lia|]. intros X. apply W in X. lia.
    + assert (NP : pending u = false) by (unfold pending; rewrite Enu; reflexivity).
      destruct (body_ok [(Ctx, VCtx (next t))] _ _ t0 u _ _ Eu Enu Gu NP) as (v & Ev & Env & Gv). rewrite Ev. eexists. split; [reflexivity|]. cbn [env].
      rewrite Env. split; [reflexivity|]. pose proof (grows_trans _ _ _ _ _ G0 Gv) as [X1 X0 X2 X3]. constructor; assumption.
  - intros _ _. exact closed_nil.
  - intros rs Hrs [C F] N. cbn [defBody kind_keys]. apply closed_func.
    intros cur t W H L. cbn [exec_block]. rewrite exec_Func.
    destruct (rules_ok rs Hrs cur (set_env t ([] :: env t)) [] (env t) W eq_refl H L F N) as (u & inner' & Eu & Enu & NP & Gu); [reflexivity|exact C|reflexivity|].
    destruct (body_ok [] _ _ _ _ _ _ Eu Enu Gu NP) as (v & Ev & Env & Gv). rewrite Ev. exists v. auto.
  - intros [s ds] [Hs Hds] F N. cbn [fine_kind fine_rule kind_keys rule_keys defBody] in *. destruct F as [Fs Fd].
    change (closed_goal ([Func (evalDefSet s)] ++ [Func (concat (map detailCode ds))]) (set_keys s ++ concat (map detail_keys ds))).
    apply closed_app; [apply set_func; [exact Hs|exact Fs|exact (NoDup_app_l _ _ N)]|].
    apply closed_func, details_ok; [exact Hds|exact Fd|exact (NoDup_app_r _ _ N)].
  - intros s ds Hs Hds. split; assumption.
  - intros s m Hs Hm [Fs Fm] N. cbn [detail_keys detailCode] in *.
    change (closed_goal ([Func (evalDefSet s)] ++ [Func [Func (evalDefSet m)]]) (set_keys s ++ set_keys m)).
    apply closed_app; [apply set_func; [exact Hs|exact Fs|exact (NoDup_app_l _ _ N)]|].
    apply closed_func, set_func; [exact Hm|exact Fm|exact (NoDup_app_r _ _ N)].
Qed.

Lemma cases_ok cs : fold_right and True (map (fine_set exactly one_concurrent) cs) -> NoDup (concat (map set_keys cs)) ->
  closed_goal (map (fun c => Func (evalDefSet c)) cs) (concat (map set_keys cs)).
Proof.
  induction cs as [|c cs IH]; intros F N; [exact closed_nil|]. cbn in *. destruct F as [F1 F2].
  change (closed_goal ([Func (evalDefSet c)] ++ map (fun c => Func (evalDefSet c)) cs) (set_keys c ++ concat (map set_keys cs))).
  apply closed_app; [apply set_func; [apply sets_ok|exact F1|exact (NoDup_app_l _ _ N)]|apply IH; [exact F2|exact (NoDup_app_r _ _ N)]].
Qed.

Lemma resolver_ok m : everywhere exactly one_concurrent m -> NoDup (message_keys m) ->
  exists t, exec_function (resolver m) = Some t /\ Forall own_context (log t) /\ forall k, In k (message_keys m) -> exists c, In (Called k c c) (log t).
Proof.
  intros [F1 F2] N. unfold exec_function, resolver. set (t0 := {| env := [[(Ctx, VCtx 0)]]; next := 1; cancelled := []; log := [] |}).
  assert (W : wf t0) by (intros d []). assert (L : live 0 t0) by (split; cbn; [lia|tauto]).
  destruct (sets_ok (defs m) 0 t0 [(Ctx, VCtx 0)] [] W eq_refl eq_refl L F1 (NoDup_app_l _ _ N)) as (t1 & ex & E1 & En1 & A1 & _ & NP1 & G1); [reflexivity|reflexivity|reflexivity|].
  rewrite exec_block_app, E1.
  destruct (cases_ok (cases m) F2 (NoDup_app_r _ _ N) 0 t1) as (t2 & E2 & En2 & G2).
  - exact (grows_wf _ _ _ G1 W).
  - rewrite En1. cbn [lookup]. rewrite find_app, A1 by discriminate. reflexivity.
  - exact (grows_live _ _ _ _ G1 L).
  - rewrite E2, (grows_pending _ _ _ G2 En2 NP1). exists t2. split; [reflexivity|]. destruct (grows_trans _ _ _ _ _ G1 G2) as [_ _ _ (new & El & Fn & Kn)]. cbn in El. rewrite app_nil_r in El. rewrite El. auto.
Qed.

(** ** Every name declared is used *)
Lemma uses_Go x l : uses x (Go l) = name_eqb x Eg || uses_block x l.
Proof. cbn [uses]. f_equal. induction l as [|s l IH]; [reflexivity|]. cbn [uses_block]. rewrite <- IH. reflexivity. Qed.
Lemma uses_app_l x a b : uses_block x a = true -> uses_block x (a ++ b) = true.
Proof.
  induction a as [|s a IH]; [discriminate|]. cbn [app uses_block]. intros H. apply orb_true_iff in H as [H|H]; [rewrite H; reflexivity|].
  apply andb_true_iff in H as [H1 H2]. rewrite H1, (IH H2). apply orb_true_r.
Qed.
Lemma uses_app_r x a b : (forall s, In s a -> declares x s = false) -> uses_block x b = true -> uses_block x (a ++ b) = true.
Proof.
  intros D H. induction a as [|s a IH]; [exact H|]. cbn [app uses_block]. rewrite (D s (or_introl eq_refl)), IH; [apply orb_true_r|]. intros y Hy. apply D. right. exact Hy.
Qed.
Lemma all_used_Go l r : all_used (Go l) r <-> all_used_block l. Proof. reflexivity. Qed.
Lemma all_used_Func l r : all_used (Func l) r <-> all_used_block l. Proof. reflexivity. Qed.
Lemma all_used_DeclDef k l r : all_used (DeclDef k l) r <-> uses_block (DefName k) r = true /\ all_used_block l. Proof. reflexivity. Qed.
Lemma all_used_mono s a b : all_used s a -> all_used s (a ++ b).
Proof.
  destruct s; intros H; try exact H.
  - destruct H as [H1 H2]. split; apply uses_app_l; assumption.
  - apply all_used_DeclDef. apply all_used_DeclDef in H as [H1 H2]. split; [apply uses_app_l; exact H1|exact H2].
Qed.
Lemma all_used_app a b : all_used_block a -> all_used_block b -> all_used_block (a ++ b).
Proof. induction a as [|s a IH]; [auto|]. intros [H1 H2] Hb. cbn. split; [apply all_used_mono; exact H1|auto]. Qed.
Lemma group_uses_parent g level : uses_block (ParentCtx level) (evalDefGroup level g) = true.
Proof.
  induction g as [e|s e IH|ss e _] using group_ind'; cbn [evalDefGroup].
  - cbn. rewrite name_eqb_refl, orb_true_r. reflexivity.
  - apply uses_app_l, IH.
  - cbn. rewrite name_eqb_refl. reflexivity.
Qed.
Lemma group_declares_no_def k g level s : In s (evalDefGroup level g) -> declares (DefName k) s = false.
Proof.
  induction g as [e|g e IH|ss e _] using group_ind'; cbn [evalDefGroup]; intros H.
  - destruct H as [<-|[]]. reflexivity.
  - apply in_app_iff in H as [H|[<-|[]]]; [auto|reflexivity].
  - apply in_app_iff in H as [[<-|[]]|H]; [reflexivity|]. apply in_app_iff in H as [H|[<-|[<-|[]]]]; [|reflexivity..].
    apply in_map_iff in H as (x & <- & _). reflexivity.
Qed.
Lemma gos_use x lvl ss g : In g ss -> uses_block x (evalDefGroup lvl g) = true -> uses_block x (map (fun s => Go (evalDefGroup lvl s)) ss) = true.
Proof.
  intros H U. induction ss as [|s ss IH]; [destruct H|]. cbn [map uses_block]. rewrite uses_Go. destruct H as [->|H]; [rewrite U, orb_true_r; reflexivity|].
  cbn [declares negb andb]. rewrite (IH H). apply orb_true_r.
Qed.
Lemma group_uses_defs k g : forall level, In k (group_defs g) -> uses_block (DefName k) (evalDefGroup level g) = true.
Proof.
  induction g as [e|s e IH|ss e IH] using group_ind'; intros level H; cbn [evalDefGroup group_defs] in *.
  - destruct H as [->|[]]. cbn. rewrite Nat.eqb_refl. reflexivity.
  - apply in_app_iff in H as [H|[->|[]]]; [apply uses_app_l, IH, H|]. apply uses_app_r; [intros x Hx; eapply group_declares_no_def; exact Hx|].
    cbn. rewrite Nat.eqb_refl. reflexivity.
  - apply uses_app_r; [intros x [<-|[]]; reflexivity|]. apply in_app_iff in H as [H|[->|[]]].
    + apply uses_app_l. apply in_concat in H as (l & Hl & Hk). apply in_map_iff in Hl as (g & <- & Hg).
      eapply gos_use; [exact Hg|]. rewrite Forall_forall in IH. apply IH; assumption.
    + apply uses_app_r; [intros x Hx; apply in_map_iff in Hx as (y & <- & _); reflexivity|]. cbn. rewrite Nat.eqb_refl. reflexivity.
Qed.
Lemma gos_used lvl ss : (forall g, In g ss -> all_used_block (evalDefGroup lvl g)) -> all_used_block (map (fun s => Go (evalDefGroup lvl s)) ss).
Proof.
  induction ss as [|s ss IH]; intros H; [exact I|]. cbn [map all_used_block]. split; [apply all_used_Go, H; left; reflexivity|]. apply IH. intros g Hg. apply H. right. exact Hg.
Qed.
Lemma fork_used lvl p ss rest : 1 <= lvl -> ss <> [] -> (forall g, In g ss -> all_used_block (evalDefGroup (lvl + 1) g)) -> all_used_block rest ->
  all_used_block ([NewGroup (CtxN lvl) p] ++ map (fun s => Go (evalDefGroup (lvl + 1) s)) ss ++ rest).
Proof.
  intros L N H R. cbn [app all_used_block]. split.
  - cbn [all_used]. destruct ss as [|s ss]; [congruence|]. split.
    + apply uses_app_l. eapply gos_use; [left; reflexivity|]. rewrite <- (parent_ctx_S _ L). apply group_uses_parent.
    + reflexivity.
  - apply all_used_app; [apply gos_used; exact H|exact R].
Qed.
Lemma group_used g : forall level, 1 <= level -> nonempty g = true -> all_used_block (evalDefGroup level g).
Proof.
  induction g as [e|s e IH|ss e IH] using group_ind'; intros level L N.
  - cbn. auto.
  - cbn [evalDefGroup]. apply all_used_app; [apply IH; [exact L|exact N]|cbn; auto].
  - cbn [nonempty] in N. apply andb_true_iff in N as [N1 N2].
    cbn [evalDefGroup]. apply fork_used; [exact L|intros ->; discriminate| |cbn; auto].
    intros g Hg. rewrite Forall_forall in IH. rewrite forallb_forall in N2. apply IH; [exact Hg|lia|apply N2; exact Hg].
Qed.
Lemma groups_used gs : forallb nonempty gs = true -> all_used_block (evalDefGroups gs).
Proof.
  intros N. destruct gs as [|g [|g2 gs]]; [exact I| |].
  - cbn in N. rewrite andb_true_r in N. apply group_used; [lia|exact N].
  - set (gg := g :: g2 :: gs) in *. rewrite forallb_forall in N. cbn [evalDefGroups]. apply (fork_used 1 Ctx gg [Wait]); [lia|discriminate| |cbn; auto].
    intros x Hx. apply group_used; [lia|apply N; exact Hx].
Qed.
Lemma groups_use_defs k gs : In k (planned_defs gs) -> uses_block (DefName k) (evalDefGroups gs) = true.
Proof.
  intros H. unfold planned_defs in H. apply in_concat in H as (l & Hl & Hk). apply in_map_iff in Hl as (x & <- & Hx). destruct gs as [|g [|g2 gs]]; [destruct Hx| |].
  - destruct Hx as [->|[]]. apply group_uses_defs. exact Hk.
  - set (gg := g :: g2 :: gs) in *. cbn [evalDefGroups]. apply uses_app_r; [intros y [<-|[]]; reflexivity|]. apply uses_app_l. eapply gos_use; [exact Hx|]. apply group_uses_defs. exact Hk.
Qed.

Definition kind_used (k : dkind) : Prop := forall Q, fine_kind exactly Q k -> NoDup (kind_keys k) -> all_used_block (defBody k).
Definition def_used (d : ddef) : Prop := match d with Def _ k => kind_used k end.
Definition set_used (s : dset) : Prop := forall Q, fine_set exactly Q s -> NoDup (set_keys s) -> all_used_block (evalDefSet s).
Definition detail_used (d : detail) : Prop := forall Q, fine_detail exactly Q d -> NoDup (detail_keys d) -> all_used_block (detailCode d).
Definition rule_used (r : rule) : Prop := match r with Rule s ds => set_used s /\ Forall detail_used ds end.
Lemma details_used Q ds : Forall detail_used ds -> fold_right and True (map (fine_detail exactly Q) ds) -> NoDup (concat (map detail_keys ds)) ->
  all_used_block (concat (map detailCode ds)).
Proof.
  induction 1 as [|d ds Hd _ IH]; intros F N; [exact I|]. cbn in *. destruct F as [F1 F2].
  apply all_used_app; [eapply Hd; [exact F1|exact (NoDup_app_l _ _ N)]|apply IH; [exact F2|exact (NoDup_app_r _ _ N)]].
Qed.
Lemma rules_used Q rs : Forall rule_used rs -> fold_right and True (map (fine_rule exactly Q) rs) -> NoDup (concat (map rule_keys rs)) ->
  all_used_block (concat (map ruleCode rs)).
Proof.
  induction 1 as [|r rs Hr _ IH]; intros F N; [exact I|]. destruct r as [s ds]. destruct Hr as [Hs Hds]. cbn [map fold_right concat ruleCode rule_keys fine_rule] in *. destruct F as [[F1 F2] F3].
  pose proof (NoDup_app_l _ _ N) as N1. apply all_used_app; [|apply IH; [exact F3|exact (NoDup_app_r _ _ N)]].
  apply all_used_app; [eapply Hs; [exact F1|exact (NoDup_app_l _ _ N1)]|]. split; [|exact I]. apply all_used_Func. eapply details_used; [exact Hds|exact F2|exact (NoDup_app_r _ _ N1)].
Qed.
Lemma decls_used Q ds rest : Forall def_used ds -> fold_right and True (map (fine_def exactly Q) ds) -> NoDup (concat (map def_keys ds)) ->
  (forall k, In k (map key_of ds) -> uses_block (DefName k) rest = true) -> all_used_block rest -> all_used_block (map declDef ds ++ rest).
Proof.
  induction 1 as [|d ds Hd _ IH]; intros F N U R; [exact R|]. cbn [map fold_right concat app all_used_block] in *. destruct F as [F1 F2]. split.
  - destruct d as [k kind]. cbn [declDef]. apply all_used_DeclDef. split.
    + apply uses_app_r; [|apply U; cbn; auto]. intros s Hs. apply in_map_iff in Hs as ([k2 kind2] & <- & Hd2). cbn.
      apply Nat.eqb_neq. intros ->. apply (NoDup_app_disj _ _ k2 N); [cbn; auto|]. apply in_concat. exists (def_keys (Def k2 kind2)). split; [apply in_map; exact Hd2|cbn; auto].
    + eapply Hd; [exact F1|]. pose proof (NoDup_app_l _ _ N) as N1. cbn in N1. inversion N1; assumption.
  - apply IH; [exact F2|exact (NoDup_app_r _ _ N)| |exact R]. intros k Hk. apply U. cbn. auto.
Qed.
Lemma sets_used : forall s, set_used s.
Proof.
  apply (set_ind' set_used def_used kind_used rule_used detail_used).
  - intros ds gs Hds Q [[P NEm] F] N. cbn [evalDefSet]. eapply decls_used; [exact Hds|exact F|exact N| |apply groups_used; exact NEm].
    intros k Hk. apply groups_use_defs, P, Hk.
  - intros k kind H. exact H.
  - intros Q _ _. exact I.
  - intros rs Hrs Q [_ F] N. cbn [defBody]. split; [|exact I]. apply all_used_Func. split; [|exact I]. apply all_used_Func. eapply rules_used; [exact Hrs|exact F|exact N].
  - intros [s ds] [Hs Hds] Q [F1 F2] N. cbn [defBody kind_keys rule_keys] in *. split; [|split; [|exact I]]; apply all_used_Func.
    + eapply Hs; [exact F1|exact (NoDup_app_l _ _ N)].
    + eapply details_used; [exact Hds|exact F2|exact (NoDup_app_r _ _ N)].
  - intros s ds Hs Hds. split; assumption.
  - intros s m Hs Hm Q [F1 F2] N. cbn [detailCode detail_keys] in *. split; [|split; [|exact I]]; apply all_used_Func.
    + eapply Hs; [exact F1|exact (NoDup_app_l _ _ N)].
    + split; [|exact I]. apply all_used_Func. eapply Hm; [exact F2|exact (NoDup_app_r _ _ N)].
Qed.
Lemma cases_used Q cs : fold_right and True (map (fine_set exactly Q) cs) -> NoDup (concat (map set_keys cs)) -> all_used_block (map (fun c => Func (evalDefSet c)) cs).
Proof.
  induction cs as [|c cs IH]; intros F N; [exact I|]. cbn [map fold_right concat all_used_block] in *. destruct F as [F1 F2].
  split; [apply all_used_Func; eapply sets_used; [exact F1|exact (NoDup_app_l _ _ N)]|apply IH; [exact F2|exact (NoDup_app_r _ _ N)]].
Qed.
Lemma resolver_used Q m : everywhere exactly Q m -> NoDup (message_keys m) -> all_used_block (resolver m).
Proof.
  intros [F1 F2] N. apply all_used_app; [eapply sets_used; [exact F1|exact (NoDup_app_l _ _ N)]|eapply cases_used; [exact F2|exact (NoDup_app_r _ _ N)]].
Qed.

(** ** Plans made by the resolver *)
Lemma map_opt_all {A B} (f : A -> option B) (P : B -> Prop) l : forall r, map_opt f l = Some r -> (forall x y, In x l -> f x = Some y -> P y) -> Forall P r.
Proof.
  induction l as [|x l IH]; intros r H Hp; cbn in H; [injection H as <-; constructor|].
  destruct (f x) as [y|] eqn:E; [|discriminate]. destruct (map_opt f l) as [ys|]; [|discriminate]. injection H as <-.
  constructor; [eapply Hp; [left; reflexivity|exact E]|]. apply IH; [reflexivity|]. intros a b Ha. apply Hp. right. exact Ha.
Qed.
Lemma map_opt_length {A B} (f : A -> option B) l : forall r, map_opt f l = Some r -> length r = length l.
Proof.
  induction l as [|x l IH]; intros r H; cbn in H; [injection H as <-; reflexivity|].
  destruct (f x) as [y|]; [|discriminate]. destruct (map_opt f l) as [ys|]; [|discriminate]. injection H as <-. cbn. rewrite (IH ys eq_refl). reflexivity.
Qed.

Lemma mk_group_nonempty g key fuel : forall n gr, mk_group g key fuel n = Some gr -> nonempty gr = true.
Proof.
  induction fuel as [|fuel IH]; intros n gr H; cbn [mk_group] in H; [discriminate|].
  destruct (parents g n) as [|p [|p2 ps]] eqn:Ep; [injection H as <-; reflexivity| |].
  - destruct (mk_group g key fuel p) as [s|] eqn:E; [|discriminate]. injection H as <-. cbn. eapply IH. exact E.
  - destruct (map_opt (mk_group g key fuel) (sort_by key (p :: p2 :: ps))) as [ss|] eqn:E; [|discriminate]. injection H as <-. cbn [nonempty].
    pose proof (map_opt_length _ _ _ E) as L. rewrite (Permutation_length (sort_by_perm key (p :: p2 :: ps))) in L.
    apply andb_true_iff. split; [destruct ss; [discriminate|reflexivity]|]. apply forallb_forall. apply Forall_forall.
    eapply map_opt_all; [exact E|]. intros x y _ Hy. eapply IH. exact Hy.
Qed.
Lemma setup_nonempty fuel ds gs : setup fuel ds = Planned gs -> forallb nonempty gs = true.
Proof.
  unfold setup. destruct (roots_of _ _) as [|r rs]; [discriminate|]. destruct (validate _ _ _); try discriminate.
  destruct (groups _ _ _ _) as [l|] eqn:E; [|discriminate]. intros H. injection H as <-. unfold groups in E.
  destruct (unique_children _ _ _ _) as [ls|]; [|discriminate]. apply forallb_forall, Forall_forall. eapply map_opt_all; [exact E|].
  intros x y _ Hy. eapply mk_group_nonempty. exact Hy.
Qed.
(** A plan over positions, with the keys in place of them *)
Lemma rename_defs f g : group_defs (rename f g) = map f (group_defs g).
Proof.
  induction g as [e|s e IH|ss e IH] using group_ind'; cbn; [reflexivity|rewrite IH, map_app; reflexivity|].
  rewrite map_app. f_equal. induction IH as [|x ss Hx _ IHs]; [reflexivity|]. cbn. rewrite Hx, IHs, map_app. reflexivity.
Qed.
Lemma rename_nonempty f g : nonempty (rename f g) = nonempty g.
Proof.
  induction g as [e|s e IH|ss e IH] using group_ind'; cbn; [reflexivity|exact IH|]. f_equal; [destruct ss; reflexivity|].
  induction IH as [|x ss Hx _ IHs]; [reflexivity|]. cbn. rewrite Hx, IHs. reflexivity.
Qed.
