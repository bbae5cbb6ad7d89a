From Coq Require Import Ascii String List Arith Bool Lia DecimalString.
From Coq Require DecimalNat DecimalFacts FinFun.
From Verif.Names Require Import Model Spec.
Import ListNotations.
Local Open Scope string_scope.

(** * Induction *)
Section RInd.
  Variables (Pd : rdef -> Prop) (Pe : rexpr -> Prop) (Pr : rrule -> Prop) (Pt : rdetail -> Prop).
  Hypothesis Hd : forall n e, Pe e -> Pd (RDef n e).
  Hypothesis Hn : Pe RNoExpr.
  Hypothesis Hs : Pe RSimple.
  Hypothesis Hc : forall rs, Forall Pr rs -> Pe (RCall rs).
  Hypothesis Hv : forall r, Pr r -> Pe (RValidation r).
  Hypothesis Hr : forall ds ts, Forall Pd ds -> Forall Pt ts -> Pr (RRule ds ts).
  Hypothesis Ht : forall ds ms, Forall Pd ds -> Pt (RDetail ds ms).
  Fixpoint rdef_ind' (d : rdef) : Pd d := match d with RDef n e => Hd n e (rexpr_ind' e) end
  with rexpr_ind' (e : rexpr) : Pe e :=
    match e with
    | RNoExpr => Hn | RSimple => Hs
    | RCall rs => Hc rs ((fix go l : Forall Pr l := match l with [] => Forall_nil _ | x :: l => Forall_cons _ (rrule_ind' x) (go l) end) rs)
    | RValidation r => Hv r (rrule_ind' r)
    end
  with rrule_ind' (r : rrule) : Pr r :=
    match r with
    | RRule ds ts => Hr ds ts ((fix go l : Forall Pd l := match l with [] => Forall_nil _ | x :: l => Forall_cons _ (rdef_ind' x) (go l) end) ds)
                             ((fix go l : Forall Pt l := match l with [] => Forall_nil _ | x :: l => Forall_cons _ (rdetail_ind' x) (go l) end) ts)
    end
  with rdetail_ind' (t : rdetail) : Pt t :=
    match t with RDetail ds ms => Ht ds ms ((fix go l : Forall Pd l := match l with [] => Forall_nil _ | x :: l => Forall_cons _ (rdef_ind' x) (go l) end) ds) end.
End RInd.
Section OInd.
  Variables (Pd : odef -> Prop) (Pe : oexpr -> Prop) (Pr : orule -> Prop) (Pt : odetail -> Prop).
  Hypothesis Hd : forall n e, Pe e -> Pd (ODef n e).
  Hypothesis Hn : Pe NoExpr.
  Hypothesis Hs : Pe Simple.
  Hypothesis Hc : forall rs, Forall Pr rs -> Pe (OCall rs).
  Hypothesis Hv : forall r, Pr r -> Pe (OValidation r).
  Hypothesis Hr : forall ds ts, Forall Pd ds -> Forall Pt ts -> Pr (ORule ds ts).
  Hypothesis Ht : forall ds ms, Forall Pd ds -> Pt (ODetail ds ms).
  Fixpoint odef_ind' (d : odef) : Pd d := match d with ODef n e => Hd n e (oexpr_ind' e) end
  with oexpr_ind' (e : oexpr) : Pe e :=
    match e with
    | NoExpr => Hn | Simple => Hs
    | OCall rs => Hc rs ((fix go l : Forall Pr l := match l with [] => Forall_nil _ | x :: l => Forall_cons _ (orule_ind' x) (go l) end) rs)
    | OValidation r => Hv r (orule_ind' r)
    end
  with orule_ind' (r : orule) : Pr r :=
    match r with
    | ORule ds ts => Hr ds ts ((fix go l : Forall Pd l := match l with [] => Forall_nil _ | x :: l => Forall_cons _ (odef_ind' x) (go l) end) ds)
                             ((fix go l : Forall Pt l := match l with [] => Forall_nil _ | x :: l => Forall_cons _ (odetail_ind' x) (go l) end) ts)
    end
  with odetail_ind' (t : odetail) : Pt t :=
    match t with ODetail ds ms => Ht ds ms ((fix go l : Forall Pd l := match l with [] => Forall_nil _ | x :: l => Forall_cons _ (odef_ind' x) (go l) end) ds) end.
End OInd.

(** * The check is a pass over the names *)
Definition step (s : list string * bool) (n : string) : list string * bool :=
  let (seen, ok) := s in (n :: seen, if negb (n =? "") && mem n seen then false else ok).
Lemma each_fold : forall {A} (f : A -> list string * bool -> list string * bool) (g : A -> list string) l,
  Forall (fun x => forall s, f x s = fold_left step (g x) s) l -> forall s, each f l s = fold_left step (concat (map g l)) s.
Proof.
  intros A f g l H. induction H as [|x l Hx _ IH]; intros s; [reflexivity|].
  cbn. rewrite fold_left_app, Hx. apply IH.
Qed.
Lemma check_def_fold : forall d s, check_def d s = fold_left step (def_names false d) s.
Proof.
  apply (rdef_ind' (fun d => forall s, check_def d s = fold_left step (def_names false d) s)
           (fun e => forall s, check_expr e s = fold_left step (expr_names false e) s)
           (fun r => forall s, check_rule r s = fold_left step (rule_names false r) s)
           (fun t => forall s, check_detail t s = fold_left step (detail_names false t) s)).
  - intros n [| | rs | r] IH [seen ok]; [reflexivity | | |]; cbn -[check_expr expr_names each] in *; rewrite IH; reflexivity.
  - reflexivity.
  - reflexivity.
  - intros rs H s. apply (each_fold check_rule (rule_names false)), H.
  - intros r H s. apply H.
  - intros ds ts H1 H2 s. cbn [check_rule rule_names]. rewrite fold_left_app.
    rewrite (each_fold check_def (def_names false) ds H1). apply (each_fold check_detail (detail_names false)), H2.
  - intros ds ms H s. cbn [check_detail detail_names]. rewrite app_nil_r. apply (each_fold check_def (def_names false)), H.
Qed.
Lemma check_fold : forall m, check m = fold_left step (names false m) ([], true).
Proof.
  intros m. unfold check, names. rewrite fold_left_app.
  rewrite (each_fold check_def (def_names false) (rdefs m)) by (apply Forall_forall; intros d _; apply check_def_fold).
  apply (each_fold (each check_def) (fun ds => concat (map (def_names false) ds))).
  apply Forall_forall; intros ds _ s. apply each_fold, Forall_forall. intros d _. apply check_def_fold.
Qed.
Lemma mem_In : forall n l, mem n l = true <-> In n l.
Proof.
  intros n l. unfold mem. rewrite existsb_exists. split.
  - intros [x [I E]]. apply String.eqb_eq in E. now subst.
  - intros I. exists n. split; [exact I | apply String.eqb_refl].
Qed.
Lemma fold_false : forall l seen, snd (fold_left step l (seen, false)) = false.
Proof. induction l as [|n l IH]; intros seen; [reflexivity|]. cbn. destruct (negb (n =? "") && mem n seen); apply IH. Qed.
Lemma fold_NoDup : forall l seen, Forall (fun n => n <> "") l -> snd (fold_left step l (seen, true)) = true ->
  NoDup l /\ forall n, In n l -> ~ In n seen.
Proof.
  induction l as [|n l IH]; intros seen F H; [split; [constructor | intros n []]|].
  inversion F; subst. cbn in H.
  destruct (negb (n =? "") && mem n seen) eqn:E; [rewrite fold_false in H; discriminate|].
  destruct (IH _ H3 H) as [N D].
  assert (Hn : ~ In n seen).
  { intros I. apply mem_In in I. rewrite I, andb_true_r in E. apply negb_false_iff, String.eqb_eq in E. contradiction. }
  split.
  - constructor; [|exact N]. intros I. apply (D _ I). now left.
  - intros x [<-|I]; [exact Hn|]. intros J. apply (D _ I). now right.
Qed.
Lemma NoDup_fold : forall l seen, NoDup l -> (forall n, In n l -> ~ In n seen) -> snd (fold_left step l (seen, true)) = true.
Proof.
  induction l as [|n l IH]; intros seen N D; [reflexivity|].
  inversion N; subst. cbn.
  destruct (mem n seen) eqn:E; [apply mem_In in E; elim (D n (or_introl eq_refl) E)|].
  rewrite andb_false_r. apply IH; [assumption|]. intros x I [<-|J]; [contradiction|]. exact (D x (or_intror I) J).
Qed.

(** * Names as written and as chosen *)
Definition under (n : string) : Prop := exists r, n = String "_"%char r.
Lemma auto_under : forall n i t, under (auto_def n) /\ under (auto_error_def i n) /\ under (auto_detail_def i t n) /\ under (auto_detail_msg i t n) /\ under (auto_oneof_def n).
Proof. intros. repeat split; eexists; cbv -[dec append]; cbn [append]; reflexivity. Qed.
Lemma In_mapi : forall {A B} (f : nat -> A -> B) l i y, In y (mapi_from f i l) -> exists j x, In x l /\ y = f j x.
Proof.
  intros A B f l. induction l as [|a l IH]; intros i y H; [destruct H|]. destruct H as [<-|I]; [exists i, a; cbn; auto|].
  destruct (IH _ _ I) as [j [x [J ->]]]. exists j, x. cbn; auto.
Qed.
Lemma letter_spec : forall c, letter c = true -> is_letter c.
Proof. intros [[] [] [] [] [] [] [] []]; intros H; vm_compute in H; try discriminate H; vm_compute; auto 60. Qed.
Lemma word_spec : forall c, word c = true -> is_word c.
Proof. intros [[] [] [] [] [] [] [] []]; intros H; vm_compute in H; try discriminate H; vm_compute; auto 80. Qed.
Lemma spec_letter : forall c, is_letter c -> letter c = true.
Proof. intros c H. unfold is_letter in H. cbn in H. repeat (destruct H as [<-|H]; [reflexivity|]). destruct H. Qed.
Lemma spec_word : forall c, is_word c -> word c = true.
Proof.
  intros c [H|H]; [unfold word; rewrite (spec_letter _ H); reflexivity|]. cbn in H.
  repeat (destruct H as [<-|H]; [reflexivity|]). destruct H.
Qed.
Lemma all_word_spec : forall r, all_word r = true <-> Forall is_word (list_ascii_of_string r).
Proof.
  induction r as [|c r IH]; cbn; [split; [constructor | reflexivity]|].
  rewrite andb_true_iff, IH. split.
  - intros [A B]. constructor; [apply word_spec, A | exact B].
  - intros H. inversion H; subst. split; [apply spec_word; assumption | assumption].
Qed.
Lemma validate_spec : forall n, validateName n = true <-> n = "" \/ identifier n.
Proof.
  intros n. unfold validateName. destruct (n =? "") eqn:E0.
  { apply String.eqb_eq in E0. split; auto. }
  apply String.eqb_neq in E0. destruct n as [|c r]; [contradiction|]. cbn [name_matches].
  split.
  - intros H. right. destruct (letter c && all_word r) eqn:E; [|discriminate H].
    apply andb_true_iff in E. destruct E as [A B]. cbn [negb] in H. apply negb_true_iff, String.eqb_neq in H.
    split; [|exact H]. exists c, r. split; [reflexivity|]. split; [apply letter_spec, A | apply all_word_spec, B].
  - intros [H|[[c' [r' [E [A B]]]] N]]; [discriminate H|]. injection E as <- <-.
    rewrite (spec_letter _ A), (proj2 (all_word_spec _) B). cbn [andb negb]. apply negb_true_iff, String.eqb_neq, N.
Qed.
Lemma under_not_identifier : forall n, under n -> ~ identifier n.
Proof.
  intros n [r ->] [[c [r' [E [L _]]]] _]. injection E as <- <-. apply spec_letter in L. discriminate L.
Qed.
Lemma under_nonempty : forall n, under n -> n <> "".
Proof. intros n [r ->]. discriminate. Qed.
Lemma identifier_nonempty : forall n, identifier n -> n <> "".
Proof. intros n [[c [r [-> _]]] _]. discriminate. Qed.

Lemma forallb_Forall : forall {A} (f : A -> bool) l, forallb f l = true <-> Forall (fun x => f x = true) l.
Proof. intros. rewrite forallb_forall, Forall_forall. reflexivity. Qed.
Lemma Forall_impl2 : forall {A} (P Q R : A -> Prop) l, Forall (fun x => P x -> Q x -> R x) l -> Forall P l -> Forall Q l -> Forall R l.
Proof. intros. rewrite Forall_forall in *. auto. Qed.
Lemma Forall_mp : forall {A} (P R : A -> Prop) l, Forall (fun x => P x -> R x) l -> Forall P l -> Forall R l.
Proof. intros. rewrite Forall_forall in *. auto. Qed.
Lemma Forall_concat_map : forall {A B} (P : B -> Prop) (g : A -> list B) l, Forall (fun x => Forall P (g x)) l <-> Forall P (concat (map g l)).
Proof.
  intros A B P g l. induction l as [|x l IH]; cbn; [split; constructor|].
  rewrite Forall_app, <- IH. split; [inversion 1; auto | intros []; constructor; auto].
Qed.

(** every written name is valid *)
Lemma valid_written : forall d, valid_def d = true <-> Forall identifier (written_def d).
Proof.
  apply (odef_ind' (fun d => valid_def d = true <-> Forall identifier (written_def d))
           (fun d => valid_expr d = true <-> Forall identifier (written_expr d))
           (fun d => valid_rule d = true <-> Forall identifier (written_rule d))
           (fun d => valid_detail d = true <-> Forall identifier (written_detail d))).
  - intros n e IH. cbn [valid_def written_def]. rewrite andb_true_iff, Forall_app, IH, validate_spec.
    destruct (n =? "") eqn:E.
    + apply String.eqb_eq in E. split; intros [A B]; split; auto.
    + apply String.eqb_neq in E. split; intros [A B]; split; auto; [destruct A; [contradiction|]; constructor; auto | right; inversion A; assumption].
  - split; [constructor | reflexivity].
  - split; [constructor | reflexivity].
  - intros rs H. cbn [valid_expr written_expr]. rewrite forallb_Forall, <- Forall_concat_map, !Forall_forall.
    rewrite Forall_forall in H. split; intros G x I; apply H; auto.
  - intros r H. exact H.
  - intros ds ts H1 H2. cbn [valid_rule written_rule]. rewrite andb_true_iff, !forallb_Forall, Forall_app, <- !Forall_concat_map, !Forall_forall.
    rewrite Forall_forall in H1, H2. split; intros [G1 G2]; (split; intros x I; [apply H1 | apply H2]; auto).
  - intros ds ms H. cbn [valid_detail written_detail]. rewrite forallb_Forall, <- Forall_concat_map, !Forall_forall.
    rewrite Forall_forall in H. split; intros G x I; apply H; auto.
Qed.
Lemma valid_message_spec : forall m, valid_message m = true <-> Forall identifier (written m).
Proof.
  intros m. unfold valid_message, written. rewrite andb_true_iff, !forallb_Forall, Forall_app, <- !Forall_concat_map, !Forall_forall.
  split; intros [A B]; (split; [intros x I; apply valid_written, A, I|]); intros ds I; specialize (B ds I).
  - rewrite <- Forall_concat_map, Forall_forall. rewrite forallb_Forall, Forall_forall in B. intros x J. apply valid_written, B, J.
  - rewrite <- Forall_concat_map, Forall_forall in B. rewrite forallb_Forall, Forall_forall. intros x J. apply valid_written, B, J.
Qed.

(** every name is written or chosen *)
Lemma names_origin : forall b d, (valid_def d = true -> forall auto idx, (forall i, under (auto i)) ->
  Forall (fun n => In n (written_def d) \/ under n) (def_names b (resolve_def auto idx d))).
Proof.
  intros b.
  apply (odef_ind'
    (fun d => valid_def d = true -> forall auto idx, (forall i, under (auto i)) -> Forall (fun n => In n (written_def d) \/ under n) (def_names b (resolve_def auto idx d)))
    (fun d => valid_expr d = true -> forall idx, Forall (fun n => In n (written_expr d) \/ under n) (expr_names b (resolve_expr idx d)))
    (fun d => valid_rule d = true -> forall idx, Forall (fun n => In n (written_rule d) \/ under n) (rule_names b (resolve_rule idx d)))
    (fun d => valid_detail d = true -> forall idx t, Forall (fun n => In n (written_detail d) \/ under n) (detail_names b (resolve_detail idx t d)))).
  - intros n e IH V auto idx Ha. cbn [valid_def] in V. apply andb_true_iff in V. destruct V as [Vn Ve].
    assert (G : Forall (fun x => In x (written_def (ODef n e)) \/ under x) (assign auto idx n :: expr_names b (resolve_expr idx e))).
    { constructor.
      - unfold assign. rewrite Vn. cbn [written_def]. destruct (n =? ""); [right; apply Ha | left; cbn; auto].
      - eapply Forall_impl; [|apply (IH Ve idx)]. intros x [I|U]; [left; cbn [written_def]; apply in_or_app; now right | now right]. }
    cbn [resolve_def def_names]. destruct (resolve_expr idx e); [constructor | exact G..].
  - constructor.
  - constructor.
  - intros rs H V idx. cbn [valid_expr] in V. rewrite forallb_forall in V. rewrite Forall_forall in H.
    cbn [resolve_expr expr_names written_expr]. rewrite <- Forall_concat_map, Forall_forall. intros r I.
    apply in_map_iff in I. destruct I as [r0 [<- I]]. eapply Forall_impl; [|apply (H _ I (V _ I))].
    intros x [J|U]; [left; rewrite in_concat; exists (written_rule r0); split; [apply in_map, I | exact J] | now right].
  - intros r H V idx. apply H, V.
  - intros ds ts H1 H2 V idx. cbn [valid_rule] in V. apply andb_true_iff in V. destruct V as [V1 V2].
    rewrite forallb_forall in V1, V2. rewrite Forall_forall in H1, H2.
    cbn [resolve_rule rule_names written_rule]. rewrite Forall_app, <- !Forall_concat_map, !Forall_forall. split.
    + intros d I. apply In_mapi in I. destruct I as [j [d0 [I ->]]].
      eapply Forall_impl; [|apply (H1 _ I (V1 _ I)); intros i; apply (auto_under i idx 0)].
      intros x [J|U]; [left; apply in_or_app; left; rewrite in_concat; exists (written_def d0); split; [apply in_map, I | exact J] | now right].
    + intros t I. apply In_mapi in I. destruct I as [j [t0 [I ->]]].
      eapply Forall_impl; [|apply (H2 _ I (V2 _ I))].
      intros x [J|U]; [left; apply in_or_app; right; rewrite in_concat; exists (written_detail t0); split; [apply in_map, I | exact J] | now right].
  - intros ds ms H V idx t. cbn [valid_detail] in V. rewrite forallb_forall in V. rewrite Forall_forall in H.
    cbn [resolve_detail detail_names written_detail]. rewrite Forall_app, <- Forall_concat_map, Forall_forall. split.
    + intros d I. apply In_mapi in I. destruct I as [j [d0 [I ->]]].
      eapply Forall_impl; [|apply (H _ I (V _ I)); intros i; apply (auto_under i idx t)].
      intros x [J|U]; [left; rewrite in_concat; exists (written_def d0); split; [apply in_map, I | exact J] | now right].
    + destruct b; [|constructor]. apply Forall_forall. intros x I. apply in_map_iff in I. destruct I as [i [<- _]]. right. apply (auto_under i idx t).
Qed.
Lemma message_origin : forall b m, valid_message m = true -> Forall (fun n => In n (written m) \/ under n) (names b (resolve m)).
Proof.
  intros b m V. unfold valid_message in V. apply andb_true_iff in V. destruct V as [V1 V2].
  rewrite forallb_forall in V1, V2. unfold names, written. cbn [resolve rdefs roneofs].
  rewrite Forall_app, <- !Forall_concat_map, !Forall_forall. split.
  - intros d I. apply In_mapi in I. destruct I as [j [d0 [I ->]]].
    eapply Forall_impl; [|apply (names_origin b d0 (V1 _ I)); intros i; apply (auto_under i 0 0)].
    intros x [J|U]; [left; apply in_or_app; left; rewrite in_concat; exists (written_def d0); split; [apply in_map, I | exact J] | now right].
  - intros ds I. apply in_map_iff in I. destruct I as [ds0 [<- I]]. rewrite <- Forall_concat_map, Forall_forall. intros d J.
    apply In_mapi in J. destruct J as [j [d0 [J ->]]]. specialize (V2 _ I). rewrite forallb_forall in V2.
    eapply Forall_impl; [|apply (names_origin b d0 (V2 _ J)); intros i; apply (auto_under i 0 0)].
    intros x [K|U]; [|now right]. left. apply in_or_app; right. rewrite in_concat. eexists. split; [apply in_map, I|].
    rewrite in_concat. exists (written_def d0). split; [apply in_map, J | exact K].
Qed.
Lemma names_nonempty : forall b m, valid_message m = true -> Forall (fun n => n <> "") (names b (resolve m)).
Proof.
  intros b m V. pose proof (proj1 (valid_message_spec m) V) as W. rewrite Forall_forall in W.
  eapply Forall_impl; [|apply (message_origin b m V)]. intros x [I|U]; [apply identifier_nonempty, W, I | apply under_nonempty, U].
Qed.

(** * Acceptance *)
Inductive Sub {A} : list A -> list A -> Prop :=
| Sub_nil : forall l, Sub [] l
| Sub_keep : forall x l l', Sub l l' -> Sub (x :: l) (x :: l')
| Sub_skip : forall x l l', Sub l l' -> Sub l (x :: l').
Lemma Sub_refl : forall {A} (l : list A), Sub l l.
Proof. induction l; constructor; assumption. Qed.
Lemma Sub_app : forall {A} (a a' b b' : list A), Sub a a' -> Sub b b' -> Sub (a ++ b) (a' ++ b').
Proof.
  intros A a a' b b' H G. induction H; cbn; [|constructor; assumption|constructor; assumption].
  induction l; cbn; [assumption | constructor; assumption].
Qed.
Lemma Sub_In : forall {A} (l l' : list A), Sub l l' -> forall x, In x l -> In x l'.
Proof. intros A l l' H. induction H; intros y I; [destruct I | destruct I as [->|I]; cbn; auto | cbn; auto]. Qed.
Lemma Sub_NoDup : forall {A} (l l' : list A), Sub l l' -> NoDup l' -> NoDup l.
Proof.
  intros A l l' H. induction H; intros N; [constructor | | inversion N; auto].
  inversion N; subst. constructor; [|auto]. intros I. apply H2. eapply Sub_In; eassumption.
Qed.
Lemma Sub_concat : forall {A B} (f g : A -> list B) l, Forall (fun x => Sub (f x) (g x)) l -> Sub (concat (map f l)) (concat (map g l)).
Proof. intros A B f g l H. induction H; cbn; [constructor | apply Sub_app; assumption]. Qed.
Lemma filter_concat : forall {A} (p : A -> bool) l, filter p (concat l) = concat (map (filter p) l).
Proof. intros A p l. induction l; cbn; [reflexivity | rewrite filter_app, IHl; reflexivity]. Qed.
Lemma Sub_mapi : forall {A B C} (f : nat -> A -> B) (u : B -> list C) (g : A -> list C) l i,
  Forall (fun x => forall j, Sub (u (f j x)) (g x)) l -> Sub (concat (map u (mapi_from f i l))) (concat (map g l)).
Proof. intros A B C f u g l i H. revert i. induction H; intros i; cbn; [constructor | apply Sub_app; auto]. Qed.

Lemma fold_and : forall {A} (P : A -> Prop) l, fold_right and True (map P l) <-> Forall P l.
Proof. intros A P l. induction l; cbn; [split; constructor|]. rewrite IHl. split; [intros []; constructor; auto | inversion 1; auto]. Qed.
Section NamedSub.
  Let Pd d := all_named d -> valid_def d = true -> forall auto idx, Sub (def_names false (resolve_def auto idx d)) (written_def d).
  Let Pe d := expr_named d -> valid_expr d = true -> forall idx, Sub (expr_names false (resolve_expr idx d)) (written_expr d).
  Let Pr d := rule_named d -> valid_rule d = true -> forall idx, Sub (rule_names false (resolve_rule idx d)) (written_rule d).
  Let Pt d := detail_named d -> valid_detail d = true -> forall idx t, Sub (detail_names false (resolve_detail idx t d)) (written_detail d).
  Lemma sub_d : forall n e, Pe e -> Pd (ODef n e).
  Proof.
    intros n e IH [Hn Hm] V auto idx. cbn [valid_def] in V. apply andb_true_iff in V. destruct V as [Vn Ve].
    cbn [resolve_def def_names written_def]. unfold assign. rewrite Vn. apply String.eqb_neq in Hn. rewrite Hn.
    specialize (IH Hm Ve idx). cbn [app]. destruct (resolve_expr idx e); [constructor | apply Sub_keep, IH ..].
  Qed.
  Lemma sub_c : forall rs, Forall Pr rs -> Pe (OCall rs).
  Proof.
    intros rs H M V idx. cbn [expr_named valid_expr] in *. rewrite fold_and in M. rewrite forallb_Forall in V.
    cbn [resolve_expr expr_names written_expr]. rewrite map_map. apply Sub_concat.
    rewrite Forall_forall in *. intros r I. apply H; auto.
  Qed.
  Lemma sub_r : forall ds ts, Forall Pd ds -> Forall Pt ts -> Pr (ORule ds ts).
  Proof.
    intros ds ts H1 H2 [M1 M2] V idx. cbn [valid_rule] in V. apply andb_true_iff in V. destruct V as [V1 V2].
    apply fold_and in M1. apply fold_and in M2. rewrite forallb_Forall in V1; rewrite forallb_Forall in V2. cbn [resolve_rule rule_names written_rule].
    rewrite Forall_forall in *.
    apply Sub_app; apply Sub_mapi; apply Forall_forall; intros x I j; [apply H1 | apply H2]; auto.
  Qed.
  Lemma sub_t : forall ds ms, Forall Pd ds -> Pt (ODetail ds ms).
  Proof.
    intros ds ms H M V idx t. cbn [valid_detail detail_named] in *. rewrite fold_and in M. rewrite forallb_Forall in V.
    cbn [resolve_detail detail_names written_detail]. rewrite app_nil_r. rewrite Forall_forall in *.
    apply Sub_mapi. apply Forall_forall; intros x I j; apply H; auto.
  Qed.
  Lemma named_sub : forall d, Pd d.
  Proof.
    apply (odef_ind' Pd Pe Pr Pt sub_d); [intros M V idx; constructor | intros M V idx; constructor | exact sub_c | | exact sub_r | exact sub_t].
    intros r H M V idx. apply H; assumption.
  Qed.
  Lemma expr_sub : forall e, Pe e.
  Proof.
    apply (oexpr_ind' Pd Pe Pr Pt sub_d); [intros M V idx; constructor | intros M V idx; constructor | exact sub_c | | exact sub_r | exact sub_t].
    intros r H M V idx. apply H; assumption.
  Qed.
End NamedSub.

(** * Chosen names are distinct *)
Lemma dec_inj : forall a b, dec a = dec b -> a = b.
Proof.
  intros a b E. unfold dec in E.
  assert (H : forall n, NilZero.uint_of_string (NilZero.string_of_uint (Nat.to_uint n)) = Some (Nat.to_uint n)).
  { intros n. apply NilZero.usu. intros N. pose proof (DecimalNat.Unsigned.of_to n) as O. rewrite N in O. cbn in O. subst n. discriminate N. }
  pose proof (H a) as Ha. rewrite E, H in Ha. injection Ha as Ha. symmetry. apply DecimalNat.Unsigned.to_uint_inj, Ha.
Qed.
Lemma auto_def_inj : forall a b, auto_def a = auto_def b -> a = b.
Proof. intros a b E. cbn in E. injection E as E. apply dec_inj, E. Qed.
Lemma auto_oneof_inj : forall a b, auto_oneof_def a = auto_oneof_def b -> a = b.
Proof. intros a b E. cbn in E. injection E as E. apply dec_inj, E. Qed.
Lemma auto_sep : forall a b, auto_def a <> auto_oneof_def b.
Proof. intros a b E. cbn in E. discriminate E. Qed.

Definition underb (n : string) : bool := match n with String "_" _ => true | _ => false end.
Lemma underb_spec : forall n, underb n = true <-> under n.
Proof.
  intros n. split.
  - destruct n as [|c r]; [discriminate|]. intros H. exists r. destruct c as [[] [] [] [] [] [] [] []]; try discriminate H; reflexivity.
  - intros [r ->]. reflexivity.
Qed.
Lemma NoDup_split : forall {A} (p : A -> bool) l, NoDup (filter p l) -> NoDup (filter (fun x => negb (p x)) l) -> NoDup l.
Proof.
  intros A p l. induction l as [|x l IH]; intros N M; [constructor|]. cbn in N, M. destruct (p x) eqn:E; cbn in M.
  - inversion N; subst. constructor; [|auto]. intros I. apply H1. apply filter_In. auto.
  - inversion M; subst. constructor; [|auto]. intros I. apply H1. apply filter_In. rewrite E. auto.
Qed.
Lemma filter_none : forall {A} (p : A -> bool) l, (forall x, In x l -> p x = false) -> filter p l = [].
Proof. intros A p l. induction l; cbn; intros H; [reflexivity|]. rewrite (H a) by auto. auto. Qed.
Lemma filter_Sub : forall {A} (p : A -> bool) l, Sub (filter p l) l.
Proof. induction l; cbn; [constructor | destruct (p a); constructor; assumption]. Qed.
Lemma Sub_trans : forall {A} (a b c : list A), Sub a b -> Sub b c -> Sub a c.
Proof.
  intros A a b c H G. revert a H. induction G; intros a H.
  - inversion H; subst; constructor.
  - inversion H; subst; constructor; auto.
  - constructor; auto.
Qed.
Lemma Sub_filter : forall {A} (p : A -> bool) a b, Sub a b -> Sub (filter p a) (filter p b).
Proof. intros A p a b H. induction H; cbn; [constructor | destruct (p x); [constructor|]; assumption | destruct (p x); [constructor|]; assumption]. Qed.
Lemma valid_written_expr : forall e, valid_expr e = true -> Forall identifier (written_expr e).
Proof.
  intros e V. assert (V' : valid_def (ODef "" e) = true) by (cbn [valid_def]; rewrite V; reflexivity).
  apply valid_written in V'. exact V'.
Qed.

(** the chosen names of a definition whose inner definitions are named: at most its own *)
Lemma auto_part : forall auto idx d, inner_named d -> valid_def d = true ->
  Sub (filter underb (def_names false (resolve_def auto idx d))) [auto idx] /\
  (~ unnamed d -> filter underb (def_names false (resolve_def auto idx d)) = []).
Proof.
  intros auto idx [n e] M V. cbn [inner_named unnamed] in *. cbn [valid_def] in V. apply andb_true_iff in V. destruct V as [Vn Ve].
  pose proof (expr_sub e M Ve idx) as S. pose proof (valid_written_expr e Ve) as W. rewrite Forall_forall in W.
  assert (F : filter underb (expr_names false (resolve_expr idx e)) = []).
  { apply filter_none. intros x I. destruct (underb x) eqn:U; [|reflexivity]. apply underb_spec in U.
    elim (under_not_identifier _ U). apply W, (Sub_In _ _ S), I. }
  assert (G : Sub (filter underb (assign auto idx n :: expr_names false (resolve_expr idx e))) [auto idx] /\
              (n <> "" -> filter underb (assign auto idx n :: expr_names false (resolve_expr idx e)) = [])).
  { cbn [filter]. rewrite F. unfold assign. destruct (n =? "") eqn:E.
    - apply String.eqb_eq in E. split; [|intros N; contradiction]. destruct (underb (auto idx)); repeat constructor.
    - apply String.eqb_neq in E. rewrite Vn. apply validate_spec in Vn. destruct Vn as [Vn|Vn]; [contradiction|].
      destruct (underb n) eqn:U; [apply underb_spec in U; elim (under_not_identifier _ U Vn)|]. split; [constructor | reflexivity]. }
  cbn [resolve_def def_names]. destruct (resolve_expr idx e); [split; [constructor | reflexivity] | exact G ..].
Qed.
(** the written names *)
Lemma written_part : forall auto idx d, (forall i, under (auto i)) -> inner_named d -> valid_def d = true ->
  Sub (filter (fun x => negb (underb x)) (def_names false (resolve_def auto idx d))) (written_def d).
Proof.
  intros auto idx [n e] Ha M V. cbn [inner_named] in *. cbn [valid_def] in V. apply andb_true_iff in V. destruct V as [Vn Ve].
  pose proof (expr_sub e M Ve idx) as S.
  assert (G : Sub (filter (fun x => negb (underb x)) (assign auto idx n :: expr_names false (resolve_expr idx e))) (written_def (ODef n e))).
  { cbn [filter written_def]. unfold assign. rewrite Vn. destruct (n =? "") eqn:E.
    - rewrite (proj2 (underb_spec _) (Ha idx)). cbn. eapply Sub_trans; [apply filter_Sub | exact S].
    - destruct (negb (underb n)); cbn; constructor; eapply Sub_trans; try apply filter_Sub; exact S. }
  cbn [resolve_def def_names]. destruct (resolve_expr idx e); [constructor | exact G ..].
Qed.
Lemma auto_list : forall auto ds i, Forall inner_named ds -> Forall (fun d => valid_def d = true) ds ->
  Sub (filter underb (concat (map (def_names false) (mapi_from (resolve_def auto) i ds)))) (map auto (seq i (length ds))).
Proof.
  intros auto ds. induction ds as [|d ds IH]; intros i M V; [constructor|]. inversion M; inversion V; subst.
  cbn [mapi_from map concat seq length]. rewrite filter_app. apply (Sub_app _ [auto i]); [apply auto_part; assumption | apply IH; assumption].
Qed.
Lemma auto_list_none : forall auto ds i, Forall inner_named ds -> Forall (fun d => valid_def d = true) ds -> Forall (fun d => ~ unnamed d) ds ->
  filter underb (concat (map (def_names false) (mapi_from (resolve_def auto) i ds))) = [].
Proof.
  intros auto ds. induction ds as [|d ds IH]; intros i M V U; [reflexivity|]. inversion M; inversion V; inversion U; subst.
  cbn [mapi_from map concat]. rewrite filter_app, IH by assumption. rewrite (proj2 (auto_part auto i d H1 H5)) by assumption. reflexivity.
Qed.
Lemma written_list : forall auto ds i, (forall i, under (auto i)) -> Forall inner_named ds -> Forall (fun d => valid_def d = true) ds ->
  Sub (filter (fun x => negb (underb x)) (concat (map (def_names false) (mapi_from (resolve_def auto) i ds)))) (concat (map written_def ds)).
Proof.
  intros auto ds i Ha. revert i. induction ds as [|d ds IH]; intros i M V; [constructor|]. inversion M; inversion V; subst.
  cbn [mapi_from map concat]. rewrite filter_app. apply Sub_app; [apply written_part; assumption | apply IH; assumption].
Qed.
Lemma oneof_autos : forall oo, Forall (Forall inner_named) oo -> Forall (Forall (fun d => valid_def d = true)) oo ->
  ForallOrdPairs (fun a b => Forall (fun d => ~ unnamed d) a \/ Forall (fun d => ~ unnamed d) b) oo ->
  exists n, Sub (filter underb (concat (map (fun ds => concat (map (def_names false) ds)) (map (mapi (resolve_def auto_oneof_def)) oo)))) (map auto_oneof_def (seq 0 n)).
Proof.
  intros oo M V P. induction P as [|ds oo H P IH]; [exists 0; constructor|]. inversion M; inversion V; subst.
  cbn [map concat]. rewrite filter_app. destruct (IH H3 H7) as [n Sn]. unfold mapi at 1.
  destruct (Forall_dec (fun d => ~ unnamed d) (fun d => match d with ODef "" _ => right (fun E => E eq_refl) | ODef (String c s) _ => left (fun E : String c s = "" => ltac:(discriminate E)) end) ds) as [N|N].
  - exists n. rewrite auto_list_none by assumption. exact Sn.
  - exists (length ds). rewrite <- (app_nil_r (map auto_oneof_def _)). apply Sub_app; [apply auto_list; assumption|].
    replace (filter underb _) with (@nil string); [constructor|]. symmetry.
    rewrite filter_concat, !map_map. clear - H N H3 H7.
    induction oo as [|es oo IH]; [reflexivity|]. inversion H; inversion H3; inversion H7; subst. cbn [map concat].
    destruct H2 as [H2|H2]; [contradiction|]. unfold mapi at 1. rewrite auto_list_none by assumption. apply IH; assumption.
Qed.
Lemma written_oneofs : forall oo, Forall (Forall inner_named) oo -> Forall (Forall (fun d => valid_def d = true)) oo ->
  Sub (filter (fun x => negb (underb x)) (concat (map (fun ds => concat (map (def_names false) ds)) (map (mapi (resolve_def auto_oneof_def)) oo))))
      (concat (map (fun ds => concat (map written_def ds)) oo)).
Proof.
  intros oo M V. induction oo as [|ds oo IH]; [constructor|]. inversion M; inversion V; subst. cbn [map concat]. rewrite filter_app.
  apply Sub_app; [apply written_list; auto; intros i; apply (auto_under i 0 0) | apply IH; assumption].
Qed.
Lemma accepted_if : forall m, Forall identifier (written m) -> NoDup (written m) -> Forall inner_named (defs m) -> Forall (Forall inner_named) (oneofs m) ->
  ForallOrdPairs (fun a b => Forall (fun d => ~ unnamed d) a \/ Forall (fun d => ~ unnamed d) b) (oneofs m) -> accepted m = true.
Proof.
  intros m W N M1 M2 P. apply valid_message_spec in W. unfold accepted. rewrite W, check_fold. cbn [andb].
  unfold valid_message in W. apply andb_true_iff in W. destruct W as [V1 V2]. rewrite forallb_Forall in V1; rewrite forallb_Forall in V2.
  assert (V2' : Forall (Forall (fun d => valid_def d = true)) (oneofs m)) by (eapply Forall_impl; [|exact V2]; intros ds; apply forallb_Forall).
  apply NoDup_fold; [|intros n _ []]. apply (NoDup_split underb); unfold names; cbn [resolve rdefs roneofs]; rewrite filter_app.
  - destruct (oneof_autos _ M2 V2' P) as [k Sk].
    eapply Sub_NoDup; [apply Sub_app; [apply auto_list; assumption | exact Sk]|].
    assert (Q : forall f : nat -> string, (forall a b, f a = f b -> a = b) -> forall i l, NoDup (map f (seq i l))).
    { intros f Hf i l. apply FinFun.Injective_map_NoDup; [exact Hf | apply seq_NoDup]. }
    induction (seq 0 (length (defs m))) as [|a l IH] eqn:E.
    + apply Q, auto_oneof_inj.
    + pose proof (seq_NoDup (length (defs m)) 0) as ND. rewrite E in ND. clear E IH.
      revert ND. generalize (a :: l). intros l' ND. induction ND as [|x l' NI ND IH]; [apply Q, auto_oneof_inj|].
      cbn. constructor; [|exact IH]. intros I. apply in_app_or in I. destruct I as [I|I]; apply in_map_iff in I; destruct I as [y [E I]].
      * apply auto_def_inj in E. subst. contradiction.
      * symmetry in E. apply auto_sep in E. exact E.
  - eapply Sub_NoDup; [|exact N]. apply Sub_app; [apply written_list; auto; intros i; apply (auto_under i 0 0) | apply written_oneofs; assumption].
Qed.

(** * Written names are kept *)
Lemma mapi_incl : forall {A B C} (f : nat -> A -> B) (u : B -> list C) (g : A -> list C) l i,
  Forall (fun x => forall j, incl (g x) (u (f j x))) l -> incl (concat (map g l)) (concat (map u (mapi_from f i l))).
Proof. intros A B C f u g l i H. revert i. induction H; intros i; cbn; [apply incl_refl | apply incl_app; [apply incl_appl, H | apply incl_appr, IHForall]]. Qed.
Lemma map_incl : forall {A B C} (f : A -> B) (u : B -> list C) (g : A -> list C) l,
  Forall (fun x => incl (g x) (u (f x))) l -> incl (concat (map g l)) (concat (map u (map f l))).
Proof. intros A B C f u g l H. induction H; cbn; [apply incl_refl | apply incl_app; [apply incl_appl, H | apply incl_appr, IHForall]]. Qed.
Lemma given_kept : forall d, valid_def d = true -> forall auto idx, incl (given_def d) (def_names false (resolve_def auto idx d)).
Proof.
  apply (odef_ind'
    (fun d => valid_def d = true -> forall auto idx, incl (given_def d) (def_names false (resolve_def auto idx d)))
    (fun d => valid_expr d = true -> forall idx, incl (given_expr d) (expr_names false (resolve_expr idx d)))
    (fun d => valid_rule d = true -> forall idx, incl (given_rule d) (rule_names false (resolve_rule idx d)))
    (fun d => valid_detail d = true -> forall idx t, incl (given_detail d) (detail_names false (resolve_detail idx t d)))).
  - intros n e IH V auto idx. cbn [valid_def] in V. apply andb_true_iff in V. destruct V as [Vn Ve]. specialize (IH Ve idx).
    assert (G : incl ((if n =? "" then [] else [n]) ++ given_expr e)%list (assign auto idx n :: expr_names false (resolve_expr idx e))).
    { unfold assign. rewrite Vn. apply incl_app; [destruct (n =? ""); intros x I; cbn in *; tauto | apply incl_tl, IH]. }
    destruct e; [apply incl_nil_l | exact G ..].
  - intros _ idx. apply incl_refl.
  - intros _ idx. apply incl_refl.
  - intros rs H V idx. cbn [valid_expr] in V. rewrite forallb_Forall in V. cbn [given_expr resolve_expr expr_names]. apply map_incl.
    rewrite Forall_forall in *. intros x I. apply H; auto.
  - intros r H V idx. apply H, V.
  - intros ds ts H1 H2 V idx. cbn [valid_rule] in V. apply andb_true_iff in V. destruct V as [V1 V2].
    rewrite forallb_Forall in V1; rewrite forallb_Forall in V2. cbn [given_rule resolve_rule rule_names].
    rewrite Forall_forall in *.
    apply incl_app; [apply incl_appl | apply incl_appr]; apply mapi_incl; apply Forall_forall; intros x I j; [apply H1 | apply H2]; auto.
  - intros ds ms H V idx t. cbn [valid_detail] in V. rewrite forallb_Forall in V. cbn [given_detail resolve_detail detail_names]. rewrite app_nil_r.
    rewrite Forall_forall in *. apply mapi_incl. apply Forall_forall; intros x I j. apply H; auto.
Qed.
Lemma given_kept_message : forall m, valid_message m = true -> incl (given m) (names false (resolve m)).
Proof.
  intros m V. unfold valid_message in V. apply andb_true_iff in V. destruct V as [V1 V2]. rewrite forallb_forall in V1, V2.
  unfold given, names. cbn [resolve rdefs roneofs]. apply incl_app; [apply incl_appl | apply incl_appr].
  - apply mapi_incl. apply Forall_forall. intros x I j. apply given_kept, V1, I.
  - apply map_incl. apply Forall_forall. intros ds I. specialize (V2 _ I). rewrite forallb_forall in V2.
    apply mapi_incl. apply Forall_forall. intros x J j. apply given_kept, V2, J.
Qed.
