From Coq Require Import String List Arith Bool Lia.
From Verif.Base Require Import Sort SortProofs.
From Verif.Refs Require Import Model Spec.
From Verif.Plan Require Model Spec.
From Verif.Exec Require Model Spec Theorems.
Import ListNotations.
Local Open Scope string_scope.

(** * Induction over definitions *)
Section Ind.
  Variables (P : def -> Prop) (Q : expr -> Prop) (R : gerror -> Prop) (S : detail -> Prop).
  Hypothesis HD : forall n c e, Q e -> P (Def n c e).
  Hypothesis HB : forall c, Q (By c).
  Hypothesis HM : forall i m, Q (Map i m).
  Hypothesis HC : forall a r es, Forall R es -> Q (Call a r es).
  Hypothesis HMs : forall a, Q (Message a).
  Hypothesis HE : forall c, Q (Enum c).
  Hypothesis HV : forall e, R e -> Q (Validation e).
  Hypothesis HG : forall c ds m r ts, Forall P ds -> Forall S ts -> R (GError c ds m r ts).
  Hypothesis HT : forall c ds ms b p q l, Forall P ds -> Forall P ms -> S (Detail c ds ms b p q l).
  Fixpoint def_all (d : def) : P d :=
    match d with Def n c e => HD n c e (expr_all e) end
  with expr_all (e : expr) : Q e :=
    match e with
    | By c => HB c
    | Map i m => HM i m
    | Call a r es => HC a r es ((fix f l : Forall R l := match l with [] => Forall_nil R | x :: l' => Forall_cons x (gerror_all x) (f l') end) es)
    | Message a => HMs a
    | Enum c => HE c
    | Validation e => HV e (gerror_all e)
    end
  with gerror_all (e : gerror) : R e :=
    match e with
    | GError c ds m r ts =>
        HG c ds m r ts
          ((fix f l : Forall P l := match l with [] => Forall_nil P | x :: l' => Forall_cons x (def_all x) (f l') end) ds)
          ((fix f l : Forall S l := match l with [] => Forall_nil S | x :: l' => Forall_cons x (detail_all x) (f l') end) ts)
    end
  with detail_all (t : detail) : S t :=
    match t with
    | Detail c ds ms b p q l =>
        HT c ds ms b p q l
          ((fix f l : Forall P l := match l with [] => Forall_nil P | x :: l' => Forall_cons x (def_all x) (f l') end) ds)
          ((fix f l : Forall P l := match l with [] => Forall_nil P | x :: l' => Forall_cons x (def_all x) (f l') end) ms)
    end.
End Ind.

(** * Membership *)
Lemma in_toUnique n l : In n (toUnique l) <-> In n l.
Proof. unfold toUnique. rewrite sort_by_In. apply nodup_In. Qed.
Lemma in_cel_names n c : In n (cel_names c) <-> In n c /\ variable n.
Proof.
  unfold cel_names, variable. rewrite filter_In, andb_true_iff, !negb_true_iff, !String.eqb_neq. tauto.
Qed.
Lemma in_concat_map {A B} (f : A -> list B) l y : In y (concat (map f l)) <-> exists x, In x l /\ In y (f x).
Proof.
  rewrite <- flat_map_concat_map, in_flat_map. tauto.
Qed.
Lemma in_as u v c l : In (v, c) (as_ u l) <-> v = u /\ In c l.
Proof.
  unfold as_. rewrite in_map_iff. split.
  - intros [x [E I]]. injection E as <- <-. auto.
  - intros [-> I]. eauto.
Qed.

Definition covers (names : list string) (l : list (use * cel)) : Prop :=
  forall u c n, In (u, c) l -> ~ In u uncounted -> In n c -> variable n -> In n names.

Lemma in_names_concat (l : list cel) c n : In c l -> In n c -> variable n -> In n (concat (map cel_names l)).
Proof. intros Ic In_ V. apply in_concat_map. exists c. split; [exact Ic|]. apply in_cel_names. auto. Qed.

Lemma map_expr_covers m : covers (map_expr_names m) (map_evaluates m).
Proof.
  intros u c n I U N V. destruct m; cbn [map_expr_names map_evaluates] in *; apply in_toUnique.
  - destruct I as [E|[]]. injection E as <- <-. apply in_cel_names. auto.
  - apply in_as in I. destruct I as [-> I]. eapply in_names_concat; eauto.
  - destruct I as [E|[]]. injection E as <- <-. exfalso. apply U. unfold uncounted. cbn. auto.
Qed.

Lemma covers_sub (f : def -> list string) (l : list def) u c n :
  Forall (fun d => covers (def_names d) (def_evaluates d)) l ->
  In (u, c) (concat (map def_evaluates l)) -> ~ In u uncounted -> In n c -> variable n -> In n (concat (map def_names l)).
Proof.
  intros F I U N V. apply in_concat_map in I. destruct I as [d [Id I]].
  apply in_concat_map. exists d. split; [exact Id|]. rewrite Forall_forall in F. exact (F d Id u c n I U N V).
Qed.

Theorem counted_names : forall d, covers (def_names d) (def_evaluates d).
Proof.
  apply (def_all
    (fun d => covers (def_names d) (def_evaluates d))
    (fun e => covers (expr_names e) (expr_evaluates e))
    (fun e => covers (error_names e) (error_evaluates e))
    (fun t => covers (detail_names t) (detail_evaluates t))).
  - intros nm c e He u k n I U N V. cbn [def_names def_evaluates] in *. apply in_toUnique, in_or_app.
    destruct I as [E|I].
    + injection E as <- <-. left. apply in_cel_names. auto.
    + right. exact (He u k n I U N V).
  - intros c u k n I U N V. cbn in I. destruct I as [E|[]]. injection E as <- <-. cbn. apply in_cel_names. auto.
  - intros i m u k n I U N V. cbn [expr_names expr_evaluates] in *. unfold map_names. apply in_toUnique, in_or_app. right.
    exact (map_expr_covers m u k n I U N V).
  - intros a r es F u k n I U N V. cbn [expr_names expr_evaluates] in *. apply in_toUnique, in_or_app.
    apply in_app_or in I. destruct I as [I|I].
    + apply in_as in I. destruct I as [-> I]. apply in_map_iff in I. destruct I as [x [<- Ix]].
      left. apply in_concat_map. exists x. split; [exact Ix|]. apply in_cel_names. auto.
    + apply in_app_or in I. destruct I as [I|I].
      * apply in_as in I. destruct I as [-> I]. exfalso. apply U. cbn. auto.
      * apply in_app_or in I. destruct I as [[E|[]]|I].
        -- injection E as <- <-. exfalso. apply U. cbn. auto.
        -- right. apply in_concat_map in I. destruct I as [e [Ie I]]. apply in_concat_map. exists e.
           split; [exact Ie|]. rewrite Forall_forall in F. exact (F e Ie u k n I U N V).
  - intros a u k n I U N V. cbn [expr_names expr_evaluates] in *. apply in_as in I. destruct I as [-> I]. eapply in_names_concat; eauto.
  - intros c u k n I U N V. cbn in I. destruct I as [E|[]]. injection E as <- <-. cbn. apply in_cel_names. auto.
  - intros e He u k n I U N V. exact (He u k n I U N V).
  - intros c ds m r ts Fd Ft u k n I U N V. cbn [error_names error_evaluates] in *. apply in_toUnique.
    destruct I as [E|[E|[E|I]]].
    + injection E as <- <-. apply in_or_app. left. apply in_cel_names. auto.
    + injection E as <- <-. exfalso. apply U. cbn. auto.
    + injection E as <- <-. exfalso. apply U. cbn. auto 6.
    + apply in_or_app. right. apply in_or_app. apply in_app_or in I. destruct I as [I|I].
      * left. eapply covers_sub; eauto.
      * right. apply in_concat_map in I. destruct I as [t [It I]]. apply in_concat_map. exists t.
        split; [exact It|]. rewrite Forall_forall in Ft. exact (Ft t It u k n I U N V).
  - intros c ds ms b p q l Fd Fm u k n I U N V. cbn [detail_names detail_evaluates] in *. apply in_toUnique.
    destruct I as [E|I].
    + injection E as <- <-. apply in_or_app. left. apply in_cel_names. auto.
    + apply in_or_app. right. apply in_or_app. apply in_app_or in I. destruct I as [I|I]; [left; eapply covers_sub; eauto|right].
      apply in_or_app. apply in_app_or in I. destruct I as [I|I]; [left; eapply covers_sub; eauto|right].
      apply in_or_app. apply in_app_or in I. destruct I as [I|I].
      { left. apply in_as in I. destruct I as [-> I]. eapply in_names_concat; eauto. }
      right. apply in_or_app. apply in_app_or in I. destruct I as [I|I].
      { left. apply in_as in I. destruct I as [-> I]. apply in_concat_map in I. destruct I as [v [Iv I]].
        apply in_concat in Iv. destruct Iv as [f [If Iv]]. apply in_concat_map. exists f. split; [exact If|].
        apply in_concat_map. exists v. split; [exact Iv|]. cbn in I.
        destruct I as [<-|[<-|[<-|[]]]]; rewrite !in_app_iff; rewrite !in_cel_names; auto. }
      right. apply in_or_app. apply in_app_or in I. destruct I as [I|I].
      { left. apply in_as in I. destruct I as [-> I]. apply in_concat_map in I. destruct I as [v [Iv I]].
        apply in_concat in Iv. destruct Iv as [f [If Iv]]. apply in_concat_map. exists f. split; [exact If|].
        apply in_concat_map. exists v. split; [exact Iv|]. cbn in I.
        destruct I as [<-|[<-|[]]]; rewrite !in_app_iff; rewrite !in_cel_names; auto. }
      right. apply in_as in I. destruct I as [-> I]. eapply in_names_concat; eauto.
Qed.

(** * Nothing else is in the names *)
Lemma uncounted_cases u : In u uncounted \/ ~ In u uncounted.
Proof. destruct u; cbn; (left; tauto) || (right; intuition discriminate). Qed.

Definition comes (names : list string) (l : list (use * cel)) (it : string -> Prop) : Prop :=
  forall n, In n names -> (variable n /\ exists u c, ~ In u uncounted /\ In (u, c) l /\ In n c) \/ it n.

Lemma comes_cel (n : string) (l : list cel) u (L : list (use * cel)) (it : string -> Prop) :
  In n (concat (map cel_names l)) -> ~ In u uncounted -> (forall c, In c l -> In (u, c) L) ->
  (variable n /\ exists u c, ~ In u uncounted /\ In (u, c) L /\ In n c) \/ it n.
Proof.
  intros I U H. apply in_concat_map in I. destruct I as [c [Ic I]]. apply in_cel_names in I. destruct I as [I V].
  left. split; [exact V|]. exists u, c. auto.
Qed.

Ltac unc := cbn; intuition discriminate.

Theorem names_come : forall d, comes (def_names d) (def_evaluates d) (iter_in_d d).
Proof.
  apply (def_all
    (fun d => comes (def_names d) (def_evaluates d) (iter_in_d d))
    (fun e => comes (expr_names e) (expr_evaluates e) (iter_in_e e))
    (fun e => comes (error_names e) (error_evaluates e) (iter_in_g e))
    (fun t => comes (detail_names t) (detail_evaluates t) (iter_in_t t))).
  - intros nm c e He n I. cbn [def_names def_evaluates] in *. apply (proj1 (in_toUnique _ _)), in_app_or in I. destruct I as [I|I].
    + apply in_cel_names in I. destruct I as [I V]. left. split; [exact V|]. exists Condition, c. split; [unc|]. cbn; auto.
    + apply He in I. destruct I as [[V [u [k [U [I N]]]]]|I].
      * left. split; [exact V|]. exists u, k. cbn. auto.
      * right. constructor. exact I.
  - intros c n I. cbn [expr_names] in I. apply in_cel_names in I. destruct I as [I V]. left. split; [exact V|].
    exists ByValue, c. split; [unc|]. cbn; auto.
  - intros i m n I. cbn [expr_names expr_evaluates] in *. unfold map_names in I. apply (proj1 (in_toUnique _ _)), in_app_or in I.
    destruct I as [I|I].
    + right. destruct i as [i|]; [|destruct I]. apply in_app_or in I. destruct I as [I|I].
      * destruct (String.eqb_spec (iname i) ""); cbn in I; [destruct I|]. destruct I as [<-|[]]. constructor; auto.
      * destruct (String.eqb_spec (isource i) ""); cbn in I; [destruct I|]. destruct I as [<-|[]]. constructor; auto.
    + left. destruct m as [c|args|c]; cbn [map_expr_names map_evaluates] in *; apply (proj1 (in_toUnique _ _)) in I.
      * apply in_cel_names in I. destruct I as [I V]. split; [exact V|]. exists MapBy, c. split; [unc|]. cbn; auto.
      * apply in_concat_map in I. destruct I as [c [Ic I]]. apply in_cel_names in I. destruct I as [I V]. split; [exact V|].
        exists MapArgument, c. split; [unc|]. split; [|exact I]. apply in_as. auto.
      * destruct I.
  - intros a r es F n I. cbn [expr_names expr_evaluates] in *. apply (proj1 (in_toUnique _ _)), in_app_or in I. destruct I as [I|I].
    + apply in_concat_map in I. destruct I as [x [Ix I]]. apply in_cel_names in I. destruct I as [I V]. left. split; [exact V|].
      exists RequestField, (value x). split; [unc|]. split; [|exact I]. apply in_or_app. left. apply in_as. split; [reflexivity|].
      apply in_map. exact Ix.
    + apply in_concat_map in I. destruct I as [e [Ie I]]. rewrite Forall_forall in F. apply (F e Ie) in I.
      destruct I as [[V [u [k [U [I N]]]]]|I].
      * left. split; [exact V|]. exists u, k. split; [exact U|]. split; [|exact N]. rewrite !in_app_iff. right; right; right.
        apply in_concat_map. eauto.
      * right. eapply iie_call; eauto.
  - intros a n I. cbn [expr_names expr_evaluates] in *. eapply comes_cel with (u := MessageArgument); [exact I|unc|].
    intros c Ic. apply in_as. auto.
  - intros c n I. cbn [expr_names] in I. apply in_cel_names in I. destruct I as [I V]. left. split; [exact V|].
    exists EnumBy, c. split; [unc|]. cbn; auto.
  - intros e He n I. cbn [expr_names expr_evaluates] in *. apply He in I. destruct I as [I|I]; [left; exact I|right; constructor; exact I].
  - intros c ds m r ts Fd Ft n I. cbn [error_names error_evaluates] in *. apply (proj1 (in_toUnique _ _)) in I. rewrite !in_app_iff in I.
    rewrite Forall_forall in Fd, Ft. destruct I as [I|[I|I]].
    + apply in_cel_names in I. destruct I as [I V]. left. split; [exact V|]. exists ErrorCondition, c. split; [unc|]. cbn; auto.
    + apply in_concat_map in I. destruct I as [d [Id I]]. apply (Fd d Id) in I. destruct I as [[V [u [k [U [I N]]]]]|I].
      * left. split; [exact V|]. exists u, k. split; [exact U|]. split; [|exact N]. right; right; right. apply in_or_app. left.
        apply in_concat_map. eauto.
      * right. eapply iig_def; eauto.
    + apply in_concat_map in I. destruct I as [d [Id I]]. apply (Ft d Id) in I. destruct I as [[V [u [k [U [I N]]]]]|I].
      * left. split; [exact V|]. exists u, k. split; [exact U|]. split; [|exact N]. right; right; right. apply in_or_app. right.
        apply in_concat_map. eauto.
      * right. eapply iig_detail; eauto.
  - intros c ds ms b p q l Fd Fm n I. cbn [detail_names detail_evaluates] in *. apply (proj1 (in_toUnique _ _)) in I. rewrite !in_app_iff in I.
    rewrite Forall_forall in Fd, Fm. destruct I as [I|[I|[I|[I|[I|[I|I]]]]]].
    + apply in_cel_names in I. destruct I as [I V]. left. split; [exact V|]. exists DetailCondition, c. split; [unc|]. cbn; auto.
    + apply in_concat_map in I. destruct I as [d [Id I]]. apply (Fd d Id) in I. destruct I as [[V [u [k [U [I N]]]]]|I].
      * left. split; [exact V|]. exists u, k. split; [exact U|]. split; [|exact N]. right. rewrite !in_app_iff. left.
        apply in_concat_map. eauto.
      * right. eapply iit_def; eauto.
    + apply in_concat_map in I. destruct I as [d [Id I]]. apply (Fm d Id) in I. destruct I as [[V [u [k [U [I N]]]]]|I].
      * left. split; [exact V|]. exists u, k. split; [exact U|]. split; [|exact N]. right. rewrite !in_app_iff. right; left.
        apply in_concat_map. eauto.
      * right. eapply iit_def; eauto.
    + eapply comes_cel with (u := DetailBy); [exact I|unc|]. intros k Ik. right. rewrite !in_app_iff. right; right; left. apply in_as. auto.
    + apply in_concat_map in I. destruct I as [f [If I]]. apply in_concat_map in I. destruct I as [v [Iv I]].
      rewrite !in_app_iff, !in_cel_names in I.
      assert (T : forall k, In k [fst (fst v); snd (fst v); snd v] -> In (DetailText, k) (detail_evaluates (Detail c ds ms b p q l))).
      { intros k Ik. cbn [detail_evaluates]. right. rewrite !in_app_iff. right; right; right; left. apply in_as. split; [reflexivity|].
        apply in_concat_map. exists v. split; [apply in_concat; eauto|exact Ik]. }
      left. destruct I as [[I V]|[[I V]|[I V]]]; (split; [exact V|]); exists DetailText; eexists; (split; [unc|]); (split; [apply T|exact I]); cbn; auto.
    + apply in_concat_map in I. destruct I as [f [If I]]. apply in_concat_map in I. destruct I as [v [Iv I]].
      rewrite !in_app_iff, !in_cel_names in I.
      assert (T : forall k, In k [fst v; snd v] -> In (DetailText, k) (detail_evaluates (Detail c ds ms b p q l))).
      { intros k Ik. cbn [detail_evaluates]. right. rewrite !in_app_iff. right; right; right; right; left. apply in_as. split; [reflexivity|].
        apply in_concat_map. exists v. split; [apply in_concat; eauto|exact Ik]. }
      left. destruct I as [[I V]|[I V]]; (split; [exact V|]); exists DetailText; eexists; (split; [unc|]); (split; [apply T|exact I]); cbn; auto.
    + eapply comes_cel with (u := DetailText); [exact I|unc|]. intros k Ik. right. rewrite !in_app_iff. right; right; right; right; right. apply in_as. auto.
Qed.

(** The source of a map is counted. *)
Lemma source_counted d n : maps_over d n -> In n (def_names d).
Proof.
  intros (nm & c & i & m & -> & <- & N). cbn [def_names expr_names]. apply in_toUnique, in_or_app. right. unfold map_names.
  apply in_toUnique. rewrite !in_app_iff. left; right. destruct (String.eqb_spec (isource i) ""); [contradiction|]. cbn; auto.
Qed.

Lemma counted_in d n : counted d n -> In n (def_names d).
Proof.
  intros [[u [U [V [c [I N]]]]]|M]; [|apply source_counted; exact M]. exact (counted_names d u c n I U N V).
Qed.
Lemma iter_name_plan d : forall n, n <> "" -> Plan.Model.iter_name (to_plan d) = n -> iterates_as d n.
Proof.
  intros n N E. destruct d as [nm c e]. destruct e; cbn in E; try (symmetry in E; contradiction).
  destruct i as [i|]; cbn in E; [|symmetry in E; contradiction]. exists nm, c, i, e. auto.
Qed.
Lemma vname_to_plan d : Plan.Model.vname (to_plan d) = name_of d.
Proof. destruct d. reflexivity. Qed.
Lemma vrefs_to_plan d : Plan.Model.vrefs (to_plan d) = def_names d.
Proof. destruct d. reflexivity. Qed.

Lemma counted_depends ds i j di dj :
  NoDup (map name_of ds) -> nth_error ds i = Some di -> nth_error ds j = Some dj -> i <= j -> name_of di <> "" ->
  counted dj (name_of di) -> ~ iterates_as dj (name_of di) -> Plan.Spec.depends (map to_plan ds) i j.
Proof.
  intros ND Ni Nj L E C IT. left. exists (to_plan di), (to_plan dj). rewrite !nth_error_map, Ni, Nj, !vname_to_plan, vrefs_to_plan.
  split; [reflexivity|]. split; [reflexivity|]. split; [exact L|]. split; [exact E|]. split; [apply counted_in; exact C|]. split.
  - intros X. apply IT. apply iter_name_plan; [exact E|]. symmetry. exact X.
  - intros k dk Lk Lj Nk Ek. rewrite nth_error_map in Nk. destruct (nth_error ds k) as [d|] eqn:Nd; [|discriminate].
    injection Nk as <-. rewrite vname_to_plan in Ek.
    assert (k = i); [|lia]. apply (proj1 (NoDup_nth_error (map name_of ds)) ND).
    + rewrite map_length. apply nth_error_Some. congruence.
    + rewrite !nth_error_map, Nd, Ni. cbn. congruence.
Qed.
