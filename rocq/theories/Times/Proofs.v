(** * Proofs about times *)

From Coq Require Import String List Bool ZArith Lia.
From Verif.Times Require Import Model Spec.
Local Open Scope Z_scope.

Lemma instant_parts : forall t, unix t * second + nanosecond t = t_instant t.
Proof. intros t. unfold unix, nanosecond. rewrite (Z.div_mod (t_instant t) second) at 3 by discriminate. lia. Qed.

(** ** One value *)

Lemma go_time_value : forall w t, go_time w (to_value t) =
  if negb (z_offset (zone_of t) =? 0) then Some {| t_instant := t_instant t; t_loc := fixed (z_name (zone_of t)) (z_offset (zone_of t)) |}
  else match load w (z_name (zone_of t)) with Some l => Some {| t_instant := t_instant t; t_loc := l |} | None => None end.
Proof.
  intros w t. unfold go_time, to_value, go_location. cbn [v_loc v_seconds v_nanos lv_name lv_offset]. rewrite instant_parts. destruct (negb (z_offset (zone_of t) =? 0)); [reflexivity | ].
  destruct (load w (z_name (zone_of t))); reflexivity.
Qed.
Lemma go_time_instant : forall w t t', go_time w (to_value t) = Some t' -> t_instant t' = t_instant t.
Proof.
  intros w t t' H. rewrite go_time_value in H. destruct (negb _); [injection H as <-; reflexivity | ]. destruct (load w _); [injection H as <-; reflexivity | discriminate H].
Qed.
Lemma read_fails : forall w t, go_time w (to_value t) = None <-> z_offset (zone_of t) = 0 /\ load w (z_name (zone_of t)) = None.
Proof.
  intros w t. rewrite go_time_value. destruct (z_offset (zone_of t) =? 0) eqn:E; cbn [negb].
  - apply Z.eqb_eq in E. destruct (load w (z_name (zone_of t))); split; [discriminate | intros [_ X]; discriminate X | intros _; split; [exact E | reflexivity] | reflexivity].
  - apply Z.eqb_neq in E. split; [discriminate | intros [X _]; contradiction].
Qed.
Lemma read_east : forall w t, z_offset (zone_of t) <> 0 ->
  exists t', go_time w (to_value t) = Some t' /\ t_instant t' = t_instant t /\ forall u, l_zone (t_loc t') u = {| z_name := z_name (zone_of t); z_offset := z_offset (zone_of t); z_dst := false |}.
Proof.
  intros w t H. rewrite go_time_value. apply Z.eqb_neq in H. rewrite H. cbn [negb]. eexists. split; [reflexivity | ]. split; [reflexivity | ]. intros u. reflexivity.
Qed.

(** ** Instants *)

Lemma eval_op_instant : forall w o v v' t t1, keeps_clock o -> go_time w v = Some t1 -> t_instant t1 = t_instant t -> eval_op w o v = Some v' ->
  forall t', go_op w o t = Some t' -> v_seconds v' * second + v_nanos v' = t_instant t'.
Proof.
  intros w o v v' t t1 K G E H t' H'. destruct o as [n | y m d | d | d | e | | ]; cbn [eval_op go_op] in *; try (rewrite G in H; injection H as <-; injection H' as <-); try (cbn [to_value v_seconds v_nanos]; rewrite instant_parts).
  - cbn. rewrite E. reflexivity.
  - destruct K.
  - unfold round. rewrite E. destruct (d <=? 0); [exact E | ]. cbn [t_instant]. rewrite <- E. destruct (_ <? d); cbn; lia.
  - unfold truncate. destruct (d <=? 0); [exact E | ]. cbn. rewrite E. reflexivity.
  - destruct (eval_loc w e) as [lv | ]; [ | discriminate H]. destruct (go_location w lv) as [l | ]; [ | discriminate H]. rewrite G in H. injection H as <-. cbn [to_value v_seconds v_nanos].
    rewrite instant_parts. destruct (named w e) as [l' | ]; [ | discriminate H']. injection H' as <-. exact E.
  - exact E.
  - exact E.
Qed.
Lemma eval_ops_instant : forall w ops v v' t t', Forall keeps_clock ops -> v_seconds v * second + v_nanos v = t_instant t -> eval_ops w ops v = Some v' -> go w ops t = Some t' ->
  v_seconds v' * second + v_nanos v' = t_instant t'.
Proof.
  intros w ops. induction ops as [ | o ops IH]; intros v v' t t' K E H H'; cbn [eval_ops go] in *.
  - injection H as <-. injection H' as <-. exact E.
  - inversion K as [ | o' ops' K1 K2]; subst o' ops'. destruct (eval_op w o v) as [v1 | ] eqn:H1; [ | discriminate H]. destruct (go_op w o t) as [t1 | ] eqn:H2; [ | discriminate H'].
    apply (IH v1 v' t1 t' K2); [ | exact H | exact H'].
    assert (G : exists g, go_time w v = Some g).
    { destruct (go_time w v) as [g | ] eqn:G; [exists g; reflexivity | ]. destruct o; cbn [eval_op] in H1; rewrite G in H1; try discriminate H1.
      destruct (eval_loc w e) as [lv | ]; [ | discriminate H1]. destruct (go_location w lv); discriminate H1. }
    destruct G as [g G]. apply (eval_op_instant w o v v1 t g K1 G); [ | exact H1 | exact H2].
    unfold go_time in G. destruct (go_location w (v_loc v)); [ | discriminate G]. injection G as <-. exact E.
Qed.

(** ** Steady locations *)

Definition same (t t' : time) : Prop := t_instant t = t_instant t' /\ forall u, l_zone (t_loc t) u = l_zone (t_loc t') u.
Lemma same_zone : forall t t', same t t' -> zone_of t = zone_of t'.
Proof. intros t t' [E Z]. unfold zone_of, unix. rewrite E. apply Z. Qed.
Lemma same_value : forall t t', same t t' -> to_value t = to_value t'.
Proof. intros t t' S. unfold to_value. rewrite (same_zone t t' S). destruct S as [E _]. unfold unix, nanosecond. rewrite E. reflexivity. Qed.
Lemma same_add : forall n t t', same t t' -> same (add n t) (add n t').
Proof. intros n t t' [E Z]. split; [cbn; rewrite E; reflexivity | exact Z]. Qed.

Lemma steady_read : forall w t, steady w (t_loc t) -> exists t', go_time w (to_value t) = Some t' /\ same t' t.
Proof.
  intros w t [n [o [C F]]]. assert (Zt : zone_of t = {| z_name := n; z_offset := o; z_dst := false |}) by apply C.
  rewrite go_time_value, Zt. cbn [z_name z_offset]. destruct (o =? 0) eqn:E; cbn [negb].
  - apply Z.eqb_eq in E. subst o. destruct F as [X | [l' [L C']]]; [contradiction | ]. rewrite L. eexists. split; [reflexivity | ]. split; [reflexivity | ]. intros u. cbn [t_loc]. rewrite C, C'. reflexivity.
  - eexists. split; [reflexivity | ]. split; [reflexivity | ]. intros u. cbn [t_loc]. rewrite C. reflexivity.
Qed.
Lemma steady_utc : forall w, steady w utc.
Proof. intros w. exists "UTC"%string, 0. split; [intros u; reflexivity | ]. right. exists utc. split; [reflexivity | intros u; reflexivity]. Qed.

(** Locations that are read back. *)
Lemma load_again : forall w n l, load w n = Some l -> load w (l_name l) = Some l.
Proof.
  intros w n l H. unfold load in H. destruct ((n =? "")%string || (n =? "UTC")%string) eqn:E1; [injection H as <-; reflexivity | ].
  destruct (n =? "Local")%string eqn:E2; [injection H as <-; reflexivity | ]. destruct (w_db w n) as [z | ] eqn:D; [ | discriminate H]. injection H as <-. cbn [l_name].
  unfold load. rewrite E1, E2, D. reflexivity.
Qed.
Definition reload (w : world) (e : loc_expr) : option location := match eval_loc w e with Some lv => go_location w lv | None => None end.
Lemma reload_exact : forall w e, reload w e =
  match e with
  | FixedZone n o => if o =? 0 then load w n else Some (fixed n o)
  | FromData n _ => load w n
  | _ => named w e
  end.
Proof.
  intros w [ | | n | n o | n z]; unfold reload; cbn [eval_loc named].
  - reflexivity.
  - reflexivity.
  - destruct (load w n) as [l | ] eqn:L; [ | reflexivity]. unfold go_location. cbn [lv_offset lv_name Z.eqb negb]. apply (load_again w n l L).
  - unfold go_location. cbn [lv_offset lv_name]. destruct (o =? 0); reflexivity.
  - reflexivity.
Qed.

Lemma steady_step : forall w o t, steady w (t_loc t) -> steady_op w o ->
  match go_op w o t with
  | None => eval_op w o (to_value t) = None
  | Some t' => exists t1, eval_op w o (to_value t) = Some (to_value t1) /\ same t1 t' /\ steady w (t_loc t')
  end.
Proof.
  intros w o t S So. destruct (steady_read w t S) as [g [G Sg]]. destruct o as [n | y m d | d | d | e | | ]; cbn [go_op eval_op steady_op] in *; try rewrite G.
  - eexists. split; [reflexivity | ]. split; [apply same_add; exact Sg | exact S].
  - eexists. split; [reflexivity | ]. split; [ | exact S]. unfold add_date, wall, resolve. rewrite (same_zone g t Sg). destruct Sg as [E Z]. split; [ | exact Z]. cbn [t_instant]. unfold unix, nanosecond. rewrite E, !Z. reflexivity.
  - eexists. split; [reflexivity | ]. split; [ | unfold round; destruct (d <=? 0); [exact S | destruct (_ <? d); exact S]]. destruct Sg as [E Z]. unfold round. rewrite E. destruct (d <=? 0); [split; assumption | ].
    destruct (_ <? d); apply same_add; split; assumption.
  - eexists. split; [reflexivity | ]. split; [ | unfold truncate; destruct (d <=? 0); exact S]. destruct Sg as [E Z]. unfold truncate. rewrite E. destruct (d <=? 0); [split; assumption | apply same_add; split; assumption].
  - pose proof (reload_exact w e) as R. unfold reload in R. destruct e as [ | | n | n o | n z]; [ | | | | destruct So].
    + cbn [eval_loc named] in *. rewrite R. eexists. split; [reflexivity | ]. split; [split; [apply Sg | reflexivity] | apply steady_utc].
    + cbn [eval_loc named] in *. rewrite R. eexists. split; [reflexivity | ]. split; [split; [apply Sg | reflexivity] | apply So; reflexivity].
    + cbn [named] in *. destruct (eval_loc w (Load n)) as [lv | ] eqn:L.
      * rewrite R. destruct (load w n) as [l | ] eqn:L'; [ | reflexivity]. eexists. split; [reflexivity | ]. split; [split; [apply Sg | reflexivity] | apply So; reflexivity].
      * rewrite <- R. reflexivity.
    + cbn [eval_loc named] in *. rewrite R. specialize (So _ eq_refl). destruct (o =? 0) eqn:E.
      * apply Z.eqb_eq in E. subst o. destruct So as [n' [o' [C F]]]. pose proof (C 0) as C0. cbn [l_zone fixed] in C0. injection C0 as <- <-.
        destruct F as [X | [l' [L C']]]; [contradiction | ]. rewrite L. eexists. split; [reflexivity | ]. split; [split; [apply Sg | intros u; cbn [t_loc in_]; rewrite C'; reflexivity] | ].
        exists n, 0. split; [intros u; reflexivity | right; exists l'; split; assumption].
      * eexists. split; [reflexivity | ]. split; [split; [apply Sg | reflexivity] | exact So].
  - eexists. split; [reflexivity | ]. split; [split; [apply Sg | reflexivity] | apply steady_utc].
  - eexists. split; [reflexivity | ]. split; [split; [apply Sg | reflexivity] | exact So].
Qed.
Lemma steady_steps : forall w ops t, steady w (t_loc t) -> Forall (steady_op w) ops ->
  match go w ops t with
  | None => eval_ops w ops (to_value t) = None
  | Some t' => eval_ops w ops (to_value t) = Some (to_value t') /\ steady w (t_loc t')
  end.
Proof.
  intros w ops. induction ops as [ | o ops IH]; intros t S F; cbn [go eval_ops]; [split; [reflexivity | exact S] | ].
  inversion F as [ | o' ops' F1 F2]; subst o' ops'. pose proof (steady_step w o t S F1) as H. destruct (go_op w o t) as [t' | ].
  - destruct H as [t1 [H [Sm S']]]. rewrite H, (same_value t1 t' Sm). apply IH; assumption.
  - rewrite H. reflexivity.
Qed.
Lemma steady_chain : forall w start ops, steady w (t_loc start) -> Forall (steady_op w) ops -> option_map view (read w (eval w start ops)) = option_map view (go w ops start).
Proof.
  intros w start ops S F. pose proof (steady_steps w ops start S F) as H. unfold eval. destruct (go w ops start) as [t | ].
  - destruct H as [H S']. rewrite H. cbn [read]. destruct (steady_read w t S') as [g [G Sg]]. rewrite G. cbn [option_map]. unfold view. rewrite (same_zone g t Sg). destruct Sg as [E _]. rewrite E. reflexivity.
  - rewrite H. reflexivity.
Qed.
