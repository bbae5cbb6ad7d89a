(** The statements of Theorems.v. *)
From Coq Require Import String List Arith Bool Lia.
From Verif.Plan Require Import Model Spec Proofs.
From Verif.Exec Require Import Model Spec Proofs More Deps.
Import ListNotations.

Lemma run_inv gs key sc st : run gs key sc init = Some st -> inv gs key st.
Proof. intros H. eapply inv_run; [|exact H]. apply inv_init. Qed.

Lemma plan_key_inj ds fuel gs :
  NoDup (map vname ds) -> setup fuel ds = Planned gs ->
  forall i j, In i (planned_defs gs) -> In j (planned_defs gs) -> node_key ds i = node_key ds j -> i = j.
Proof.
  intros Hn Hs i j Hi Hj. apply setup_waits in Hs as [_ Hs]. apply node_key_inj; auto.
Qed.

Lemma order_holds ds fuel gs sc st :
  NoDup (map vname ds) -> setup fuel ds = Planned gs ->
  run gs (node_key ds) sc init = Some st ->
  forall l1 p j l2 i, log st = l1 ++ mk p j EStart :: l2 -> depends ds i j -> evaluated l2 i true.
Proof.
  intros Hn Hs Hr l1 p j l2 i Hl Hd.
  eapply (start_after_deps gs (node_key ds) (plan_key_inj ds fuel gs Hn Hs) st (run_inv _ _ _ _ Hr) (depends ds));
    [apply (setup_waits _ _ _ Hs)|exact Hl|exact Hd].
Qed.

Lemma success_complete ds fuel gs sc st :
  NoDup (map vname ds) -> no_self_reference ds -> ds <> [] -> length ds < fuel ->
  setup fuel ds = Planned gs -> run gs (node_key ds) sc init = Some st ->
  (forall k, k < length gs -> phase_of st [k] = Done true) ->
  forall i, i < length ds -> evaluated (log st) i true.
Proof.
  intros Hn Hself Hne Hf Hs Hr Hd i Hi.
  destruct (setup_planned ds Hself Hne) as (gs' & H1 & _ & H2 & _).
  rewrite (H1 fuel Hf) in Hs. injection Hs as ->. apply H2 in Hi.
  unfold planned_defs in Hi. apply in_concat in Hi as (l & Hl & Hi).
  apply in_map_iff in Hl as (gr & <- & Hgr). apply In_nth_error in Hgr as [k Hk].
  eapply (done_true_all gs (node_key ds) (plan_key_inj ds fuel gs Hn (H1 fuel Hf)) st (run_inv _ _ _ _ Hr) gr [k]);
    [simpl; rewrite Hk; reflexivity| |exact Hi].
  apply Hd. apply nth_error_Some. congruence.
Qed.

Lemma no_deadlock gs key sc st :
  run gs key sc init = Some st -> stuck gs key st ->
  forall k gr, nth_error gs k = Some gr -> over st [k] gr.
Proof.
  intros Hr Hst k gr Hk. eapply stuck_over; [eapply run_inv, Hr|exact Hst|]. simpl. rewrite Hk. reflexivity.
Qed.

Lemma all_places_length gs : length (all_places gs) = list_sum (map (fun gr => length (places_of gr)) gs).
Proof.
  unfold all_places. generalize 0. induction gs as [|gr gs IH]; intros n; [reflexivity|].
  simpl. rewrite app_length, map_length, IH. reflexivity.
Qed.

Lemma run_bounded gs key sc st :
  run gs key sc init = Some st -> length sc <= 5 * list_sum (map (fun gr => length (places_of gr)) gs).
Proof.
  intros H. apply run_total in H. rewrite total_init, all_places_length in H. lia.
Qed.

Lemma filter_ext_in {A} (f g : A -> bool) l : (forall x, In x l -> f x = g x) -> filter f l = filter g l.
Proof.
  induction l as [|a l IH]; intros H; [reflexivity|]. simpl. rewrite (H a (or_introl eq_refl)), IH; [reflexivity|].
  intros x Hx. apply H. right; exact Hx.
Qed.

Lemma no_overlap gs key sc st :
  (forall i j, In i (planned_defs gs) -> In j (planned_defs gs) -> key i = key j -> i = j) ->
  run gs key sc init = Some st ->
  forall d, In d (planned_defs gs) ->
    ends_of d (log st) <= starts_of d (log st) <= S (ends_of d (log st)).
Proof.
  intros Hk Hr d Hd. apply run_inv in Hr.
  assert (E : forall ev, In ev (log st) -> String.eqb (key (of_def ev)) (key d) = Nat.eqb (of_def ev) d).
  { intros ev Hev. destruct (i_ev _ _ _ Hr ev Hev) as (gr & Ho & He).
    apply group_at_end in Ho. rewrite <- He in Ho.
    destruct (Nat.eqb_spec (of_def ev) d) as [->|Hn]; [apply String.eqb_refl|].
    apply String.eqb_neq. intros H. apply Hn, Hk; assumption. }
  assert (E1 : starts_of d (log st) = count (start_key key (key d)) (log st)).
  { unfold starts_of, count. f_equal. apply filter_ext_in. intros ev Hev. unfold is_start, start_key.
    rewrite (E ev Hev). reflexivity. }
  assert (E2 : ends_of d (log st) = count (end_key key (key d)) (log st)).
  { unfold ends_of, count. f_equal. apply filter_ext_in. intros ev Hev. unfold is_end, end_key.
    rewrite (E ev Hev). reflexivity. }
  destruct (i_count _ _ _ Hr (key d)) as [[H _]|[H _]]; lia.
Qed.

Lemma caller_outcome gs key sc st p gr ok :
  (forall i j, In i (planned_defs gs) -> In j (planned_defs gs) -> key i = key j -> i = j) ->
  run gs key sc init = Some st ->
  group_at gs p = Some gr -> phase_of st p = Done ok -> evaluated (log st) (last_def gr) ok.
Proof.
  intros Hk Hr Ho Hp. rewrite <- end_last.
  eapply done_evaluated; [exact Hk|eapply run_inv, Hr|exact Ho|exact Hp].
Qed.

Lemma start_before_record gs key sc st :
  run gs key sc init = Some st ->
  forall l1 p d l2, log st = l1 ++ mk p d EStart :: l2 ->
    exists l2a l2b, l2 = l2a ++ mk p d EBegin :: l2b /\ ~ recorded l2b d.
Proof.
  intros Hr l1 p d l2 Hl. apply run_inv in Hr.
  destruct (i_log _ _ _ Hr l1 p d l2 Hl) as (gr & _ & _ & l2a & l2b & E & Hn).
  exists l2a, l2b. split; [exact E|]. intros (q & ok & Hin). apply Hn. exists q, d, ok. auto.
Qed.

Lemma starters_nodup gs key sc st : run gs key sc init = Some st -> NoDup (starters (log st)).
Proof.
  intros H. apply starters_run in H as [H _]; [exact H|constructor|]. intros p [].
Qed.

Lemma once_per_call gs key sc st :
  run gs key sc init = Some st ->
  forall l1 l2 p d d', log st = l1 ++ mk p d EStart :: l2 -> ~ started l2 p d'.
Proof.
  intros Hr l1 l2 p d d' Hl Hin. apply starters_nodup in Hr. rewrite Hl in Hr.
  unfold starters in Hr. rewrite filter_app, map_app in Hr. simpl in Hr.
  apply NoDup_remove_2 in Hr. apply Hr. apply in_or_app; right.
  apply in_map_iff. exists (mk p d' EStart). split; [reflexivity|]. apply filter_In. auto.
Qed.

Lemma at_most_once gs key sc st :
  run gs key sc init = Some st ->
  forall d, (forall p q gp gq, group_at gs p = Some gp -> group_at gs q = Some gq ->
               last_def gp = d -> last_def gq = d -> p = q) ->
    starts_of d (log st) <= 1.
Proof.
  intros Hr d Hu. pose proof (starters_nodup _ _ _ _ Hr) as Hn. apply run_inv in Hr.
  assert (Hev := i_ev _ _ _ Hr). clear Hr. unfold starts_of, starters in *.
  induction (log st) as [|ev l IH]; [simpl; lia|]. simpl.
  assert (Hn' : NoDup (map at_path (filter (fun ev => match kind ev with EStart => true | _ => false end) l))).
  { simpl in Hn. destruct (kind ev); simpl in Hn; try exact Hn. inversion Hn; assumption. }
  specialize (IH Hn' (fun e H => Hev e (or_intror H))).
  destruct (is_start d ev) eqn:Es; [|exact IH]. simpl.
  destruct (filter (is_start d) l) as [|ev' l'] eqn:Ef; [simpl; lia|]. exfalso.
  assert (Hin : In ev' (filter (is_start d) l)) by (rewrite Ef; left; reflexivity).
  apply filter_In in Hin as [Hin Es'].
  unfold is_start in Es, Es'. apply andb_prop in Es as [Ed Ek], Es' as [Ed' Ek'].
  apply Nat.eqb_eq in Ed, Ed'.
  destruct (Hev ev (or_introl eq_refl)) as (g1 & H1 & E1).
  destruct (Hev ev' (or_intror Hin)) as (g2 & H2 & E2).
  assert (at_path ev = at_path ev').
  { eapply Hu; [exact H1|exact H2| |]; rewrite <- end_last; congruence. }
  simpl in Hn. destruct (kind ev); try discriminate. simpl in Hn. inversion Hn as [|? ? Hx _]; subst.
  apply Hx. rewrite H. apply in_map. apply filter_In. split; [exact Hin|]. destruct (kind ev'); auto.
Qed.
