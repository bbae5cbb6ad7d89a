(** * C72: times in expressions are Go's times *)

From Coq Require Import String List Bool ZArith Lia.
From Verif.Times Require Import Model Spec Proofs.
Import ListNotations.
Local Open Scope Z_scope.

(** The full property: whatever time a chain of functions starts with, what can be seen of its result is what Go shows for the same chain. *)
Definition C72_statement : Prop := forall w start ops, option_map view (read w (eval w start ops)) = option_map view (go w ops start).

(** It holds where all locations have one zone, as fixed zones and UTC, and are found by its name if its offset is zero. *)
Theorem C72_partial : forall w start ops, steady w (t_loc start) -> Forall (steady_op w) ops ->
  option_map view (read w (eval w start ops)) = option_map view (go w ops start).
Proof. exact steady_chain. Qed.
Print Assumptions C72_partial.

(** For all locations, the instant is right where the evaluation gives a value, as long as no date is added: unix, before, after, equal, compare and sub can be relied on. *)
Theorem C72_instants : forall w start ops v t, Forall keeps_clock ops -> eval w start ops = Some v -> go w ops start = Some t ->
  v_seconds v * second + v_nanos v = t_instant t.
Proof. intros w start ops v t K H G. apply (eval_ops_instant w ops (to_value start) v start t K); [apply instant_parts | exact H | exact G]. Qed.
Print Assumptions C72_instants.

(** A time is shown right at once exactly if its zone is not daylight saving time and east or west of Greenwich, or its zone is also the one of the location with the name of the zone. *)
Theorem C72_first_exact : forall w t,
  option_map view (read w (eval w t [])) = Some (view t) <->
  (z_offset (zone_of t) <> 0 /\ z_dst (zone_of t) = false) \/
  (z_offset (zone_of t) = 0 /\ exists l, load w (z_name (zone_of t)) = Some l /\ l_zone l (unix t) = zone_of t).
Proof.
  intros w t. unfold eval. cbn [eval_ops read]. rewrite go_time_value. destruct (z_offset (zone_of t) =? 0) eqn:E; cbn [negb].
  - apply Z.eqb_eq in E. destruct (load w (z_name (zone_of t))) as [l | ]; cbn [option_map].
    + unfold view at 1. unfold zone_of at 1, unix at 1. cbn [t_instant t_loc]. fold (unix t). unfold view. split.
      * intros H. injection H as H. right. split; [exact E | ]. exists l. split; [reflexivity | exact H].
      * intros [[X _] | [_ [l' [L H]]]]; [contradiction | ]. injection L as <-. rewrite H. reflexivity.
    + split; [discriminate | ]. intros [[X _] | [_ [l' [L _]]]]; [contradiction | discriminate L].
  - apply Z.eqb_neq in E. cbn [option_map]. unfold view at 1. unfold zone_of at 1. cbn [t_instant t_loc fixed l_zone]. unfold view. split.
    + intros H. injection H as H. left. split; [exact E | ]. rewrite <- H. reflexivity.
    + intros [[_ D] | [X _]]; [ | contradiction]. destruct (zone_of t) as [n o b]. cbn in *. subst b. reflexivity.
Qed.
Print Assumptions C72_first_exact.

(** Reading a time fails exactly if its offset is zero and its zone has a name that is not the one of a location. *)
Theorem C72_fails : forall w t, read w (eval w t []) = None <-> z_offset (zone_of t) = 0 /\ load w (z_name (zone_of t)) = None.
Proof. intros w t. exact (read_fails w t). Qed.
Print Assumptions C72_fails.

(** Away from Greenwich a time forgets its location: the zone is the same for all instants, and never daylight saving time. *)
Theorem C72_forgets : forall w t, z_offset (zone_of t) <> 0 ->
  exists t', read w (eval w t []) = Some t' /\ t_instant t' = t_instant t /\
    forall u, l_zone (t_loc t') u = {| z_name := z_name (zone_of t); z_offset := z_offset (zone_of t); z_dst := false |}.
Proof. intros w t. exact (read_east w t). Qed.
Print Assumptions C72_forgets.

(** Locations: UTC, the local one and loaded ones are kept; fixed zones are kept away from Greenwich; of given data only the name is kept. *)
Theorem C72_locations : forall w e lv, eval_loc w e = Some lv -> go_location w lv =
  match e with
  | FixedZone n o => if o =? 0 then load w n else Some (fixed n o)
  | FromData n _ => load w n
  | _ => named w e
  end.
Proof. intros w e lv H. rewrite <- reload_exact. unfold reload. rewrite H. reflexivity. Qed.
Print Assumptions C72_locations.

(** Rounding, in itself: multiples of a positive duration since the year 1, the last one before, or the nearest one with halves up; other durations change nothing. *)
Theorem C72_rounding : forall w start d v, eval w start [Truncate d] = Some v -> let n := v_seconds v * second + v_nanos v in
  (0 < d -> (d | n - first_day) /\ n <= t_instant start < n + d) /\ (d <= 0 -> n = t_instant start).
Proof.
  intros w start d v H n. assert (E : n = t_instant (truncate d start)) by (apply (C72_instants w start [Truncate d]); [repeat constructor | exact H | reflexivity]).
  change first_day with year1. rewrite E. unfold truncate. destruct (d <=? 0) eqn:L; [apply Z.leb_le in L | apply Z.leb_gt in L]; (split; [ | try reflexivity; lia]); [lia | ].
  intros D. unfold add. cbn [t_instant]. pose proof (Z.mod_pos_bound (t_instant start - year1) d D) as B. split; [ | lia].
  exists ((t_instant start - year1) / d). pose proof (Z.div_mod (t_instant start - year1) d ltac:(lia)). lia.
Qed.
Print Assumptions C72_rounding.
Theorem C72_rounding_half : forall w start d v, eval w start [Round d] = Some v -> let n := v_seconds v * second + v_nanos v in
  (0 < d -> (d | n - first_day) /\ 2 * (t_instant start - n) < d /\ 2 * (n - t_instant start) <= d) /\ (d <= 0 -> n = t_instant start).
Proof.
  intros w start d v H n. assert (E : n = t_instant (round d start)) by (apply (C72_instants w start [Round d]); [repeat constructor | exact H | reflexivity]).
  change first_day with year1. rewrite E. unfold round. destruct (d <=? 0) eqn:L; [apply Z.leb_le in L | apply Z.leb_gt in L]; (split; [ | try reflexivity; lia]); [lia | ].
  intros D. pose proof (Z.mod_pos_bound (t_instant start - year1) d D) as B. pose proof (Z.div_mod (t_instant start - year1) d ltac:(lia)) as M.
  set (r := (t_instant start - year1) mod d) in *. cbn zeta. destruct (r + r <? d) eqn:R; [apply Z.ltb_lt in R | apply Z.ltb_ge in R]; unfold add; cbn [t_instant]; (split; [ | lia]).
  - exists ((t_instant start - year1) / d). lia.
  - exists ((t_instant start - year1) / d + 1). lia.
Qed.
Print Assumptions C72_rounding_half.

(** A world with the clocks of New York and the Azores in 2024. *)
Definition new_york (u : Z) : zone :=
  if (1710054000 <=? u) && (u <? 1730613600) then {| z_name := "EDT"; z_offset := -14400; z_dst := true |} else {| z_name := "EST"; z_offset := -18000; z_dst := false |}.
Definition azores (u : Z) : zone :=
  if (1711846800 <=? u) && (u <? 1729990800) then {| z_name := "+00"; z_offset := 0; z_dst := true |} else {| z_name := "-01"; z_offset := -3600; z_dst := false |}.
Definition w2024 : world :=
  {| w_db := fun n => if String.eqb n "America/New_York" then Some new_york else if String.eqb n "Atlantic/Azores" then Some azores else if String.eqb n "EST" then Some (fun _ => {| z_name := "EST"; z_offset := -18000; z_dst := false |}) else None;
     w_local := fun _ => {| z_name := "UTC"; z_offset := 0; z_dst := false |};
     w_shift := fun y m d x => x + d |}.
Definition in_new_york (u : Z) : time := {| t_instant := u * second; t_loc := {| l_name := "America/New_York"; l_zone := new_york |} |}.

(** Refuted: ten o'clock in New York on the first of March, thirty days later, is ten o'clock in Go; here it is ten o'clock in a zone without daylight saving time, so an hour later. *)
Theorem C72_refuted : ~ C72_statement.
Proof. intros H. specialize (H w2024 (in_new_york 1709305200) [AddDate 0 0 30]). vm_compute in H. discriminate H. Qed.
Print Assumptions C72_refuted.
Theorem C72_hour_late :
  option_map t_instant (read w2024 (eval w2024 (in_new_york 1709305200) [AddDate 0 0 30])) = Some ((1711893600 + 3600) * second) /\
  option_map t_instant (go w2024 [AddDate 0 0 30] (in_new_york 1709305200)) = Some (1711893600 * second).
Proof. split; vm_compute; reflexivity. Qed.
Print Assumptions C72_hour_late.

(** In summer every function on a time in the Azores fails. *)
Theorem C72_azores : forall ops, ops <> [] ->
  eval w2024 {| t_instant := 1720000000 * second; t_loc := {| l_name := "Atlantic/Azores"; l_zone := azores |} |} ops = None.
Proof.
  intros [ | o ops] N; [contradiction | ]. unfold eval. cbn [eval_ops].
  assert (G : go_time w2024 (to_value {| t_instant := 1720000000 * second; t_loc := {| l_name := "Atlantic/Azores"; l_zone := azores |} |}) = None) by (vm_compute; reflexivity).
  destruct o; cbn [eval_op]; rewrite ?G; try reflexivity. destruct (eval_loc w2024 e) as [lv | ]; [ | reflexivity]. destruct (go_location w2024 lv); reflexivity.
Qed.
Print Assumptions C72_azores.

(** Non-vacuity: a fixed zone, through all functions. *)
Example chain_fixed :
  let t := {| t_instant := 1720000000 * second + 5; t_loc := fixed "JST" 32400 |} in
  let ops := [AddDate 0 1 3; Add 1500; Truncate 1000; WithLocation (FixedZone "X" 3600); Round 7; ToUtc; WithLocation (Load "UTC")] in
  steady w2024 (t_loc t) /\ Forall (steady_op w2024) ops /\ option_map view (read w2024 (eval w2024 t ops)) = option_map view (go w2024 ops t).
Proof.
  intros t ops. assert (F : forall n o, o <> 0 -> steady w2024 (fixed n o)) by (intros n o H; exists n, o; split; [reflexivity | left; exact H]).
  assert (A : steady w2024 (t_loc t)) by (apply F; discriminate).
  assert (B : Forall (steady_op w2024) ops).
  { repeat constructor; intros l H; injection H as <-; [apply F; discriminate | apply steady_utc]. }
  split; [exact A | ]. split; [exact B | ]. apply C72_partial; assumption.
Qed.
Example chain_instants :
  let ops := [Add 7; ToUtc; WithLocation (Load "America/New_York"); Round 10] in
  Forall keeps_clock ops /\
  option_map (fun v => v_seconds v * second + v_nanos v) (eval w2024 (in_new_york 1709305200) ops) = Some (1709305200 * second + 10) /\
  option_map t_instant (go w2024 ops (in_new_york 1709305200)) = Some (1709305200 * second + 10).
Proof. intros ops. split; [repeat constructor | ]. split; vm_compute; reflexivity. Qed.
Example chain_rounding :
  option_map (fun v => v_seconds v * second + v_nanos v) (eval w2024 (in_new_york 1709305200) [Add 1500; Round 1000]) = Some (1709305200 * second + 2000) /\
  option_map (fun v => v_seconds v * second + v_nanos v) (eval w2024 (in_new_york 1709305200) [Add 1500; Truncate 1000]) = Some (1709305200 * second + 1000).
Proof. split; vm_compute; reflexivity. Qed.
