(** Property theorems C08 and C09. *)
From Coq Require Import String List Arith.
From Verif.Base Require Import Result Slice SliceProofs.
From Verif.Def Require Import Model Spec Proofs.
Import ListNotations.

(** [evaluates d st errs st']: evaluating definition [d] in [st] returns the errors [errs] (none: success,
    several: joined) and leaves [st'], whatever spare capacity the runtime gives to slices. *)
Definition evaluates {V E CT W} (zero : V) (d : def V E CT W) (st : state V CT W) (errs : list E) st' : Prop :=
  exists room, eval_def V E CT W zero room d st = (errs, st').

(** C08: the condition is false: the variable gets the zero value; nothing else changes and the only
    possible error is the setter's. *)
Theorem C08_false_condition_sets_zero : forall V E CT W (zero : V) (d : def V E CT W) st st1 errs st',
  cond_gives d st (Ok false) st1 -> is_valid st1 -> evaluates zero d st errs st' ->
  with_variable (d_name _ _ _ _ d) (d_type _ _ _ _ d) zero st1 st' /\
  exists serr, d_setter _ _ _ _ d zero (world _ _ _ st1) = (serr, world _ _ _ st') /\
    errs = match serr with Some e => [e] | None => [] end.
Proof.
  exact (fun V E CT W zero d st st1 errs st' Hc Hv He =>
    match He with ex_intro _ room H => def_cond_false zero room d st st1 errs st' Hc Hv H end).
Qed.
Print Assumptions C08_false_condition_sets_zero.

(** C08: the condition fails: its error is returned, and the definition did nothing. *)
Theorem C08_failing_condition_is_reported : forall V E CT W (zero : V) (d : def V E CT W) st e st1 errs st',
  cond_gives d st (Err e) st1 -> evaluates zero d st errs st' -> errs = [e] /\ st' = st1.
Proof.
  exact (fun V E CT W zero d st e st1 errs st' Hc He =>
    match He with ex_intro _ room H =>
      match eq_trans (eq_sym H) (def_cond_err zero room d st e st1 Hc) in (_ = p)
      return (errs = fst p /\ st' = snd p) with eq_refl => conj eq_refl eq_refl end end).
Qed.
Print Assumptions C08_failing_condition_is_reported.

(** C08: the condition is true or absent: the variable gets the value of the body (zero when it gives
    none) and the body's error is returned, joined with the setter's if that fails too. *)
Theorem C08_true_condition_sets_the_value : forall V E CT W (zero : V) (d : def V E CT W) st st1 ret rerr st2 errs st',
  cond_gives d st (Ok true) st1 -> d_body _ _ _ _ d st1 = ((ret, rerr), st2) -> is_valid st2 ->
  evaluates zero d st errs st' ->
  let v := match ret with Some v => v | None => zero end in
  with_variable (d_name _ _ _ _ d) (d_type _ _ _ _ d) v st2 st' /\
  exists serr, d_setter _ _ _ _ d v (world _ _ _ st2) = (serr, world _ _ _ st') /\
    errs = match rerr with Some e => [e] | None => [] end ++ match serr with Some e => [e] | None => [] end.
Proof.
  exact (fun V E CT W zero d st st1 ret rerr st2 errs st' Hc Hb Hv He =>
    match He with ex_intro _ room H => def_cond_true zero room d st st1 ret rerr st2 errs st' Hc Hb Hv H end).
Qed.
Print Assumptions C08_true_condition_sets_the_value.

(** C08: unless the condition is true the body does not run: any other body has the same effect. *)
Theorem C08_body_runs_only_when_condition_is_true : forall V E CT W (zero : V) room (d1 d2 : def V E CT W) st r st1,
  d_name _ _ _ _ d1 = d_name _ _ _ _ d2 -> d_type _ _ _ _ d1 = d_type _ _ _ _ d2 ->
  d_if _ _ _ _ d1 = d_if _ _ _ _ d2 -> d_setter _ _ _ _ d1 = d_setter _ _ _ _ d2 ->
  cond_gives d1 st r st1 -> r <> Ok true ->
  eval_def V E CT W zero room d1 st = eval_def V E CT W zero room d2 st.
Proof. exact (fun V E CT W => @def_body_irrelevant V E CT W). Qed.
Print Assumptions C08_body_runs_only_when_condition_is_true.

(** C09: a map definition applies the iterator to the source elements in order, each time with the
    surrounding declarations and values plus the iterator variable bound to the element,
    stopping at the first error; and it changes neither the surrounding variables nor any
    slice that existed before. The iterator looks at the values through lookups only. *)
Theorem C09_map_evaluates_elements_in_order : forall V E CT W room (m : mapping V E CT W) st r st',
  (forall env f g w, (forall k, f k = g k) -> m_iter _ _ _ _ m env f w = m_iter _ _ _ _ m env g w) ->
  is_valid st -> eval_map V E CT W room m st = (r, st') ->
  maps (fun x w => m_iter _ _ _ _ m (declared st ++ [Some (m_name _ _ _ _ m, m_type _ _ _ _ m)])
                     (fun k => if String.eqb k (m_name _ _ _ _ m) then Some x else value_of st k) w)
       (m_source _ _ _ _ m (lv _ _ _ st) (world _ _ _ st)) (world _ _ _ st) r (world _ _ _ st') /\
  lv _ _ _ st' = lv _ _ _ st /\
  (forall t, arr t < length (hp _ _ _ st) -> view (hp _ _ _ st') t = view (hp _ _ _ st) t).
Proof. exact (fun V E CT W => @eval_map_spec V E CT W). Qed.
Print Assumptions C09_map_evaluates_elements_in_order.

(** C09: evaluating in order means: on success one result per element, at the same position ... *)
Theorem C09_one_result_per_element : forall X V E W (call : X -> W -> result V E * W) xs w vs w',
  maps call xs w (Ok vs) w' ->
  length vs = length xs /\
  forall i x, nth_error xs i = Some x -> exists v w1 w2, nth_error vs i = Some v /\ call x w1 = (Ok v, w2).
Proof. exact (fun X V E W call xs w vs w' H => maps_ok_length call xs w (Ok vs) w' H vs eq_refl). Qed.
Print Assumptions C09_one_result_per_element.

(** ... and on failure the error of the first failing element, after which nothing was evaluated. *)
Theorem C09_first_failure_stops : forall X V E W (call : X -> W -> result V E * W) xs w e w',
  maps call xs w (Err e) w' ->
  exists pre x post vs w1, xs = pre ++ x :: post /\ maps call pre w (Ok vs) w1 /\ call x w1 = (Err e, w').
Proof. exact (fun X V E W call xs w e w' H => maps_err_first call xs w (Err e) w' H e eq_refl). Qed.
Print Assumptions C09_first_failure_stops.

(** C09: there is only one way to evaluate in order. *)
Theorem C09_evaluation_is_determined : forall X V E W (call : X -> W -> result V E * W) xs w r w' r2 w2,
  maps call xs w r w' -> maps call xs w r2 w2 -> r = r2 /\ w' = w2.
Proof. exact (fun X V E W call xs w r w' r2 w2 H H2 => maps_fun call xs w r w' H r2 w2 H2). Qed.
Print Assumptions C09_evaluation_is_determined.

(** C09: the variable of a map definition gets the list of the results, or the zero value and the error
    of the first failing element. *)
Theorem C09_map_definition : forall V E CT W (zero : V) (of_list : list V -> V) room (d : def V E CT W)
    (m : mapping V E CT W) st st1 r st2 errs st',
  (forall env f g w, (forall k, f k = g k) -> m_iter _ _ _ _ m env f w = m_iter _ _ _ _ m env g w) ->
  cond_gives d st (Ok true) st1 -> is_valid st1 -> eval_map V E CT W room m st1 = (r, st2) ->
  eval_def_map V E CT W zero of_list room d m st = (errs, st') ->
  let v := match r with Ok l => of_list l | Err _ => zero end in
  with_variable (d_name _ _ _ _ d) (d_type _ _ _ _ d) v st1 st' /\
  exists serr, d_setter _ _ _ _ d v (world _ _ _ st2) = (serr, world _ _ _ st') /\
    errs = match r with Ok _ => [] | Err e => [e] end ++ match serr with Some e => [e] | None => [] end.
Proof. exact (fun V E CT W => @eval_def_map_spec V E CT W). Qed.
Print Assumptions C09_map_definition.

(** A map over three numbers with spare capacity in the surrounding declarations; 2 makes it fail. *)
Definition sample_map (bad : nat) : mapping nat string nat (list nat) :=
  {| m_name := "it"; m_type := 7; m_source := fun _ _ => [1; 2; 3];
     m_iter := fun env f w => match f "it"%string with
                              | Some x => if Nat.eqb x bad then (Err "bad"%string, w ++ [x])
                                          else (Ok (x * 10 + length env), w ++ [x])
                              | None => (Err "unbound"%string, w)
                              end |}.
Definition sample_state : state nat nat (list nat) :=
  {| hp := [[Some ("a"%string, 0); None]]; lv := {| opts := {| arr := 0; len := 1 |}; vals := fun _ => None |}; world := [] |}.

Example C09_sample :
  is_valid sample_state /\
  fst (eval_map _ _ _ _ 0 (sample_map 9) sample_state) = Ok [12; 22; 32] /\
  fst (eval_map _ _ _ _ 0 (sample_map 2) sample_state) = Err "bad"%string /\
  world _ _ _ (snd (eval_map _ _ _ _ 0 (sample_map 2) sample_state)) = [1; 2] /\
  declared (snd (eval_map _ _ _ _ 0 (sample_map 9) sample_state)) = [Some ("a"%string, 0)].
Proof. vm_compute. repeat split; auto. Qed.

Example C08_sample :
  let d c := {| d_name := "x"; d_type := 1; d_if := Some (fun st => (c, st));
                d_body := fun st => ((Some 5, None), st); d_setter := fun v w => (None, w ++ [v]) |} in
  let obs r := (fst r, value_of (snd r) "x", world _ _ _ (snd r), declared (snd r)) in
  obs (eval_def _ string _ _ 0 3 (d (Ok false)) sample_state) = ([], Some 0, [0], [Some ("a", 0); Some ("x", 1)])%string /\
  obs (eval_def _ string _ _ 0 3 (d (Ok true)) sample_state) = ([], Some 5, [5], [Some ("a", 0); Some ("x", 1)])%string /\
  obs (eval_def _ string _ _ 0 3 (d (Err "no"%string)) sample_state) = (["no"], None, [], [Some ("a", 0)])%string.
Proof. vm_compute. auto. Qed.
