(** C10, C11, C41: retries, timeouts, panics. *)
From Coq Require Import String Ascii List Bool NArith Arith Lia.
From Verif.Base Require Import Result Text.
From Verif.Call Require Import Retry Timeout Panic Spec RetryProofs TimeoutProofs PanicProofs.
Import ListNotations.
Local Open Scope string_scope.

(** ** C10 *)
(** Whenever a retried call returns after [n] attempts: every attempt but the last failed and its retry condition held;
    with a non-zero bound at most [max] attempts follow the first; what is reported is the outcome of the last
    attempt (or the failure of its retry condition); and if the last attempt could still have been retried, it was
    the bound, the context or the back-off policy that said stop. *)
Theorem C10_retry : forall T E fuel max (w : world T E) r n, with_retry fuel max w = Some (r, n) ->
  1 <= n /\
  (forall i, i < n - 1 -> wants_retry w i /\ ctx_done w i = false /\ base_stop w i = false) /\
  (max <> 0%N -> (N.of_nat n <= max + 1)%N) /\
  r = reported w (n - 1) /\
  (wants_retry w (n - 1) -> ctx_done w (n - 1) = true \/ base_stop w (n - 1) = true \/
     (max <> 0%N /\ N.of_nat n = max + 1)%N).
Proof.
  intros T E fuel max w r n H. destruct (loop_spec fuel max w 0 0 r n H) as (A & B & C & D & F); [lia|].
  split; [lia|]. split; [intros i Hi; apply C; lia|]. split; [intros Hm; specialize (D Hm); lia|]. split; [exact B|].
  intros Hw. destruct (F Hw) as [?|[?|[? ?]]]; auto. right; right. split; [assumption|lia].
Qed.
Print Assumptions C10_retry.

(** With a non-zero bound it always returns. *)
Theorem C10_bounded_retry_ends : forall T E max (w : world T E), max <> 0%N ->
  exists r n, with_retry (S (N.to_nat max)) max w = Some (r, n).
Proof.
  intros T E max w Hm. destruct (loop_ends max w Hm (N.to_nat max) 0 0) as [[r n] H]; [lia|]. exists r, n. exact H.
Qed.
Print Assumptions C10_bounded_retry_ends.

(** What it returns does not depend on how long one waits for it. *)
Theorem C10_outcome_unique : forall T E f1 f2 max (w : world T E) o1 o2,
  with_retry f1 max w = Some o1 -> with_retry f2 max w = Some o2 -> o1 = o2.
Proof.
  intros T E f1 f2 max w o1 o2 H1 H2. unfold with_retry in *. destruct (Nat.le_ge_cases f1 f2) as [Hf|Hf].
  - rewrite (loop_mono max w f1 f2 Hf _ _ _ H1) in H2. congruence.
  - rewrite (loop_mono max w f2 f1 Hf _ _ _ H2) in H1. congruence.
Qed.
Print Assumptions C10_outcome_unique.

(** max_retries: 0 is no bound at all (as documented). *)
Theorem C10_zero_is_unbounded : forall T E fuel (w : world T E),
  (forall i, wants_retry w i /\ ctx_done w i = false /\ base_stop w i = false) -> with_retry fuel 0 w = None.
Proof. intros T E fuel w H. apply loop_unbounded. intros i _. apply H. Qed.
Print Assumptions C10_zero_is_unbounded.

(** A first attempt that succeeds is the only one. *)
Theorem C10_success_is_not_retried : forall T E fuel max (w : world T E) v, body w 0 = Ok v ->
  with_retry (S fuel) max w = Some (Ok v, 1).
Proof. intros T E fuel max w v H. unfold with_retry. cbn [retry_loop]. unfold operation. rewrite H. reflexivity. Qed.
Print Assumptions C10_success_is_not_retried.

Theorem C10_default_bound : forall T E fuel (w : world T E) r n,
  with_retry fuel (max_retries None) w = Some (r, n) -> n <= 6.
Proof. intros T E fuel w r n H. apply C10_retry in H as (_ & _ & H & _). cbn in H. specialize (H ltac:(discriminate)). lia. Qed.
Print Assumptions C10_default_bound.

(** Fails twice, then succeeds: three attempts. Fails for ever with bound 2: three attempts and the last error. *)
Definition sample_world (good_at : nat) : world nat nat :=
  {| body := fun k => if Nat.leb good_at k then Ok k else Err (100 + k); cond := fun _ => Ok true;
     ctx_done := fun _ => false; base_stop := fun _ => false |}.
Example C10_sample : with_retry 10 5 (sample_world 2) = Some (Ok 2, 3) /\
  with_retry 10 2 (sample_world 9) = Some (Err 102, 3) /\
  (forall i, i < 9 -> wants_retry (sample_world 9) i).
Proof.
  repeat split; try reflexivity. cbn [body sample_world]. destruct (Nat.leb_spec 9 i); [lia|]. eauto.
Qed.

(** ** C11 *)
(** What a call with a timeout returns is either the call's own result and error (or the error made of its panic), or
    DEADLINE_EXCEEDED, and the latter only if the context is done. *)
Theorem C11_outcome : forall T E (recovered : E -> E) s o, reachable recovered s -> caller s = Some o ->
  match o with
  | Own r e => exists c, how s = Some c /\ (r, e) = @own T E recovered c
  | DeadlineExceeded c => done s = Some c
  end.
Proof. intros T E recovered s o. exact (outcome_spec recovered s o). Qed.
Print Assumptions C11_outcome.

(** It returns once. *)
Theorem C11_returns_once : forall T E (recovered : E -> E) (s : state T E) o ev s',
  caller s = Some o -> step recovered s ev = Some s' -> caller s' = Some o.
Proof. intros T E recovered s o ev s'. exact (returned_once recovered s o ev s'). Qed.
Print Assumptions C11_returns_once.

(** Once the deadline has passed, or the call has delivered its result, the caller can return at once, whatever the
    call is doing. *)
Theorem C11_does_not_wait : forall T E (recovered : E -> E) (s : state T E), reachable recovered s -> caller s = None ->
  done s <> None \/ wk s = Done ->
  exists ev s', (ev = ReturnDone \/ ev = ReturnOwn) /\ step recovered s ev = Some s' /\ caller s' <> None.
Proof. intros T E recovered s. exact (caller_not_blocked recovered s). Qed.
Print Assumptions C11_does_not_wait.

(** The goroutine of the call never stays blocked delivering its result, even if nobody waits for it any more. *)
Theorem C11_no_leaked_goroutine : forall T E (recovered : E -> E) (s : state T E) e, reachable recovered s ->
  wk s = Sending e -> exists s', step recovered s Send = Some s' /\ wk s' = Done.
Proof. intros T E recovered s e. exact (worker_not_blocked recovered s e). Qed.
Print Assumptions C11_no_leaked_goroutine.

(** The claim that DEADLINE_EXCEEDED means that the configured timeout has passed does not hold: a cancelled parent
    gives the same error. *)
Definition C11_deadline_means_timeout_statement : Prop := forall T E (recovered : E -> E) (s : state T E) c,
  reachable recovered s -> caller s = Some (DeadlineExceeded c) -> c = Deadline.
Theorem C11_deadline_means_timeout_refuted : ~ C11_deadline_means_timeout_statement.
Proof.
  intros H. specialize (H nat nat (fun x => x)).
  destruct (runs (fun x : nat => x) (@init nat nat) [Expire Parent; ReturnDone]) as [s|] eqn:Es; [|discriminate].
  assert (Hc : caller s = Some (DeadlineExceeded Parent)) by (injection Es as <-; reflexivity).
  specialize (H s Parent (ex_intro _ _ Es) Hc). discriminate.
Qed.
Print Assumptions C11_deadline_means_timeout_refuted.

(** The call answers, but only after the deadline; and the other order. *)
Example C11_sample :
  (exists s, runs (fun x : nat => x) init [Expire Deadline; Finish (Returns (Some 1) None); Send; ReturnDone] = Some s /\
     caller s = Some (DeadlineExceeded Deadline)) /\
  (exists s, runs (fun x : nat => 100 + x) init [Finish (@Panics nat nat 7); Send; ReturnOwn] = Some s /\
     caller s = Some (Own None (Some 107))).
Proof. split; eexists; (split; reflexivity). Qed.

(** ** C41 *)
(** However a request is nested in shared evaluations, goroutine groups and timeouts, and wherever in it something panics,
    the method returns and the process survives. A recovered error names the first line of a value something in the
    request really panicked with. *)
Theorem C41_panics_become_errors : forall c o, method_ends c o ->
  match o with
  | Good => True
  | Bad (ERecovered r) => exists v, raised v c /\ first_line (message r) v
  | Bad _ => True
  | Panicking _ | Crash => False
  end.
Proof. exact method_good. Qed.
Print Assumptions C41_panics_become_errors.

(** A request in which something panicked or failed is not reported as a success. *)
Theorem C41_no_panic_is_swallowed : forall c, method_ends c Good -> all_fine c.
Proof. exact method_fine. Qed.
Print Assumptions C41_no_panic_is_swallowed.

(** A one-line panic value is reported as it is, with the stack of the panic, whether the panic is recovered directly or
    passed through a shared evaluation. *)
Theorem C41_recovered_error : forall v raw ls, has_char nl v = false -> lines_of raw ls ->
  message (recover_error v raw) = v /\ kept ls (stack (recover_error v raw)).
Proof. exact recover_single. Qed.
Print Assumptions C41_recovered_error.

Theorem C41_recovered_error_through_singleflight : forall v st raw ls, has_char nl v = false -> lines_of st ls ->
  message (recover_error (rethrown v st) raw) = v /\ kept ls (stack (recover_error (rethrown v st) raw)).
Proof. exact recover_flight. Qed.
Print Assumptions C41_recovered_error_through_singleflight.

Definition C41_message_statement : Prop := forall v raw, message (recover_error v raw) = v.
(** A value of several lines is cut after the first. *)
Theorem C41_message_refuted : ~ C41_message_statement.
Proof. intros H. specialize (H (String "a" (String nl "b")) ""). discriminate. Qed.
Print Assumptions C41_message_refuted.

Example C41_sample :
  method_ends (Flight (Group [Leaf Fine; Timed (Seq [Leaf Fine; Flight (Leaf (PanicsWith "boom"))])]))
    (Bad (ERecovered {| message := "boom"; stack := ["main.go:3"] |})) /\
  lines_of (String tab "main.go:3") [String tab "main.go:3"].
Proof.
  split; [|split; [discriminate|split; [reflexivity|repeat constructor]]].
  set (o2 := Bad (ERecovered {| message := "boom"; stack := ["main.go:3"] |})). exists o2, "". split; [|reflexivity].
  apply EndFlight; [|discriminate].
  apply (EndGroup _ [Good; o2]).
  - change Good with (goroutine_top (with_recover "" Good)) at 1. apply EndAllCons; [constructor|].
    change o2 with (goroutine_top (with_recover "" o2)). apply EndAllCons; [|constructor].
    change o2 with (goroutine_top (with_recover "" (Panicking (rethrown "boom" (String tab "main.go:3"))))).
    apply EndTimed. apply EndSeqGo; [constructor|]. apply EndSeqStop; [|discriminate].
    apply EndFlightPanic. constructor.
  - apply WBad; [cbn; intros [?|[?|[]]]; discriminate|right; left; reflexivity].
Qed.
