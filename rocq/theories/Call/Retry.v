(** Retrying a call.
    Models grpc/federation/lib.go:58-121 (BackOff, WithRetry), alias.go:90-100 (BackOffWithMaxRetries,
    BackOffWithContext), generator/templates/retry.go.tmpl, resolver/resolver.go:3392-3431, 3478-3481 (max_retries)
    and the loop of github.com/cenkalti/backoff v4.2.1 (Retry, WithMaxRetries, WithContext). *)
From Coq Require Import List NArith Arith.
From Verif.Base Require Import Result.
Import ListNotations.
Local Open Scope N_scope.

Section Retry.
  Variable T E : Type.

  (** What happens at the k-th attempt (from 0): the outcome of the call; the outcome of the retry
      condition; whether the context is done when the back-off is asked; whether the base back-off
      (constant: never; exponential: elapsed time over max_elapsed_time) says stop. *)
  Record world := {
    body : nat -> result T E;
    cond : nat -> result bool E;
    ctx_done : nat -> bool;
    base_stop : nat -> bool
  }.

  (** What the operation given to backoff.Retry returns (lib.go:97-118): nil, an error to retry, or a
      permanent error. *)
  Inductive op_result := Success (v : T) | Again (e : E) | Permanent (e : E).
  Definition operation (w : world) (k : nat) : op_result :=
    match body w k with
    | Ok v => Success v
    | Err e =>
        match cond w k with
        | Err ce => Permanent ce
        | Ok false => Permanent e
        | Ok true => Again e
        end
    end.

  (** NextBackOff of WithContext(WithMaxRetries(base, max)); the template leaves WithMaxRetries out when max
      is 0 (retry.go.tmpl:13-15). Result: stop?, number of tries counted by WithMaxRetries. *)
  Definition next_backoff (max : N) (w : world) (k : nat) (tries : N) : bool * N :=
    if ctx_done w k then (true, tries)
    else if max =? 0 then (base_stop w k, tries)
    else if max <=? tries then (true, tries)
    else (base_stop w k, tries + 1).

  (** backoff.Retry. Its own context is Background, since grpcfed.BackOff hides the context of the wrapped
      back-off: the sleep always runs to its end. [fuel] bounds the attempts; [None]: still running.
      Result: the value and the number of attempts made. *)
  Fixpoint retry_loop (fuel : nat) (max : N) (w : world) (k : nat) (tries : N) : option (result T E * nat) :=
    match fuel with
    | O => None
    | S fuel =>
        match operation w k with
        | Success v => Some (Ok v, S k)
        | Permanent e => Some (Err e, S k)
        | Again e =>
            match next_backoff max w k tries with
            | (true, _) => Some (Err e, S k)
            | (false, tries) => retry_loop fuel max w (S k) tries
            end
        end
    end.

  (** lib.go:95-121 WithRetry *)
  Definition with_retry (fuel : nat) (max : N) (w : world) : option (result T E * nat) := retry_loop fuel max w 0 0.
End Retry.
Arguments body {T E}. Arguments cond {T E}. Arguments ctx_done {T E}. Arguments base_stop {T E}.
Arguments with_retry {T E}. Arguments operation {T E}. Arguments retry_loop {T E}. Arguments next_backoff {T E}.

(** resolver.go:3392, 3422-3425: max_retries, 5 if absent *)
Definition max_retries (o : option N) : N := match o with None => 5 | Some n => n end.
