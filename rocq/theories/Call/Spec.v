(** What the properties of retries, timeouts and panics say, in terms of the outcomes of the calls. *)
From Coq Require Import String Ascii List Bool NArith.
From Verif.Base Require Import Result Text.
From Verif.Call Require Import Retry Timeout Panic.
Import ListNotations.
Local Open Scope string_scope.

Section RetrySpec.
  Context {T E : Type}.
  Implicit Types w : world T E.

  (** What is reported for the last attempt [k]. *)
  Definition reported w (k : nat) : result T E :=
    match body w k with
    | Ok v => Ok v
    | Err e => match cond w k with Err ce => Err ce | Ok _ => Err e end
    end.

  (** Attempt [k] asks for another one. *)
  Definition wants_retry w (k : nat) : Prop := (exists e, body w k = Err e) /\ cond w k = Ok true.
End RetrySpec.

Section TimeoutSpec.
  Context {T E : Type}.
  Variable recovered : E -> E.

  (** What the call itself amounts to. *)
  Definition own (c : call_end T E) : option T * option E :=
    match c with Returns r e => (r, e) | Panics v => (None, Some (recovered v)) end.
End TimeoutSpec.

(** [v] is the value of a panic raised somewhere in [c]. *)
Inductive raised (v : string) : comp -> Prop :=
| RLeaf : raised v (Leaf (PanicsWith v))
| RSeq c cs : In c cs -> raised v c -> raised v (Seq cs)
| RFlight c : raised v c -> raised v (Flight c)
| RGroup c cs : In c cs -> raised v c -> raised v (Group cs)
| RTimed c : raised v c -> raised v (Timed c).

(** The text up to the first line break. *)
Definition first_line (m v : string) : Prop :=
  has_char nl m = false /\ (v = m \/ exists rest, v = m ++ String nl rest).

(** Errors and panics are not lost: a computation that ends well has no failing member at all. *)
Inductive all_fine : comp -> Prop :=
| AFLeaf : all_fine (Leaf Fine)
| AFSeq cs : (forall c, In c cs -> all_fine c) -> all_fine (Seq cs)
| AFFlight c : all_fine c -> all_fine (Flight c)
| AFGroup cs : (forall c, In c cs -> all_fine c) -> all_fine (Group cs)
| AFTimed c : all_fine c -> all_fine (Timed c).

(** The lines of a stack trace that are kept: the non-empty ones, without their first tab if they have one. *)
Inductive kept : list string -> list string -> Prop :=
| KNil : kept [] []
| KEmpty ls ks : kept ls ks -> kept ("" :: ls) ks
| KTab l ls ks : kept ls ks -> kept (String tab l :: ls) (l :: ks)
| KPlain c l ls ks : c <> tab -> kept ls ks -> kept (String c l :: ls) (String c l :: ks).

(** [ls] are the lines of [s]. *)
Definition lines_of (s : string) (ls : list string) : Prop :=
  ls <> [] /\ s = join (String nl "") ls /\ Forall (fun l => has_char nl l = false) ls.
