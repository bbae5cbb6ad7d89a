(** Panics.
    Models grpc/federation/error.go:19-40 (RecoveredError, GoWithRecover), 103-132 (RecoverError),
    lib.go:29-36 (recover in WithTimeout), generator/templates/server.go.tmpl:472-477 (recover of every method)
    and golang.org/x/sync/singleflight v0.12 (a panic inside Do is rethrown with the stack appended to its text).
    Simplification: fmt.Sprint of a panic value is the value itself, a string; a stack is a string. *)
From Coq Require Import String Ascii List Bool.
From Verif.Base Require Import Result Text.
Import ListNotations.
Local Open Scope string_scope.

Definition nl : ascii := "010".
Definition tab : ascii := "009".

Record recovered := { message : string; stack : list string }.

(** error.go:106-112, 121-127: drop empty lines, drop one leading tab *)
Fixpoint stack_lines (ls : list string) : list string :=
  match ls with
  | [] => []
  | l :: ls => if String.eqb l "" then stack_lines ls else trim_prefix1 tab l :: stack_lines ls
  end.

(** error.go:103-132 RecoverError *)
Definition recover_error (v raw_stack : string) : recovered :=
  match split nl v with
  | [] | [_] => {| message := v; stack := stack_lines (split nl raw_stack) |}
  | first :: rest => {| message := first; stack := stack_lines rest |}
  end.

(** error.go:25-27 *)
Definition error_text (r : recovered) : string := "recovered error: " ++ message r.

(** singleflight panicError.Error: "%v\n\n%s" of the value and its stack *)
Definition rethrown (v st : string) : string := v ++ String nl (String nl st).

(** The shape of a computation of a federation method: where work is run under singleflight (LocalValue.do and
    LoadOrCompute of message results), in goroutines of an errgroup (GoWithRecover), and in the goroutine of
    WithTimeout. Leaves are user-visible work: calls, CEL evaluation, plugins, custom resolvers. *)
Inductive leaf_end := Fine | Fails (e : string) | PanicsWith (v : string).
Inductive comp :=
| Leaf (o : leaf_end)
| Seq (cs : list comp)          (* statement after statement, an error returns *)
| Flight (c : comp)             (* sg.Do *)
| Group (cs : list comp)        (* errgroup with GoWithRecover, then Wait *)
| Timed (c : comp).             (* WithTimeout *)

Inductive gerr := EPlain (s : string) | ERecovered (r : recovered) | EDeadline.

(** How a piece of the request ends: normally, with an error, with a panic going up the goroutine's stack, or
    with a crash of the whole process (a panic that reached the top of a goroutine). *)
Inductive ending := Good | Bad (e : gerr) | Panicking (v : string) | Crash.

(** defer func() { if r := recover(); r != nil { e = RecoverError(r, stack) } }() *)
Definition with_recover (st : string) (o : ending) : ending :=
  match o with Panicking v => Bad (ERecovered (recover_error v st)) | _ => o end.
(** the top of a goroutine *)
Definition goroutine_top (o : ending) : ending := match o with Panicking _ => Crash | _ => o end.

(** What Wait returns when the members ended so: Crash if one crashed; nil if all are fine; else the error of one of
    the failed members (the first to report; any is possible). *)
Inductive wait_result : list ending -> ending -> Prop :=
| WCrash os : In Crash os -> wait_result os Crash
| WGood os : (forall o, In o os -> o = Good) -> wait_result os Good
| WBad os e : ~ In Crash os -> In (Bad e) os -> wait_result os (Bad e).

(** All possible endings of a computation; stacks are arbitrary strings. *)
Inductive ends : comp -> ending -> Prop :=
| EndFine : ends (Leaf Fine) Good
| EndFails e : ends (Leaf (Fails e)) (Bad (EPlain e))
| EndPanics v : ends (Leaf (PanicsWith v)) (Panicking v)
| EndSeqNil : ends (Seq []) Good
| EndSeqGo c cs o : ends c Good -> ends (Seq cs) o -> ends (Seq (c :: cs)) o
| EndSeqStop c cs o : ends c o -> o <> Good -> ends (Seq (c :: cs)) o
| EndFlight c o : ends c o -> (forall v, o <> Panicking v) -> ends (Flight c) o
| EndFlightPanic c v st : ends c (Panicking v) -> ends (Flight c) (Panicking (rethrown v st))
| EndGroup cs os o : ends_all cs os -> wait_result os o -> ends (Group cs) o
| EndTimed c o st : ends c o -> ends (Timed c) (goroutine_top (with_recover st o))
| EndTimedOut c : ends (Timed c) (Bad EDeadline)
(** the goroutines of a group *)
with ends_all : list comp -> list ending -> Prop :=
| EndAllNil : ends_all [] []
| EndAllCons c cs o os st : ends c o -> ends_all cs os ->
    ends_all (c :: cs) (goroutine_top (with_recover st o) :: os).

(** server.go.tmpl:472-477: the method, called on a goroutine of the gRPC server *)
Definition method_ends (c : comp) (o : ending) : Prop := exists o' st, ends c o' /\ o = goroutine_top (with_recover st o').
