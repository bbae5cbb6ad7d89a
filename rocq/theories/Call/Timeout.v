(** A call with a timeout.
    Models grpc/federation/lib.go:16-57 WithTimeout as a state machine: the caller (which executes the select),
    the goroutine running the call, the channel errch (capacity 1), the variable ret and the derived context.
    The result of the call (or its panic) is chosen by the schedule. *)
From Coq Require Import List.
From Verif.Base Require Import Result.
Import ListNotations.

Section Timeout.
  Variable T E : Type.
  Variable recovered : E -> E.     (* RecoverError of a panic value; values and errors share the type E *)

  (** How the call ends: it returns (res, err), or it panics. *)
  Inductive call_end := Returns (res : option T) (err : option E) | Panics (v : E).

  (** Why the derived context is done: the timeout, or the parent was cancelled or expired. *)
  Inductive cause := Deadline | Parent.

  (** What WithTimeout returns. *)
  Inductive outcome := Own (res : option T) (err : option E) | DeadlineExceeded (why : cause).

  Inductive worker :=
  | Running
  | Sending (err : option E)      (* ret is assigned; about to send on errch *)
  | Done.

  Record state := {
    wk : worker;
    how : option call_end;             (* how the call ended, once it did (history) *)
    ret : option T;
    chan : option (option E);          (* buffer of errch, capacity 1 *)
    done : option cause;               (* ctx.Done() *)
    caller : option outcome            (* None: waiting in select *)
  }.

  Definition init : state := {| wk := Running; how := None; ret := None; chan := None; done := None; caller := None |}.

  Inductive event :=
  | Finish (c : call_end)     (* fn returns, ret = res (lib.go:39-40), or panics and is recovered (34-37) *)
  | Send                      (* errch <- err *)
  | Expire (c : cause)
  | ReturnDone                (* case <-ctx.Done() *)
  | ReturnOwn.                (* case err := <-errch *)

  (** [None]: the event is not possible (for Send: the goroutine blocks). *)
  Definition step (s : state) (ev : event) : option state :=
    match ev with
    | Finish c =>
        match wk s with
        | Running =>
            match c with
            | Returns r e => Some {| wk := Sending e; how := Some c; ret := r; chan := chan s; done := done s; caller := caller s |}
            | Panics v => Some {| wk := Sending (Some (recovered v)); how := Some c; ret := ret s; chan := chan s; done := done s; caller := caller s |}
            end
        | _ => None
        end
    | Send =>
        match wk s, chan s with
        | Sending e, None => Some {| wk := Done; how := how s; ret := ret s; chan := Some e; done := done s; caller := caller s |}
        | _, _ => None
        end
    | Expire c =>
        match done s with
        | None => Some {| wk := wk s; how := how s; ret := ret s; chan := chan s; done := Some c; caller := caller s |}
        | Some _ => None
        end
    | ReturnDone =>
        match caller s, done s with
        | None, Some c => Some {| wk := wk s; how := how s; ret := ret s; chan := chan s; done := done s; caller := Some (DeadlineExceeded c) |}
        | _, _ => None
        end
    | ReturnOwn =>
        match caller s, chan s with
        | None, Some e => Some {| wk := wk s; how := how s; ret := ret s; chan := None; done := done s; caller := Some (Own (ret s) e) |}
        | _, _ => None
        end
    end.

  Fixpoint runs (s : state) (evs : list event) : option state :=
    match evs with
    | [] => Some s
    | ev :: evs' => match step s ev with Some s' => runs s' evs' | None => None end
    end.
  Definition reachable (s : state) : Prop := exists evs, runs init evs = Some s.
End Timeout.
Arguments Returns {T E}. Arguments Panics {T E}. Arguments Own {T E}. Arguments DeadlineExceeded {T E}.
Arguments Running {E}. Arguments Sending {E}. Arguments Done {E}.
Arguments wk {T E}. Arguments how {T E}. Arguments ret {T E}. Arguments chan {T E}. Arguments done {T E}. Arguments caller {T E}.
Arguments Finish {T E}. Arguments Send {T E}. Arguments Expire {T E}. Arguments ReturnDone {T E}. Arguments ReturnOwn {T E}.
Arguments step {T E}. Arguments runs {T E}. Arguments reachable {T E}. Arguments init {T E}.
