(** Concurrent evaluation of a plan.
    Models the code generated by generator/templates/eval.go.tmpl:177-245 (evalMessageDef,
    evalDefGroup, evalDefSet), grpc/federation/cel.go:374-392 (LocalValue.do),
    cel.go:506-511 and 590-596 (EvalDef, EvalDefMap) and grpc/federation/error.go:29-39
    (GoWithRecover), for any number of goroutines under any schedule. *)
From Coq Require Import String List Arith Bool.
From Verif.Plan Require Import Model.
Import ListNotations.

(** A place where generated code calls def_X: the position of that call in the nest of groups. The
    first number selects a top level group (eval.go.tmpl:232-238), each further number one of
    the groups started before the call (Starts of a concurrent group, lines 188-193; Start of a
    sequential group, line 203-205). *)
Definition path := list nat.

Definition path_eqb (a b : path) : bool := if list_eq_dec Nat.eq_dec a b then true else false.

(** The groups run before the last definition of a group. *)
Definition starts (gr : group) : list group :=
  match gr with
  | Seq None _ => []
  | Seq (Some s) _ => [s]
  | Conc ss _ => ss
  end.

Definition end_of (gr : group) : nat := match gr with Seq _ e => e | Conc _ e => e end.

Fixpoint group_at (gs : list group) (p : path) : option group :=
  match p with
  | [] => None
  | i :: p' =>
      match nth_error gs i with
      | None => None
      | Some gr => match p' with [] => Some gr | _ => group_at (starts gr) p' end
      end
  end.

(** How far the call at some place got. [bool] results: true = nil error. *)
Inductive phase :=
| Idle                                   (* not called yet *)
| Missed                                 (* cel.go:375-380: looked into the cache, no entry *)
| Running (f : nat)                      (* cel.go:382: leader of flight f, inside cb *)
| Returned (f : nat) (ok panicked : bool)(* cb is over, cache not written yet *)
| Closing (f : nat) (ok : bool)          (* cel.go:388: inside sg.Do, cache written (or panicking) *)
| Waiting (f : nat)                      (* sg.Do: another caller's flight f is in progress *)
| Done (ok : bool).                      (* def_X returned *)

(** What an observer sees. *)
Inductive ekind :=
| EBegin                                 (* the call reads the cache *)
| EStart                                 (* the definition's body (cb) starts *)
| EEnd (ok : bool)                       (* the body ends; a panic counts as false *)
| ERecord (ok : bool)                    (* the outcome is recorded in the cache *)
| EReturn (ok : bool).                   (* the call returns *)

Record event := { at_path : path; of_def : nat; kind : ekind }.

Record state := {
  phase_of : path -> phase;
  cache : string -> option bool;         (* sgCache.resultMap: only err == nil matters *)
  flights : list (string * option bool); (* singleflight calls ever made; Some r = finished *)
  log : list event                       (* newest first *)
}.

Definition init : state :=
  {| phase_of := fun _ => Idle; cache := fun _ => None; flights := []; log := [] |}.

Definition set_phase (st : state) (p : path) (ph : phase) : path -> phase :=
  fun q => if path_eqb q p then ph else phase_of st q.

Definition is_done_ok (ph : phase) : bool := match ph with Done true => true | _ => false end.

(** All groups started before the call returned without error: a concurrent group passes eg.Wait()
    (eval.go.tmpl:195-197) only when all goroutines returned nil; a sequential group passes
    evalMessageDef (lines 178-181) only on nil. errgroup.Wait waits for all goroutines and a
    recovered panic is an error (error.go:29-39). *)
Definition ready (st : state) (p : path) (gr : group) : bool :=
  forallb (fun i => is_done_ok (phase_of st (p ++ [i]))) (seq 0 (length (starts gr))).

(** singleflight.Group.m: the flight in progress for a key. *)
Fixpoint active (k : string) (n : nat) (fl : list (string * option bool)) : option nat :=
  match fl with
  | [] => None
  | (k', None) :: fl' => if String.eqb k k' then Some n else active k (S n) fl'
  | (_, Some _) :: fl' => active k (S n) fl'
  end.

Fixpoint finish (f : nat) (r : bool) (fl : list (string * option bool)) : list (string * option bool) :=
  match fl, f with
  | [], _ => []
  | (k, _) :: fl', O => (k, Some r) :: fl'
  | x :: fl', S f' => x :: finish f' r fl'
  end.

(** Outcome of a definition's body, chosen by the environment. *)
Inductive outcome := BodyOk | BodyErr | BodyPanic.

Definition body_ok (o : outcome) : bool := match o with BodyOk => true | _ => false end.
Definition body_panic (o : outcome) : bool := match o with BodyPanic => true | _ => false end.

Section Exec.
  Variable gs : list group.
  Variable key : nat -> string.   (* Key of a definition: its variable name *)

  (** One atomic step of the call at place [p]. [c] is used only when a body ends. *)
  Definition step (p : path) (c : outcome) (st : state) : option state :=
    match group_at gs p with
    | None => None
    | Some gr =>
        let e := end_of gr in
        let k := key e in
        let ev x := {| at_path := p; of_def := e; kind := x |} in
        match phase_of st p with
        | Idle =>
            if ready st p gr then
              match cache st k with
              | Some r =>                                     (* cel.go:376-379 *)
                  Some {| phase_of := set_phase st p (Done r); cache := cache st;
                          flights := flights st; log := ev (EReturn r) :: ev EBegin :: log st |}
              | None =>
                  Some {| phase_of := set_phase st p Missed; cache := cache st;
                          flights := flights st; log := ev EBegin :: log st |}
              end
            else None
        | Missed =>                                           (* cel.go:381 *)
            match active k 0 (flights st) with
            | Some f =>
                Some {| phase_of := set_phase st p (Waiting f); cache := cache st;
                        flights := flights st; log := log st |}
            | None =>
                Some {| phase_of := set_phase st p (Running (length (flights st))); cache := cache st;
                        flights := flights st ++ [(k, None)]; log := ev EStart :: log st |}
            end
        | Running f =>                                        (* cel.go:382 *)
            Some {| phase_of := set_phase st p (Returned f (body_ok c) (body_panic c)); cache := cache st;
                    flights := flights st; log := ev (EEnd (body_ok c)) :: log st |}
        | Returned f r panicked =>                            (* cel.go:383-388 *)
            if panicked then
              Some {| phase_of := set_phase st p (Closing f r); cache := cache st;
                      flights := flights st; log := log st |}
            else
              Some {| phase_of := set_phase st p (Closing f r);
                      cache := fun k' => if String.eqb k' k then Some r else cache st k';
                      flights := flights st; log := ev (ERecord r) :: log st |}
        | Closing f r =>                                      (* sg.Do returns *)
            Some {| phase_of := set_phase st p (Done r); cache := cache st;
                    flights := finish f r (flights st); log := ev (EReturn r) :: log st |}
        | Waiting f =>
            match nth_error (flights st) f with
            | Some (_, Some r) =>
                Some {| phase_of := set_phase st p (Done r); cache := cache st;
                        flights := flights st; log := ev (EReturn r) :: log st |}
            | _ => None
            end
        | Done _ => None
        end
    end.

  (** A schedule: which call moves next, and the outcome of its body if it ends. *)
  Definition schedule := list (path * outcome).

  Fixpoint run (sc : schedule) (st : state) : option state :=
    match sc with
    | [] => Some st
    | (p, c) :: sc' => match step p c st with Some st' => run sc' st' | None => None end
    end.
End Exec.
