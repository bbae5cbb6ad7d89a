(** A plugin instance used by several goroutines.
    Models grpc/federation/cel/plugin.go:115-275 and 310-405 (CreateInstance, write, Close, GC, startGC, Call, recvContent)
    and the loop of the generated plugin (generator/templates/plugin.go.tmpl:13-55) as a state machine; a run is a list of
    events in any order the machine allows. Simplified: a line is read from a pipe in one piece; a response carries the
    call it answers (ghost) and an arbitrary payload; ValidatePlugin is a call (the version command). *)
From Coq Require Import List Bool Arith.
Import ListNotations.

Section Instance.
  Variable V : Type.     (* payload of a response *)

  Definition tid := nat.        (* goroutines; 0 is the one that serves gcQueue (plugin.go:142-146) *)

  Inductive op := OCall | OClose | OGc.
  (** The line an operation writes (plugin.go:167-173, 342; the request carries its caller). *)
  Inductive cmd := Req (t : tid) | Exit | Gc.
  Definition cmd_of (t : tid) (o : op) : cmd := match o with OCall => Req t | OClose => Exit | OGc => Gc end.

  Inductive ending :=
  | Response (q : tid) (v : V)       (* a call got the answer v to the request of q *)
  | Error                            (* an error *)
  | Closed                           (* Close returned nil *)
  | Crashed.                         (* panic *)

  Inductive pc :=
  | NotStarted
  | Waiting (o : op)                 (* i.mu.Lock() *)
  | InWrite (o : op) (w : nat)       (* select of write (plugin.go:224-232); w identifies its goroutine *)
  | InRead (r : nat)                 (* select of recvContent (plugin.go:399-404); r identifies its goroutine *)
  | Finished (e : ending).

  Inductive plugin_state :=
  | Reading                          (* reader.ReadString *)
  | Busy (q : tid)                   (* handling the request of q *)
  | Writing (q : tid) (v : V)        (* os.Stdout.Write *)
  | Exiting                          (* exit command read *)
  | Dead.                            (* InstantiateModule has returned *)

  Record state := {
    th : tid -> pc;
    lock : option tid;               (* i.mu *)
    closed : bool;                   (* i.closed *)
    gc_full : bool;                  (* gcQueue, capacity 1 *)
    gc_closed : bool;
    mod_err : option bool;           (* buffer of instanceModErrCh; true: a non-nil error *)
    next_w : nat; next_r : nat;
    writes : list (nat * cmd);       (* goroutines blocked in stdin.Write *)
    consumed : list nat;             (* goroutines of write whose Write has returned *)
    readers : list nat;              (* goroutines blocked in ReadString *)
    got : list (nat * (tid * V));    (* goroutines of recvContent that have a line *)
    plug : plugin_state;
    panicked : bool;
    drained : bool                   (* ghost: recvContent has taken the value of instanceModErrCh *)
  }.

  Definition init : state :=
    {| th := fun _ => NotStarted; lock := None; closed := false; gc_full := false; gc_closed := false; mod_err := None;
       next_w := 0; next_r := 0; writes := []; consumed := []; readers := []; got := []; plug := Reading;
       panicked := false; drained := false |}.

  Definition set_th (f : tid -> pc) (t : tid) (p : pc) : tid -> pc := fun x => if Nat.eqb x t then p else f x.

  (** Deferred Unlock and return. *)
  Definition finish (s : state) (t : tid) (p : pc) : state :=
    {| th := set_th (th s) t p; lock := None; closed := closed s; gc_full := gc_full s; gc_closed := gc_closed s;
       mod_err := mod_err s; next_w := next_w s; next_r := next_r s; writes := writes s; consumed := consumed s;
       readers := readers s; got := got s; plug := plug s; panicked := panicked s; drained := drained s |}.
  Definition set_closed (s : state) : state :=
    {| th := th s; lock := lock s; closed := true; gc_full := gc_full s; gc_closed := gc_closed s;
       mod_err := mod_err s; next_w := next_w s; next_r := next_r s; writes := writes s; consumed := consumed s;
       readers := readers s; got := got s; plug := plug s; panicked := panicked s; drained := drained s |}.
  Definition set_gc_closed (s : state) : state :=
    {| th := th s; lock := lock s; closed := closed s; gc_full := gc_full s; gc_closed := true;
       mod_err := mod_err s; next_w := next_w s; next_r := next_r s; writes := writes s; consumed := consumed s;
       readers := readers s; got := got s; plug := plug s; panicked := panicked s; drained := drained s |}.
  Definition set_panicked (s : state) : state :=
    {| th := th s; lock := lock s; closed := closed s; gc_full := gc_full s; gc_closed := gc_closed s;
       mod_err := mod_err s; next_w := next_w s; next_r := next_r s; writes := writes s; consumed := consumed s;
       readers := readers s; got := got s; plug := plug s; panicked := true; drained := drained s |}.
  Definition take_err (s : state) : state :=
    {| th := th s; lock := lock s; closed := closed s; gc_full := gc_full s; gc_closed := gc_closed s;
       mod_err := None; next_w := next_w s; next_r := next_r s; writes := writes s; consumed := consumed s;
       readers := readers s; got := got s; plug := plug s; panicked := panicked s; drained := drained s |}.
  Definition set_drained (s : state) : state :=
    {| th := th s; lock := lock s; closed := closed s; gc_full := gc_full s; gc_closed := gc_closed s;
       mod_err := mod_err s; next_w := next_w s; next_r := next_r s; writes := writes s; consumed := consumed s;
       readers := readers s; got := got s; plug := plug s; panicked := panicked s; drained := true |}.

  (** plugin.go:377-398 recvContent, up to its select. *)
  Definition start_read (s : state) (t : tid) : state :=
    if closed s then finish s t (Finished Error)
    else {| th := set_th (th s) t (InRead (next_r s)); lock := lock s; closed := closed s; gc_full := gc_full s;
            gc_closed := gc_closed s; mod_err := mod_err s; next_w := next_w s; next_r := S (next_r s);
            writes := writes s; consumed := consumed s; readers := next_r s :: readers s; got := got s;
            plug := plug s; panicked := panicked s; drained := drained s |}.

  (** What follows write, by operation: Call (plugin.go:310-320), Close (235-246), startGC (270-275). *)
  Definition after_write (s : state) (t : tid) (o : op) (err : bool) : state :=
    match o with
    | OCall => if err then finish s t (Finished Error) else start_read s t
    | OClose =>
        if err then finish (set_closed s) t (Finished Error)
        else if gc_closed s then finish (set_closed (set_panicked s)) t (Finished Crashed)
        else finish (set_closed (set_gc_closed s)) t (Finished Closed)
    | OGc => finish s t NotStarted
    end.

  Inductive event :=
  | Start (t : tid) (o : op)         (* Call or Close is called *)
  | CallGC                           (* GC(): enqueueGC (plugin.go:257-264) *)
  | Dequeue                          (* for range gcQueue *)
  | Acquire (t : tid)                (* Lock succeeds; write up to its select (plugin.go:216-223) *)
  | WriteErr (t : tid)               (* case err := <-i.instanceModErrCh in write *)
  | WriteOk (t : tid)                (* case err := <-writeCh *)
  | ReadErr (t : tid)                (* case err := <-i.instanceModErrCh in recvContent *)
  | ReadOk (t : tid)                 (* case result := <-readCh *)
  | Consume (w : nat)                (* the plugin reads a line *)
  | Answer (v : V)                   (* the plugin has handled the request *)
  | Deliver (r : nat)                (* a reader takes the response *)
  | Die (err : bool).                (* the module ends: exit, os.Exit or a trap *)

  Definition lookup_write (w : nat) (l : list (nat * cmd)) : option cmd :=
    option_map snd (find (fun x => Nat.eqb (fst x) w) l).
  Definition lookup_got (r : nat) (l : list (nat * (tid * V))) : option (tid * V) :=
    option_map snd (find (fun x => Nat.eqb (fst x) r) l).

  (** [None]: the event is not possible in this state. *)
  Definition step (s : state) (ev : event) : option state :=
    match ev with
    | Start t o =>
        match th s t, o, t with
        | NotStarted, OCall, S _ | NotStarted, OClose, S _ =>
            Some {| th := set_th (th s) t (Waiting o); lock := lock s; closed := closed s; gc_full := gc_full s;
                    gc_closed := gc_closed s; mod_err := mod_err s; next_w := next_w s; next_r := next_r s;
                    writes := writes s; consumed := consumed s; readers := readers s; got := got s; plug := plug s;
                    panicked := panicked s; drained := drained s |}
        | _, _, _ => None
        end
    | CallGC =>
        if gc_closed s then Some (set_panicked s)                (* send on closed channel, also in a select *)
        else Some {| th := th s; lock := lock s; closed := closed s; gc_full := true;
                     gc_closed := gc_closed s; mod_err := mod_err s; next_w := next_w s; next_r := next_r s;
                     writes := writes s; consumed := consumed s; readers := readers s; got := got s; plug := plug s;
                     panicked := panicked s; drained := drained s |}
    | Dequeue =>
        match th s 0, gc_full s with
        | NotStarted, true =>
            Some {| th := set_th (th s) 0 (Waiting OGc); lock := lock s; closed := closed s; gc_full := false;
                    gc_closed := gc_closed s; mod_err := mod_err s; next_w := next_w s; next_r := next_r s;
                    writes := writes s; consumed := consumed s; readers := readers s; got := got s; plug := plug s;
                    panicked := panicked s; drained := drained s |}
        | _, _ => None
        end
    | Acquire t =>
        match th s t, lock s with
        | Waiting o, None =>
            if closed s then Some (after_write s t o false)
            else Some {| th := set_th (th s) t (InWrite o (next_w s)); lock := Some t; closed := closed s; gc_full := gc_full s;
                         gc_closed := gc_closed s; mod_err := mod_err s; next_w := S (next_w s); next_r := next_r s;
                         writes := (next_w s, cmd_of t o) :: writes s; consumed := consumed s; readers := readers s;
                         got := got s; plug := plug s; panicked := panicked s; drained := drained s |}
        | _, _ => None
        end
    | WriteErr t =>
        match th s t, mod_err s with
        | InWrite o _, Some e => Some (after_write (set_closed (take_err s)) t o e)
        | _, _ => None
        end
    | WriteOk t =>
        match th s t with
        | InWrite o w => if existsb (Nat.eqb w) (consumed s) then Some (after_write s t o false) else None
        | _ => None
        end
    | ReadErr t =>
        match th s t, mod_err s with
        | InRead _, Some _ => Some (finish (set_drained (take_err s)) t (Finished Error))    (* an empty line is an error too *)
        | _, _ => None
        end
    | ReadOk t =>
        match th s t with
        | InRead r => match lookup_got r (got s) with
                      | Some (q, v) => Some (finish s t (Finished (Response q v)))
                      | None => None
                      end
        | _ => None
        end
    | Consume w =>
        match plug s, lookup_write w (writes s) with
        | Reading, Some c =>
            Some {| th := th s; lock := lock s; closed := closed s; gc_full := gc_full s; gc_closed := gc_closed s;
                    mod_err := mod_err s; next_w := next_w s; next_r := next_r s;
                    writes := filter (fun x => negb (Nat.eqb (fst x) w)) (writes s); consumed := w :: consumed s;
                    readers := readers s; got := got s;
                    plug := match c with Req q => Busy q | Exit => Exiting | Gc => Reading end;
                    panicked := panicked s; drained := drained s |}
        | _, _ => None
        end
    | Answer v =>
        match plug s with
        | Busy q =>
            Some {| th := th s; lock := lock s; closed := closed s; gc_full := gc_full s; gc_closed := gc_closed s;
                    mod_err := mod_err s; next_w := next_w s; next_r := next_r s; writes := writes s; consumed := consumed s;
                    readers := readers s; got := got s; plug := Writing q v; panicked := panicked s; drained := drained s |}
        | _ => None
        end
    | Deliver r =>
        match plug s with
        | Writing q v =>
            if existsb (Nat.eqb r) (readers s) then
              Some {| th := th s; lock := lock s; closed := closed s; gc_full := gc_full s; gc_closed := gc_closed s;
                      mod_err := mod_err s; next_w := next_w s; next_r := next_r s; writes := writes s;
                      consumed := consumed s; readers := filter (fun x => negb (Nat.eqb x r)) (readers s);
                      got := (r, (q, v)) :: got s; plug := Reading; panicked := panicked s; drained := drained s |}
            else None
        | _ => None
        end
    | Die e =>
        match plug s with
        | Dead => None
        | _ => Some {| th := th s; lock := lock s; closed := closed s; gc_full := gc_full s; gc_closed := gc_closed s;
                       mod_err := Some e; next_w := next_w s; next_r := next_r s; writes := writes s;
                       consumed := consumed s; readers := readers s; got := got s; plug := Dead; panicked := panicked s;
                       drained := drained s |}
        end
    end.

  Fixpoint runs (s : state) (evs : list event) : option state :=
    match evs with
    | [] => Some s
    | ev :: evs => match step s ev with Some s' => runs s' evs | None => None end
    end.
  Definition reachable (s : state) : Prop := exists evs, runs init evs = Some s.
End Instance.
Arguments Response {V}. Arguments Error {V}. Arguments Closed {V}. Arguments Crashed {V}.
Arguments NotStarted {V}. Arguments Waiting {V}. Arguments InWrite {V}. Arguments InRead {V}. Arguments Finished {V}.
Arguments Reading {V}. Arguments Busy {V}. Arguments Writing {V}. Arguments Exiting {V}. Arguments Dead {V}.
Arguments th {V}. Arguments lock {V}. Arguments closed {V}. Arguments gc_full {V}. Arguments gc_closed {V}.
Arguments mod_err {V}. Arguments next_w {V}. Arguments next_r {V}. Arguments writes {V}. Arguments consumed {V}.
Arguments readers {V}. Arguments got {V}. Arguments plug {V}. Arguments panicked {V}. Arguments drained {V}.
Arguments init {V}. Arguments step {V}. Arguments runs {V}. Arguments reachable {V}. Arguments lookup_got {V}.
Arguments set_th {V}. Arguments finish {V}. Arguments after_write {V}. Arguments start_read {V}.
Arguments set_closed {V}. Arguments set_gc_closed {V}. Arguments set_panicked {V}. Arguments take_err {V}. Arguments set_drained {V}.
Arguments Start {V}. Arguments CallGC {V}. Arguments Dequeue {V}. Arguments Acquire {V}. Arguments WriteErr {V}.
Arguments WriteOk {V}. Arguments ReadErr {V}. Arguments ReadOk {V}. Arguments Consume {V}. Arguments Answer {V}.
Arguments Deliver {V}. Arguments Die {V}.
