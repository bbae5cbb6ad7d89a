(** The logger of a request and its attributes.
    Models: grpc/federation/log/context.go, grpc/federation/error.go (NewErrorWithLogAttrs, OutputErrorLog),
    generator/templates/server.go.tmpl:470, 543, 578, 690 (where a new logger reference is made).
    Simplified: attributes are numbers; a logger is the list of the attributes it was given by With; every operation is one step
    (they hold a mutex, but server.go.tmpl:543 reads the logger and the attributes in two steps). *)
From Coq Require Import List Arith.
From Verif.Base Require Import Slice.
Import ListNotations.

(** log/context.go:13-17 loggerRef *)
Record ref := { logger : list nat; attrs : slice }.
(** The memory, the logger references made so far (a context is the number of one), and the attributes kept by errors. *)
Record state := { mem : heap nat; refs : list ref; errs : list slice }.

(** The nil slice; array 0 has no cells. *)
Definition nil_slice : slice := {| arr := 0; len := 0 |}.
Definition init : state := {| mem := [[]]; refs := []; errs := [] |}.

Fixpoint set_ref (n : nat) (r : ref) (l : list ref) : list ref :=
  match l, n with [], _ => [] | _ :: l, 0 => r :: l | x :: l, S n => x :: set_ref n r l end.

(** What a record written through Logger(ctx) shows: log/context.go:23-33 Logger *)
Definition values (l : list (option nat)) : list nat := flat_map (fun x => match x with Some n => [n] | None => [] end) l.
Definition Attrs (s : state) (c : nat) : option slice := option_map attrs (nth_error (refs s) c).
Definition Logger (s : state) (c : nat) : option (list nat) :=
  option_map (fun r => logger r ++ values (view (mem s) (attrs r))) (nth_error (refs s) c).

Inductive op :=
| Request                            (** server.go.tmpl:470 *)
| Message (c : nat)                  (** server.go.tmpl:543: the resolver of a message, called with the context [c] *)
| Custom (c : nat)                   (** server.go.tmpl:578, 690: a custom resolver *)
| Add (c : nat) (xs : list nat) (room : nat)  (** log/context.go:61-71 AddAttrs; [room]: the spare capacity if append allocates *)
| SetLogger (c : nat) (l : list nat) (** log/context.go:49-59 *)
| NewError (c : nat)                 (** NewErrorWithLogAttrs(err, level, LogAttrs(ctx)) *)
| Output (e : nat) (x : nat) (room : nat).    (** error.go:70-90 OutputErrorLog: append of the gRPC status *)

Definition step (s : state) (o : op) : state :=
  match o with
  | Request => {| mem := mem s; refs := refs s ++ [{| logger := []; attrs := nil_slice |}]; errs := errs s |}
  | Message c => match Logger s c, Attrs s c with
                 | Some l, Some a => {| mem := mem s; refs := refs s ++ [{| logger := l; attrs := a |}]; errs := errs s |}
                 | _, _ => s
                 end
  | Custom c => match Logger s c with
                | Some l => {| mem := mem s; refs := refs s ++ [{| logger := l; attrs := nil_slice |}]; errs := errs s |}
                | None => s
                end
  | Add c xs room => match nth_error (refs s) c with
                     | Some r => let (h, a) := append room (mem s) (attrs r) (map Some xs) in
                                 {| mem := h; refs := set_ref c {| logger := logger r; attrs := a |} (refs s); errs := errs s |}
                     | None => s
                     end
  | SetLogger c l => match nth_error (refs s) c with
                     | Some r => {| mem := mem s; refs := set_ref c {| logger := l; attrs := attrs r |} (refs s); errs := errs s |}
                     | None => s
                     end
  | NewError c => match Attrs s c with
                  | Some a => {| mem := mem s; refs := refs s; errs := errs s ++ [a] |}
                  | None => s
                  end
  | Output e x room => match nth_error (errs s) e with
                       | Some a => {| mem := fst (append room (mem s) a [Some x]); refs := refs s; errs := errs s |}
                       | None => s
                       end
  end.
Definition run (ops : list op) : state := fold_left step ops init.
