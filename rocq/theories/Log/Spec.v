(** What attributes a context should have: those the message was started with and those added since. *)
From Coq Require Import List Arith.
From Verif.Log Require Import Model.
Import ListNotations.

(** The attributes of a context as a value, with the number of the list they are held in ([version] 0: no list yet), and all
    attributes its records should show. *)
Record scope := { version : nat; own : list nat; shown : list nat }.
Record spec := { scopes : list scope; errors : list scope; next : nat; extended : list nat }.
Definition start : spec := {| scopes := []; errors := []; next := 1; extended := [] |}.

Fixpoint set_scope (n : nat) (r : scope) (l : list scope) : list scope :=
  match l, n with [], _ => [] | _ :: l, 0 => r :: l | x :: l, S n => x :: set_scope n r l end.

(** [linear]: whether a list of attributes was only extended once: when a message has handed its attributes to the messages it
    depends on or to an error, only one of them adds to them. *)
Definition extend (s : spec) (v : nat) : option (list nat) :=
  if Nat.eqb v 0 then Some (extended s) else if existsb (Nat.eqb v) (extended s) then None else Some (v :: extended s).

Definition follow (s : spec) (o : op) : option spec :=
  match o with
  | Request => Some {| scopes := scopes s ++ [{| version := 0; own := []; shown := [] |}]; errors := errors s; next := next s; extended := extended s |}
  | Message c => match nth_error (scopes s) c with
                 | Some r => Some {| scopes := scopes s ++ [r]; errors := errors s; next := next s; extended := extended s |}
                 | None => Some s
                 end
  | Custom c => match nth_error (scopes s) c with
                | Some r => Some {| scopes := scopes s ++ [{| version := 0; own := []; shown := shown r |}]; errors := errors s; next := next s; extended := extended s |}
                | None => Some s
                end
  | Add c xs _ => match nth_error (scopes s) c, xs with
                  | Some r, _ :: _ =>
                      match extend s (version r) with
                      | Some e => Some {| scopes := set_scope c {| version := next s; own := own r ++ xs; shown := shown r ++ xs |} (scopes s);
                                          errors := errors s; next := S (next s); extended := e |}
                      | None => None
                      end
                  | _, _ => Some s
                  end
  | SetLogger _ _ => Some s
  | NewError c => match nth_error (scopes s) c with
                  | Some r => Some {| scopes := scopes s; errors := errors s ++ [r]; next := next s; extended := extended s |}
                  | None => Some s
                  end
  | Output e _ _ => match nth_error (errors s) e with
                    | Some r => match extend s (version r) with
                                | Some x => Some {| scopes := scopes s; errors := errors s; next := next s; extended := x |}
                                | None => None
                                end
                    | None => Some s
                    end
  end.
Fixpoint follows (s : spec) (ops : list op) : option spec :=
  match ops with [] => Some s | o :: ops => match follow s o with Some s => follows s ops | None => None end end.
Definition linear (ops : list op) (s : spec) : Prop := follows start ops = Some s.

(** The same without counting: what each context should have after any history *)
Definition follow_any (s : spec) (o : op) : spec :=
  match follow {| scopes := scopes s; errors := errors s; next := next s; extended := [] |} o with
  | Some s => {| scopes := scopes s; errors := errors s; next := next s; extended := [] |}
  | None => s
  end.
Definition expected (ops : list op) : spec := fold_left follow_any ops start.
Definition keeps_logger (o : op) : Prop := match o with SetLogger _ _ => False | _ => True end.
