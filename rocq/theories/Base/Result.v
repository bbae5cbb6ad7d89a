(** Shared vocabulary: Go functions returning [(T, error)] become functions
    into [result]; a nil error is [Ok], a non-nil error is [Err]. *)
Set Implicit Arguments.

Inductive result (A E : Type) : Type :=
| Ok (a : A)
| Err (e : E).

Arguments Ok {A E} a.
Arguments Err {A E} e.

Definition is_ok {A E} (r : result A E) : bool :=
  match r with Ok _ => true | Err _ => false end.
