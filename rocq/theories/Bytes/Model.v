(** * Bytes and strings that functions append to

    Models the functions of the library that append to an argument: appendBool, appendFloat, appendInt, appendQuote, appendQuoteRune, appendQuoteRuneToASCII,
    appendQuoteRuneToGraphic, appendQuoteToASCII, appendQuoteToGraphic and appendUint, grpc/federation/cel/strings.go:401-531, and appendFormat, grpc/federation/cel/time.go:582-612.
    Each has an overload for bytes and one for strings.

    Simplifications. What is appended is given, in the pieces in which Go's strconv and time append it, with the spare capacity the runtime gives to each new array.
    An expression is the sequence of its calls; a call takes a value computed before. The string overload of appendFormat gives bytes; here it gives a string. *)

From Coq Require Import Ascii List.
From Verif.Base Require Import Slice.
Import ListNotations.

(** types.Bytes holds a slice, types.String a Go string, which never changes. *)
Inductive cel := Bytes (s : slice) | Text (t : list ascii).
Record state := { heap_ : heap ascii; values : list cel }.
Definition init : state := {| heap_ := []; values := [] |}.

(** A call: bytes or a string from a request, a literal or another function; appending [pieces] to the value number [i]. *)
Definition pieces := list (list ascii * nat).
Inductive call := New (xs : list ascii) (room : nat) | NewText (xs : list ascii) | Append (i : nat) (room : nat) (ps : pieces).

(** make and copy. *)
Definition alloc (h : heap ascii) (xs : list ascii) (room : nat) : heap ascii * slice :=
  (h ++ [map Some xs ++ repeat None room], {| arr := length h; len := length xs |}).
(** strconv.AppendX(dst, ...), time.Time.AppendFormat(dst, ...). *)
Fixpoint append_all (h : heap ascii) (s : slice) (ps : pieces) : heap ascii * slice :=
  match ps with
  | [] => (h, s)
  | (xs, room) :: r => let '(h', s') := Slice.append room h s (map Some xs) in append_all h' s' r
  end.
(** string(b) *)
Definition read (l : list (option ascii)) : list ascii := flat_map (fun o => match o with Some c => [c] | None => [] end) l.

Definition step (st : state) (c : call) : state :=
  match c with
  | New xs room => let '(h, s) := alloc (heap_ st) xs room in {| heap_ := h; values := values st ++ [Bytes s] |}
  | NewText xs => {| heap_ := heap_ st; values := values st ++ [Text xs] |}
  | Append i room ps =>
      match nth_error (values st) i with
      | None => st
      (* types.Bytes(strconv.AppendX(args[0].(types.Bytes).Value().([]byte), ...)): strings.go:405 *)
      | Some (Bytes s) => let '(h, s') := append_all (heap_ st) s ps in {| heap_ := h; values := values st ++ [Bytes s'] |}
      (* types.String(strconv.AppendX([]byte(args[0].(types.String).Value().(string)), ...)): strings.go:410 *)
      | Some (Text t) =>
          let '(h, s) := alloc (heap_ st) t room in
          let '(h', s') := append_all h s ps in {| heap_ := h'; values := values st ++ [Text (read (Slice.view h' s'))] |}
      end
  end.
Definition run (calls : list call) : state := fold_left step calls init.
