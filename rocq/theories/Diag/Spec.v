(** What diagnostics should be, without the validator's functions. *)

From Coq Require Import Ascii String List Arith Bool Sorted Permutation.
From Verif.Diag Require Import Model.
Import ListNotations.
Local Open Scope list_scope.
Local Open Scope string_scope.

(** A problem as the resolver found it: whether it is a warning, where it is (if it
    is known) and its text. *)
Record problem (location : Type) : Type := {
  p_warning : bool;
  p_where : option (string * location);
  p_text : string
}.
Arguments p_warning {location}.
Arguments p_where {location}.
Arguments p_text {location}.

(** The lines of a text, one by one: [rest] is what follows the line. *)
Inductive nth_line : nat -> string -> string -> Prop :=
| line_last s : (forall k, String.get k s <> Some newline) -> nth_line 1 s s
| line_first s rest : (forall k, String.get k s <> Some newline) ->
                      nth_line 1 (s ++ String newline rest) s
| line_next n s rest l : (forall k, String.get k s <> Some newline) ->
                         nth_line n rest l ->
                         nth_line (S n) (s ++ String newline rest) l.

Section Found.
  Variable location : Type.

  (** All problems of a compilation: its warnings, then its errors. *)
  Definition found (result : option (list (warning location))) (err : failure location)
    : list (problem location) :=
    (map (fun w => {| p_warning := true; p_where := Some (w_path _ w, w_loc _ w); p_text := w_msg _ w |})
         (match result with Some ws => ws | None => [] end)
     ++ match err with
        | FNone => []
        | FErrs es =>
            map (fun e => match e with
                          | RLoc p l m => {| p_warning := false; p_where := Some (p, l); p_text := m |}
                          | RPlain m => {| p_warning := false; p_where := None; p_text := m |}
                          end) es
        | FPlain m => [{| p_warning := false; p_where := None; p_text := m |}]
        end)%list.

  Variable file : Type.
  (** The file a path means: the first readable one below the current directory and
      the import paths, in this order. *)
  Variable candidates : string -> list (option file).
  Variable content : file -> string.
  Variable node_info : file -> location -> option (pos * pos).

  Fixpoint first_some {A : Type} (l : list (option A)) : option A :=
    match l with
    | [] => None
    | Some a :: _ => Some a
    | None :: r => first_some r
    end.

  (** Where a problem is in the source. *)
  Definition place (p : problem location) : option (file * (pos * pos)) :=
    match p_where p with
    | None => None
    | Some (path, l) =>
        match first_some (candidates path) with
        | None => None
        | Some f =>
            match node_info f l with
            | None => None
            | Some r => Some (f, r)
            end
        end
    end.

  (** An output says what a problem is.  The line it shows is the line of the
      position, and it is shown at least if another line follows it. *)
  Definition says (p : problem location) (o : output) : Prop :=
    o_warning o = p_warning p /\
    o_msg o = p_text p /\
    o_path o = (match p_where p with Some (path, _) => path | None => "" end) /\
    match place p with
    | Some (f, (s, e)) =>
        o_start o = s /\ o_end o = e /\
        (o_line o = "" \/ nth_line (line s) (content f) (o_line o)) /\
        (forall l next, nth_line (line s) (content f) l -> nth_line (S (line s)) (content f) next ->
                        o_line o = l)
    | None => o_start o = no_pos /\ o_end o = no_pos /\ o_line o = ""
    end.
End Found.

(** Before in the text of a file. *)
Definition before (a b : output) : Prop :=
  line (o_start a) < line (o_start b) \/
  (line (o_start a) = line (o_start b) /\ col (o_start a) <= col (o_start b)).

Definition at_pos (l c : nat) (o : output) : bool :=
  Nat.eqb (line (o_start o)) l && Nat.eqb (col (o_start o)) c.
