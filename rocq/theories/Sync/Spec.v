(** What an editor expects, without the server's memory. *)

From Coq Require Import String List Arith Bool.
From Verif.Sync Require Import Model.
Import ListNotations.
Local Open Scope list_scope.
Local Open Scope string_scope.

Section Expected.
  Variable diags protos result : Type.
  Variable uri_path : string -> option string.
  Variable disk : string -> option string.
  Variable rel : list string -> string -> string.
  Variable compile : list string -> string -> string -> string -> protos + diags.
  Variable resolve : list string -> protos -> result.
  Variable report : list string -> result -> diags.

  (** An event gives the file at [path] a new text. *)
  Inductive gives (path : string) : event -> string -> Prop :=
  | gives_text u texts t :
      uri_path u = Some path -> gives path (Change u (texts ++ [t])) t.

  (** The text of a file after events: the last one it was given, otherwise the one
      on disk. *)
  Inductive text_after (path : string) : list event -> string -> Prop :=
  | text_disk es t :
      (forall e t', In e es -> ~ gives path e t') -> disk path = Some t -> text_after path es t
  | text_given es es' e t :
      gives path e t -> (forall e' t', In e' es' -> ~ gives path e' t') ->
      text_after path (es ++ e :: es') t.

  (** The diagnostics of a text.  The import paths are used in four places. *)
  Definition diagnosis4 (p1 p2 p3 p4 : list string) (path text : string) : diags :=
    match compile p2 (rel p1 path) path text with
    | inr d => d
    | inl q => report p4 (resolve p3 q)
    end.

  Definition diagnosis (ps : list string) (path text : string) : diags :=
    diagnosis4 ps ps ps ps path text.

  (** Import paths that are the given ones some number of times, or not at all. *)
  Definition copies_of (ps l : list string) : Prop := exists k, l = concat (repeat ps k).

  (** What the editor shows for a document: the newest publication. *)
  Fixpoint shown (out : list (string * diags)) (u : string) : option diags :=
    match out with
    | [] => None
    | (v, d) :: r => if String.eqb v u then Some d else shown r u
    end.

  (** Events that do not change a file, and events that change none. *)
  Definition no_change_of (path : string) (e : event) : Prop :=
    match e with
    | Change u _ => uri_path u <> Some path
    | _ => True
    end.

  Definition no_change (e : event) : Prop :=
    match e with
    | Change _ _ => False
    | _ => True
    end.
End Expected.
