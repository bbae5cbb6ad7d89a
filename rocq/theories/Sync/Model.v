(** The language server: changes of documents, their validations in the background
    and what is published (lsp/server/text_document_sync.go, lsp/server/util.go,
    lsp/server/validator.go, lsp/server/handler.go, with the parts of
    validator/validator.go and compiler/compiler.go that are shared by all
    validations).

    What is simplified.  The parser, the compiler, the resolver and the reporter are
    functions given from outside, and files on disk do not change.  A statement that
    reads or writes shared memory without a lock is one step, and steps are
    sequentially consistent; slices are values.  The compiler reads its import paths
    twice, the resolver and the reporter once.  Errors of the connection to the
    editor are not modelled. *)

From Coq Require Import String List Arith Bool.
Import ListNotations.
Local Open Scope list_scope.
Local Open Scope string_scope.

Section Server.
  (** A list of diagnostics, file descriptors, and the result of the resolver. *)
  Variable diags protos result : Type.
  (** [url.ParseRequestURI] with the check of the scheme: the path of a document. *)
  Variable uri_path : string -> option string.
  (** [os.ReadFile]. *)
  Variable disk : string -> option string.
  (** [source.NewFile] succeeds for a path and a text. *)
  Variable parses : string -> string -> bool.
  (** [RelativePathFromImportPaths]. *)
  Variable rel : list string -> string -> string.
  (** The compilation with import paths, the relative path, the path and the text. *)
  Variable compile : list string -> string -> string -> string -> protos + diags.
  (** [resolver.New] and [Resolve] with import paths. *)
  Variable resolve : list string -> protos -> result.
  (** The outputs of a result with import paths. *)
  Variable report : list string -> result -> diags.
  (** handler.go:20 [importPaths]: given when the server starts. *)
  Variable import_paths : list string.

  (** The memory that is shared: [fileToContentMap] (handler.go:26), [importPaths] of
      the validator (validator.go:20) and of its compiler (compiler.go:28). *)
  Record shared : Type := {
    contents : list (string * string);
    v_paths : list string;
    c_paths : list string
  }.

  Definition set_v (s : shared) (v : list string) : shared :=
    {| contents := contents s; v_paths := v; c_paths := c_paths s |}.
  Definition set_c (s : shared) (c : list string) : shared :=
    {| contents := contents s; v_paths := v_paths s; c_paths := c |}.

  Fixpoint find_content (m : list (string * string)) (path : string) : option string :=
    match m with
    | [] => None
    | (p, t) :: r => if String.eqb p path then Some t else find_content r path
    end.

  (** util.go:11-33 [getFile]. *)
  Definition get_file (s : shared) (u : string) : option (string * string) :=
    match uri_path u with
    | None => None
    | Some path =>
        match find_content (contents s) path with
        | Some t => Some (path, t)
        | None =>
            match disk path with
            | Some t => Some (path, t)
            | None => None
            end
        end
    end.

  (** Where a validation stands: what it does next. *)
  Inductive pc : Type :=
  | PRead                                             (* lsp/server/validator.go:16-23 *)
  | PReset (path text : string)                       (* validator.go:57 *)
  | PAppend (path text : string)                      (* validator.go:58-60, 41-45 *)
  | PTake (path text : string)                        (* validator.go:65-66 *)
  | PCReset (path text : string) (ps : list string)   (* compiler.go:150 *)
  | PCAppend (path text : string) (ps : list string)  (* compiler.go:152-154, 37-41 *)
  | PRel (path text : string)                         (* compiler.go:156 *)
  | PCompile (path text r : string)                   (* compiler.go:163-200 *)
  | PResolve (p : protos)                             (* validator.go:79-80 *)
  | PReset2 (f : result)                              (* validator.go:85, 57 *)
  | PAppend2 (f : result)                             (* validator.go:58-60 *)
  | PReport (f : result)                              (* validator.go:86-99 *)
  | PPublish (d : diags)                              (* lsp/server/validator.go:47-50 *)
  | PDone.

  (** lsp/server/validator.go:15-53 [validateText], validator.go:63-100 [Validate] and
      compiler.go:149-202 [Compile]: one step of a validation of the document [u].
      The third part is what is published. *)
  Definition advance (s : shared) (u : string) (p : pc) : shared * pc * option diags :=
    match p with
    | PRead =>
        match get_file s u with
        | None => (s, PDone, None)
        | Some (path, text) =>
            if parses path text then (s, PReset path text, None) else (s, PDone, None)
        end
    | PReset path text => (set_v s [], PAppend path text, None)
    | PAppend path text => (set_v s (v_paths s ++ import_paths), PTake path text, None)
    | PTake path text => (s, PCReset path text (v_paths s), None)
    | PCReset path text ps => (set_c s [], PCAppend path text ps, None)
    | PCAppend path text ps => (set_c s (c_paths s ++ ps), PRel path text, None)
    | PRel path text => (s, PCompile path text (rel (c_paths s) path), None)
    | PCompile path text r =>
        match compile (c_paths s) r path text with
        | inl q => (s, PResolve q, None)
        | inr d => (s, PPublish d, None)
        end
    | PResolve q => (s, PReset2 (resolve (v_paths s) q), None)
    | PReset2 f => (set_v s [], PAppend2 f, None)
    | PAppend2 f => (set_v s (v_paths s ++ import_paths), PReport f, None)
    | PReport f => (s, PPublish (report (v_paths s) f), None)
    | PPublish d => (s, PDone, Some d)
    | PDone => (s, PDone, None)
    end.

  (** The server: the memory, the goroutines in the order of their start, each with
      its document, and what has been published, the newest first. *)
  Record state : Type := {
    mem : shared;
    tasks : list (string * pc);
    out : list (string * diags)
  }.

  Definition init : state :=
    {| mem := {| contents := []; v_paths := []; c_paths := [] |}; tasks := []; out := [] |}.

  (** What happens: the editor opens, changes and closes documents, and goroutines
      take steps. *)
  Inductive event : Type :=
  | Open (u text : string)
  | Change (u : string) (texts : list string)
  | Close (u : string)
  | Step (i : nat).

  (** text_document_sync.go:20-24: the loop over the changes. *)
  Definition store (m : list (string * string)) (path : string) (texts : list string)
    : list (string * string) :=
    fold_left (fun m t => (path, t) :: m) texts m.

  (** text_document_sync.go:12-29 [didChange]. *)
  Definition did_change (s : state) (u : string) (texts : list string) : state :=
    match uri_path u with
    | None => s
    | Some path =>
        {| mem := {| contents := store (contents (mem s)) path texts;
                     v_paths := v_paths (mem s); c_paths := c_paths (mem s) |};
           tasks := tasks s ++ [(u, PRead)];
           out := out s |}
    end.

  Fixpoint set_nth {A : Type} (n : nat) (x : A) (l : list A) : list A :=
    match l, n with
    | [], _ => []
    | _ :: r, 0 => x :: r
    | y :: r, S m => y :: set_nth m x r
    end.

  (** One goroutine takes a step. *)
  Definition task_step (s : state) (i : nat) : state :=
    match nth_error (tasks s) i with
    | None => s
    | Some (u, p) =>
        let '(m, p', o) := advance (mem s) u p in
        {| mem := m;
           tasks := set_nth i (u, p') (tasks s);
           out := match o with Some d => (u, d) :: out s | None => out s end |}
    end.

  (** handler.go: [DidOpen] and [DidClose] do nothing but log. *)
  Definition step (s : state) (e : event) : state :=
    match e with
    | Open _ _ => s
    | Change u texts => did_change s u texts
    | Close _ => s
    | Step i => task_step s i
    end.

  Definition run (es : list event) : state := fold_left step es init.
End Server.

Arguments PRead {diags protos result}.
Arguments PDone {diags protos result}.
