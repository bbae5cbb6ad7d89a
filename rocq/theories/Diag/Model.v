(** The diagnostics: from the errors and warnings of a compilation to what the
    linter prints, to its exit status, and to what the language server publishes
    (validator/validator.go, resolver/error.go:35-54,
    cmd/grpc-federation-linter/main.go:24-60, lsp/server/validator.go:15-53).

    What is simplified.  The compiler, the resolver, the file system, the parser
    and the search for a position are functions given from outside.  A position is
    a line and a column, without the offset and the file name.  Columns are the
    ones the parser gives. *)

From Coq Require Import Ascii String List Arith NArith Bool DecimalString.
From Verif.Base Require Import Text.
Import ListNotations.
Local Open Scope list_scope.
Local Open Scope string_scope.

(** ast.SourcePos: lines and columns count from one; zero is unknown. *)
Record pos : Type := { line : nat; col : nat }.
Definition no_pos : pos := {| line := 0; col := 0 |}.

(** validator.go:32-39 [ValidationOutput]. *)
Record output : Type := {
  o_warning : bool;
  o_path : string;
  o_start : pos;
  o_end : pos;
  o_msg : string;
  o_line : string
}.

Section Validator.
  (** source.Location without its file name, and the parsed file. *)
  Variable location : Type.
  Variable file : Type.
  (** [os.ReadFile] of a path below an import path (filepath.Join). *)
  Variable read : string -> string -> option string.
  (** [source.NewFile]. *)
  Variable parse : string -> string -> option file.
  (** [Content] of a parsed file: source/file.go. *)
  Variable content : file -> string.
  (** [NodeInfoByLocation]: the start and the end. *)
  Variable node_info : file -> location -> option (pos * pos).

  (** resolver/error.go:25-29 [LocationError], with the file of its location, and
      an error of another type. *)
  Inductive rerr : Type :=
  | RLoc (path : string) (l : location) (msg : string)
  | RPlain (msg : string).

  (** resolver.Warning. *)
  Record warning : Type := { w_path : string; w_loc : location; w_msg : string }.

  (** The error of [Resolve]: nil, a [resolver.Error] with its list, or an error of
      another type, e.g. of the registry of types (resolver.go:165-167). *)
  Inductive failure : Type :=
  | FNone
  | FErrs (es : list rerr)
  | FPlain (msg : string).

  (** resolver/error.go:36-45 [ExtractIndividualErrors]. *)
  Definition individual (f : failure) : list rerr :=
    match f with
    | FErrs es => es
    | _ => []
    end.

  (** The cache of parsed files: validator.go:22. *)
  Definition cache : Type := list (string * file).

  Fixpoint cached (c : cache) (path : string) : option file :=
    match c with
    | [] => None
    | (p, f) :: r => if String.eqb p path then Some f else cached r path
    end.

  (** The loop of validator.go:173-184. *)
  Fixpoint load (imports : list string) (path : string) : option file :=
    match imports with
    | [] => None
    | i :: r =>
        match read i path with
        | None => load r path
        | Some s =>
            match parse path s with
            | None => load r path
            | Some f => Some f
            end
        end
    end.

  (** validator.go:168-186 [getFile]. *)
  Definition get_file (imports : list string) (c : cache) (path : string) : option file * cache :=
    match cached c path with
    | Some f => (Some f, c)
    | None =>
        match load ("" :: imports) path with
        | Some f => (Some f, (path, f) :: c)
        | None => (None, c)
        end
    end.

  (** The byte 10. *)
  Definition newline : ascii := ascii_of_nat 10.

  (** validator.go:153-158: the line of the source. *)
  Definition source_line (text : string) (start : nat) : string :=
    let contents := split newline text in
    if Nat.ltb start (List.length contents) && Nat.ltb 0 start
    then nth (start - 1) contents ""
    else "".

  (** validator.go:137-166 [toValidationOutput]. *)
  Definition to_output (imports : list string) (c : cache) (path : string) (l : location)
             (msg : string) : output * cache :=
    let unknown := {| o_warning := false; o_path := path; o_start := no_pos; o_end := no_pos;
                      o_msg := msg; o_line := "" |} in
    match get_file imports c path with
    | (None, c') => (unknown, c')
    | (Some f, c') =>
        match node_info f l with
        | None => (unknown, c')
        | Some (s, e) =>
            ({| o_warning := false; o_path := path; o_start := s; o_end := e; o_msg := msg;
                o_line := source_line (content f) (line s) |}, c')
        end
    end.

  (** validator.go:119-127 [toValidationOutputByWarnings]. *)
  Fixpoint warning_outputs (imports : list string) (c : cache) (ws : list warning)
    : list output * cache :=
    match ws with
    | [] => ([], c)
    | w :: r =>
        let '(o, c1) := to_output imports c (w_path w) (w_loc w) (w_msg w) in
        let '(os, c2) := warning_outputs imports c1 r in
        ({| o_warning := true; o_path := o_path o; o_start := o_start o; o_end := o_end o;
            o_msg := o_msg o; o_line := o_line o |} :: os, c2)
    end.

  (** validator.go:129-135 [toValidationOutputByError] and the loop 90-92. *)
  Fixpoint error_outputs (imports : list string) (c : cache) (es : list rerr)
    : list output * cache :=
    match es with
    | [] => ([], c)
    | e :: r =>
        let '(o, c1) :=
          match e with
          | RPlain msg => ({| o_warning := false; o_path := ""; o_start := no_pos; o_end := no_pos;
                              o_msg := msg; o_line := "" |}, c)
          | RLoc p l msg => to_output imports c p l msg
          end in
        let '(os, c2) := error_outputs imports c1 r in
        (o :: os, c2)
    end.

  (** [sort.SliceStable] with the order of a number of the element: an insertion
      sort that never passes an equal element. *)
  Fixpoint insert_by (key : output -> nat) (x : output) (l : list output) : list output :=
    match l with
    | [] => [x]
    | y :: r => if Nat.leb (key x) (key y) then x :: y :: r else y :: insert_by key x r
    end.
  Fixpoint stable_sort (key : output -> nat) (l : list output) : list output :=
    match l with
    | [] => []
    | x :: r => insert_by key x (stable_sort key r)
    end.

  (** validator.go:84-100 [ToValidationOutputByResolverResult]; the result is
      [None] for a nil result, otherwise its warnings. *)
  Definition outputs (imports : list string) (result : option (list warning)) (err : failure)
    : list output :=
    let '(ws, c) :=
      match result with
      | Some w => warning_outputs imports [] w
      | None => ([], [])
      end in
    let '(es, _) := error_outputs imports c (individual err) in
    let by_col := stable_sort (fun o => col (o_start o)) (ws ++ es) in
    stable_sort (fun o => line (o_start o)) by_col.

  (** The error of [Compile]: compiler.go:76-91; a [CompilerError] has a text and
      the errors with a position, another error is of another type. *)
  Inductive compiled (protos : Type) : Type :=
  | CompileOk (p : protos)
  | CompileErr (msg : string) (es : list (pos * string))
  | CompileUnknown.

  (** validator.go:102-117 [compilerErrorToValidationOutputs]. *)
  Definition compile_outputs (msg : string) (es : list (pos * string)) : list output :=
    match es with
    | [] => [{| o_warning := false; o_path := ""; o_start := no_pos; o_end := no_pos;
                o_msg := msg; o_line := "" |}]
    | _ =>
        map (fun e => {| o_warning := false; o_path := ""; o_start := fst e; o_end := fst e;
                         o_msg := snd e; o_line := "" |}) es
    end.

  (** validator.go:18-23 [Validator]: its settings. *)
  Record settings : Type := { s_imports : list string; s_manual : bool }.

  (** validator.go:41-53 [ValidatorOption]. *)
  Inductive voption : Type :=
  | ImportPathOption (paths : list string)
  | ManualImportOption.

  Definition apply_option (s : settings) (o : voption) : settings :=
    match o with
    | ImportPathOption ps => {| s_imports := (s_imports s ++ ps)%list; s_manual := s_manual s |}
    | ManualImportOption => {| s_imports := s_imports s; s_manual := true |}
    end.

  (** validator.go:55-61 [applyOptions]; the cache is empty afterwards. *)
  Definition apply_options (s : settings) (os : list voption) : settings :=
    fold_left apply_option os {| s_imports := []; s_manual := s_manual s |}.

  (** [Compile] and [Resolve] of one file, with the import paths and the flag. *)
  Variable protos : Type.
  Variable compile : list string -> bool -> string -> compiled protos.
  Variable resolve : list string -> protos -> option (list warning) * failure.

  (** validator.go:63-82 [Validate]. *)
  Definition validate (s : settings) (path : string) (os : list voption) : list output * settings :=
    let s1 := apply_options s os in
    match compile (s_imports s1) (s_manual s1) path with
    | CompileUnknown _ => ([], s1)
    | CompileErr _ msg es => (compile_outputs msg es, s1)
    | CompileOk _ p =>
        let '(result, err) := resolve (s_imports s1) p in
        let s2 := apply_options s1 os in
        (outputs (s_imports s2) result err, s2)
    end.

  (** validator.go:188-196 [ExistsError]. *)
  Fixpoint exists_error (os : list output) : bool :=
    match os with
    | [] => false
    | o :: r => if o_warning o then exists_error r else true
    end.

  (** What happens to one argument of the linter: it cannot be read or parsed, and
      the process ends (main.go:36-43), or it is validated. *)
  Variable readable : string -> bool.

  (** main.go:32-56: the exit status; the validator is new for every argument. *)
  Fixpoint lint_loop (imports : list string) (failed : bool) (args : list string) : nat :=
    match args with
    | [] => if failed then 1 else 0
    | a :: r =>
        if readable a then
          let '(os, _) := validate {| s_imports := []; s_manual := false |} a
                                   [ImportPathOption imports] in
          lint_loop imports (failed || exists_error os) r
        else 1
    end.

  (** main.go:24-60 [main] with parsed options. *)
  Definition lint (imports : list string) (args : list string) : nat :=
    match args with
    | [] => 1
    | _ => lint_loop imports false args
    end.

  (** What the generator does with the output (generator.go:641-650, and 490-496 in
      the same way): it stops with the text, or goes on with the result; [None] is a
      nil pointer dereference. *)
  Inductive generation : Type :=
  | Stopped
  | GoesOn (ws : list warning).
  Definition generate (imports : list string) (result : option (list warning)) (err : failure)
    : option generation :=
    if exists_error (outputs imports result err) then Some Stopped
    else match result with
         | Some ws => Some (GoesOn ws)
         | None => None
         end.
End Validator.

Arguments RLoc {location}.
Arguments RPlain {location}.
Arguments FNone {location}.
Arguments FErrs {location}.
Arguments FPlain {location}.
Arguments CompileOk {protos}.
Arguments CompileErr {protos}.
Arguments CompileUnknown {protos}.

(** %d of a number. *)
Definition decimal (n : nat) : string := NilZero.string_of_uint (Nat.to_uint n).

Definition nl : string := String newline "".

(** strings.Repeat(" ", n). *)
Fixpoint spaces (n : nat) : string :=
  match n with
  | 0 => ""
  | S m => String " "%char (spaces m)
  end.

(** validator.go:198-224 [Format]: one output. *)
Definition format_one (o : output) : string :=
  let msg := if o_warning o then "[WARN] " ++ o_msg o else o_msg o in
  if String.eqb (o_path o) "" then msg ++ nl
  else
    let first :=
      if Nat.eqb (line (o_start o)) 0
      then o_path o ++ ": " ++ msg ++ nl
      else o_path o ++ ":" ++ decimal (line (o_start o)) ++ ":" ++ decimal (col (o_start o))
           ++ ": " ++ msg ++ nl in
    if String.eqb (o_line o) "" then first
    else
      let header := decimal (line (o_start o)) ++ ": " in
      first ++ (header ++ " " ++ o_line o ++ nl)
            ++ (spaces (String.length header + col (o_start o)) ++ "^" ++ nl).

(** validator.go:198-224 [Format]. *)
Definition format (os : list output) : string := String.concat "" (map format_one os).

Local Open Scope N_scope.

(** uint32(n) - 1 in Go: lsp/server/validator.go:27-34. *)
Definition uint32_pred (n : nat) : N := (N.of_nat n mod 4294967296 + 4294967295) mod 4294967296.

(** protocol.Diagnostic. *)
Record diagnostic : Type := {
  d_error : bool;
  d_start : N * N;
  d_end : N * N;
  d_msg : string
}.

(** lsp/server/validator.go:26-46. *)
Definition to_diagnostic (o : output) : diagnostic :=
  {| d_error := negb (o_warning o);
     d_start := (uint32_pred (line (o_start o)), uint32_pred (col (o_start o)));
     d_end := (uint32_pred (line (o_end o)), uint32_pred (col (o_end o)));
     d_msg := o_msg o |}.

(** lsp/server/validator.go:47-52: what is published for the document. *)
Definition publish (doc : string) (os : list output) : string * list diagnostic :=
  (doc, map to_diagnostic os).
