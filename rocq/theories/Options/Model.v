(** The options of the protoc plugin and the code generation plugins they name.
    Models: generator/generator.go:690-932 (evalAllCodeGenerationPlugin, parseOptString, parseOpt and the parsers of each option),
    generator/wasm.go:14-37, generator/config.go:41-46. *)
From Coq Require Import Ascii String List Bool.
From Verif.Base Require Import Text.
Import ListNotations.
Local Open Scope string_scope.

(** resolver/file.go:119-137, generator.go:740-748 *)
Inductive mode := ImportMode | ModulePrefixMode | SourceRelativeMode.
Record wasm := { w_path : string; w_sha : string }.
Record options := { o_mode : mode; o_prefix : string; o_imports : list string; o_plugins : list wasm }.
Definition no_options : options := {| o_mode := ImportMode; o_prefix := ""; o_imports := []; o_plugins := [] |}.

(** strings.HasPrefix and TrimPrefix in one: what follows the prefix *)
Fixpoint after (p s : string) : option string :=
  match p, s with
  | EmptyString, _ => Some s
  | String a p', String b s' => if Ascii.eqb a b then after p' s' else None
  | String _ _, EmptyString => None
  end.

Section World.
  (** filepath.IsAbs / filepath.Abs (generator.go:842-849): the absolute path, or failure; and downloadFile (885-903): the name of the file
      the content of the URL is stored in, or failure. *)
  Variable abs : string -> option string.
  Variable download : string -> option string.

  (** generator.go:796-802 *)
  Definition parseModule (o : options) (v : string) : option options :=
    match v with
    | EmptyString => None
    | _ => Some {| o_mode := ModulePrefixMode; o_prefix := v; o_imports := o_imports o; o_plugins := o_plugins o |}
    end.
  Definition with_mode (m : mode) (o : options) : options := {| o_mode := m; o_prefix := o_prefix o; o_imports := o_imports o; o_plugins := o_plugins o |}.
  (** generator.go:804-814 *)
  Definition parsePaths (o : options) (v : string) : option options :=
    if v =? "source_relative" then Some (with_mode SourceRelativeMode o)
    else if v =? "import" then Some (with_mode ImportMode o) else None.
  Definition add_plugin (path sha : string) (o : options) : options :=
    {| o_mode := o_mode o; o_prefix := o_prefix o; o_imports := o_imports o; o_plugins := (o_plugins o ++ [{| w_path := path; w_sha := sha |}])%list |}.
  (** generator.go:837-855, 857-869, 871-883 *)
  Definition parseFile (o : options) (v : string) : option options :=
    match split ":"%char v with
    | [path; sha] => match abs path with Some p => Some (add_plugin p sha o) | None => None end
    | _ => None
    end.
  Definition parseURL (scheme : string) (o : options) (v : string) : option options :=
    match split ":"%char v with
    | [path; sha] => match download (scheme ++ path) with Some p => Some (add_plugin p sha o) | None => None end
    | _ => None
    end.
  (** generator.go:816-822. The map is iterated in any order. *)
  Definition scheme_parsers : list (string * (options -> string -> option options)) :=
    [("file://", parseFile); ("http://", parseURL "http://"); ("https://", parseURL "https://")].
  (** generator.go:824-835, for one order of the map *)
  Fixpoint parsePlugins (order : list (string * (options -> string -> option options))) (o : options) (v : string) : option options :=
    match order with
    | [] => None
    | (scheme, parser) :: rest => match after scheme v with Some v' => parser o v' | None => parsePlugins rest o v end
    end.
  (** generator.go:929-932 *)
  Definition parseImportPaths (o : options) (v : string) : option options :=
    Some {| o_mode := o_mode o; o_prefix := o_prefix o; o_imports := (o_imports o ++ [v])%list; o_plugins := o_plugins o |}.
  (** generator.go:762-794, 914-927 *)
  Definition parseOpt (order : list (string * (options -> string -> option options))) (o : options) (pat : string) : option options :=
    if pat =? "" then Some o
    else match split "="%char pat with
         | [kind; value] =>
             if kind =? "module" then parseModule o value
             else if kind =? "paths" then parsePaths o value
             else if kind =? "plugins" then parsePlugins order o value
             else if kind =? "import_paths" then parseImportPaths o value
             else None
         | _ => None
         end.
  (** generator.go:750-760, 905-907 *)
  Definition parseOptString (order : list (string * (options -> string -> option options))) (s : string) : option options :=
    fold_left (fun acc pat => match acc with Some o => parseOpt order o pat | None => None end) (split ","%char s) (Some no_options).
  (** config.go:41-46 *)
  Definition optString (opts : list string) : string := join "," opts.
End World.

(** * Running the code generation plugins *)
Section Eval.
  Context {request bytes : Type}.
  Variable empty : bytes.
  (** proto.Marshal of the request made for a result, os.ReadFile, the hex SHA-256, and whether the module runs without error
      on the given standard input. *)
  Variable encode : request -> bytes.
  Variable read : string -> option bytes.
  Variable sha256 : bytes -> string.
  Variable exec : bytes -> bytes -> bool.

  Inductive outcome := Done | ReadError (path : string) | HashError (path : string) | RunError (path : string).
  (** generator.go:719-739: the plugins of one result. [buf] is the reader they share, emptied after each (line 737).
      Runs are recorded: module and standard input. A plugin need not read all of its input; what it leaves is dropped too. *)
  Fixpoint evalPlugins (ps : list wasm) (buf : bytes) : list (bytes * bytes) * outcome :=
    match ps with
    | [] => ([], Done)
    | p :: ps' =>
        match read (w_path p) with
        | None => ([], ReadError (w_path p))
        | Some file =>
            if negb (w_sha p =? sha256 file) then ([], HashError (w_path p))
            else if negb (exec file buf) then ([(file, buf)], RunError (w_path p))
            else let '(t, o) := evalPlugins ps' empty in ((file, buf) :: t, o)
        end
    end.
  (** generator.go:690-739 *)
  Fixpoint evalAll (results : list request) (ps : list wasm) : list (bytes * bytes) * outcome :=
    match results with
    | [] => ([], Done)
    | r :: results' =>
        match evalPlugins ps (encode r) with
        | (t, Done) => let '(t', o) := evalAll results' ps in ((t ++ t')%list, o)
        | (t, o) => (t, o)
        end
    end.
End Eval.
