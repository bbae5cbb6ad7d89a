(** Go to definition in the language server (lsp/server/definition.go).

    What is simplified.  A file is its declarations in the order of the text: messages
    with what is declared in them, enums, and services with their methods; the
    descriptor of a file and its syntax tree are both read off this.  A place in a file
    is the path of names to the declaration there (positions are C74, C77).  The messages
    a compiler adds for map fields are left out.  Paths of
    the file system are joined, tested and cut by functions given from outside. *)

From Coq Require Import Ascii String List Arith Bool.
From Verif.Base Require Import Text.
Import ListNotations.
Local Open Scope list_scope.
Local Open Scope string_scope.

Inductive decl : Type :=
| DMsg (name : string) (body : list decl)
| DEnum (name : string).

(** descriptorpb.FileDescriptorProto: name, package, declarations and services. *)
Record file : Type := {
  f_name : string;
  f_pkg : string;
  f_decls : list decl;
  f_svcs : list (string * list string)
}.

(** definition.go:303-315 [getDeclaredTypeNames]: the message, the nested messages, the
    enums. *)
Fixpoint declared (d : decl) : list string :=
  match d with
  | DEnum _ => []
  | DMsg n body =>
      n :: (map (fun x => (n ++ "." ++ x)%string) (flat_map declared body)
            ++ map (fun x => (n ++ "." ++ x)%string)
                   (flat_map (fun e => match e with DEnum m => [m] | DMsg _ _ => [] end) body))%list
  end.

Section Goto.
  (** [filepath.Base], [filepath.Join] made absolute, and whether a file exists. *)
  Variable base : string -> string.
  Variable join_path : string -> string -> string.
  Variable stat : string -> bool.
  Variable import_paths : list string.
  (** The file on disk at a path, read and parsed: definition.go:155-162, 195-202. *)
  Variable read_decls : string -> option (list decl).
  Variable read_svcs : string -> option (list (string * list string)).

  (** strings.HasSuffix. *)
  Definition has_suffix (s suffix : string) : bool :=
    let n := String.length s in
    let m := String.length suffix in
    Nat.leb m n && String.eqb (substring (n - m) m s) suffix.

  (** definition.go:348-355 [currentPackageName]. *)
  Fixpoint current_package (path : string) (files : list file) : option string :=
    match files with
    | [] => None
    | f :: r => if has_suffix path (f_name f) then Some (f_pkg f) else current_package path r
    end.

  (** The loop of definition.go:362-374. *)
  Fixpoint find_import (imports : list string) (name : string) : option string :=
    match imports with
    | [] => None
    | i :: r => if stat (join_path i name) then Some (join_path i name) else find_import r name
    end.

  (** definition.go:357-376 [filePathFromFileDescriptorProto]. *)
  Definition file_path (path : string) (f : file) : option string :=
    if String.eqb (base path) (f_name f) then Some path
    else find_import import_paths (f_name f).

  (** definition.go:128-148 [findImportFileDefinition]. *)
  Fixpoint find_import_file (path : string) (files : list file) (name : string) : option string :=
    match files with
    | [] => None
    | f :: r =>
        match file_path path f with
        | None => find_import_file path r name
        | Some fp => if has_suffix fp name then Some fp else find_import_file path r name
        end
    end.

  (** The name of a type from the current package: definition.go:288-293. *)
  Definition type_name (cur pkg name : string) : string :=
    if String.eqb pkg cur then name else pkg ++ "." ++ name.

  (** The loop of definition.go:279-299. *)
  Fixpoint type_loop (path cur : string) (files : list file) (asked : string)
    : option (string * string) :=
    match files with
    | [] => None
    | f :: r =>
        match file_path path f with
        | None => type_loop path cur r asked
        | Some fp =>
            if existsb (fun n => String.eqb asked (type_name cur (f_pkg f) n))
                       (flat_map declared (f_decls f))
            then Some (asked, fp)
            else type_loop path cur r asked
        end
    end.

  (** definition.go:273-301 [typeAndFilePath]. *)
  Definition type_and_path (path : string) (files : list file) (asked : string)
    : option (string * string) :=
    match current_package path files with
    | None => None
    | Some cur => type_loop path cur files asked
    end.

  (** definition.go:167-181: the walk over the syntax tree; a declaration of the name is
      kept, and a later one replaces it. *)
  Fixpoint visit (name : string) (prefix : list string) (d : decl) (found : option (list string))
    : option (list string) :=
    match d with
    | DEnum n => if String.eqb n name then Some (prefix ++ [n])%list else found
    | DMsg n body =>
        let here := (prefix ++ [n])%list in
        fold_left (fun acc e => visit name here e acc) body
                  (if String.eqb n name then Some here else found)
    end.

  Definition walk (name : string) (ds : list decl) : option (list string) :=
    fold_left (fun acc d => visit name [] d acc) ds None.

  (** The last part of a name: definition.go:164-165. *)
  Definition last_part (s : string) : string := last (split "."%char s) "".

  (** definition.go:150-188 [findTypeDefinition]: the file and the declaration. *)
  Definition find_type (path : string) (files : list file) (asked : string)
    : option (string * list string) :=
    match type_and_path path files asked with
    | None => None
    | Some (tn, fp) =>
        match read_decls fp with
        | None => None
        | Some ds =>
            match walk (last_part tn) ds with
            | None => None
            | Some p => Some (fp, p)
            end
        end
    end.

  (** definition.go:333-338. *)
  Definition method_name (cur pkg svc m : string) : string :=
    if String.eqb pkg cur then svc ++ "/" ++ m else pkg ++ "." ++ svc ++ "/" ++ m.

  (** The loops of definition.go:330-343 over the methods of one file. *)
  Definition method_in (cur : string) (f : file) (asked : string) : option string :=
    match find (fun sm => String.eqb asked (method_name cur (f_pkg f) (fst sm) (snd sm)))
               (flat_map (fun s => map (fun m => (fst s, m)) (snd s)) (f_svcs f)) with
    | Some (_, m) => Some m
    | None => None
    end.

  Fixpoint method_loop (path cur : string) (files : list file) (asked : string)
    : option (string * string) :=
    match files with
    | [] => None
    | f :: r =>
        match file_path path f with
        | None => method_loop path cur r asked
        | Some fp =>
            match method_in cur f asked with
            | Some m => Some (m, fp)
            | None => method_loop path cur r asked
            end
        end
    end.

  (** definition.go:317-346 [methodAndFilePath]. *)
  Definition method_and_path (path : string) (files : list file) (asked : string)
    : option (string * string) :=
    match current_package path files with
    | None => None
    | Some cur => method_loop path cur files asked
    end.

  (** definition.go:204-212: the walk keeps the last method of the name. *)
  Definition walk_methods (name : string) (svcs : list (string * list string))
    : option (string * string) :=
    fold_left (fun acc sm => if String.eqb (snd sm) name then Some sm else acc)
              (flat_map (fun s => map (fun m => (fst s, m)) (snd s)) svcs) None.

  (** definition.go:190-219 [findMethodDefinition]: the file, the service and the method. *)
  Definition find_method (path : string) (files : list file) (asked : string)
    : option (string * (string * string)) :=
    match method_and_path path files asked with
    | None => None
    | Some (m, fp) =>
        match read_svcs fp with
        | None => None
        | Some svcs =>
            match walk_methods m svcs with
            | None => None
            | Some sm => Some (fp, sm)
            end
        end
    end.

  (** definition.go:80-101: the type of a field, inside the messages of the prefix; the
      types of the language have no definition. *)
  Variable builtin : string -> bool.
  Definition find_field_type (path : string) (files : list file) (prefix : list string) (t : string)
    : option (string * list string) :=
    if builtin t then None
    else match find_type path files (join "." (prefix ++ [t])%list) with
         | Some r => Some r
         | None => find_type path files t
         end.
End Goto.

(** source.Location, as far as the tests look: source/location.go.  An enum with the
    alias option of itself or of its value; a message with its alias option, the name of
    the message and the method of a definition, a field with its type and its alias
    option, a nested message and an enum. *)
Record eloc : Type := { e_alias : bool; e_value_alias : bool }.
Inductive mloc : Type :=
| MLoc (name : string) (alias def_message def_method : bool) (field : option (bool * bool))
       (nested : option mloc) (enum : option eloc).
Record loc : Type := { l_import : string; l_msg : option mloc; l_enum : option eloc }.

(** definition.go:429-442 [isTypeAliasByEnum]. *)
Definition is_alias_enum (e : option eloc) : bool :=
  match e with
  | None => false
  | Some x => e_alias x || e_value_alias x
  end.

(** definition.go:408-427 [isTypeAliasByMessage]. *)
Fixpoint is_alias_msg (m : mloc) : bool :=
  match m with
  | MLoc _ alias _ _ field nested enum =>
      if alias then true
      else if match field with Some (_, a) => a | None => false end then true
      else match nested with
           | Some n => is_alias_msg n
           | None => is_alias_enum enum
           end
  end.

(** definition.go:444-457 [isFieldType]. *)
Fixpoint is_field_type (m : mloc) : bool :=
  match m with
  | MLoc _ _ _ _ field nested _ =>
      if match nested with Some n => is_field_type n | None => false end then true
      else match field with Some (t, _) => t | None => false end
  end.

(** What is looked for. *)
Inductive target : Type := TImport | TMessage | TFieldType | TAlias | TMethod | TNothing.

(** definition.go:60-125: the cases of the switch, with [isImportNameDefinition] (378-380),
    [isMessageNameDefinition] (382-396), [isTypeAlias] (398-406) and
    [isMethodNameDefinition] (459-473). *)
Definition dispatch (l : loc) : target :=
  if negb (String.eqb (l_import l) "") then TImport
  else if match l_msg l with Some (MLoc _ _ d _ _ _ _) => d | None => false end then TMessage
  else if match l_msg l with Some m => is_field_type m | None => false end then TFieldType
  else if match l_msg l with Some m => is_alias_msg m | None => false end || is_alias_enum (l_enum l) then TAlias
  else if match l_msg l with Some (MLoc _ _ _ d _ _ _) => d | None => false end then TMethod
  else TNothing.
