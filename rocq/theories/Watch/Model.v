(** The file watcher.
    Models: generator/watcher.go:48-71 (setWatchPathRecursive), 88-159 (the event loops, handleEvent, the filters, the working flag). *)
From Coq Require Import Ascii String List Bool Arith.
From Verif.Base Require Import Text.
Import ListNotations.
Local Open Scope string_scope.

(** * Filters *)
Record ops := { o_write : bool; o_create : bool; o_remove : bool; o_rename : bool; o_chmod : bool }.
(** watcher.go:118-123 *)
Definition isModified (o : ops) : bool := o_write o || o_create o || o_remove o || o_rename o.
(** path/filepath.Ext: from the last dot after the last slash *)
Fixpoint ext (s : string) : string :=
  match s with
  | EmptyString => ""
  | String c s' =>
      match ext s' with
      | EmptyString => if Ascii.eqb c "." && negb (has_char "/"%char s') then s else ""
      | e => e
      end
  end.
(** watcher.go:125-136 *)
Definition ignoreFilePath (path : string) : bool :=
  if String.prefix "#" path then true else if String.prefix "." path then true else negb (ext path =? ".proto").

(** * The directories watched *)
Inductive tree := File | Dir (children : list (string * tree)).
(** filepath.Join of a directory and an entry of it. Simplification: directories are clean but for one leading "./". *)
Definition strip_dot (s : string) : string := match s with String "." (String "/" s') => s' | _ => s end.
Definition joinPath (dir name : string) : string := if dir =? "." then name else strip_dot dir ++ "/" ++ name.
(** watcher.go:48-64: filepath.Walk visits everything below the root. Simplification: no walk errors. *)
Fixpoint walk (p : string) (t : tree) : list string :=
  match t with
  | File => []
  | Dir children => (if String.prefix "." p then [] else [p]) ++ flat_map (fun c => walk (joinPath p (fst c)) (snd c)) children
  end.
(** watcher.go:65-69: the directories given to fsnotify *)
Definition watchedDirs (srcs : list (string * tree)) : list string := flat_map (fun st => walk (fst st) (snd st)) srcs.

(** * The loops *)
Definition path := string.
(** An event, with the number of changes of the file at the time (for the statement only). *)
Record event := { e_path : path; e_ops : ops; e_version : nat }.
Inductive receiver := Idle | Got (e : event) | Running (e : event) | Ran (e : event).
Record state := {
  version : path -> nat;          (* changes of each file so far *)
  handled : path -> nat;          (* the version the generator last read *)
  queue : list event;             (* fsnotify's Events *)
  sending : option event;         (* the sender is blocked with this event (line 115) *)
  recv : receiver;
  working : bool;
  missed : list event;            (* taken and dropped because of the flag (line 107), for the statement only *)
  runs : list path }.             (* the files the generator ran on, for the statement only *)
Definition init : state := {| version := fun _ => 0; handled := fun _ => 0; queue := []; sending := None; recv := Idle; working := false; missed := []; runs := [] |}.
Definition bump (p : path) (f : path -> nat) : path -> nat := fun q => if q =? p then S (f q) else f q.
Definition update (p : path) (n : nat) (f : path -> nat) : path -> nat := fun q => if q =? p then n else f q.

Inductive action :=
| Change (p : path) (o : ops)   (* a file changes and fsnotify notices *)
| Noise (p : path) (o : ops)    (* a further event for a file: touched, or several events for one change *)
| Take                          (* sendEventLoop takes an event and runs handleEvent up to the send *)
| Receive                       (* the send meets the receive *)
| Start                         (* setWorking(true) *)
| Read                          (* the handler reads the proto file and generates *)
| Finish.                       (* setWorking(false) *)
Definition step (a : action) (s : state) : option state :=
  match a with
  | Change p o =>
      Some {| version := bump p (version s); handled := handled s; queue := queue s ++ [{| e_path := p; e_ops := o; e_version := S (version s p) |}];
              sending := sending s; recv := recv s; working := working s; missed := missed s; runs := runs s |}
  | Noise p o =>
      Some {| version := version s; handled := handled s; queue := queue s ++ [{| e_path := p; e_ops := o; e_version := version s p |}];
              sending := sending s; recv := recv s; working := working s; missed := missed s; runs := runs s |}
  | Take =>   (* watcher.go:88-116 *)
      match queue s, sending s with
      | e :: q, None =>
          let drop m := {| version := version s; handled := handled s; queue := q; sending := None; recv := recv s; working := working s; missed := m; runs := runs s |} in
          Some (if working s then drop (e :: missed s)
                else if negb (isModified (e_ops e)) then drop (missed s)
                else if ignoreFilePath (e_path e) then drop (missed s)
                else {| version := version s; handled := handled s; queue := q; sending := Some e; recv := recv s; working := working s; missed := missed s; runs := runs s |})
      | _, _ => None
      end
  | Receive =>  (* watcher.go:140 *)
      match sending s, recv s with
      | Some e, Idle => Some {| version := version s; handled := handled s; queue := queue s; sending := None; recv := Got e; working := working s; missed := missed s; runs := runs s |}
      | _, _ => None
      end
  | Start =>    (* watcher.go:141 *)
      match recv s with
      | Got e => Some {| version := version s; handled := handled s; queue := queue s; sending := sending s; recv := Running e; working := true; missed := missed s; runs := runs s |}
      | _ => None
      end
  | Read =>     (* watcher.go:142 *)
      match recv s with
      | Running e => Some {| version := version s; handled := update (e_path e) (version s (e_path e)) (handled s); queue := queue s; sending := sending s;
                             recv := Ran e; working := working s; missed := missed s; runs := e_path e :: runs s |}
      | _ => None
      end
  | Finish =>   (* watcher.go:143 *)
      match recv s with
      | Ran e => Some {| version := version s; handled := handled s; queue := queue s; sending := sending s; recv := Idle; working := false; missed := missed s; runs := runs s |}
      | _ => None
      end
  end.
Fixpoint run (l : list action) (s : state) : option state :=
  match l with [] => Some s | a :: l' => match step a s with Some s' => run l' s' | None => None end end.
