(** When the watcher has nothing left to do, and what it should have done. *)
From Coq Require Import Ascii String List Bool Arith.
From Verif.Base Require Import Text.
From Verif.Watch Require Import Model.
Import ListNotations.
Local Open Scope string_scope.

(** What the outside does, as opposed to the watcher's own steps *)
Definition external (a : action) : Prop := match a with Change _ _ | Noise _ _ => True | _ => False end.
(** The watcher cannot move by itself. *)
Definition stopped (s : state) : Prop := forall a, ~ external a -> step a s = None.
Definition up_to_date (s : state) (p : path) : Prop := handled s p = version s p.
(** A change that the generator should react to: a proto file, and not a mere change of permissions. *)
Definition proto_change (a : action) : Prop :=
  match a with
  | Change p o => (o_write o = true \/ o_create o = true \/ o_remove o = true \/ o_rename o = true) /\
                  (exists b, p = b ++ ".proto") /\ ~ (exists b, p = "#" ++ b) /\ ~ (exists b, p = "." ++ b)
  | _ => True
  end.

(** * Trees *)
(** A file at the given place below a directory *)
Inductive below : string -> tree -> string -> string -> Prop :=
| Here p children name : In (name, File) children -> below p (Dir children) p name
| Deeper p children name t dir file : In (name, t) children -> below (joinPath p name) t dir file -> below p (Dir children) dir file.
(** fsnotify reports the events of the entries of the directories it is given. *)
Definition noticed (srcs : list (string * tree)) (dir file : string) : Prop :=
  In dir (watchedDirs srcs) /\ ignoreFilePath (joinPath dir file) = false.
