(** * What a file has *)

From Coq Require Import Ascii String List Bool Sorted.
From Verif.Base Require Import Sort.
From Verif.Enums Require Import Model.
Import ListNotations.
Local Open Scope string_scope.

(** [g] is [f] or a file it imports, at any distance. *)
Inductive reaches : file -> file -> Prop :=
| reaches_self : forall f, reaches f f
| reaches_import : forall n es ms ps imports g h, In g imports -> reaches g h -> reaches (File n es ms ps imports) h.

(** [e] is declared in the message, or in one nested in it. *)
Inductive in_message : message -> enum -> Prop :=
| in_here : forall es nested e, In e es -> in_message (Message es nested) e
| in_nested : forall es nested m e, In m nested -> in_message m e -> in_message (Message es nested) e.

Inductive declares : file -> enum -> Prop :=
| declares_top : forall n es ms ps imports e, In e es -> declares (File n es ms ps imports) e
| declares_message : forall n es ms ps imports m e, In m ms -> in_message m e -> declares (File n es ms ps imports) e.

(** An enum the file can name: declared in it or in a file it imports. *)
Definition available (f : file) (e : enum) : Prop := exists g, reaches f g /\ declares g e.

Definition has_plugin (g : file) (p : plugin) : Prop := match g with File _ _ _ ps _ => In p ps end.
Definition plugin_available (f : file) (p : plugin) : Prop := exists g, reaches f g /\ has_plugin g p.

(** Files with one name are one file. *)
Definition one_file_per_name (fs : list file) : Prop :=
  forall f f' g g', In f fs -> In f' fs -> reaches f g -> reaches f' g' -> fname g = fname g' -> g = g'.

(** Strictly ascending keys, so none twice. *)
Definition ascending {A : Type} (key : A -> string) (l : list A) : Prop :=
  StronglySorted (fun a b => str_leb (key a) (key b) = true /\ key a <> key b) l.
