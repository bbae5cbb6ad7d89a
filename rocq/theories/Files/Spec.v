(** * What it means to process files in order *)

From Coq Require Import List Bool Arith Permutation.
From Verif.Files Require Import Model.
Import ListNotations.

(** Every file in the list comes after those of its dependencies that satisfy
    [among]. *)
Definition ordered (deps : nat -> list nat) (among : nat -> Prop) (l : list nat) : Prop :=
  forall l1 f l2, l = l1 ++ f :: l2 -> forall d, In d (deps f) -> among d -> In d l1.

(** [g] is a dependency, of one or more steps, of [f] among the files [fs]. *)
Inductive path (deps : nat -> list nat) (fs : list nat) : nat -> nat -> Prop :=
| path_one : forall f d, In f fs -> In d fs -> In d (deps f) -> path deps fs f d
| path_more : forall f d g, In f fs -> In d fs -> In d (deps f) -> path deps fs d g ->
    path deps fs f g.

Definition cycle (deps : nat -> list nat) (fs : list nat) (f : nat) : Prop := path deps fs f f.

Definition acyclic (deps : nat -> list nat) (fs : list nat) : Prop :=
  forall f, ~ cycle deps fs f.

(** Reached over dependencies, in any number of steps. *)
Inductive reach (deps : nat -> list nat) : nat -> nat -> Prop :=
| reach_self : forall f, reach deps f f
| reach_dep : forall f d g, In d (deps f) -> reach deps d g -> reach deps f g.

(** The files needed: the given ones, and those that compiling an import of the file
    option of a needed file gives, unless it is a proto import too. *)
Inductive needed (rule : nat -> option (list nat)) (compile : nat -> option (list nat))
  (deps : nat -> list nat) (files : list nat) : nat -> Prop :=
| needed_file : forall f, In f files -> needed rule compile deps files f
| needed_import : forall f ps p ds g, needed rule compile deps files f ->
    rule f = Some ps -> In p ps -> ~ In p (deps f) -> compile p = Some ds -> In g ds ->
    needed rule compile deps files g.

(** The imports to compile. *)
Definition to_compile (rule compile : nat -> option (list nat)) (deps : nat -> list nat)
  (files : list nat) (f p : nat) : Prop :=
  needed rule compile deps files f /\ (exists ps, rule f = Some ps /\ In p ps) /\ ~ In p (deps f).

(** Some order of a list. *)
Definition some_order (f : list nat -> list nat) : Prop := forall l, Permutation (f l) l.
