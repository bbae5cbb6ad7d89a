(** * What variables a shared message sees *)

From Coq Require Import String List Bool Arith Permutation.
From Verif.Shared Require Import Model.
Import ListNotations.

(** Service [s] declares [n] with type [t]; service options declare a name once. *)
Definition declares (s : service) (n : string) (t : type) : Prop :=
  exists l, sv_vars s = Some l /\ In (n, t) l.

Definition distinct_names (s : service) : Prop :=
  forall l, sv_vars s = Some l -> NoDup (map fst l).

(** All services that use the message declare [n]. *)
Definition common (svcs : list service) (m : nat) (n : string) : Prop :=
  (exists s, In s svcs /\ sv_uses s m = true) /\
  forall s, In s svcs -> sv_uses s m = true -> exists t, declares s n t.

(** Types alike in structure: the same kind, both or neither repeated, and, for
    messages, fields with the same names whose types are alike. *)
Inductive alike (F : fields) : type -> type -> Prop :=
| alike_plain : forall l r,
    ty_kind l = ty_kind r -> ty_repeated l = ty_repeated r ->
    ty_message l = None -> ty_message r = None -> alike F l r
| alike_message : forall l r ml mr,
    ty_kind l = ty_kind r -> ty_repeated l = ty_repeated r ->
    ty_message l = Some ml -> ty_message r = Some mr ->
    (forall n, In n (map fst (F ml)) <-> In n (map fst (F mr))) ->
    (forall n t t', In (n, t) (F ml) -> In (n, t') (F mr) -> alike F t t') ->
    alike F l r.

(** Fields of a message have distinct names, and messages do not contain each
    other in a cycle. *)
Definition well_formed (F : fields) : Prop :=
  (forall m, NoDup (map fst (F m))) /\
  exists rank : nat -> nat, forall m n t m', In (n, t) (F m) -> ty_message t = Some m' ->
    rank m' < rank m.

(** Some order of a set of names. *)
Definition some_order (f : list string -> list string) : Prop :=
  forall l, Permutation (f l) l.
