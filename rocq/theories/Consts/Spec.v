(** * What error handlers are told *)

From Coq Require Import String List.
From Verif.Ident Require Import Model.
From Verif.Deps Require Import Model Spec.
From Verif.Consts Require Import Model.
Import ListNotations.
Local Open Scope string_scope.

(** The path of a method, as in gRPC requests. *)
Definition path (r : remote) : string := "/" ++ rm_service r ++ "/" ++ rm_name r.

(** A message the service resolves calls method [k]. *)
Definition called (s : schema) (sv : service) (k : nat) : Prop :=
  exists m d, resolves s sv m /\ has_definition s m d /\ calls d k.

(** ** What the search sees *)

(** Messages made by definitions other than calls, from the responses of the methods. *)
Inductive made_plainly (s : schema) : nat -> nat -> Prop :=
| plainly_self : forall m, made_plainly s m m
| plainly_step : forall m d0 d m1 m', defines s m d0 -> (forall k, ~ calls d0 k) ->
    within d0 d -> creates d m1 -> made_plainly s m1 m' -> made_plainly s m m'.

Definition response (mt : method) : nat :=
  match mt_custom mt with Some r => r | None => mt_response mt end.

(** A call that is a definition of its own in such a message. *)
Definition called_plainly (s : schema) (sv : service) (k : nat) : Prop :=
  exists mt m d, In mt (sv_methods sv) /\ made_plainly s (response mt) m /\ defines s m d /\ calls d k.

(** ** Restrictions *)

(** Error rules have no calls among their definitions, and those of calls make no messages. *)
Definition plain_rules (s : schema) : Prop :=
  forall m d e d1 d', defines s m d -> error_rule d e -> defined_by e d1 -> within d1 d' ->
    (forall k, ~ calls d' k) /\ ((exists k, calls d k) -> forall m', ~ creates d' m').

(** How the generated file names a method: the Go name of its service, and its own name. *)
Definition spelled (r : remote) : string := go_name (rm_service r) ++ "_" ++ rm_name r.

(** No two of these methods are spelled alike. *)
Definition told_apart (table : nat -> remote) (ks : nat -> Prop) : Prop :=
  forall k k', ks k -> ks k' -> spelled (table k) = spelled (table k') -> table k = table k'.

(** These methods have names that are public Go names already, as GetPost is and getPost is not. *)
Definition public_names (table : nat -> remote) (ks : nat -> Prop) : Prop :=
  forall k, ks k -> public (rm_name (table k)) = rm_name (table k).
