(** * What a federation service needs *)

From Coq Require Import List Arith Bool.
From Verif.Deps Require Import Model.
Import ListNotations.

(** ** Definitions in definitions *)

(** The error rules of a definition. *)
Inductive error_rule : def -> error -> Prop :=
| rule_of_call : forall a svc errs e, In e errs -> error_rule (Def a (XCall svc errs)) e
| rule_of_validation : forall a e, error_rule (Def a (XValidation e)) e.

(** The definitions of an error rule: its own and those of its details. *)
Inductive defined_by : error -> def -> Prop :=
| by_rule : forall defs details d, In d defs -> defined_by (Err defs details) d
| by_detail : forall defs details ds ms d,
    In (Detail ds ms) details -> In d ds \/ In d ms -> defined_by (Err defs details) d.

(** [d'] is [d], or is written somewhere inside it. *)
Inductive within : def -> def -> Prop :=
| within_here : forall d, within d d
| within_rule : forall d e d1 d', error_rule d e -> defined_by e d1 -> within d1 d' ->
    within d d'.

(** The definitions of a message option, and those of the oneof rules of its
    fields. *)
Inductive defines (s : schema) (m : nat) : def -> Prop :=
| defines_own : forall d, ms_rule (msg s m) = true -> In d (ms_defs (msg s m)) ->
    defines s m d
| defines_oneof : forall f d, ms_rule (msg s m) = true -> In f (ms_fields (msg s m)) ->
    fd_rule f = true -> In d (fd_defs f) -> defines s m d.

Definition has_definition (s : schema) (m : nat) (d : def) : Prop :=
  exists d0, defines s m d0 /\ within d0 d.

Definition creates (d : def) (m : nat) : Prop :=
  expr_of d = XMessage m \/ expr_of d = XMap m.

Definition calls (d : def) (svc : nat) : Prop :=
  exists errs, expr_of d = XCall svc errs.

(** ** What a service needs *)

(** Messages made from others by their definitions. *)
Inductive made_from (s : schema) : nat -> nat -> Prop :=
| made_self : forall m, made_from s m m
| made_step : forall m d m1 m', has_definition s m d -> creates d m1 ->
    made_from s m1 m' -> made_from s m m'.

(** The messages a service starts from: the responses of its methods, a custom
    response in place of the declared one, and the messages of its variables. *)
Definition starts (sv : service) (m : nat) : Prop :=
  (exists mt, In mt (sv_methods sv) /\
     m = match mt_custom mt with Some r => r | None => mt_response mt end)
  \/ In m (sv_vars sv).

Definition resolves (s : schema) (sv : service) (m : nat) : Prop :=
  exists m0, starts sv m0 /\ made_from s m0 m.

(** A message of the service calls a method of service [c]. *)
Definition needs_client (s : schema) (sv : service) (c : nat) : Prop :=
  exists m d, resolves s sv m /\ has_definition s m d /\ calls d c.

(** A message of the service, or a field of one, has a custom resolver. *)
Definition needs_custom (s : schema) (sv : service) (m : nat) (f : option nat) : Prop :=
  resolves s sv m /\
  match f with
  | None => ms_rule (msg s m) = true /\ ms_custom (msg s m) = true
  | Some i => exists fd, nth_error (ms_fields (msg s m)) i = Some fd /\
                fd_rule fd = true /\ fd_custom fd = true
  end.

(** ** Restrictions *)

(** Error rules are found only in the definitions of a message option itself, not
    in oneof rules and not in the definitions of other error rules. *)
Definition shallow (s : schema) : Prop :=
  forall m d e d', defines s m d -> error_rule d e -> defined_by e d' ->
    In d (ms_defs (msg s m)) /\ (forall e' d'', error_rule d' e' -> ~ defined_by e' d'').

(** No two definitions have one address. *)
Definition addresses (s : schema) : Prop :=
  forall m m' d d', has_definition s m d -> has_definition s m' d' ->
    addr_of d = addr_of d' -> d = d'.

Definition acyclic (s : schema) : Prop :=
  exists rank : nat -> nat, forall m d m',
    has_definition s m d -> creates d m' -> rank m' < rank m.
