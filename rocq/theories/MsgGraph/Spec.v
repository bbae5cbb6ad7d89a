(** Dependencies between messages, read off the definitions. *)
From Coq Require Import List Arith.
From Verif.MsgGraph Require Import Model.
Import ListNotations.

(** A message name is used somewhere in an expression, including error handlers, details. *)
Inductive mentions : mexpr -> nat -> Prop :=
| by_message m : mentions (XMessage (Some m)) m
| by_map m : mentions (XMap (Some (Some m))) m
| by_call errs e m : In e errs -> err_mentions e m -> mentions (XCall errs) m
| by_validation e m : err_mentions e m -> mentions (XValidation (Some e)) m
with err_mentions : gerr -> nat -> Prop :=
| in_def defs dts d m : In d defs -> mentions d m -> err_mentions (GErr defs dts) m
| in_detail defs dts dt m : In dt dts -> detail_mentions dt m -> err_mentions (GErr defs dts) m
with detail_mentions : gdetail -> nat -> Prop :=
| in_detail_def defs msgs d m : In d (defs ++ msgs) -> mentions d m -> detail_mentions (GDetail defs msgs) m.

(** Message [a] needs message [b]; both have a federation rule. *)
Definition needs (ms : list message) (a b : nat) : Prop :=
  exists da db x, nth_error ms a = Some da /\ nth_error ms b = Some db /\
    has_rule da = true /\ has_rule db = true /\
    In x (msg_defs da ++ concat (oneof_defs da)) /\ mentions x b.

(** One or more steps of [needs]. *)
Inductive needs_plus (ms : list message) (a : nat) : nat -> Prop :=
| needs_one b : needs ms a b -> needs_plus ms a b
| needs_more b c : needs_plus ms a b -> needs ms b c -> needs_plus ms a c.

Definition cyclic (ms : list message) (a : nat) : Prop := needs_plus ms a a.

(** A message with a rule that no other message needs. *)
Definition is_root (ms : list message) (r : nat) : Prop :=
  (exists d, nth_error ms r = Some d /\ has_rule d = true) /\ forall a, ~ needs ms a r.

Definition reports_cycle (res : option (bool * list gerror)) : Prop :=
  exists b es p, res = Some (b, es) /\ In (CyclicDependency p) es.

(** A message some root needs, directly or not, or a root itself. *)
Definition used_from_root (ms : list message) (u : nat) : Prop :=
  exists r, is_root ms r /\ (r = u \/ needs_plus ms r u).

(** Every message number used in a definition denotes a message. *)
Definition well_formed (ms : list message) : Prop :=
  forall d x m, In d ms -> In x (msg_defs d ++ concat (oneof_defs d)) -> mentions x m ->
    m < length ms.
