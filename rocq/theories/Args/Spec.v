(** * What the callers of a message pass to it *)

From Coq Require Import String List Bool Arith.
From Verif.Args Require Import Model.
Import ListNotations.

Section Spec.
Variable F : nat -> list field.
Variable children : nat -> list nat.
Variable calls : nat -> nat -> list expr.
Variable has_rule : nat -> bool.

(** A message expression passes [n] with type [t]: by an argument of its own, or as
    a field of an inline message. *)
Inductive passes (e : expr) (n : string) (t : type) : Prop :=
| passes_by : forall a, In a e -> a_name a = n -> a_value a = Some (false, Some t) ->
    passes e n t
| passes_inline : forall a t' m, In a e -> a_value a = Some (true, Some t') ->
    ty_kind t' = KMessage m -> In (n, t) (F m) -> passes e n t.

(** It mentions [n] (whether or not the type of the value is known). *)
Inductive mentions (e : expr) (n : string) : Prop :=
| mentions_by : forall a, In a e -> a_name a = n -> n <> ""%string -> mentions e n
| mentions_inline : forall a t' m, In a e -> a_value a = Some (true, Some t') ->
    ty_kind t' = KMessage m -> In n (map fst (F m)) -> mentions e n.

(** [n] is the name of an argument of one of the expressions. *)
Definition named_arg (es : list expr) (n : string) : Prop :=
  n <> ""%string /\ exists e a, In e es /\ In a e /\ a_name a = n.

(** An inline value that is not a message. *)
Definition inline_error (e : expr) : Prop :=
  exists a t, In a e /\ a_value a = Some (true, Some t) /\ forall m, ty_kind t <> KMessage m.

(** The arguments as the documentation wants them: every argument has a value,
    arguments given by an expression have a name, inline arguments have none. *)
Definition tidy (e : expr) : Prop :=
  forall a, In a e -> exists i t, a_value a = Some (i, t) /\
    (if i : bool then a_name a = ""%string else a_name a <> ""%string).

(** Fields of messages have names. *)
Definition named (fs : list field) : Prop := ~ In ""%string (map fst fs).

(** Types that may be declared under one name: the first one and a later one. *)
Definition compatible (t0 t : type) : Prop :=
  (exists x y, ty_kind t0 = KNumber x /\ ty_kind t = KNumber y) \/
  (ty_kind t0 = KEnum /\ exists y, ty_kind t = KNumber y) \/
  (ty_null t0 = true /\
     (ty_repeated t = true \/ (exists m, ty_kind t = KMessage m) \/ ty_kind t = KBytes)) \/
  ty_kind t0 = ty_kind t \/
  (exists m m', ty_kind t0 = KMessage m /\ ty_kind t = KMessage m').

(** [c] is reached from [m] over messages with a rule. *)
Inductive reaches (m : nat) : nat -> Prop :=
| reaches_here : reaches m m
| reaches_step : forall c d, reaches m c -> In d (children c) -> has_rule d = true ->
    reaches m d.

(** [c] calls [d] with [e], below some root of [rs]. *)
Definition called (rs : list (nat * option (list field))) (c d : nat) (e : expr) : Prop :=
  exists r req, In (r, req) rs /\ reaches r c /\ In d (children c) /\ has_rule d = true /\
    In e (calls c d).

(** The same below a root that is the response of a method. *)
Definition called_by_response (rs : list (nat * option (list field))) (c d : nat) (e : expr)
  : Prop :=
  exists r req, In (r, Some req) rs /\ reaches r c /\ In d (children c) /\ has_rule d = true /\
    In e (calls c d).

Definition acyclic : Prop :=
  exists rank : nat -> nat, forall c d, In d (children c) -> rank d < rank c.

(** The roots are distinct and nobody calls them. *)
Definition proper_roots (rs : list (nat * option (list field))) : Prop :=
  NoDup (map fst rs) /\
  (forall r c, In r (map fst rs) -> ~ In r (children c)) /\
  (forall r req, In (r, Some req) rs -> NoDup (map fst req) /\ named req).

(** The fields of the request of a root. *)
Definition requested (rs : list (nat * option (list field))) (d : nat) (n : string) (t : type)
  : Prop := exists req, In (d, Some req) rs /\ In (n, t) req.

End Spec.
