(** What a method owes to its caller. The definitions do not use the functions of the model, but for its data. *)
From Coq Require Import String List Bool ZArith Permutation.
From Verif.Args Require Import Model.
From Verif.Entry Require Import Model.
Import ListNotations.
Local Open Scope string_scope.

(** The message that is resolved for a method: the one of the option response, or the declared one. *)
Definition resolves (m : method) (res : nat) : Prop :=
  (exists r, m_rule m = Some r /\ r_response r = Some res) \/ ((forall r, m_rule m = Some r -> r_response r = None) /\ res = response m).
Definition replaced (m : method) : Prop := exists r res, m_rule m = Some r /\ r_response r = Some res.
Definition limited (m : method) (d : Z) : Prop := exists r, m_rule m = Some r /\ r_timeout r = Some d.

(** Types that are the same in the generated code. *)
Definition same_type (a b : type) : Prop := ty_kind a = ty_kind b /\ ty_repeated a = ty_repeated b.
Definition has_field (fs : list field) (f : field) : Prop := exists t, In (fst f, t) fs /\ same_type t (snd f).

(** The names of a message's fields are unique, and the types of fields are no null types. *)
Definition proper (F : nat -> list field) : Prop := forall m, NoDup (map fst (F m)) /\ forall f, In f (F m) -> ty_null (snd f) = false.

(** What the resolver of the response is to be given: every field of the request with its value. *)
Definition own_fields {V} (fs : list field) (req : string -> V) : list (string * V) := map (fun f => (fst f, req (fst f))) fs.

Section Answer.
  Variables V R E : Type.
  Variable resolve : nat -> list (string * V) -> R + E.
  Variable cast : nat -> nat -> R -> R + E.
  Variable timed : Z -> (R + E) -> R + E.
  (** What comes of the resolution of message [res] with given arguments. *)
  Inductive outcome (m : method) (args : list (string * V)) : R + E -> Prop :=
  | outcome_plain : (forall d, ~ limited m d) -> ~ replaced m -> outcome m args (resolve (response m) args)
  | outcome_limited d : limited m d -> ~ replaced m -> outcome m args (timed d (resolve (response m) args))
  | outcome_failed res e : (forall d, ~ limited m d) -> replaced m -> resolves m res -> resolve res args = inr e -> outcome m args (inr e)
  | outcome_cast res v : (forall d, ~ limited m d) -> replaced m -> resolves m res -> resolve res args = inl v -> outcome m args (cast res (response m) v).
  (** The answer: the outcome; an error is recorded and logged, once. *)
  Inductive answers (m : method) (args : list (string * V)) : (R + E) * list (event E) -> Prop :=
  | answers_value v : outcome m args (inl v) -> answers m args (inl v, [])
  | answers_error e : outcome m args (inr e) -> answers m args (inr e, [Span E e; Log E e]).
End Answer.

(** A method that works: it compiles, and for every request its answer is what comes of its response, resolved with the fields of the request. *)
Definition works (F : nat -> list field) (inner : nat -> option (list field)) (order : list method) (m : method) : Prop :=
  compiles F inner order m = true /\
  forall V R E (zero : type -> V) (resolve : nat -> list (string * V) -> R + E) cast timed (req : string -> V),
    answers V R E resolve cast timed m (own_fields (F (request m)) req) (serve F inner V R E zero resolve cast timed order m req).

(** The rule of a method is right: the timeout is a duration, the response is a message with the fields of the declared response. *)
Definition like (t t' : type) : Prop :=
  (exists a b, ty_kind t = KNumber a /\ ty_kind t' = KNumber b) \/ (ty_kind t = KEnum /\ exists b, ty_kind t' = KNumber b) \/
  (exists a b, ty_kind t = KMessage a /\ ty_kind t' = KMessage b) \/ ty_kind t = ty_kind t'.
Definition good_rule (parse : string -> option Z) (by_name : string -> option nat) (F : nat -> list field) (res : nat) (d : rule_def) : Prop :=
  (d_timeout d = "" \/ exists z, parse (d_timeout d) = Some z) /\
  (d_response d = "" \/ exists m, by_name (d_response d) = Some m /\ forall f, In f (F res) -> exists t, In (fst f, t) (F m) /\ like t (snd f)).
