(** * What the variables of a service mean *)

From Coq Require Import String List Bool.
From Verif.Names Require Model.
From Verif.Ident Require Model.
From Verif.Svcvars Require Import Model.
Import ListNotations.
Local Open Scope string_scope.

Section Service.
  Variables expr other V E : Type.
  Variable check : decls -> expr -> option ty.
  Variable check_other : decls -> other -> option ty.
  Variable eval : expr -> vals V -> result V E.
  Variable eval_other : other -> vals V -> result V E.
  Variable zero : ty -> V.
  Variable as_bool : V -> option bool.
  Variable as_text : V -> option string.

  Notation var := (var expr other).
  Notation body := (body expr other).

  (** ** When a service starts *)

  Inductive ends := Up (values : list (string * V)) | Down (f : failure E).
  (** A condition holds or not, or fails. *)
  Inductive holds (m : vals V) (c : expr) : bool + failure E -> Prop :=
  | H_value : forall x b, eval c m = Got _ _ x -> as_bool x = Some b -> holds m c (inl b)
  | H_type : forall x, eval c m = Got _ _ x -> as_bool x = None -> holds m c (inr (NotConverted _))
  | H_error : forall e, eval c m = Failed _ _ e -> holds m c (inr (Failure _ e)).
  Inductive applies (m : vals V) : option expr -> bool + failure E -> Prop :=
  | A_always : applies m None (inl true)
  | A_if : forall c r, holds m c r -> applies m (Some c) r.
  (** The value of an expression. *)
  Inductive gives (m : vals V) : body -> V + failure E -> Prop :=
  | G_by : forall e x, eval e m = Got _ _ x -> gives m (By _ _ e) (inl x)
  | G_by_error : forall e f, eval e m = Failed _ _ f -> gives m (By _ _ e) (inr (Failure _ f))
  | G_other : forall o x, eval_other o m = Got _ _ x -> gives m (Other _ _ o) (inl x)
  | G_other_error : forall o f, eval_other o m = Failed _ _ f -> gives m (Other _ _ o) (inr (Failure _ f)).
  Inductive says (m : vals V) (e : expr) : failure E -> Prop :=
  | S_text : forall x s, eval e m = Got _ _ x -> as_text x = Some s -> says m e (Internal _ s)
  | S_type : forall x, eval e m = Got _ _ x -> as_text x = None -> says m e (NotConverted _)
  | S_error : forall f, eval e m = Failed _ _ f -> says m e (Failure _ f).
  (** The type of an expression. *)
  Definition has_type (env : decls) (b : body) (t : ty) : Prop :=
    match b with By _ _ e => check env e = Some t | Other _ _ o => check_other env o = Some t | _ => False end.

  (** The values with one more. *)
  Definition updated (m : vals V) (n : string) (x : V) : vals V := fun k => if String.eqb k n then Some x else m k.
  Definition cons_value (n : string) (x : V) (r : ends) : ends := match r with Up l => Up ((n, x) :: l) | Down f => Down f end.

  (** The variables are set in order, each with the values of those before it. One whose condition is false has its zero value, a validation is skipped then.
      The first failure ends the start. *)
  Inductive boots : decls -> vals V -> list var -> ends -> Prop :=
  | B_done : forall env m, boots env m [] (Up [])
  | B_condition : forall env m v r f, applies m (v_if _ _ v) (inr f) -> boots env m (v :: r) (Down f)
  | B_zero : forall env m v r t out, applies m (v_if _ _ v) (inl false) -> has_type env (v_body _ _ v) t ->
      boots ((v_name _ _ v, t) :: env) (updated m (v_name _ _ v) (zero t)) r out ->
      boots env m (v :: r) (cons_value (v_name _ _ v) (zero t) out)
  | B_value : forall env m v r t x out, applies m (v_if _ _ v) (inl true) -> has_type env (v_body _ _ v) t -> gives m (v_body _ _ v) (inl x) ->
      boots ((v_name _ _ v, t) :: env) (updated m (v_name _ _ v) x) r out ->
      boots env m (v :: r) (cons_value (v_name _ _ v) x out)
  | B_error : forall env m v r f, applies m (v_if _ _ v) (inl true) -> gives m (v_body _ _ v) (inr f) -> boots env m (v :: r) (Down f)
  | B_skipped : forall env m v r c e out, applies m (v_if _ _ v) (inl false) -> v_body _ _ v = Validation _ _ (Some c) (Some e) ->
      boots env m r out -> boots env m (v :: r) out
  | B_valid : forall env m v r c e out, applies m (v_if _ _ v) (inl true) -> v_body _ _ v = Validation _ _ (Some c) (Some e) -> holds m c (inl false) ->
      boots env m r out -> boots env m (v :: r) out
  | B_invalid : forall env m v r c e f, applies m (v_if _ _ v) (inl true) -> v_body _ _ v = Validation _ _ (Some c) (Some e) -> holds m c (inl true) ->
      says m e f -> boots env m (v :: r) (Down f)
  | B_validation_error : forall env m v r c e f, applies m (v_if _ _ v) (inl true) -> v_body _ _ v = Validation _ _ (Some c) (Some e) -> holds m c (inr f) ->
      boots env m (v :: r) (Down f).

  (** The service that was generated ended so: the values are found by name. *)
  Definition agrees (l : outcome V E) (out : ends) : Prop :=
    match l, out with
    | Started _ _ struct, Up values => (forall n x, In (n, x) values -> read V struct n = Some x) /\ map fst struct = map Ident.Model.public (map fst values)
    | Stopped _ _ f, Down f' => f = f'
    | _, _ => False
    end.

  (** ** Which lists are right *)

  Definition boolean (t : ty) : Prop := t = {| t_kind := KBool; t_repeated := false |}.
  Definition text (t : ty) : Prop := t = {| t_kind := KString; t_repeated := false |}.
  Definition condition (env : decls) (c : expr) : Prop := exists t, check env c = Some t /\ boolean t.

  (** Names are valid and different, only validations need none; expressions have a type in the environment of the variables before,
      conditions are booleans and messages are text. [seen]: the names before. *)
  Inductive right : decls -> list string -> list var -> Prop :=
  | R_done : forall env seen, right env seen []
  | R_value : forall env seen v r t, (forall c, v_if _ _ v = Some c -> condition env c) -> v_name _ _ v <> "" -> Names.Model.validateName (v_name _ _ v) = true ->
      ~ In (v_name _ _ v) seen -> has_type env (v_body _ _ v) t -> right ((v_name _ _ v, t) :: env) (v_name _ _ v :: seen) r -> right env seen (v :: r)
  | R_validation : forall env seen v r c e t, (forall c, v_if _ _ v = Some c -> condition env c) -> v_name _ _ v = "" ->
      v_body _ _ v = Validation _ _ (Some c) (Some e) -> condition env c -> check env e = Some t -> text t ->
      right env seen r -> right env seen (v :: r).
End Service.

(** ** Which lists the generator accepts *)

Section Accepted.
  Variables expr other : Type.
  Variable check : decls -> expr -> option ty.
  Variable check_other : decls -> other -> option ty.

  Definition of_kind (k : kind) (env : decls) (c : expr) : Prop := exists t, check env c = Some t /\ t_kind t = k.
  (** The name is valid and not yet seen, or there is none and it is a validation. *)
  Definition nameable (seen : list string) (v : var expr other) : Prop :=
    (v_name _ _ v = "" -> exists c e, v_body _ _ v = Validation _ _ c e) /\ Names.Model.validateName (v_name _ _ v) = true /\ ~ In (v_name _ _ v) seen.
  (** A variable with a condition is left out after the check of its name and the condition; a second validation without a name is refused; conditions and messages may be lists; a validation with
      a name declares it. *)
  Inductive accepts : decls -> list string -> list (var expr other) -> Prop :=
  | C_done : forall env seen, accepts env seen []
  | C_condition : forall env seen v r c, nameable seen v -> v_if _ _ v = Some c -> of_kind KBool env c -> accepts env seen r -> accepts env seen (v :: r)
  | C_value : forall env seen v r t, nameable seen v -> v_if _ _ v = None -> has_type _ _ check check_other env (v_body _ _ v) t ->
      accepts ((v_name _ _ v, t) :: env) (v_name _ _ v :: seen) r -> accepts env seen (v :: r)
  | C_validation : forall env seen v r c e, nameable seen v -> v_if _ _ v = None -> v_body _ _ v = Validation _ _ (Some c) (Some e) ->
      of_kind KBool env c -> of_kind KString env e ->
      accepts (if String.eqb (v_name _ _ v) "" then env else (v_name _ _ v, {| t_kind := KBool; t_repeated := false |}) :: env) (v_name _ _ v :: seen) r -> accepts env seen (v :: r).

  Definition unconditional (v : var expr other) : bool := match v_if _ _ v with None => true | Some _ => false end.
  (** Validations have no name. *)
  Definition plain (v : var expr other) : Prop := forall c e, v_body _ _ v = Validation _ _ c e -> v_name _ _ v = "".
End Accepted.
