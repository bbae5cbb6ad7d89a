(** * The constants of dependent methods

    The generated file of a service declares one constant for every method the service calls,
    and hands it to the error handler when a call fails.  Models of
    generator/code_generator.go:1561-1637 (DependentMethods, dependentMethods), 2849-2851
    (HasErrorHandler), 3075-3082 (ServiceName, DependentMethodName), 3705-3707 (fullServiceName);
    templates/server.go.tmpl:201-209; templates/error_handler.go.tmpl:193-210;
    resolver/fqdn.go:15-20 (Method.FQDN).

    Simplifications.  The schemas are those of Deps, where the number in a call is here the
    number of the called method in a table of methods.  Every call has a method: the resolver
    reports the others (resolver.go:2588-2632). *)

From Coq Require Import String List Bool.
From Verif.Base Require Import Sort.
From Verif.Ident Require Import Model.
From Verif.Deps Require Import Model.
Import ListNotations.
Local Open Scope string_scope.

(** A called method: the full name of its service, and its own name. *)
Record remote := { rm_service : string; rm_name : string }.

(** DependentMethod: code_generator.go:1561-1564. *)
Record constant := { cn_name : string; cn_value : string }.

Section Constants.
Variable s : schema.
Variable table : nat -> remote.

(** code_generator.go:1597-1600, 1626-1629; fqdn.go:15-20. *)
Definition constant_of (k : nat) : constant :=
  {| cn_name := go_name (rm_service (table k)) ++ "_" ++ rm_name (table k);
     cn_value := "/" ++ rm_service (table k) ++ "/" ++ rm_name (table k) |}.

(** One definition: code_generator.go:1593-1607, 1622-1635.  A call ends the search: its error
    rules are not looked at. *)
Definition of_def (rec : nat -> outcome (list nat)) (d : def) : outcome (list nat) :=
  match expr_of d with
  | XCall k _ => Done [k]
  | _ => gather rec (message_exprs d)
  end.

(** The definitions dependentMethods goes through: code_generator.go:1588, 1609-1616. *)
Definition walked (m : message) : list def :=
  (ms_defs m ++ flat_map (fun f => if fd_rule f then fd_defs f else []) (ms_fields m))%list.

(** dependentMethods: code_generator.go:1583-1638, the methods as numbers. *)
Fixpoint dependent (fuel : nat) (m : nat) : outcome (list nat) :=
  match fuel with
  | O => OutOfFuel
  | S n =>
      if ms_rule (msg s m) then gather (of_def (dependent n)) (walked (msg s m)) else Done []
  end.

(** methodMap[depMethod.Name] = depMethod: code_generator.go:1570. *)
Fixpoint put (c : constant) (l : list constant) : list constant :=
  match l with
  | [] => [c]
  | x :: r => if cn_name x =? cn_name c then c :: r else x :: put c r
  end.

(** DependentMethods: code_generator.go:1566-1581. *)
Definition dependent_methods (fuel : nat) (sv : service) : outcome (list constant) :=
  match gather (fun mt => dependent fuel (federation_response mt)) (sv_methods sv) with
  | Done ks => Done (sort_by cn_name (fold_left (fun l k => put (constant_of k) l) ks []))
  | Crash => Crash
  | OutOfFuel => OutOfFuel
  end.

(** The name of the constant handed to the error handler of a call, after
    "<service>_DependentMethod_": code_generator.go:3079-3082, error_handler.go.tmpl:195-208. *)
Definition handled_name (k : nat) : string :=
  go_name (rm_service (table k)) ++ "_" ++ public (rm_name (table k)).

(** What the error handler of a call receives, if the generated file compiles: the value of the
    constant of that name (server.go.tmpl:201-209). *)
Definition handled (l : list constant) (k : nat) : option string :=
  option_map cn_value (find (fun c => cn_name c =? handled_name k) l).

End Constants.
