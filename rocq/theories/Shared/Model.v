(** * Environment and service variables of messages used by several services

    Model of buildEnvMessage and buildServiceVariablesMessage,
    resolver/resolver.go:4527-4715, of isExactlySameType, resolver.go:5318-5350, and
    of envVarsToMessage, resolver.go:4925-4941.  The two functions differ only in
    where the variables come from, so there is one model of both.

    Simplifications.  Services, messages and enums are numbers.  The iteration order
    of Go maps is a parameter: the order of the list of services, and [names_order],
    which lists the set of names. *)

From Coq Require Import String List Bool Arith.
Import ListNotations.

(** Kinds, types: types/types.go, resolver/types.go:160-181. *)
Inductive kind := KScalar (n : nat) | KMessage | KEnum.

Record type := {
  ty_kind : kind;
  ty_repeated : bool;
  ty_message : option nat;
  ty_enum : option nat
}.

Definition kind_eqb (a b : kind) : bool :=
  match a, b with
  | KScalar x, KScalar y => x =? y
  | KMessage, KMessage => true
  | KEnum, KEnum => true
  | _, _ => false
  end.

(** A declared variable. *)
Definition var : Type := (string * type)%type.

(** A service: the messages it uses, and its variables.  [None] is a service option
    without env (without var). *)
Record service := {
  sv_name : string;
  sv_uses : nat -> bool;
  sv_vars : option (list var)
}.

(** The fields of messages. *)
Definition fields := nat -> list (string * type).

(** A Go map filled in order: the last assignment to a key wins. *)
Definition lookup {A : Type} (n : string) (l : list (string * A)) : option A :=
  match find (fun p => String.eqb (fst p) n) (rev l) with
  | Some (_, v) => Some v
  | None => None
  end.

Section Same.
Variable F : fields.

(** The loop over the fields of the right message: resolver.go:5339-5347.  [None]:
    the comparison of some field does not end. *)
Fixpoint all_same (same : type -> type -> option bool) (lf rf : list (string * type))
  : option bool :=
  match rf with
  | [] => Some true
  | (n, t) :: r =>
      match lookup n lf with
      | None => Some false
      | Some t' =>
          match same t' t with
          | Some true => all_same same lf r
          | Some false => Some false
          | None => None
          end
      end
  end.

(** isExactlySameType: resolver.go:5318-5350.  Nothing looks at the enum. *)
Fixpoint same_type (fuel : nat) (l r : type) : option bool :=
  match fuel with
  | O => None
  | S n =>
      if negb (kind_eqb (ty_kind l) (ty_kind r)) then Some false else
      if negb (Bool.eqb (ty_repeated l) (ty_repeated r)) then Some false else
      match ty_message l, ty_message r with
      | None, None => Some true
      | Some ml, Some mr =>
          if length (F ml) =? length (F mr) then all_same (same_type n) (F ml) (F mr)
          else Some false
      | _, _ => Some false
      end
  end.

(** svcEnvVarMap: resolver.go:4539-4550 (4629-4646), in the order of the services. *)
Definition users (svcs : list service) (m : nat) : list service :=
  filter (fun s => sv_uses s m) svcs.

Definition vars_of (s : service) : list var :=
  match sv_vars s with Some l => l | None => [] end.

(** envVarNameSet. *)
Definition names (svcs : list service) (m : nat) : list string :=
  nodup string_dec (flat_map (fun s => map fst (vars_of s)) (users svcs m)).

(** svcEnvVars for one name: [None] is omit. *)
Fixpoint declared (n : string) (l : list service) : option (list (service * type)) :=
  match l with
  | [] => Some []
  | s :: r =>
      match lookup n (vars_of s) with
      | None => None
      | Some t => match declared n r with Some d => Some ((s, t) :: d) | None => None end
      end
  end.

(** The mismatch loop: resolver.go:4579-4587. *)
Fixpoint mismatch (fuel : nat) (t : type) (l : list (service * type)) : option bool :=
  match l with
  | [] => Some false
  | (_, t') :: r =>
      match same_type fuel t t' with
      | Some true => mismatch fuel t r
      | Some false => Some true
      | None => None
      end
  end.

(** The loop over the names: the fields of the message, and the names with an error
    (with the services it lists). *)
Fixpoint build (fuel : nat) (l : list service) (ns : list string)
  : option (list var * list (string * list string)) :=
  match ns with
  | [] => Some ([], [])
  | n :: r =>
      match declared n l with
      | None | Some [] => build fuel l r
      | Some ((s, t) :: d) =>
          match mismatch fuel t d, build fuel l r with
          | Some b, Some (vs, es) =>
              Some ((n, t) :: vs,
                    if b then (n, map (fun p => sv_name (fst p)) ((s, t) :: d)) :: es else es)
          | _, _ => None
          end
      end
  end.

(** buildEnvMessage, buildServiceVariablesMessage.  Sorting the error messages is
    left out. *)
Definition shared (names_order : list string -> list string) (fuel : nat)
  (svcs : list service) (m : nat) : option (list var * list (string * list string)) :=
  build fuel (users svcs m) (names_order (names svcs m)).

End Same.
