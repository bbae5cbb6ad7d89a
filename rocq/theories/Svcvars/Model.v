(** * The variables of a service

    Models resolveServiceVariables, resolveServiceVariable, resolveServiceVariableExpr and
    resolveServiceVariableValidationExpr, resolver/resolver.go:2095-2302; ServiceVariable.ToVariableDefinition,
    resolver/service.go:190-217; the struct for the variables and the code that sets them when a service is made,
    generator/templates/server.go.tmpl:162-168, 298-303, 390-394, 409-453 with declDef, eval.go.tmpl:1-115, evalDef and If,
    grpc/federation/cel.go:508-594, 695-709; and the fields of the struct, generator/code_generator.go:482-504.

    Simplifications. Expressions, messages, enums and values are parameters: [check] is resolveCELValue with the environment
    that declares these variables (resolver.go:4425-4454, and at the start of the service createCELProgram,
    cel.go:750-790), [eval] the evaluation. [other] is a map, message or enum expression. A validation that
    lacks its condition or message is dropped: there is an error then, and no code is generated. Programs are not
    cached: each expression is evaluated once. *)

From Coq Require Import String List Bool Arith.
From Verif.Names Require Model.
From Verif.Ident Require Model.
Import ListNotations.
Local Open Scope string_scope.

(** resolver/types.go:411-418 Type, as far as it is looked at here. *)
Inductive kind := KBool | KString | KOther (n : nat).
Record ty := { t_kind : kind; t_repeated : bool }.
Definition BoolType : ty := {| t_kind := KBool; t_repeated := false |}.

(** The names declared in an environment, the last first. *)
Definition decls := list (string * ty).

Definition is_bool (k : kind) : bool := match k with KBool => true | _ => false end.
Definition is_string (k : kind) : bool := match k with KString => true | _ => false end.

Section Service.
  Variables expr other V E : Type.

  (** federation.ServiceVariable. [None]: an option that is not there. *)
  Inductive body :=
  | Nothing
  | By (e : expr)
  | Other (o : other)
  | Validation (cond message : option expr).
  Record var := { v_name : string; v_if : option expr; v_body : body }.

  (** resolver.ServiceVariable, types.go:96-114 *)
  Inductive value := VBy (e : expr) | VOther (o : other).
  Inductive sbody :=
  | SValue (v : value) (t : option ty)
  | SValidation (cond message : expr).
  Record svar := { s_name : string; s_if : option expr; s_body : sbody }.

  (** The value assigned, and the type *)
  Variable check : decls -> expr -> option ty.
  Variable check_other : decls -> other -> option ty.

  (** ** Resolving *)

  (** The result for one variable, with the errors: [Panic] for a nil dereference. *)
  Inductive res := Panic | Ret (s : option svar) (errors : list string).

  (** resolveServiceVariableExpr, and the switch of resolveServiceVariable: resolver.go:2191-2261. *)
  Definition resolve_body (env : decls) (v : var) (cond : option expr) : res :=
    let keep b errs := Ret (Some {| s_name := v_name v; s_if := cond; s_body := b |}) errs in
    match v_body v with
    | Nothing => Panic
    | By e => match check env e with
              | None => Ret None ["by"]
              | Some t => keep (SValue (VBy e) (Some t)) []
              end
    | Other o => match check_other env o with
                 | None => keep (SValue (VOther o) None) ["expression"]
                 | Some t => keep (SValue (VOther o) (Some t)) []
                 end
    | Validation None _ => Ret None ["required if value"]
    | Validation (Some _) None => Ret None ["required message value"]
    | Validation (Some c) (Some m) =>
        match check env c with
        | None => Ret None ["if"]
        | Some t =>
            if negb (is_bool (t_kind t)) then Ret None ["return value of ""if"" must be bool type"]
            else match check env m with
                 | None => Ret None ["message"]
                 | Some t =>
                     if negb (is_string (t_kind t)) then Ret None ["return value of ""message"" must be string type"]
                     else keep (SValidation c m) []
                 end
        end
    end.

  (** resolveServiceVariable: resolver.go:2137-2261. *)
  Definition is_validation (v : var) : bool := match v_body v with Validation _ _ => true | _ => false end.
  Definition resolve_var (env : decls) (names : list string) (v : var) : res :=
    if String.eqb (v_name v) "" && negb (is_validation v) then Ret None ["variable name is not found"]
    else if negb (Names.Model.validateName (v_name v)) then Ret None ["invalid name"]
    else if existsb (String.eqb (v_name v)) names then Ret None ["found duplicated variable name"]
    else match v_if v with
         | None => resolve_body env v None
         | Some c =>
             match check env c with
             | None => Ret None ["if"]
             | Some t => Ret None (if negb (is_bool (t_kind t)) then ["return value of ""if"" must be bool type"] else [])
             end
         end.

  Definition s_type (s : svar) : option ty := match s_body s with SValue _ t => t | SValidation _ _ => Some BoolType end.
  (** resolver.go:2117-2129 *)
  Definition extend (env : decls) (s : svar) : decls :=
    match s_type s with
    | Some t => if String.eqb (s_name s) "" then env else (s_name s, t) :: env
    | None => env
    end.
  Inductive answer := Crash | Answer (vars : list svar) (errors : list string).
  (** resolveServiceVariables: resolver.go:2111-2134. *)
  Fixpoint resolve (env : decls) (names : list string) (vs : list var) : answer :=
    match vs with
    | [] => Answer [] []
    | v :: r =>
        match resolve_var env names v with
        | Panic => Crash
        | Ret None errs =>
            match resolve env names r with Crash => Crash | Answer l errs' => Answer l (errs ++ errs')%list end
        | Ret (Some s) errs =>
            match resolve (extend env s) (s_name s :: names) r with
            | Crash => Crash
            | Answer l errs' => Answer (s :: l) (errs ++ errs')%list
            end
        end
    end.
  Definition Resolve (vs : list var) : answer := resolve [] [] vs.

  (** ** The generated code *)

  (** The fields of the struct: a variable without a name leaves its type as an embedded field. *)
  Definition fields (l : list svar) : list string :=
    map (fun s => if String.eqb (s_name s) "" then "bool" else Ident.Model.public (s_name s)) l.

  (** Values by name: grpcfed.LocalValue. *)
  Definition vals := string -> option V.
  Definition set (m : vals) (n : string) (x : V) : vals := fun k => if String.eqb k n then Some x else m k.

  Inductive result := Got (x : V) | Failed (e : E).
  Variable eval : expr -> vals -> result.
  Variable eval_other : other -> vals -> result.
  (** The zero value of a type, and ConvertToNative for bool and string. *)
  Variable zero : ty -> V.
  Variable as_bool : V -> option bool.
  Variable as_text : V -> option string.

  Inductive failure :=
  | NotCompiled           (** an expression does not compile *)
  | NotConverted          (** a value has the wrong type *)
  | Failure (e : E)
  | Internal (msg : string).   (** a validation *)
  (** The fields of the struct with their values. *)
  Inductive outcome := Started (struct : list (string * V)) | Stopped (f : failure).

  (** EvalCEL: cel.go:718-748. *)
  Definition EvalCEL (env : decls) (m : vals) (e : expr) : V + failure :=
    match check env e with
    | None => inr NotCompiled
    | Some _ => match eval e m with Got x => inl x | Failed e => inr (Failure e) end
    end.
  Definition EvalOther (env : decls) (m : vals) (o : other) : V + failure :=
    match check_other env o with
    | None => inr NotCompiled
    | Some _ => match eval_other o m with Got x => inl x | Failed e => inr (Failure e) end
    end.

  (** The condition of grpcfed.If and of evalDef: cel.go:516-530, 695-709. *)
  Definition test (env : decls) (m : vals) (c : expr) : bool + failure :=
    match EvalCEL env m c with
    | inr f => inr f
    | inl x => match as_bool x with Some b => inl b | None => inr NotConverted end
    end.

  (** One definition: the error, or the value it sets. *)
  Definition run_value (env : decls) (m : vals) (s : svar) (v : value) (t : ty) : V + failure :=
    match match s_if s with None => inl true | Some c => test env m c end with
    | inr f => inr f
    | inl false => inl (zero t)
    | inl true => match v with VBy e => EvalCEL env m e | VOther o => EvalOther env m o end
    end.
  Definition run_validation (env : decls) (m : vals) (c msg : expr) : option failure :=
    match test env m c with
    | inr f => Some f
    | inl false => None
    | inl true => Some match EvalCEL env m msg with
                       | inr f => f
                       | inl x => match as_text x with Some s => Internal s | None => NotConverted end
                       end
    end.

  (** initServiceVariables: server.go.tmpl:409-453. A validation sets nothing: its field keeps its zero value. *)
  Fixpoint init (env : decls) (m : vals) (struct : list (string * V)) (l : list svar) : outcome :=
    match l with
    | [] => Started struct
    | s :: r =>
        match s_body s with
        | SValidation c msg =>
            match run_validation env m c msg with
            | Some f => Stopped f
            | None => init env m struct r
            end
        | SValue v t =>
            let t := match t with Some t => t | None => BoolType end in
            match run_value env m s v t with
            | inr f => Stopped f
            | inl x => init ((s_name s, t) :: env) (set m (s_name s) x) (struct ++ [(Ident.Model.public (s_name s), x)]) r
            end
        end
    end.
  Definition Init (l : list svar) : outcome := init [] (fun _ => None) [] l.

  (** grpc.federation.var.name in the expressions of messages: the field map of server.go.tmpl:298-303; a field that is not set has its zero value,
      which is [None] here. *)
  Fixpoint field (struct : list (string * V)) (n : string) : option V :=
    match struct with [] => None | (k, x) :: r => if String.eqb k n then Some x else field r n end.
  Definition read (struct : list (string * V)) (n : string) : option V := field struct (Ident.Model.public n).
End Service.
