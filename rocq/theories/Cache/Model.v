(** The cache of compiled CEL programs: which expression is generated with which index, and how programs are looked up.
    Models: generator/code_generator.go:329-346 (Service.CELCacheIndex), generator/templates/eval.go.tmpl, error_handler.go.tmpl,
    validation.go.tmpl, server.go.tmpl:405-450, 540-605, 710-790 (everything with an expression and a CacheIndex), and
    grpc/federation/cel.go:283-308 (CELCacheMap), 718-816 (EvalCEL, createCELProgram). *)
From Coq Require Import String List Arith Bool.
Import ListNotations.

(** * What is generated *)
Definition text := string.
(** Request or message argument. CEL is absent if the value is not an expression. *)
Record arg := { a_if : option text; a_cel : option text }.
Inductive def := Def (name : text) (if_ : option text) (e : expr)
with expr :=
| By (e : text) | Enum (e : text)
| MapBy (e : text) | MapEnum (e : text) | MapMessage (args : list arg)
| Message (args : list arg)
| Call (args : list arg) (retry : option text) (errors : list gerror)
| Validation (e : gerror)
with gerror := GError (if_ : text) (defs : list def) (body : outcome)
with outcome := Ignore | IgnoreAndResponse (e : text) | Status (message : option text) (details : list detail)
with detail := Detail (defs : list def) (if_ : text) (messages : list def) (by_ : list text)
                      (preconditions : list (list (text * text * text))) (requests : list (list (text * text))) (localized : list text).
(** A case of a oneof: condition (absent in the default case), definitions, value *)
Record oneof_case := { o_if : option text; o_defs : list def; o_by : option text }.
Inductive field := FCel (e : text) | FOneof (cases : list oneof_case) (default : option oneof_case) | FOther.
Record message := { m_defs : list def; m_fields : list field }.
(** A service variable: a validation with condition and message, or a definition *)
Inductive svc_var := VValidation (if_ msg : text) | VDef (d : def).
Record service := { s_vars : list svc_var; s_messages : list message }.

(** Executing a template: from the counter to the (expression, index) pairs written and the new counter. *)
Definition emission := nat -> list (text * nat) * nat.
Definition nothing : emission := fun n => ([], n).
Definition seqE (a b : emission) : emission := fun n => let '(l, n1) := a n in let '(k, n2) := b n1 in (l ++ k, n2).
Definition allE (l : list emission) : emission := fold_right seqE nothing l.
(** code_generator.go:343-346, with the expression beside it *)
Definition site (e : text) : emission := fun n => let n' := S n in ([(e, n')], n').
Definition optE (o : option text) : emission := match o with Some e => site e | None => nothing end.

(** eval.go.tmpl:250-288 setCELArgument *)
Definition setCELArgument (a : arg) : emission :=
  match a_cel a with None => nothing | Some e => match a_if a with Some c => seqE (site c) (site e) | None => site e end end.
(** error_handler.go.tmpl:259-305 preconditionFailure, badRequest, localizedMessage: the indices follow the expressions *)
Definition violation3 (v : text * text * text) : emission :=
  fun n => let '(t, s, d) := v in ([(t, S n); (s, S (S n)); (d, S (S (S n)))], S (S (S n))).
Definition violation2 (v : text * text) : emission := fun n => ([(fst v, S n); (snd v, S (S n))], S (S n)).

Definition name_of (d : def) : text := match d with Def n _ _ => n end.
(** eval.go.tmpl:1-174 declDef, error_handler.go.tmpl:1-185, validation.go.tmpl. The definitions of a set come first (eval.go.tmpl:211-215). *)
Fixpoint declDef (d : def) : emission := match d with Def _ c e => seqE (optE c) (declExpr e) end
with declExpr (e : expr) : emission :=
  match e with
  | By e => site e
  | Enum e => site e
  | MapBy e => site e
  | MapEnum e => site e
  | MapMessage args => allE (map setCELArgument args)
  | Message args => allE (map setCELArgument args)
  | Call args retry errors => seqE (allE (map setCELArgument args)) (seqE (optE retry) (allE (map errorHandler errors)))
  | Validation e => errorHandler e
  end
with errorHandler (e : gerror) : emission :=
  match e with GError c defs body => seqE (allE (map declDef defs)) (seqE (site c) (declOutcome body)) end
with declOutcome (o : outcome) : emission :=
  match o with
  | Ignore => nothing
  | IgnoreAndResponse e => site e
  | Status m details => seqE (optE m) (allE (map declDetail details))
  end
with declDetail (t : detail) : emission :=
  match t with
  | Detail defs c messages bys pres reqs locs =>
      seqE (allE (map declDef defs)) (seqE (site c) (seqE (allE (map declDef messages)) (seqE (allE (map (fun d => site (name_of d)) messages))
        (seqE (allE (map site bys)) (seqE (allE (map (fun f => allE (map violation3 f)) pres)) (seqE (allE (map (fun r => allE (map violation2 r)) reqs))
           (allE (map site locs))))))))
  end.
(** server.go.tmpl:710-757 setReturnValueByOneofFields: all conditions first *)
Definition oneof_value (o : oneof_case) : emission := seqE (allE (map declDef (o_defs o))) (optE (o_by o)).
Definition setField (f : field) : emission :=
  match f with
  | FCel e => site e
  | FOneof cases d => seqE (allE (map (fun o => optE (o_if o)) cases)) (seqE (allE (map oneof_value cases)) (match d with Some o => oneof_value o | None => nothing end))
  | FOther => nothing
  end.
(** server.go.tmpl:540-605 *)
Definition resolveMessage (m : message) : emission := seqE (allE (map declDef (m_defs m))) (allE (map setField (m_fields m))).
(** server.go.tmpl:410-450 *)
Definition declVariable (v : svc_var) : emission := match v with VValidation c m => seqE (site c) (site m) | VDef d => declDef d end.
Definition generate (s : service) : list (text * nat) :=
  fst (seqE (allE (map declVariable (s_vars s))) (allE (map resolveMessage (s_messages s))) 0).

(** * How it is evaluated: any number of evaluations at once, in any order of their steps *)
Section Run.
  (** NewCELEnv, createCELAst and env.Program: from the variables declared at that time and the text of the expression; fails or not *)
  Context {env program : Type}.
  Variable compile : env -> text -> option program.

  (** A call of EvalCEL: the request's expression and index, and the environment *)
  Record request := { r_expr : text; r_index : nat; r_env : env }.
  Inductive phase :=
  | Called                      (* cel.go:718 *)
  | Missed                      (* line 757: no program in the cache *)
  | Compiled (p : program)      (* line 769 *)
  | Uses (p : program)          (* line 733: this program is evaluated *)
  | Failed.                     (* ErrCELCacheIndex, or compile error *)
  Record state := { calls : list (request * phase); cache : list (nat * program) }.
  Definition init : state := {| calls := []; cache := [] |}.
  Fixpoint get (i : nat) (c : list (nat * program)) : option program :=
    match c with [] => None | (j, p) :: c' => if i =? j then Some p else get i c' end.
  Definition set_nth {A} (n : nat) (x : A) (l : list A) : list A := firstn n l ++ match skipn n l with [] => [] | _ :: l' => x :: l' end.

  (** One step: a new call, or an existing call moves. *)
  Inductive action := Call_ (r : request) | Move (k : nat).
  Definition step (a : action) (st : state) : state :=
    match a with
    | Call_ r => {| calls := calls st ++ [(r, Called)]; cache := cache st |}
    | Move k =>
        match nth_error (calls st) k with
        | None => st
        | Some (r, ph) =>
            let go ph' := {| calls := set_nth k (r, ph') (calls st); cache := cache st |} in
            match ph with
            | Called =>
                if r_index r =? 0 then go Failed
                else match get (r_index r) (cache st) with Some p => go (Uses p) | None => go Missed end
            | Missed => match compile (r_env r) (r_expr r) with Some p => go (Compiled p) | None => go Failed end
            | Compiled p => {| calls := set_nth k (r, Uses p) (calls st); cache := (r_index r, p) :: cache st |}
            | Uses _ | Failed => st
            end
        end
    end.
  Definition run (l : list action) : state := fold_left (fun st a => step a st) l init.
End Run.
Arguments request : clear implicits. Arguments phase : clear implicits. Arguments state : clear implicits. Arguments action : clear implicits.
