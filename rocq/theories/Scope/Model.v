(** The code generated to evaluate the definitions of a message, as far as contexts and goroutine groups go.
    Models: generator/funcs.go ParentCtx, generator/templates/eval.go.tmpl (declDef, evalMessageDef, evalDefGroup, evalDefSet),
    generator/templates/error_handler.go.tmpl:32-36, 37, 89-113, 170-176 (errorHandler), generator/templates/validation.go.tmpl:5-58,
    generator/templates/server.go.tmpl:538-563, 727-741.
    Simplified: of the statements only those about contexts, goroutine groups and definitions are kept; a definition is named by a
    number; a function literal called in place, a callback and a case of a switch are all [Func]: a body with a scope of its own.
    Contexts derived only for tracing or a timeout count as the context they are derived from. *)
From Coq Require Import List Arith.
From Verif.Plan Require Import Model.
Import ListNotations.

Inductive name := Ctx | CtxN (n : nat) | Eg | DefName (k : nat).

Inductive stmt :=
| NewGroup (c p : name)            (** eg, c := grpcfed.ErrorGroupWithContext(p) *)
| Go (body : list stmt)            (** grpcfed.GoWithRecover(eg, func() (any, error) { body; return nil, nil }) *)
| Wait                             (** if err := eg.Wait(); err != nil { return nil, err } *)
| DeclDef (k : nat) (body : list stmt)  (** def_k := func(ctx context.Context) error { body } *)
| CallDef (k : nat) (c : name)     (** if err := def_k(c); err != nil { ...; return nil, err } *)
| Func (body : list stmt).

(** What the templates are given (resolver.VariableDefinitionSet, resolver.VariableDefinition, resolver.GRPCError,
    resolver.GRPCErrorDetail). *)
Inductive dset := Set_ (defs : list ddef) (groups : list group)
with ddef := Def (key : nat) (kind : dkind)
with dkind := Plain | Call (errors : list rule) | Validation (r : rule)
with rule := Rule (set : dset) (details : list detail)
with detail := Detail (set msgs : dset).
(** A message: its definitions, and for every case of its oneofs the definitions of that case. *)
Record message := { defs : dset; cases : list dset }.

(** funcs.go:29-40 ParentCtx. Level 0 is an error there; the templates start at 1. *)
Definition ParentCtx (level : nat) : name := match level with 0 => Ctx | 1 => Ctx | S n => CtxN n end.

(** eval.go.tmpl:185-212 evalDefGroup *)
Fixpoint evalDefGroup (level : nat) (g : group) : list stmt :=
  match g with
  | Conc starts e => [NewGroup (CtxN level) (ParentCtx level)] ++ map (fun s => Go (evalDefGroup (level + 1) s)) starts ++
                     [Wait; CallDef e (ParentCtx level)]
  | Seq (Some s) e => evalDefGroup level s ++ [CallDef e (ParentCtx level)]
  | Seq None e => [CallDef e (ParentCtx level)]
  end.

(** eval.go.tmpl:218, 225-247: after the declarations *)
Definition evalDefGroups (gs : list group) : list stmt :=
  match gs with
  | [g] => evalDefGroup 1 g
  | [] => []
  | _ => [NewGroup (CtxN 1) Ctx] ++ map (fun g => Go (evalDefGroup 2 g)) gs ++ [Wait]
  end.

(** eval.go.tmpl:214-249 evalDefSet *)
Fixpoint evalDefSet (s : dset) : list stmt := match s with Set_ ds gs => map declDef ds ++ evalDefGroups gs end
(** eval.go.tmpl:1-175 declDef *)
with declDef (d : ddef) : stmt := match d with Def k kind => DeclDef k (defBody kind) end
with defBody (k : dkind) : list stmt :=
  match k with
  | Plain => []
  | Call errors => [Func [Func (concat (map ruleCode errors))]]                        (** error_handler.go.tmpl:32-176 *)
  | Validation (Rule set details) => [Func (evalDefSet set); Func (concat (map detailCode details))]  (** validation.go.tmpl:5-60 *)
  end
(** error_handler.go.tmpl:34-168: one error rule, in the function literal shared by all rules of the call *)
with ruleCode (r : rule) : list stmt := match r with Rule set details => evalDefSet set ++ [Func (concat (map detailCode details))] end
(** error_handler.go.tmpl:89-113, validation.go.tmpl:36-60 *)
with detailCode (d : detail) : list stmt := match d with Detail set msgs => [Func (evalDefSet set); Func [Func (evalDefSet msgs)]] end.

(** server.go.tmpl:539-606: the resolver of a message *)
Definition resolver (m : message) : list stmt := evalDefSet (defs m) ++ map (fun c => Func (evalDefSet c)) (cases m).
