(** The names a definition refers to.
    Models: resolver/def.go:197-321, 380-391 (ReferenceNames, toUniqueReferenceNames), value.go:17-42 (Value.ReferenceNames,
    CELValue.ReferenceNames), message.go:296-306 (MessageExpr.ReferenceNames), enum.go:89-95 (EnumExpr.ReferenceNames).
    Simplified: of a CEL value only the names in its checked expression's reference map are kept; an absent value has none. *)
From Coq Require Import String List Arith Bool.
From Verif.Base Require Import Sort.
From Verif.Plan Require Model.
Import ListNotations.
Local Open Scope string_scope.

Definition cel := list string.
(** types.go: Argument of a request: Value, If *)
Record arg := { value : cel; if_ : cel }.
(** MapIteratorExpr *)
Inductive mexpr := MBy (c : cel) | MMessage (args : list cel) | MEnum (by_ : cel).
(** Iterator: its name and the name of its source *)
Record iterator := { iname : string; isource : string }.
(** VariableDefinition, VariableExpr, GRPCError, GRPCErrorDetail. Violations of preconditions are type, subject and description;
    those of requests field and description. *)
Inductive def := Def (name : string) (cond : cel) (e : expr)
with expr :=
| By (c : cel)
| Map (i : option iterator) (e : mexpr)
| Call (args : list arg) (retry : cel) (errors : list gerror)
| Message (args : list cel)
| Enum (by_ : cel)
| Validation (error : gerror)
with gerror := GError (cond : cel) (defs : list def) (message : cel) (response : cel) (details : list detail)
with detail := Detail (cond : cel) (defs : list def) (messages : list def) (by_ : list cel) (preconditions : list (list (cel * cel * cel)))
                      (requests : list (list (cel * cel))) (localized : list cel).

Definition ARG : string := "__ARG__".
(** value.go:24-42 *)
Definition cel_names (c : cel) : list string := filter (fun n => negb (n =? ARG) && negb (n =? "")) c.
(** def.go:380-391 *)
Definition toUnique (l : list string) : list string := sort_by (fun n => n) (nodup string_dec l).

(** def.go:309-321: an enum expression is not looked at *)
Definition map_expr_names (e : mexpr) : list string :=
  match e with
  | MBy c => toUnique (cel_names c)
  | MMessage args => toUnique (concat (map cel_names args))
  | MEnum _ => toUnique []
  end.
(** def.go:291-307 *)
Definition map_names (i : option iterator) (e : mexpr) : list string :=
  toUnique (match i with
            | None => []
            | Some i => (if iname i =? "" then [] else [iname i]) ++ (if isource i =? "" then [] else [isource i])
            end ++ map_expr_names e)%list.

(** def.go:205-288 *)
Fixpoint def_names (d : def) : list string := match d with Def _ c e => toUnique (cel_names c ++ expr_names e)%list end
with expr_names (e : expr) : list string :=
  match e with
  | By c => cel_names c
  | Map i m => map_names i m
  | Call args _ errors => toUnique (concat (map (fun a => cel_names (value a)) args) ++ concat (map error_names errors))%list
  | Message args => concat (map cel_names args)
  | Enum c => cel_names c
  | Validation err => error_names err
  end
with error_names (e : gerror) : list string :=
  match e with
  | GError c ds _ _ ts => toUnique (cel_names c ++ concat (map def_names ds) ++ concat (map detail_names ts))%list
  end
with detail_names (t : detail) : list string :=
  match t with
  | Detail c ds ms bys pres reqs locs =>
      toUnique (cel_names c ++ concat (map def_names ds) ++ concat (map def_names ms) ++ concat (map cel_names bys)
        ++ concat (map (fun f => concat (map (fun v => cel_names (fst (fst v)) ++ cel_names (snd (fst v)) ++ cel_names (snd v)) f)) pres)
        ++ concat (map (fun r => concat (map (fun v => cel_names (fst v) ++ cel_names (snd v)) r)) reqs)
        ++ concat (map cel_names locs))%list
  end.

(** What the dependency graph is made of: see Plan/Model.v *)
Definition iterator_of (e : expr) : option string := match e with Map (Some i) _ => Some (iname i) | _ => None end.
Definition is_validation (e : expr) : bool := match e with Validation _ => true | _ => false end.
Definition to_plan (d : def) : Plan.Model.vdef :=
  match d with
  | Def n c e => {| Plan.Model.vname := n; Plan.Model.vrefs := def_names d; Plan.Model.viter := iterator_of e; Plan.Model.vvalidation := is_validation e |}
  end.
