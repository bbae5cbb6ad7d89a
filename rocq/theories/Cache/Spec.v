(** The expressions evaluated by the code generated for a service. *)
From Coq Require Import String List.
From Verif.Cache Require Import Model.
Import ListNotations.

Definition opt {A} (o : option A) : list A := match o with Some x => [x] | None => [] end.
Definition arg_exprs (a : arg) : list text := match a_cel a with Some e => opt (a_if a) ++ [e] | None => [] end.
Fixpoint def_exprs (d : def) : list text := match d with Def _ c e => opt c ++ expr_exprs e end
with expr_exprs (e : expr) : list text :=
  match e with
  | By e | Enum e | MapBy e | MapEnum e => [e]
  | MapMessage args | Message args => flat_map arg_exprs args
  | Call args retry errors => flat_map arg_exprs args ++ opt retry ++ flat_map error_exprs errors
  | Validation e => error_exprs e
  end
with error_exprs (e : gerror) : list text :=
  match e with GError c defs body => flat_map def_exprs defs ++ [c] ++ outcome_exprs body end
with outcome_exprs (o : outcome) : list text :=
  match o with Ignore => [] | IgnoreAndResponse e => [e] | Status m details => opt m ++ flat_map detail_exprs details end
with detail_exprs (t : detail) : list text :=
  match t with
  | Detail defs c messages bys pres reqs locs =>
      flat_map def_exprs defs ++ [c] ++ flat_map def_exprs messages ++ map name_of messages ++ bys
        ++ flat_map (fun v => [fst (fst v); snd (fst v); snd v]) (concat pres) ++ flat_map (fun v => [fst v; snd v]) (concat reqs) ++ locs
  end.
Definition case_exprs (o : oneof_case) : list text := flat_map def_exprs (o_defs o) ++ opt (o_by o).
Definition field_exprs (f : field) : list text :=
  match f with
  | FCel e => [e]
  | FOneof cases d => flat_map (fun o => opt (o_if o)) cases ++ flat_map case_exprs cases ++ flat_map case_exprs (opt d)
  | FOther => []
  end.
Definition var_exprs (v : svc_var) : list text := match v with VValidation c m => [c; m] | VDef d => def_exprs d end.
Definition service_exprs (s : service) : list text :=
  flat_map var_exprs (s_vars s) ++ flat_map (fun m => flat_map def_exprs (m_defs m) ++ flat_map field_exprs (m_fields m)) (s_messages s).

(** The requests made by a service's code: each for one of the pairs written. *)
Definition made_by {env} (s : service) (r : request env) : Prop := In (r_expr r, r_index r) (generate s).
Definition calls_of {env} (l : list (action env)) : list (request env) := flat_map (fun a => match a with Call_ r => [r] | Move _ => [] end) l.
