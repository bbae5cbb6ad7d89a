(** Every CEL expression that is evaluated when a definition is, by what it is used for. From the generated code:
    templates/eval.go.tmpl (declDef, setCELArgument), error_handler.go.tmpl (errorHandler), validation.go.tmpl. *)
From Coq Require Import String List.
From Verif.Refs Require Import Model.
Import ListNotations.

Inductive use :=
| Condition | ByValue | EnumBy | MessageArgument
| MapBy | MapArgument | MapEnumBy
| RequestField | RequestFieldCondition | RetryCondition
| ErrorCondition | ErrorMessage | ErrorResponse
| DetailCondition | DetailBy | DetailText.

Definition as_ (u : use) (l : list cel) : list (use * cel) := map (fun c => (u, c)) l.
Definition map_evaluates (e : mexpr) : list (use * cel) :=
  match e with MBy c => [(MapBy, c)] | MMessage args => as_ MapArgument args | MEnum c => [(MapEnumBy, c)] end.
Fixpoint def_evaluates (d : def) : list (use * cel) := match d with Def _ c e => (Condition, c) :: expr_evaluates e end
with expr_evaluates (e : expr) : list (use * cel) :=
  match e with
  | By c => [(ByValue, c)]
  | Map _ m => map_evaluates m
  | Call args retry errors =>
      as_ RequestField (map value args) ++ as_ RequestFieldCondition (map if_ args) ++ [(RetryCondition, retry)] ++ concat (map error_evaluates errors)
  | Message args => as_ MessageArgument args
  | Enum c => [(EnumBy, c)]
  | Validation err => error_evaluates err
  end
with error_evaluates (e : gerror) : list (use * cel) :=
  match e with
  | GError c ds m r ts => (ErrorCondition, c) :: (ErrorMessage, m) :: (ErrorResponse, r) :: concat (map def_evaluates ds) ++ concat (map detail_evaluates ts)
  end
with detail_evaluates (t : detail) : list (use * cel) :=
  match t with
  | Detail c ds ms bys pres reqs locs =>
      (DetailCondition, c) :: concat (map def_evaluates ds) ++ concat (map def_evaluates ms) ++ as_ DetailBy bys
        ++ as_ DetailText (concat (map (fun v => [fst (fst v); snd (fst v); snd v]) (concat pres)))
        ++ as_ DetailText (concat (map (fun v => [fst v; snd v]) (concat reqs))) ++ as_ DetailText locs
  end.

(** A definition reads a variable if it is in an expression that is evaluated, or the source of its map, and is not just the name of
    its own iterator. (The empty name is a function's, ARG the message's arguments.) *)
Definition variable (n : string) : Prop := n <> ""%string /\ n <> ARG.
Definition reads_as (u : use) (d : def) (n : string) : Prop := variable n /\ exists c, In (u, c) (def_evaluates d) /\ In n c.
Definition maps_over (d : def) (n : string) : Prop := exists nm c i m, d = Def nm c (Map (Some i) m) /\ isource i = n /\ n <> ""%string.
Definition name_of (d : def) : string := match d with Def n _ _ => n end.
Definition iterates_as (d : def) (n : string) : Prop := exists nm c i m, d = Def nm c (Map (Some i) m) /\ iname i = n.
(** [needs d n]: evaluating [d] uses the value of a variable [n] defined outside of [d]. *)
Definition needs (d : def) (n : string) : Prop :=
  (exists u, reads_as u d n /\ (iterates_as d n -> ~ In u [MapBy; MapArgument; MapEnumBy])) \/ maps_over d n.
(** The uses that are not counted, and the others. *)
Definition uncounted : list use := [MapEnumBy; RequestFieldCondition; RetryCondition; ErrorMessage; ErrorResponse].
Definition counted (d : def) (n : string) : Prop := (exists u, ~ In u uncounted /\ reads_as u d n) \/ maps_over d n.

(** The iterators of a definition and of the definitions inside of its errors: their names and their sources. *)
Inductive iter_in_d : def -> string -> Prop :=
| iid nm c e n : iter_in_e e n -> iter_in_d (Def nm c e) n
with iter_in_e : expr -> string -> Prop :=
| iie_name i m : iname i <> ""%string -> iter_in_e (Map (Some i) m) (iname i)
| iie_source i m : isource i <> ""%string -> iter_in_e (Map (Some i) m) (isource i)
| iie_call a r es e n : In e es -> iter_in_g e n -> iter_in_e (Call a r es) n
| iie_val e n : iter_in_g e n -> iter_in_e (Validation e) n
with iter_in_g : gerror -> string -> Prop :=
| iig_def c ds m r ts d n : In d ds -> iter_in_d d n -> iter_in_g (GError c ds m r ts) n
| iig_detail c ds m r ts t n : In t ts -> iter_in_t t n -> iter_in_g (GError c ds m r ts) n
with iter_in_t : detail -> string -> Prop :=
| iit_def c ds ms b p q l d n : In d ds \/ In d ms -> iter_in_d d n -> iter_in_t (Detail c ds ms b p q l) n.
