(** The names of all variables of a message, and what a valid name is. *)
From Coq Require Import Ascii String List Arith.
From Verif.Names Require Import Model.
Import ListNotations.
Local Open Scope string_scope.

(** All definitions with an expression, at any depth, in order; with or without the messages of error details, which are
    evaluated as variables too. *)
Section Names.
  Variable with_messages : bool.
  Fixpoint def_names (d : rdef) : list string := match d with RDef _ RNoExpr => [] | RDef n e => n :: expr_names e end
  with expr_names (e : rexpr) : list string :=
    match e with RNoExpr => [] | RSimple => [] | RCall rs => concat (map rule_names rs) | RValidation r => rule_names r end
  with rule_names (r : rrule) : list string := match r with RRule ds ts => (concat (map def_names ds) ++ concat (map detail_names ts))%list end
  with detail_names (t : rdetail) : list string :=
    match t with RDetail ds ms => (concat (map def_names ds) ++ if with_messages then ms else [])%list end.
  Definition names (m : rmessage) : list string :=
    (concat (map def_names (rdefs m)) ++ concat (map (fun ds => concat (map def_names ds)) (roneofs m)))%list.
End Names.

(** The names written in the options. *)
Fixpoint written_def (d : odef) : list string := match d with ODef n e => ((if n =? "" then [] else [n]) ++ written_expr e)%list end
with written_expr (e : oexpr) : list string :=
  match e with NoExpr => [] | Simple => [] | OCall rs => concat (map written_rule rs) | OValidation r => written_rule r end
with written_rule (r : orule) : list string := match r with ORule ds ts => (concat (map written_def ds) ++ concat (map written_detail ts))%list end
with written_detail (t : odetail) : list string := match t with ODetail ds _ => concat (map written_def ds) end.
Definition written (m : omessage) : list string :=
  (concat (map written_def (defs m)) ++ concat (map (fun ds => concat (map written_def ds)) (oneofs m)))%list.

(** Those among them that are names of definitions with an expression. *)
Fixpoint given_def (d : odef) : list string :=
  match d with ODef _ NoExpr => [] | ODef n e => ((if n =? "" then [] else [n]) ++ given_expr e)%list end
with given_expr (e : oexpr) : list string :=
  match e with NoExpr => [] | Simple => [] | OCall rs => concat (map given_rule rs) | OValidation r => given_rule r end
with given_rule (r : orule) : list string := match r with ORule ds ts => (concat (map given_def ds) ++ concat (map given_detail ts))%list end
with given_detail (t : odetail) : list string := match t with ODetail ds _ => concat (map given_def ds) end.
Definition given (m : omessage) : list string :=
  (concat (map given_def (defs m)) ++ concat (map (fun ds => concat (map given_def ds)) (oneofs m)))%list.

(** A letter, then letters, digits and underscores; and not the reserved word *)
Definition is_letter (c : ascii) : Prop := In c (list_ascii_of_string "abcdefghijklmnopqrstuvwxyzABCDEFGHIJKLMNOPQRSTUVWXYZ").
Definition is_word (c : ascii) : Prop := is_letter c \/ In c (list_ascii_of_string "0123456789_").
Definition identifier (s : string) : Prop :=
  (exists c r, s = String c r /\ is_letter c /\ Forall is_word (list_ascii_of_string r)) /\ s <> "error".

(** Definitions inside definitions all have a written name. *)
Fixpoint expr_named (e : oexpr) : Prop :=
  match e with NoExpr => True | Simple => True | OCall rs => fold_right and True (map rule_named rs) | OValidation r => rule_named r end
with rule_named (r : orule) : Prop := match r with ORule ds ts => fold_right and True (map all_named ds) /\ fold_right and True (map detail_named ts) end
with detail_named (t : odetail) : Prop := match t with ODetail ds _ => fold_right and True (map all_named ds) end
with all_named (d : odef) : Prop := match d with ODef n e => n <> "" /\ expr_named e end.
Definition inner_named (d : odef) : Prop := match d with ODef _ e => expr_named e end.
Definition unnamed (d : odef) : Prop := match d with ODef n _ => n = "" end.
