(** What a schema declares, by full names; and protobuf's own rules for schemas. *)
From Coq Require Import String Ascii List Arith Bool.
From Verif.Base Require Import Text.
From Verif.Lookup Require Import Model.
Import ListNotations.
Local Open Scope string_scope.

(** A declaration: its package, the names that lead to it in the package, and what is declared *)
Definition decl (A : Type) : Type := string * list string * A.
Definition full_name {A} (d : decl A) : string := let '(p, path, _) := d in join "." (p :: path).

Fixpoint message_paths (parents : list string) (m : mdesc) : list (list string * nat) :=
  match m with MDesc id n nested _ => (parents ++ [n], id)%list :: concat (map (message_paths (parents ++ [n])) nested) end.
Fixpoint enum_paths (parents : list string) (m : mdesc) : list (list string * nat) :=
  match m with MDesc _ n nested es => (map (fun e => (parents ++ [n; fst e], snd e)) es ++ concat (map (enum_paths (parents ++ [n])) nested))%list end.
Definition in_package {A} (f : fdesc) (l : list (list string * A)) : list (decl A) := map (fun x => (package f, fst x, snd x)) l.
Definition declared_messages (s : schema) : list (decl nat) :=
  concat (map (fun f => in_package f (concat (map (message_paths []) (messages f)))) s).
Definition declared_enums (s : schema) : list (decl nat) :=
  concat (map (fun f => in_package f (map (fun e => ([fst e], snd e)) (enums f) ++ concat (map (enum_paths []) (messages f)))%list) s).
Definition declared_services (s : schema) : list (decl (nat * list string)) :=
  concat (map (fun f => in_package f (map (fun v => ([fst v], snd v)) (services f))) s).

(** A name without a dot; a qualified name *)
Definition simple (n : string) : Prop := n <> "" /\ has_char "." n = false.
Definition qualified (n : string) : Prop := exists parts, parts <> [] /\ Forall simple parts /\ n = join "." parts.

(** protobuf: names in declarations are simple; nothing is declared twice; no message is also a package. Not protobuf's, but this
    code's: every file has a package. *)
Record well_formed (s : schema) : Prop := {
  wf_packages : forall f, In f s -> qualified (package f);
  wf_simple : forall p path i, In (p, path, i) (declared_messages s) \/ In (p, path, i) (declared_enums s) -> Forall simple path;
  wf_service_names : forall p path v, In (p, path, v) (declared_services s) -> Forall simple path /\ Forall (fun n => has_char "/" n = false) (p :: path);
  wf_messages : NoDup (map full_name (declared_messages s));
  wf_enums : NoDup (map full_name (declared_enums s));
  wf_services : NoDup (map full_name (declared_services s));
  wf_apart : forall d f, In d (declared_messages s) -> In f s -> full_name d <> package f;
}.

(** a package is the beginning of the name *)
Definition begins_with_package (s : schema) (n : string) : Prop := exists f r, In f s /\ n = package f ++ "." ++ r.
