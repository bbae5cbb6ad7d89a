(** * The files that are generated

    Model of resultFiles, hasServiceOrPluginRuleFiles and samePackageFiles,
    resolver/resolver.go:716-759, with the return for files without a service,
    resolver.go:173-175; and of the variables for attributes: where they are declared,
    server.go.tmpl:31-43 with code_generator.go:713-734, and where they are used,
    server.go.tmpl:309-314 with code_generator.go:663-700.

    Simplification: a service with a rule stands for the services of a file; [registered] are the
    files in the order in which they are registered in their packages, resolver.go:192-226. *)

From Coq Require Import Ascii String List Bool.
From Verif.Enums Require Import Model.
Import ListNotations.
Local Open Scope string_scope.

Record source := { tree : file; package : string; service_rule : bool }.

Definition sname (s : source) : string := fname (tree s).

(** hasServiceOrPluginRuleFiles: resolver.go:737-748. *)
Definition plugin_rule (s : source) : bool := match tree s with File _ _ _ [] _ => false | _ => true end.
Definition roots (files : list source) : list source := filter (fun s => service_rule s || plugin_rule s) files.

(** samePackageFiles: resolver.go:750-759; the comparison is of pointers, and a file is known by
    its name. *)
Definition same_package (registered : list source) (s : source) : list source :=
  filter (fun t => String.eqb (package t) (package s) && negb (String.eqb (sname t) (sname s))) registered.

Definition known (s : source) (l : list source) : bool := existsb (fun t => String.eqb (sname t) (sname s)) l.

(** The inner loop of resultFiles: resolver.go:726-732. *)
Fixpoint add_new (l : list source) (acc : list source) : list source :=
  match l with
  | [] => acc
  | s :: r => if known s acc then add_new r acc else add_new r (acc ++ [s])%list
  end.

(** The outer loop: resolver.go:719-733. *)
Fixpoint collect (registered l acc : list source) : list source :=
  match l with
  | [] => acc
  | s :: r => if known s acc then collect registered r acc
              else collect registered r (add_new (same_package registered s) (acc ++ [s])%list)
  end.

(** Resolve: resolver.go:173-187. *)
Definition generated_files (registered files : list source) : list source :=
  if existsb service_rule files then collect registered (roots files) [] else [].

(** The variables for attributes in the generated file of [s]: EnumAttributes. *)
Definition declared_maps (s : source) : list string :=
  match tree s with File _ es ms _ _ => map fqdn (filter has_attributes (own_enums es ms)) end.

(** The variables the services of [s] use: File.Enums. *)
Definition used_maps (order : list enum -> list enum) (s : source) : list string :=
  if service_rule s then
    map fqdn (filter (fun e => has_attributes e && negb (has_prefix "google." (fqdn e)) && negb (has_prefix "grpc.federation." (fqdn e)))
                (fst (all_enums order (tree s) [])))
  else [].
