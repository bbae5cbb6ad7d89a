(** The imports of a generated file.
    Models: generator/code_generator.go:504-655 (StandardImports, DefaultImports, Imports, getAlias), 1124-1232 (which references
    register a package), 929-947, 2272, 2342, 3084-3118, 3688 (references that do not), 3643-3666 (generateGoContent evaluates twice: the
    first time to collect the packages). *)
From Coq Require Import String List Arith Bool.
From Verif.Base Require Import Text Sort.
From Verif.Names Require Import Model.
Import ListNotations.
Local Open Scope string_scope.

(** resolver.GoPackage: a pointer, one per proto file (resolver.go:360-373), with the package's name and import path *)
Record gopkg := { gid : nat; gname : string; gpath : string }.
Record import := { ipath : string; ialias : string }.
(** Does the file have services, plugins, enum attributes? *)
Record flags := { has_services : bool; has_plugins : bool; has_attrs : bool }.

(** lines 510-540 *)
Definition std_table (f : flags) : list (import * bool) :=
  [({| ipath := "bufio"; ialias := "" |}, has_plugins f);
   ({| ipath := "context"; ialias := "" |}, has_services f || has_plugins f);
   ({| ipath := "fmt"; ialias := "" |}, has_plugins f);
   ({| ipath := "io"; ialias := "" |}, has_services f);
   ({| ipath := "os"; ialias := "" |}, has_plugins f);
   ({| ipath := "log/slog"; ialias := "" |}, has_services f);
   ({| ipath := "reflect"; ialias := "" |}, true);
   ({| ipath := "runtime"; ialias := "" |}, has_plugins f)].
Definition standardImports (f : flags) : list import := map fst (filter snd (std_table f)).

(** lines 556-569 *)
Definition default_table (f : flags) : list (import * bool) :=
  [({| ipath := "github.com/mercari/grpc-federation/grpc/federation"; ialias := "grpcfed" |}, has_services f || has_plugins f || has_attrs f);
   ({| ipath := "github.com/mercari/grpc-federation/grpc/federation/cel"; ialias := "grpcfedcel" |}, has_services f);
   ({| ipath := "go.opentelemetry.io/otel"; ialias := "" |}, has_services f);
   ({| ipath := "go.opentelemetry.io/otel/trace"; ialias := "" |}, has_services f);
   ({| ipath := "google.golang.org/grpc/metadata"; ialias := "" |}, has_plugins f);
   ({| ipath := "google.golang.org/protobuf/types/descriptorpb"; ialias := "" |}, false);
   ({| ipath := "google.golang.org/protobuf/types/known/dynamicpb"; ialias := "" |}, false);
   ({| ipath := "google.golang.org/protobuf/types/known/anypb"; ialias := "" |}, false);
   ({| ipath := "google.golang.org/protobuf/types/known/durationpb"; ialias := "" |}, false);
   ({| ipath := "google.golang.org/protobuf/types/known/emptypb"; ialias := "" |}, false);
   ({| ipath := "google.golang.org/protobuf/types/known/timestamppb"; ialias := "" |}, false)].
(** lines 542-589: those used by the file itself or by one of its packages *)
Definition defaultImports (f : flags) (pkgs : list gopkg) : list import :=
  map fst (filter (fun iu => snd iu || existsb (fun p => ipath (fst iu) =? gpath p) pkgs) (default_table f)).

Definition mem (x : string) (l : list string) : bool := existsb (String.eqb x) l.
(** lines 615-622: the first free number; [None] if [fuel] does not suffice (the code has no bound) *)
Fixpoint free_suffix (fuel : nat) (name : string) (k : nat) (used : list string) : option string :=
  match fuel with
  | O => None
  | S fuel' => let alias := name ++ dec k in if mem alias used then free_suffix fuel' name (S k) used else Some alias
  end.
Definition choose_alias (name : string) (used : list string) : option string :=
  if mem name used then free_suffix (S (length used)) name 1 used else Some name.

(** lines 591-647. The state: importPathMap, importAliasMap, aliasMap with the imports. Note that line 631 records the name of the
    package, not the alias chosen. *)
Record istate := { paths : list string; used : list string; aliases : list (gopkg * string) }.
Definition addImport (cur : string) (st : istate) (p : gopkg) : option istate :=
  if String.prefix "google." (gname p) then Some st
  else if gpath p =? cur then Some st
  else if mem (gpath p) (paths st) then Some st
  else match choose_alias (gname p) (used st) with
       | None => None
       | Some a => Some {| paths := gpath p :: paths st; used := gname p :: used st; aliases := aliases st ++ [(p, a)] |}
       end.
Fixpoint addImports (cur : string) (st : istate) (l : list gopkg) : option istate :=
  match l with [] => Some st | p :: l' => match addImport cur st p with Some st' => addImports cur st' l' | None => None end end.
(** [pkgs]: the packages in the order in which Go iterates over the map, which is any *)
Definition aliasMap (f : flags) (cur : string) (pkgs : list gopkg) : option (list (gopkg * string)) :=
  let ds := defaultImports f pkgs in
  option_map aliases (addImports cur {| paths := map ipath ds; used := map ialias ds; aliases := [] |} (sort_by gpath pkgs)).
Definition imports (al : list (gopkg * string)) : list import :=
  sort_by ipath (map (fun pa => {| ipath := gpath (fst pa); ialias := snd pa |}) al).
(** lines 649-655 *)
Definition getAlias (al : list (gopkg * string)) (p : gopkg) : string :=
  match find (fun pa => gid (fst pa) =? gid p)%nat al with Some pa => snd pa | None => gname p end.

(** References to packages. TypeRef: toTypeText, messageTypeToText, enumTypeToText register the package and do not qualify names of the
    file's own package. CastRef: conversions and enum values (2272, 2342, 3688) do not register. CallRef: clients, requests and responses of
    calls (929-947, 3090, 3114) do not register and always qualify. *)
Inductive ref_kind := TypeRef | CastRef | CallRef.
Record ref := { rkind : ref_kind; rpkg : gopkg }.
Definition gopkg_dec (a b : gopkg) : {a = b} + {a <> b}.
Proof. decide equality; auto using string_dec, Nat.eq_dec. Defined.
(** File.pkgMap after the first evaluation. Left out: the removal of durationpb after environment variables (lines 415-442). *)
Definition pkgMap (refs : list ref) : list gopkg :=
  nodup gopkg_dec (map rpkg (filter (fun r => match rkind r with TypeRef => true | _ => false end) refs)).
(** The package name written at a reference. *)
Definition qualifier (cur : string) (al : list (gopkg * string)) (r : ref) : option string :=
  match rkind r with
  | CallRef => Some (getAlias al (rpkg r))
  | _ => if gpath (rpkg r) =? cur then None else Some (getAlias al (rpkg r))
  end.
