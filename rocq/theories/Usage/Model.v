(** The warnings about the imports of a file: those that grpc.federation.file.import lists without need, and those that should be there.
    Models: resolver/resolver.go:407-447 (validateFileImport), 449-476, 478-495 (lookupPackageNameMapUsedInProtoDefinitionFromFile,
    ...FromMessage), 497-521 (lookupPackageNameMapRecursiveFromType), 523-542, 544-577, 579-588
    (lookupPackageNameMapUsedInGRPCFederationDefinitionFromFile, ...FromMessage, ...FromEnum), 590-640
    (lookupPackageNameMapFromVariableDefinitionSet), 642-675 (...FromGRPCError), 677-703 (...FromCELValue), 705-714
    (...FromMessageArguments); grpc/federation/cel/conv.go:5-64 (ToIdentifiers, toEntryNames, toSelectorName).
    Simplified: a message, enum, service or option stands for the name of its package; the references are resolved; an expression is its
    syntax tree after the macros have been expanded, and it can be parsed; a map of package names is the list of its keys, in any
    order and with repetitions. *)
From Coq Require Import String List Bool.
From Verif.Base Require Import Text.
From Verif.Lookup Require Import Model.
Import ListNotations.
Local Open Scope string_scope.
Local Open Scope list_scope.

(** ast.Expr: the kinds of a syntax tree. A call without a receiver has [Lit] (nilExpr, whose kind is unspecified) as target; the entries of a
    map are its keys and values in turn; a comprehension has its range, its accumulator's first value, its condition, step and result *)
Inductive expr :=
| Lit
| Ident (name : string)
| Select (operand : expr) (field : string)
| CallE (target : expr) (args : list expr)
| ListE (elems : list expr)
| MapE (entries : list expr)
| StructE (name : string) (fields : list expr)
| Compr (parts : list expr).

(** cel/conv.go:48-64 (toSelectorName) *)
Fixpoint to_selector (e : expr) : string :=
  match e with
  | Select op f => let parent := to_selector op in if (parent =? "")%string then f else (parent ++ "." ++ f)%string
  | Ident n => n
  | _ => ""
  end.
(** cel/conv.go:5-46 (ToIdentifiers, toEntryNames) *)
Fixpoint to_identifiers (e : expr) : list string :=
  match e with
  | CallE t args => to_identifiers t ++ flat_map to_identifiers args
  | Ident n => [n]
  | ListE es => flat_map to_identifiers es
  | MapE es => flat_map to_identifiers es
  | Select _ _ => [to_selector e]
  | StructE n fs => n :: flat_map to_identifiers fs
  | _ => []
  end.

(** resolver.Type: a message that is no map entry, an enum, a map entry with the types of its fields, anything else *)
Inductive typ := TScalar | TMsg (pkg : string) | TEnum (pkg : string) | TEntry (fields : list typ).

(** resolver.Argument: Value.CEL, If, Type *)
Record arg := { a_cel : option expr; a_if : option expr; a_type : typ }.
(** resolver.MapExpr.Expr: By, Message with its arguments, Enum with its By *)
Inductive mapexpr := MBy (by_ : expr) | MMessage (pkg : string) (args : list arg) | MEnum (pkg : string) (by_ : expr).

(** resolver.VariableDefinition, VariableExpr, GRPCError, GRPCErrorDetail. A call has the package of its service, that of its request type,
    the arguments, the condition of its retry policy and its errors. A map has the source of its iterator as a name, which is left out.
    The last part of a detail is made of the expressions of precondition failures, bad requests and localized messages *)
Inductive def := Def (cond : option expr) (value : vexpr)
with vexpr :=
| XNone
| XBy (by_ : expr)
| XCall (service request : string) (args : list arg) (retry : option expr) (errors : list gerr)
| XMessage (pkg : string) (args : list arg)
| XEnum (pkg : string) (by_ : expr)
| XMap (value : mapexpr)
| XValidation (error : gerr)
with gerr := GErr (defs : list def) (conds : list expr) (details : list detail)
with detail := Detail (cond : option expr) (by_ : list expr) (messages defs : list def) (parts : list expr).

(** resolver.FieldOneofRule, FieldRule, Field, EnumRule, Enum, MessageRule, Message *)
Record oneof := { o_if : option expr; o_defs : list def; o_by : option expr }.
Record frule := { r_aliases : list string; r_value : option expr; r_oneof : option oneof }.
Record field := { f_options : list string; f_type : typ; f_rule : option frule }.
Record enum := { e_options : list string; e_aliases : list string }.
Record mrule := { m_aliases : list string; m_defs : list def }.
Inductive message := Message (options : list string) (rule : option mrule) (fields : list field) (enums : list enum) (nested : list message).
(** resolver.Method, Service, ServiceRule *)
Record method := { d_options : list string; d_request : string; d_response : string; d_rule_response : option string }.
Record service := { s_options : list string; s_methods : list method; s_env_message : option string; s_env : list typ; s_vars : list def }.
(** resolver.File; the imported files with their package; the types of the functions of the plugins *)
Record file := {
  file_options : list string;
  imports : list (string * string);
  fed_imports : list string;
  services : list service;
  messages : list message;
  enums : list enum;
  plugins : list typ }.

Definition opt {A B} (f : A -> list B) (o : option A) : list B := match o with Some a => f a | None => [] end.

(** resolver.go:497-521 *)
Fixpoint type_packages (t : typ) : list string :=
  match t with
  | TMsg p => [p]
  | TEnum p => [p]
  | TEntry ts => flat_map type_packages ts
  | TScalar => []
  end.

(** resolver.go:478-495 *)
Definition proto_field (f : field) : list string := f_options f ++ type_packages (f_type f).
Fixpoint proto_message (m : message) : list string :=
  let '(Message _ _ fs _ nested) := m in flat_map proto_field fs ++ flat_map proto_message nested.
(** resolver.go:449-476 *)
Definition proto_method (m : method) : list string := d_options m ++ [d_request m; d_response m].
Definition proto_service (s : service) : list string := s_options s ++ flat_map proto_method (s_methods s).
Definition proto_file (f : file) : list string := flat_map proto_service (services f) ++ flat_map proto_message (messages f).

Section Packages.
  (** the files known to the resolver *)
  Variable s : schema.

  (** resolver.go:677-703 *)
  Definition ident_packages (n : string) : list string :=
    match lookupPackage s n with
    | Some p => [p]
    | None => if has_package s n then [n] else []
    end.
  Definition cel_packages (e : expr) : list string := flat_map ident_packages (to_identifiers e).

  (** resolver.go:705-714 *)
  Definition arg_packages (a : arg) : list string := opt cel_packages (a_cel a) ++ type_packages (a_type a).
  Definition args_packages (l : list arg) : list string := flat_map arg_packages l.

  (** resolver.go:590-640, for one definition, and 642-675 *)
  Definition map_packages (m : mapexpr) : list string :=
    match m with
    | MBy e => cel_packages e
    | MMessage p args => p :: args_packages args
    | MEnum _ _ => []
    end.
  Fixpoint def_packages (d : def) : list string := let '(Def _ x) := d in vexpr_packages x
  with vexpr_packages (x : vexpr) : list string :=
    match x with
    | XNone => []
    | XBy e => cel_packages e
    | XCall svc req args _ errs => svc :: req :: args_packages args ++ flat_map err_packages errs
    | XMessage p args => p :: args_packages args
    | XEnum p _ => [p]
    | XMap m => map_packages m
    | XValidation err => err_packages err
    end
  with err_packages (e : gerr) : list string :=
    let '(GErr _ conds details) := e in flat_map cel_packages conds ++ flat_map detail_packages details
  with detail_packages (d : detail) : list string :=
    let '(Detail c by_ msgs defs parts) := d in
    opt cel_packages c ++ flat_map cel_packages by_ ++ flat_map def_packages msgs ++ flat_map def_packages defs ++ flat_map cel_packages parts.

  (** resolver.go:544-577, 579-588 *)
  Definition oneof_packages (o : oneof) : list string := opt cel_packages (o_by o).
  Definition frule_packages (r : frule) : list string := r_aliases r ++ opt cel_packages (r_value r) ++ opt oneof_packages (r_oneof r).
  Definition field_packages (f : field) : list string := opt frule_packages (f_rule f).
  Definition mrule_packages (r : mrule) : list string := m_aliases r ++ flat_map def_packages (m_defs r).
  Fixpoint message_packages (m : message) : list string :=
    let '(Message _ r fs _ nested) := m in opt mrule_packages r ++ flat_map field_packages fs ++ flat_map message_packages nested.
  (** resolver.go:523-542 *)
  Definition service_packages (v : service) : list string := flat_map type_packages (s_env v).
  Definition file_packages (f : file) : list string :=
    flat_map service_packages (services f) ++ flat_map message_packages (messages f) ++ flat_map e_aliases (enums f).

  (** resolver.go:407-447: the warnings, in the order they are added *)
  Inductive warning := Unused (import : string) | OnlyFederation (import : string).
  Definition has (l : list string) (p : string) : bool := existsb (String.eqb p) l.
  Definition import_warning (f : file) (i : string * string) : list warning :=
    let '(name, pkg) := i in
    if has (fed_imports f) name then
      if has (file_packages f) pkg then [] else [Unused name]
    else if has (proto_file f) pkg then []
    else if has (file_packages f) pkg then [OnlyFederation name] else [].
  Definition validate_import (f : file) : list warning := flat_map (import_warning f) (imports f).
End Packages.
