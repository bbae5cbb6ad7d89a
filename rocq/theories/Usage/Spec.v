(** Where a file names something of a package. The definitions do not use the functions of the model. *)
From Coq Require Import String List Bool.
From Verif.Lookup Require Import Model.
From Verif.Usage Require Import Model.
Import ListNotations.
Local Open Scope string_scope.
Local Open Scope list_scope.

(** A name refers to a package when it is the name of the package or goes on after it, perhaps with a dot in front. *)
Definition refers (p n : string) : Prop := n = p \/ exists r, n = (p ++ "." ++ r)%string \/ n = ("." ++ p ++ "." ++ r)%string.

(** A dotted name, as the syntax tree has it: an identifier with fields selected from it. *)
Inductive dotted : expr -> string -> Prop :=
| dotted_ident n : n <> "" -> dotted (Ident n) n
| dotted_select e n f : dotted e n -> dotted (Select e f) (n ++ "." ++ f).

(** The places that deserve a name, in a file and in an expression. The way to a place is the list of those passed. *)
Inductive spot :=
| DefinitionIf | ArgumentIf | RetryIf | EnumBy | MapEnum | ErrorDef | OneofIf | OneofDef | NestedEnum
| ServiceVariable | EnvMessage | MethodResponse | PluginFunction
| FileOption | MessageOption | EnumOption
| InComprehension | SelectedFrom.
Definition way := list spot.

(** The names that are written in an expression: a dotted name as a whole, the name of a message that is constructed, and those in the
    parts of the expression, whatever kind it is of. *)
Inductive occurs : way -> string -> expr -> Prop :=
| occurs_dotted n e : dotted e n -> occurs [] n e
| occurs_select w n e f : (forall m, ~ dotted e m) -> occurs w n e -> occurs (SelectedFrom :: w) n (Select e f)
| occurs_target w n t args : occurs w n t -> occurs w n (CallE t args)
| occurs_arg w n t args e : In e args -> occurs w n e -> occurs w n (CallE t args)
| occurs_elem w n es e : In e es -> occurs w n e -> occurs w n (ListE es)
| occurs_entry w n es e : In e es -> occurs w n e -> occurs w n (MapE es)
| occurs_struct n fs : occurs [] n (StructE n fs)
| occurs_field w n m fs e : In e fs -> occurs w n e -> occurs w n (StructE m fs)
| occurs_part w n es e : In e es -> occurs w n e -> occurs (InComprehension :: w) n (Compr es).

(** The fields that are selected from a value that is no name. *)
Inductive trailing : expr -> string -> Prop :=
| trailing_first e f : f <> "" -> (forall m, ~ dotted e m) -> (forall e' f', e <> Select e' f') -> trailing (Select e f) f
| trailing_next e n f : trailing e n -> trailing (Select e f) (n ++ "." ++ f).

(** Nothing in an expression but names looks like a name: the fields that are selected from a value that is no name are not named like
    a package, and neither names nor fields are empty. *)
Inductive plain (known : string -> Prop) : expr -> Prop :=
| plain_lit : plain known Lit
| plain_dotted e n : dotted e n -> plain known e
| plain_select e n : trailing e n -> (forall p, known p -> ~ refers p n) -> plain known e
| plain_call t args : plain known t -> (forall e, In e args -> plain known e) -> plain known (CallE t args)
| plain_list es : (forall e, In e es -> plain known e) -> plain known (ListE es)
| plain_map es : (forall e, In e es -> plain known e) -> plain known (MapE es)
| plain_struct n fs : (forall e, In e fs -> plain known e) -> plain known (StructE n fs)
| plain_compr es : plain known (Compr es).

(** The packages that a type is from: those of the key and the value for a map. *)
Inductive type_from : string -> typ -> Prop :=
| from_msg p : type_from p (TMsg p)
| from_enum p : type_from p (TEnum p)
| from_entry p t ts : In t ts -> type_from p t -> type_from p (TEntry ts).

(** What can be found at a place of a file: something of a package by name, a type, an expression. *)
Inductive item := Ref (pkg : string) | Ty (t : typ) | Cel (e : expr).
Inductive mentions (known : string -> Prop) (p : string) : way -> item -> Prop :=
| mentions_ref : mentions known p [] (Ref p)
| mentions_type t : type_from p t -> mentions known p [] (Ty t)
| mentions_cel w e n : known p -> occurs w n e -> refers p n -> mentions known p w (Cel e).

Inductive arg_place : arg -> way -> item -> Prop :=
| place_arg_value a e : a_cel a = Some e -> arg_place a [] (Cel e)
| place_arg_type a : arg_place a [] (Ty (a_type a))
| place_arg_if a e : a_if a = Some e -> arg_place a [ArgumentIf] (Cel e).

Inductive map_place : mapexpr -> way -> item -> Prop :=
| place_map_by e : map_place (MBy e) [] (Cel e)
| place_map_message p args : map_place (MMessage p args) [] (Ref p)
| place_map_arg p args a w x : In a args -> arg_place a w x -> map_place (MMessage p args) w x
| place_map_enum p e : map_place (MEnum p e) [MapEnum] (Ref p)
| place_map_enum_by p e : map_place (MEnum p e) [MapEnum; EnumBy] (Cel e).

Inductive def_place : def -> way -> item -> Prop :=
| place_def_if e x : def_place (Def (Some e) x) [DefinitionIf] (Cel e)
| place_def_value c v w x : vexpr_place v w x -> def_place (Def c v) w x
with vexpr_place : vexpr -> way -> item -> Prop :=
| place_by e : vexpr_place (XBy e) [] (Cel e)
| place_service svc req args r errs : vexpr_place (XCall svc req args r errs) [] (Ref svc)
| place_request svc req args r errs : vexpr_place (XCall svc req args r errs) [] (Ref req)
| place_call_arg svc req args r errs a w x : In a args -> arg_place a w x -> vexpr_place (XCall svc req args r errs) w x
| place_retry svc req args e errs : vexpr_place (XCall svc req args (Some e) errs) [RetryIf] (Cel e)
| place_call_error svc req args r errs g w x : In g errs -> err_place g w x -> vexpr_place (XCall svc req args r errs) w x
| place_message p args : vexpr_place (XMessage p args) [] (Ref p)
| place_message_arg p args a w x : In a args -> arg_place a w x -> vexpr_place (XMessage p args) w x
| place_enum p e : vexpr_place (XEnum p e) [] (Ref p)
| place_enum_by p e : vexpr_place (XEnum p e) [EnumBy] (Cel e)
| place_map m w x : map_place m w x -> vexpr_place (XMap m) w x
| place_validation g w x : err_place g w x -> vexpr_place (XValidation g) w x
with err_place : gerr -> way -> item -> Prop :=
| place_err_def defs conds ds d w x : In d defs -> def_place d w x -> err_place (GErr defs conds ds) (ErrorDef :: w) x
| place_err_cond defs conds ds e : In e conds -> err_place (GErr defs conds ds) [] (Cel e)
| place_err_detail defs conds ds d w x : In d ds -> detail_place d w x -> err_place (GErr defs conds ds) w x
with detail_place : detail -> way -> item -> Prop :=
| place_detail_if e by_ ms ds ps : detail_place (Detail (Some e) by_ ms ds ps) [] (Cel e)
| place_detail_by c by_ ms ds ps e : In e by_ -> detail_place (Detail c by_ ms ds ps) [] (Cel e)
| place_detail_message c by_ ms ds ps d w x : In d ms -> def_place d w x -> detail_place (Detail c by_ ms ds ps) w x
| place_detail_def c by_ ms ds ps d w x : In d ds -> def_place d w x -> detail_place (Detail c by_ ms ds ps) w x
| place_detail_part c by_ ms ds ps e : In e ps -> detail_place (Detail c by_ ms ds ps) [] (Cel e).

Inductive field_place : field -> way -> item -> Prop :=
| place_field_alias f r p : f_rule f = Some r -> In p (r_aliases r) -> field_place f [] (Ref p)
| place_field_value f r e : f_rule f = Some r -> r_value r = Some e -> field_place f [] (Cel e)
| place_oneof_by f r o e : f_rule f = Some r -> r_oneof r = Some o -> o_by o = Some e -> field_place f [] (Cel e)
| place_oneof_if f r o e : f_rule f = Some r -> r_oneof r = Some o -> o_if o = Some e -> field_place f [OneofIf] (Cel e)
| place_oneof_def f r o d w x : f_rule f = Some r -> r_oneof r = Some o -> In d (o_defs o) -> def_place d w x -> field_place f (OneofDef :: w) x.

Inductive message_place : message -> way -> item -> Prop :=
| place_alias os r fs es ns p : In p (m_aliases r) -> message_place (Message os (Some r) fs es ns) [] (Ref p)
| place_def os r fs es ns d w x : In d (m_defs r) -> def_place d w x -> message_place (Message os (Some r) fs es ns) w x
| place_field os r fs es ns f w x : In f fs -> field_place f w x -> message_place (Message os r fs es ns) w x
| place_nested_enum os r fs es ns e p : In e es -> In p (e_aliases e) -> message_place (Message os r fs es ns) [NestedEnum] (Ref p)
| place_nested os r fs es ns n w x : In n ns -> message_place n w x -> message_place (Message os r fs es ns) w x.

(** The places in the options of grpc federation. *)
Inductive federation_place (f : file) : way -> item -> Prop :=
| place_env v t : In v (services f) -> In t (s_env v) -> federation_place f [] (Ty t)
| place_env_message v p : In v (services f) -> s_env_message v = Some p -> federation_place f [EnvMessage] (Ref p)
| place_variable v d w x : In v (services f) -> In d (s_vars v) -> def_place d w x -> federation_place f (ServiceVariable :: w) x
| place_method_response v m p : In v (services f) -> In m (s_methods v) -> d_rule_response m = Some p -> federation_place f [MethodResponse] (Ref p)
| place_in_message m w x : In m (messages f) -> message_place m w x -> federation_place f w x
| place_enum_alias e p : In e (enums f) -> In p (e_aliases e) -> federation_place f [] (Ref p)
| place_plugin t : In t (plugins f) -> federation_place f [PluginFunction] (Ty t).

(** The places in the definitions proper. *)
Inductive proto_message_place : message -> way -> item -> Prop :=
| place_message_option os r fs es ns p : In p os -> proto_message_place (Message os r fs es ns) [MessageOption] (Ref p)
| place_field_option os r fs es ns f p : In f fs -> In p (f_options f) -> proto_message_place (Message os r fs es ns) [] (Ref p)
| place_field_type os r fs es ns f : In f fs -> proto_message_place (Message os r fs es ns) [] (Ty (f_type f))
| place_nested_enum_option os r fs es ns e p : In e es -> In p (e_options e) -> proto_message_place (Message os r fs es ns) [EnumOption] (Ref p)
| place_nested_proto os r fs es ns n w x : In n ns -> proto_message_place n w x -> proto_message_place (Message os r fs es ns) w x.
Inductive proto_place (f : file) : way -> item -> Prop :=
| place_file_option p : In p (file_options f) -> proto_place f [FileOption] (Ref p)
| place_service_option v p : In v (services f) -> In p (s_options v) -> proto_place f [] (Ref p)
| place_method_option v m p : In v (services f) -> In m (s_methods v) -> In p (d_options m) -> proto_place f [] (Ref p)
| place_method_request v m : In v (services f) -> In m (s_methods v) -> proto_place f [] (Ref (d_request m))
| place_method_reply v m : In v (services f) -> In m (s_methods v) -> proto_place f [] (Ref (d_response m))
| place_in_proto_message m w x : In m (messages f) -> proto_message_place m w x -> proto_place f w x
| place_enum_option e p : In e (enums f) -> In p (e_options e) -> proto_place f [EnumOption] (Ref p).

(** The file uses a package in the options of grpc federation, or in its definitions, at a place that is reached by one of the ways. *)
Definition used_in (place : way -> item -> Prop) (known : string -> Prop) (ways : way -> Prop) (p : string) : Prop :=
  exists w w' x, place w x /\ mentions known p w' x /\ ways (w ++ w').
Definition anywhere (w : way) : Prop := True.
Definition direct (w : way) : Prop := w = [].

(** The packages of a project: they have a name, it does not start with a dot, and it does not start with the name of another. *)
Definition package_of (s : schema) (p : string) : Prop := exists d, In d s /\ package d = p.
Definition separate (s : schema) : Prop := forall p, package_of s p ->
  p <> "" /\ (forall r, p <> ("." ++ r)%string) /\ forall q r, package_of s q -> q <> (p ++ "." ++ r)%string.
Definition plain_file (s : schema) (f : file) : Prop := forall w e, federation_place f w (Cel e) -> plain (package_of s) e.

(** What the warnings should say. *)
Definition right_warnings (s : schema) (federation proto : way -> Prop) (f : file) (warns : list warning) : Prop :=
  forall name pkg, In (name, pkg) (imports f) -> (forall q, In (name, q) (imports f) -> q = pkg) ->
    (In (Unused name) warns <->
       In name (fed_imports f) /\ ~ used_in (federation_place f) (package_of s) federation pkg) /\
    (In (OnlyFederation name) warns <->
       ~ In name (fed_imports f) /\ ~ used_in (proto_place f) (package_of s) proto pkg /\ used_in (federation_place f) (package_of s) federation pkg).
