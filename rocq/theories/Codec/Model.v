(** * The request handed to a code generator plugin

    Model of grpc/federation/generator/encode.go (the generator's side) and
    grpc/federation/generator/decode.go (the plugin's side).

    The resolved schema is a cyclic graph of Go objects.  The objects that the
    encoder registers by id in the [Reference] of the request (files, services,
    methods, messages, fields, oneofs, enums, enum values, CEL plugins,
    dependency graphs, variable definitions and variable definition groups) are
    heap objects of the model; all other Go structs (rules, expressions, types,
    graph nodes, packages) are finite values held by them.

    Simplifications.
    - The ids written into the request are pure functions of the objects, so
      writing an object ([enc_val]) is separated from the list of objects it
      makes the encoder visit ([enc_refs]); the same for decoding.  The Go code
      stores an empty object in the map, visits the children and fills the object
      afterwards; nothing reads the object in between, so the model stores the
      final content at once.  toCELPlugin (encode.go:662-678) stores the plugin
      after its functions; visiting it twice in between writes the same content.
    - FQDN() of services, methods, messages and enums (resolver/fqdn.go:8-65) and
      VariableDefinitions() of groups (resolver/def.go:40-56) are given as
      attributes "FQDN" and "Flat" of the objects.
    - Booleans, numbers, durations and status codes are texts; protobuf
      marshalling of the request (decode.go:22-30) is the identity.
    - Nodes of a dependency graph are trees: a node with two parents is one
      pointer in Go and is written twice (encode.go:796-813). *)

From Coq Require Import String List Arith Bool.
From Verif.Base Require Import Text.
Import ListNotations.
Local Open Scope string_scope.

(** ** Object graphs *)

(** A Go value: nil, a scalar, a pointer to a registered object of a kind, a
    slice, or a struct of a sort with its fields. *)
Inductive value (A : Type) : Type :=
| VNil
| VAtom (s : string)
| VObj (k : string) (a : A)
| VList (l : list (value A))
| VRec (s : string) (fs : list (string * value A)).
Arguments VNil {A}.
Arguments VAtom {A} s.
Arguments VObj {A} k a.
Arguments VList {A} l.
Arguments VRec {A} s fs.

Definition fields (A : Type) := list (string * value A).

Fixpoint assoc {B : Type} (l : string) (fs : list (string * B)) : option B :=
  match fs with
  | [] => None
  | (l', b) :: r => if String.eqb l l' then Some b else assoc l r
  end.

(** A field that is not set holds the zero value. *)
Definition field {A : Type} (fs : fields A) (l : string) : value A :=
  match assoc l fs with Some v => v | None => VNil end.

(** The heap of the generator: objects by kind and address. *)
Definition heap := list ((string * nat) * fields nat).

Fixpoint load (h : heap) (k : string) (a : nat) : option (fields nat) :=
  match h with
  | [] => None
  | ((k', a'), fs) :: r =>
      if String.eqb k k' && Nat.eqb a a' then Some fs else load r k a
  end.

(** The wire format: protobuf messages of generator.proto. *)
Inductive wire : Type :=
| WNil
| WAtom (s : string)
| WId (s : string)
| WIds (l : list string)
| WList (l : list wire)
| WRec (ws : list (string * wire)).

(** The maps of [Reference] (encode.go:14-34), by kind and id. *)
Definition table (B : Type) := list ((string * string) * B).

Fixpoint tfind {B : Type} (key : string * string) (t : table B) : option B :=
  match t with
  | [] => None
  | (key', b) :: r =>
      if String.eqb (fst key) (fst key') && String.eqb (snd key) (snd key')
      then Some b else tfind key r
  end.

(** ** Ids: encode.go:1252-1342 *)

Definition text {A : Type} (v : value A) : string :=
  match v with VAtom s => s | _ => "" end.

(** A field of an object behind a pointer, or of an embedded struct. *)
Definition get (h : heap) (v : value nat) (l : string) : value nat :=
  match v with
  | VObj k a => match load h k a with Some fs => field fs l | None => VNil end
  | VRec _ fs => field fs l
  | _ => VNil
  end.

Definition items {A : Type} (v : value A) : list (value A) :=
  match v with VList l => l | _ => [] end.

(** MessageDependencyGraphNode.FQDN: resolver/fqdn.go:89-94. *)
Definition node_fqdn (h : heap) (n : value nat) : string :=
  text (get h (get h n "BaseMessage") "FQDN") ++ "_"
  ++ text (get h (get h n "VariableDefinition") "Name").

(** toFileID ... toVariableDefinitionGroupID: encode.go:1252-1342.  The id of a
    variable definition is its bare name (1326-1331), the id of a field without a
    message is its bare name (resolver/fqdn.go:36-38). *)
Definition id_of (h : heap) (k : string) (a : nat) : string :=
  let o := VObj k a in
  if k =? "File" then
    text (get h (get h o "Package") "Name") ++ ":" ++ text (get h o "Name")
  else if k =? "Field" then
    match get h o "Message" with
    | VNil => text (get h o "Name")
    | m => text (get h m "FQDN") ++ "." ++ text (get h o "Name")
    end
  else if k =? "Oneof" then
    text (get h (get h o "Message") "FQDN") ++ "." ++ text (get h o "Name")
  else if k =? "EnumValue" then
    text (get h (get h o "Enum") "FQDN") ++ "." ++ text (get h o "Value")
  else if k =? "CELPlugin" then text (get h o "Name")
  else if k =? "MessageDependencyGraph" then
    join ":" (map (node_fqdn h) (items (get h o "Roots")))
  else if k =? "VariableDefinition" then text (get h o "Name")
  else if k =? "VariableDefinitionGroup" then
    (match get h o "Sequential" with VNil => "concurrent" | _ => "sequential" end)
    ++ "/" ++ join ":" (map (fun d => text (get h d "Name")) (items (get h o "Flat")))
  else (* Service, Method, Message, Enum *) text (get h o "FQDN").

(** ** What the encoder writes *)

(** toTypeKind: encode.go:739-779. *)
Definition enc_kind_table : list (string * string) :=
  [("double","DOUBLE_TYPE"); ("float","FLOAT_TYPE"); ("int64","INT64_TYPE");
   ("uint64","UINT64_TYPE"); ("int32","INT32_TYPE"); ("fixed64","FIXED64_TYPE");
   ("fixed32","FIXED32_TYPE"); ("bool","BOOL_TYPE"); ("string","STRING_TYPE");
   ("group","GROUP_TYPE"); ("message","MESSAGE_TYPE"); ("bytes","BYTES_TYPE");
   ("uint32","UINT32_TYPE"); ("enum","ENUM_TYPE"); ("sfixed32","SFIXED32_TYPE");
   ("sfixed64","SFIXED64_TYPE"); ("sint32","SINT32_TYPE"); ("sint64","SINT64_TYPE")].

Definition enc_kind (s : string) : string :=
  match assoc s enc_kind_table with Some w => w | None => "UNKNOWN_TYPE" end.

(** toTypeKind: decode.go:1870-1910. *)
Definition dec_kind_table : list (string * string) :=
  [("DOUBLE_TYPE","double"); ("FLOAT_TYPE","float"); ("INT64_TYPE","int64");
   ("UINT64_TYPE","uint64"); ("INT32_TYPE","int32"); ("FIXED64_TYPE","fixed64");
   ("FIXED32_TYPE","fixed32"); ("BOOL_TYPE","bool"); ("STRING_TYPE","string");
   ("GROUP_TYPE","group"); ("MESSAGE_TYPE","message"); ("BYTES_TYPE","bytes");
   ("UINT32_TYPE","uint32"); ("ENUM_TYPE","enum"); ("SFIXED32_TYPE","sfixed32");
   ("SFIXED64_TYPE","sfixed64"); ("SINT32_TYPE","sint32"); ("SINT64_TYPE","sint64")].

Definition dec_kind (s : string) : string :=
  match assoc s dec_kind_table with Some w => w | None => "unknown" end.

(** How a field is written: a scalar; a type kind; the id of an object that is
    registered ([EObj], [EObjs]); the id of an object that is not registered by
    this field ([EId], [EIds]); a nested message, nil for nil ([ERec], [ERecs]);
    a nested message even for nil ([EForce]). *)
Inductive emode :=
| EAtom | EKind | EObj (k : string) | EObjs (k : string) | EId (k : string)
| EIds (k : string) | ERec (s : string) | ERecs (s : string) | EForce (s : string).

(** For each struct: Go field, field of the protobuf message, mode. *)
Definition enc_table : list (string * list (string * (string * emode))) :=
  [ ("File",                                     (* encode.go:71-103 *)
     [("Name",("name",EAtom)); ("GoPackage",("go_package",ERec "GoPackage"));
      ("Package",("package",ERec "Package")); ("Services",("service_ids",EObjs "Service"));
      ("Messages",("message_ids",EObjs "Message")); ("Enums",("enum_ids",EObjs "Enum"));
      ("CELPlugins",("cel_plugin_ids",EObjs "CELPlugin"));
      ("ImportFiles",("import_file_ids",EObjs "File"))]);
    ("Package",                                  (* encode.go:105-112 *)
     [("Name",("name",EAtom)); ("Files",("file_ids",EObjs "File"))]);
    ("GoPackage",                                (* encode.go:114-120 *)
     [("Name",("name",EAtom)); ("ImportPath",("import_path",EAtom));
      ("AliasName",("alias_name",EAtom))]);
    ("Service",                                  (* encode.go:146-172 *)
     [("Name",("name",EAtom)); ("Methods",("method_ids",EObjs "Method"));
      ("Messages",("message_ids",EObjs "Message"));
      ("MessageArgs",("message_arg_ids",EObjs "Message"));
      ("CELPlugins",("cel_plugin_ids",EObjs "CELPlugin"));
      ("File",("file_id",EObj "File")); ("Rule",("rule",ERec "ServiceRule"))]);
    ("ServiceRule",                              (* encode.go:174-184 *)
     [("Env",("env",ERec "Env")); ("Vars",("vars",ERecs "ServiceVariable"))]);
    ("ServiceVariable",                          (* encode.go:198-208 *)
     [("Name",("name",EAtom)); ("If",("if",ERec "CELValue"));
      ("Expr",("expr",ERec "ServiceVariableExpr"))]);
    ("ServiceVariableExpr",                      (* encode.go:210-240 *)
     [("Type",("type",ERec "Type")); ("By",("by",ERec "CELValue"));
      ("Map",("map",ERec "MapExpr")); ("Message",("message",ERec "MessageExpr"));
      ("Enum",("enum",ERec "EnumExpr"));
      ("Validation",("validation",ERec "ServiceVariableValidationExpr"))]);
    ("ServiceVariableValidationExpr",            (* encode.go:242-250 *)
     [("If",("if",ERec "CELValue")); ("Message",("message",ERec "CELValue"))]);
    ("Env",                                      (* encode.go:252-259 *)
     [("Vars",("vars",ERecs "EnvVar"))]);
    ("EnvVar",                                   (* encode.go:273-282 *)
     [("Name",("name",EAtom)); ("Type",("type",ERec "Type"));
      ("Option",("option",ERec "EnvVarOption"))]);
    ("EnvVarOption",                             (* encode.go:284-294 *)
     [("Alternate",("alternate",EAtom)); ("Default",("default",EAtom));
      ("Required",("required",EAtom)); ("Ignored",("ignored",EAtom))]);
    ("Message",                                  (* encode.go:308-339 *)
     [("Name",("name",EAtom)); ("IsMapEntry",("is_map_entry",EAtom));
      ("File",("file_id",EObj "File")); ("ParentMessage",("parent_message_id",EObj "Message"));
      ("NestedMessages",("nested_message_ids",EObjs "Message"));
      ("Enums",("enum_ids",EObjs "Enum")); ("Fields",("field_ids",EObjs "Field"));
      ("Oneofs",("oneof_ids",EObjs "Oneof")); ("Rule",("rule",ERec "MessageRule"))]);
    ("MessageRule",                              (* encode.go:341-356 *)
     [("CustomResolver",("custom_resolver",EAtom)); ("Aliases",("alias_ids",EObjs "Message"));
      ("MessageArgument",("message_argument_id",EObj "Message"));
      ("DefSet",("def_set",EForce "VariableDefinitionSet"))]);
    ("VariableDefinitionSet",                    (* encode.go:358-368 *)
     [("Graph",("dependency_graph_id",EObj "MessageDependencyGraph"));
      ("Defs",("variable_definition_ids",EObjs "VariableDefinition"));
      ("Groups",("variable_definition_group_ids",EObjs "VariableDefinitionGroup"))]);
    ("Enum",                                     (* encode.go:382-400 *)
     [("Name",("name",EAtom)); ("Values",("value_ids",EObjs "EnumValue"));
      ("Message",("message_id",EObj "Message")); ("File",("file_id",EObj "File"));
      ("Rule",("rule",ERec "EnumRule"))]);
    ("EnumRule",                                 (* encode.go:402-413 *)
     [("Aliases",("alias_ids",EIds "Enum"))]);
    ("EnumValueAlias",                           (* encode.go:451-463 *)
     [("EnumAlias",("enum_alias_id",EId "Enum")); ("Aliases",("alias_ids",EIds "EnumValue"))]);
    ("EnumValueAttribute",                       (* encode.go:465-473 *)
     [("Name",("name",EAtom)); ("Value",("value",EAtom))]);
    ("EnumValue",                                (* encode.go:475-489 *)
     [("Value",("value",EAtom)); ("Enum",("enum_id",EObj "Enum"));
      ("Rule",("rule",ERec "EnumValueRule"))]);
    ("EnumValueRule",                            (* encode.go:491-501 *)
     [("Default",("default",EAtom)); ("Aliases",("aliases",ERecs "EnumValueAlias"));
      ("Attrs",("attrs",ERecs "EnumValueAttribute"))]);
    ("Field",                                    (* encode.go:515-531 *)
     [("Name",("name",EAtom)); ("Type",("type",ERec "Type"));
      ("Oneof",("oneof_id",EObj "Oneof")); ("Rule",("rule",ERec "FieldRule"));
      ("Message",("message_id",EObj "Message"))]);
    ("FieldRule",                                (* encode.go:533-549 *)
     [("Value",("value",ERec "Value")); ("CustomResolver",("custom_resolver",EAtom));
      ("MessageCustomResolver",("message_custom_resolver",EAtom));
      ("Aliases",("alias_ids",EObjs "Field"));
      ("AutoBindField",("auto_bind_field",ERec "AutoBindField"));
      ("Oneof",("oneof_rule",ERec "FieldOneofRule"))]);
    ("AutoBindField",                            (* encode.go:551-559 *)
     [("VariableDefinition",("variable_definition_id",EObj "VariableDefinition"));
      ("Field",("field_id",EObj "Field"))]);
    ("FieldOneofRule",                           (* encode.go:561-570 *)
     [("Default",("default",EAtom)); ("If",("if",ERec "CELValue"));
      ("By",("by",ERec "CELValue")); ("DefSet",("def_set",EForce "VariableDefinitionSet"))]);
    ("Oneof",                                    (* encode.go:584-600 *)
     [("Name",("name",EAtom)); ("Message",("message_id",EObj "Message"));
      ("Fields",("field_ids",EObjs "Field"))]);
    ("Method",                                   (* encode.go:614-630 *)
     [("Name",("name",EAtom)); ("Request",("request_id",EObj "Message"));
      ("Response",("response_id",EObj "Message")); ("Service",("service_id",EObj "Service"));
      ("Rule",("rule",ERec "MethodRule"))]);
    ("MethodRule",                               (* encode.go:632-648 *)
     [("Timeout",("timeout",EAtom)); ("Response",("response_id",EObj "Message"))]);
    ("CELPlugin",                                (* encode.go:662-678 *)
     [("Name",("name",EAtom)); ("Desc",("description",EAtom));
      ("Functions",("functions",ERecs "CELFunction"))]);
    ("CELFunction",                              (* encode.go:692-703 *)
     [("Name",("name",EAtom)); ("ID",("id",EAtom)); ("Args",("args",ERecs "Type"));
      ("Return",("return",ERec "Type")); ("Receiver",("receiver_id",EObj "Message"))]);
    ("Type",                                     (* encode.go:713-737 *)
     [("Kind",("kind",EKind)); ("Repeated",("repeated",EAtom)); ("IsNull",("is_null",EAtom));
      ("Message",("message_id",EObj "Message")); ("Enum",("enum_id",EObj "Enum"));
      ("OneofField",("oneof_field_id",EObj "Field"))]);
    ("MessageDependencyGraph",                   (* encode.go:781-794 *)
     [("Roots",("roots",ERecs "MessageDependencyGraphNode"))]);
    ("MessageDependencyGraphNode",               (* encode.go:804-813 *)
     [("Children",("children",ERecs "MessageDependencyGraphNode"));
      ("BaseMessage",("base_message_id",EObj "Message"));
      ("VariableDefinition",("variable_definition_id",EObj "VariableDefinition"))]);
    ("VariableDefinition",                       (* encode.go:839-859 *)
     [("Idx",("index",EAtom)); ("Name",("name",EAtom)); ("AutoBind",("auto_bind",EAtom));
      ("Used",("used",EAtom)); ("If",("if",ERec "CELValue"));
      ("Expr",("expr",ERec "VariableExpr"))]);
    ("VariableDefinitionGroup",                  (* encode.go:861-883 *)
     [("Sequential",("sequential",ERec "SequentialVariableDefinitionGroup"));
      ("Concurrent",("concurrent",ERec "ConcurrentVariableDefinitionGroup"))]);
    ("SequentialVariableDefinitionGroup",        (* encode.go:885-890 *)
     [("Start",("start",EObj "VariableDefinitionGroup"));
      ("End",("end",EObj "VariableDefinition"))]);
    ("ConcurrentVariableDefinitionGroup",        (* encode.go:892-900 *)
     [("Starts",("starts",EObjs "VariableDefinitionGroup"));
      ("End",("end",EObj "VariableDefinition"))]);
    ("CELValue",                                 (* encode.go:910-918 *)
     [("Expr",("expr",EAtom)); ("Out",("out",ERec "Type"))]);
    ("VariableExpr",                             (* encode.go:920-954 *)
     [("Type",("type",ERec "Type")); ("By",("by",ERec "CELValue"));
      ("Map",("map",ERec "MapExpr")); ("Call",("call",ERec "CallExpr"));
      ("Message",("message",ERec "MessageExpr")); ("Enum",("enum",ERec "EnumExpr"));
      ("Validation",("validation",ERec "ValidationExpr"))]);
    ("MapExpr",                                  (* encode.go:956-964 *)
     [("Iterator",("iterator",ERec "Iterator")); ("Expr",("expr",ERec "MapIteratorExpr"))]);
    ("Iterator",                                 (* encode.go:966-974 *)
     [("Name",("name",EAtom)); ("Source",("source_id",EId "VariableDefinition"))]);
    ("MapIteratorExpr",                          (* encode.go:976-998 *)
     [("Type",("type",ERec "Type")); ("By",("by",ERec "CELValue"));
      ("Message",("message",ERec "MessageExpr")); ("Enum",("enum",ERec "EnumExpr"))]);
    ("CallExpr",                                 (* encode.go:1000-1014 *)
     [("Method",("method_id",EObj "Method")); ("Request",("request",ERec "Request"));
      ("Timeout",("timeout",EAtom)); ("Retry",("retry",ERec "RetryPolicy"))]);
    ("Request",                                  (* encode.go:1016-1024 *)
     [("Args",("args",ERecs "Argument")); ("Type",("type_id",EObj "Message"))]);
    ("RetryPolicy",                              (* encode.go:1026-1044 *)
     [("If",("if",ERec "CELValue")); ("Constant",("constant",ERec "RetryPolicyConstant"));
      ("Exponential",("exponential",ERec "RetryPolicyExponential"))]);
    ("RetryPolicyConstant",                      (* encode.go:1046-1054 *)
     [("Interval",("interval",EAtom)); ("MaxRetries",("max_retries",EAtom))]);
    ("RetryPolicyExponential",                   (* encode.go:1056-1068 *)
     [("InitialInterval",("initial_interval",EAtom));
      ("RandomizationFactor",("randomization_factor",EAtom));
      ("Multiplier",("multiplier",EAtom)); ("MaxInterval",("max_interval",EAtom));
      ("MaxRetries",("max_retries",EAtom)); ("MaxElapsedTime",("max_elapsed_time",EAtom))]);
    ("MessageExpr",                              (* encode.go:1070-1078 *)
     [("Message",("message_id",EObj "Message")); ("Args",("args",ERecs "Argument"))]);
    ("Argument",                                 (* encode.go:1088-1095 *)
     [("Name",("name",EAtom)); ("Type",("type",ERec "Type")); ("Value",("value",ERec "Value"));
      ("If",("if",ERec "CELValue"))]);
    ("Value",                                    (* encode.go:1097-1105 *)
     [("Inline",("inline",EAtom)); ("CEL",("cel",ERec "CELValue"))]);
    ("EnumExpr",                                 (* encode.go:1107-1115 *)
     [("Enum",("enum_id",EObj "Enum")); ("By",("by",ERec "CELValue"))]);
    ("ValidationExpr",                           (* encode.go:1117-1124 *)
     [("Error",("error",ERec "GRPCError"))]);
    ("GRPCError",                                (* encode.go:1126-1138 *)
     [("Code",("code",EAtom)); ("If",("if",ERec "CELValue"));
      ("Message",("message",ERec "CELValue")); ("Details",("details",ERecs "GRPCErrorDetail"));
      ("Ignore",("ignore",EAtom));
      ("IgnoreAndResponse",("ignore_and_response",ERec "CELValue"))]);
    ("GRPCErrorDetail",                          (* encode.go:1148-1161 *)
     [("DefSet",("def_set",EForce "VariableDefinitionSet")); ("If",("if",ERec "CELValue"));
      ("By",("by",ERecs "CELValue"));
      ("PreconditionFailures",("precondition_failures",ERecs "PreconditionFailure"));
      ("BadRequests",("bad_requests",ERecs "BadRequest"));
      ("LocalizedMessages",("localized_messages",ERecs "LocalizedMessage"));
      ("Messages",("messages",EForce "VariableDefinitionSet"))]);
    ("PreconditionFailure",                      (* encode.go:1171-1178 *)
     [("Violations",("violations",ERecs "PreconditionFailureViolation"))]);
    ("PreconditionFailureViolation",             (* encode.go:1188-1197 *)
     [("Type",("type",ERec "CELValue")); ("Subject",("subject",ERec "CELValue"));
      ("Description",("description",ERec "CELValue"))]);
    ("BadRequest",                               (* encode.go:1207-1214 *)
     [("FieldViolations",("field_violations",ERecs "BadRequestFieldViolation"))]);
    ("BadRequestFieldViolation",                 (* encode.go:1224-1232 *)
     [("Field",("field",ERec "CELValue")); ("Description",("description",ERec "CELValue"))]);
    ("LocalizedMessage",                         (* encode.go:1242-1250 *)
     [("Locale",("locale",EAtom)); ("Message",("message",ERec "CELValue"))]) ].

(** The [switch] statements of the encoder: of these fields, in this order, only
    the first one that is not nil is written (encode.go:217-238, 722-735, 872-881,
    927-952, 983-996, 1033-1042). *)
Definition enc_switch : list (string * list string) :=
  [ ("ServiceVariableExpr", ["By"; "Map"; "Message"; "Enum"; "Validation"]);
    ("Type", ["Message"; "Enum"; "OneofField"]);
    ("VariableDefinitionGroup", ["Sequential"; "Concurrent"]);
    ("VariableExpr", ["By"; "Map"; "Call"; "Message"; "Enum"; "Validation"]);
    ("MapIteratorExpr", ["By"; "Message"; "Enum"]);
    ("RetryPolicy", ["Constant"; "Exponential"]) ].

Definition is_nil {A : Type} (v : value A) : bool :=
  match v with VNil => true | _ => false end.

Definition rows {B : Type} (t : list (string * list B)) (s : string) : list B :=
  match assoc s t with Some r => r | None => [] end.

(** The field chosen by the switch of a struct. *)
Definition chosen (s : string) (fs : fields nat) : option string :=
  find (fun l => negb (is_nil (field fs l))) (rows enc_switch s).

Definition mem (s : string) (l : list string) : bool := existsb (String.eqb s) l.

(** Whether the field is left out by the switch. *)
Definition skipped (s : string) (fs : fields nat) (l : string) : bool :=
  mem l (rows enc_switch s)
  && match chosen s fs with Some l' => negb (String.eqb l l') | None => true end.

Section Encode.
Variable h : heap.

(** The ids of the pointers of a slice; nil pointers are skipped
    (encode.go:122-132 and the like). *)
Definition ids (k : string) (l : list (value nat)) : list string :=
  flat_map (fun v => match v with VObj _ a => [id_of h k a] | _ => [] end) l.

Definition ptrs (k : string) (l : list (value nat)) : list (string * nat) :=
  flat_map (fun v => match v with VObj _ a => [(k, a)] | _ => [] end) l.

(** What is written for a Go value. *)
Fixpoint enc_val (m : emode) (v : value nat) {struct v} : wire :=
  match v with
  | VNil => match m with EForce _ => WRec [] | _ => WNil end
  | VAtom s =>
      match m with EAtom => WAtom s | EKind => WAtom (enc_kind s) | _ => WNil end
  | VObj _ a =>
      match m with EObj k | EId k => WId (id_of h k a) | _ => WNil end
  | VList l =>
      match m with
      | EObjs k | EIds k => WIds (ids k l)
      | ERecs s => WList (map (enc_val (ERec s)) l)
      | _ => WNil
      end
  | VRec _ fs =>
      match m with
      | ERec s | EForce s =>
          WRec ((fix enc_fs (l : fields nat) : list (string * wire) :=
                   match l with
                   | [] => []
                   | (gl, v') :: r =>
                       match assoc gl (rows enc_table s) with
                       | Some (wl, m') =>
                           if skipped s fs gl then enc_fs r
                           else (wl, enc_val m' v') :: enc_fs r
                       | None => enc_fs r
                       end
                   end) fs)
      | _ => WNil
      end
  end.

(** The objects that writing the value registers, in order. *)
Fixpoint enc_refs (m : emode) (v : value nat) {struct v} : list (string * nat) :=
  match v with
  | VNil | VAtom _ => []
  | VObj _ a => match m with EObj k => [(k, a)] | _ => [] end
  | VList l =>
      match m with
      | EObjs k => ptrs k l
      | ERecs s => flat_map (enc_refs (ERec s)) l
      | _ => []
      end
  | VRec _ fs =>
      match m with
      | ERec s | EForce s =>
          (fix refs_fs (l : fields nat) : list (string * nat) :=
             match l with
             | [] => []
             | (gl, v') :: r =>
                 match assoc gl (rows enc_table s) with
                 | Some (_, m') =>
                     if skipped s fs gl then refs_fs r
                     else enc_refs m' v' ++ refs_fs r
                 | None => refs_fs r
                 end
             end) fs
      | _ => []
      end
  end%list.

End Encode.

(** ** What the decoder reads *)

(** A scalar; a type kind; an id, looked up; a nested message, nil for nil; a
    nested message, made even for nil. *)
Inductive dmode :=
| DAtom | DKind | DObj (k : string) | DObjs (k : string)
| DRec (s : string) | DRecs (s : string) | DForce (s : string).

(** For each struct: field of the protobuf message, Go field, mode. *)
Definition dec_table : list (string * list (string * (string * dmode))) :=
  [ ("File",                                     (* decode.go:95-142 *)
     [("name",("Name",DAtom)); ("go_package",("GoPackage",DRec "GoPackage"));
      ("package",("Package",DRec "Package")); ("service_ids",("Services",DObjs "Service"));
      ("message_ids",("Messages",DObjs "Message")); ("enum_ids",("Enums",DObjs "Enum"));
      ("cel_plugin_ids",("CELPlugins",DObjs "CELPlugin"));
      ("import_file_ids",("ImportFiles",DObjs "File"))]);
    ("Package",                                  (* decode.go:144-156 *)
     [("name",("Name",DAtom)); ("file_ids",("Files",DObjs "File"))]);
    ("GoPackage",                                (* decode.go:158-167 *)
     [("name",("Name",DAtom)); ("import_path",("ImportPath",DAtom));
      ("alias_name",("AliasName",DAtom))]);
    ("Service",                                  (* decode.go:187-233 *)
     [("name",("Name",DAtom)); ("method_ids",("Methods",DObjs "Method"));
      ("message_ids",("Messages",DObjs "Message"));
      ("message_arg_ids",("MessageArgs",DObjs "Message"));
      ("cel_plugin_ids",("CELPlugins",DObjs "CELPlugin"));
      ("file_id",("File",DObj "File")); ("rule",("Rule",DRec "ServiceRule"))]);
    ("ServiceRule",                              (* decode.go:235-251 *)
     [("env",("Env",DForce "Env")); ("vars",("Vars",DRecs "ServiceVariable"))]);
    ("Env",                                      (* decode.go:253-261 *)
     [("vars",("Vars",DRecs "EnvVar"))]);
    ("EnvVar",                                   (* decode.go:281-294 *)
     [("name",("Name",DAtom)); ("type",("Type",DRec "Type"));
      ("option",("Option",DRec "EnvVarOption"))]);
    ("EnvVarOption",                             (* decode.go:296-306 *)
     [("alternate",("Alternate",DAtom)); ("default",("Default",DAtom));
      ("required",("Required",DAtom)); ("ignored",("Ignored",DAtom))]);
    ("ServiceVariable",                          (* decode.go:326-344 *)
     [("name",("Name",DAtom)); ("if",("If",DRec "CELValue"));
      ("expr",("Expr",DRec "ServiceVariableExpr"))]);
    ("ServiceVariableExpr",                      (* decode.go:346-383 *)
     [("type",("Type",DRec "Type")); ("by",("By",DRec "CELValue"));
      ("map",("Map",DRec "MapExpr")); ("message",("Message",DRec "MessageExpr"));
      ("enum",("Enum",DRec "EnumExpr"));
      ("validation",("Validation",DRec "ServiceVariableValidationExpr"))]);
    ("ServiceVariableValidationExpr",            (* decode.go:385-401 *)
     [("if",("If",DRec "CELValue")); ("message",("Message",DRec "CELValue"))]);
    ("Message",                                  (* decode.go:421-474 *)
     [("name",("Name",DAtom)); ("is_map_entry",("IsMapEntry",DAtom));
      ("file_id",("File",DObj "File")); ("parent_message_id",("ParentMessage",DObj "Message"));
      ("nested_message_ids",("NestedMessages",DObjs "Message"));
      ("enum_ids",("Enums",DObjs "Enum")); ("field_ids",("Fields",DObjs "Field"));
      ("oneof_ids",("Oneofs",DObjs "Oneof")); ("rule",("Rule",DRec "MessageRule"))]);
    ("Field",                                    (* decode.go:494-528 *)
     [("name",("Name",DAtom)); ("type",("Type",DRec "Type"));
      ("oneof_id",("Oneof",DObj "Oneof")); ("rule",("Rule",DRec "FieldRule"));
      ("message_id",("Message",DObj "Message"))]);
    ("FieldRule",                                (* decode.go:530-559 *)
     [("value",("Value",DRec "Value")); ("custom_resolver",("CustomResolver",DAtom));
      ("message_custom_resolver",("MessageCustomResolver",DAtom));
      ("alias_ids",("Aliases",DObjs "Field"));
      ("auto_bind_field",("AutoBindField",DRec "AutoBindField"));
      ("oneof_rule",("Oneof",DRec "FieldOneofRule"))]);
    ("Value",                                    (* decode.go:561-575 *)
     [("inline",("Inline",DAtom)); ("cel",("CEL",DRec "CELValue"))]);
    ("CELValue",                                 (* decode.go:595-608 *)
     [("expr",("Expr",DAtom)); ("out",("Out",DRec "Type"))]);
    ("AutoBindField",                            (* decode.go:610-626 *)
     [("variable_definition_id",("VariableDefinition",DObj "VariableDefinition"));
      ("field_id",("Field",DObj "Field"))]);
    ("VariableDefinitionSet",                    (* decode.go:628-649 *)
     [("dependency_graph_id",("Graph",DObj "MessageDependencyGraph"));
      ("variable_definition_ids",("Defs",DObjs "VariableDefinition"));
      ("variable_definition_group_ids",("Groups",DObjs "VariableDefinitionGroup"))]);
    ("FieldOneofRule",                           (* decode.go:651-672 *)
     [("default",("Default",DAtom)); ("if",("If",DRec "CELValue"));
      ("by",("By",DRec "CELValue")); ("def_set",("DefSet",DRec "VariableDefinitionSet"))]);
    ("Oneof",                                    (* decode.go:692-717 *)
     [("name",("Name",DAtom)); ("message_id",("Message",DObj "Message"));
      ("field_ids",("Fields",DObjs "Field"))]);
    ("MessageRule",                              (* decode.go:719-741 *)
     [("custom_resolver",("CustomResolver",DAtom)); ("alias_ids",("Aliases",DObjs "Message"));
      ("message_argument_id",("MessageArgument",DObj "Message"));
      ("def_set",("DefSet",DRec "VariableDefinitionSet"))]);
    ("MessageDependencyGraph",                   (* decode.go:743-763 *)
     [("roots",("Roots",DRecs "MessageDependencyGraphNode"))]);
    ("MessageDependencyGraphNode",               (* decode.go:783-812 *)
     [("children",("Children",DRecs "MessageDependencyGraphNode"));
      ("base_message_id",("BaseMessage",DObj "Message"));
      ("variable_definition_id",("VariableDefinition",DObj "VariableDefinition"))]);
    ("VariableDefinition",                       (* decode.go:832-864 *)
     [("index",("Idx",DAtom)); ("name",("Name",DAtom)); ("auto_bind",("AutoBind",DAtom));
      ("used",("Used",DAtom)); ("if",("If",DRec "CELValue"));
      ("expr",("Expr",DRec "VariableExpr"))]);
    ("VariableDefinitionGroup",                  (* decode.go:884-932 *)
     [("sequential",("Sequential",DRec "SequentialVariableDefinitionGroup"));
      ("concurrent",("Concurrent",DRec "ConcurrentVariableDefinitionGroup"))]);
    ("SequentialVariableDefinitionGroup",        (* decode.go:884-932 *)
     [("start",("Start",DObj "VariableDefinitionGroup"));
      ("end",("End",DObj "VariableDefinition"))]);
    ("ConcurrentVariableDefinitionGroup",        (* decode.go:884-932 *)
     [("starts",("Starts",DObjs "VariableDefinitionGroup"));
      ("end",("End",DObj "VariableDefinition"))]);
    ("VariableExpr",                             (* decode.go:934-976 *)
     [("type",("Type",DRec "Type")); ("by",("By",DRec "CELValue"));
      ("map",("Map",DRec "MapExpr")); ("call",("Call",DRec "CallExpr"));
      ("message",("Message",DRec "MessageExpr")); ("enum",("Enum",DRec "EnumExpr"));
      ("validation",("Validation",DRec "ValidationExpr"))]);
    ("MapExpr",                                  (* decode.go:978-995 *)
     [("iterator",("Iterator",DRec "Iterator")); ("expr",("Expr",DRec "MapIteratorExpr"))]);
    ("Iterator",                                 (* decode.go:997-1010 *)
     [("name",("Name",DAtom)); ("source_id",("Source",DObj "VariableDefinition"))]);
    ("MapIteratorExpr",                          (* decode.go:1012-1040 *)
     [("type",("Type",DRec "Type")); ("by",("By",DRec "CELValue"));
      ("message",("Message",DRec "MessageExpr")); ("enum",("Enum",DRec "EnumExpr"))]);
    ("CallExpr",                                 (* decode.go:1042-1068 *)
     [("method_id",("Method",DObj "Method")); ("request",("Request",DRec "Request"));
      ("timeout",("Timeout",DAtom)); ("retry",("Retry",DRec "RetryPolicy"))]);
    ("Request",                                  (* decode.go:1070-1087 *)
     [("args",("Args",DRecs "Argument")); ("type_id",("Type",DObj "Message"))]);
    ("Argument",                                 (* decode.go:1107-1132 *)
     [("name",("Name",DAtom)); ("type",("Type",DRec "Type")); ("value",("Value",DRec "Value"));
      ("if",("If",DRec "CELValue"))]);
    ("RetryPolicy",                              (* decode.go:1134-1169 *)
     [("if",("If",DRec "CELValue")); ("constant",("Constant",DRec "RetryPolicyConstant"));
      ("exponential",("Exponential",DRec "RetryPolicyExponential"))]);
    ("RetryPolicyConstant",                      (* decode.go:1134-1169 *)
     [("interval",("Interval",DAtom)); ("max_retries",("MaxRetries",DAtom))]);
    ("RetryPolicyExponential",                   (* decode.go:1134-1169 *)
     [("initial_interval",("InitialInterval",DAtom));
      ("randomization_factor",("RandomizationFactor",DAtom));
      ("multiplier",("Multiplier",DAtom)); ("max_interval",("MaxInterval",DAtom));
      ("max_retries",("MaxRetries",DAtom)); ("max_elapsed_time",("MaxElapsedTime",DAtom))]);
    ("MessageExpr",                              (* decode.go:1171-1189 *)
     [("message_id",("Message",DObj "Message")); ("args",("Args",DRecs "Argument"))]);
    ("EnumExpr",                                 (* decode.go:1191-1208 *)
     [("enum_id",("Enum",DObj "Enum")); ("by",("By",DRec "CELValue"))]);
    ("ValidationExpr",                           (* decode.go:1210-1222 *)
     [("error",("Error",DRec "GRPCError"))]);
    ("GRPCError",                                (* decode.go:1224-1254 *)
     [("code",("Code",DAtom)); ("if",("If",DRec "CELValue"));
      ("message",("Message",DRec "CELValue")); ("details",("Details",DRecs "GRPCErrorDetail"));
      ("ignore",("Ignore",DAtom));
      ("ignore_and_response",("IgnoreAndResponse",DRec "CELValue"))]);
    ("GRPCErrorDetail",                          (* decode.go:1274-1313 *)
     [("def_set",("DefSet",DRec "VariableDefinitionSet")); ("if",("If",DRec "CELValue"));
      ("by",("By",DRecs "CELValue"));
      ("precondition_failures",("PreconditionFailures",DRecs "PreconditionFailure"));
      ("bad_requests",("BadRequests",DRecs "BadRequest"));
      ("localized_messages",("LocalizedMessages",DRecs "LocalizedMessage"));
      ("messages",("Messages",DRec "VariableDefinitionSet"))]);
    ("PreconditionFailure",                      (* decode.go:1333-1344 *)
     [("violations",("Violations",DRecs "PreconditionFailureViolation"))]);
    ("PreconditionFailureViolation",             (* decode.go:1364-1387 *)
     [("type",("Type",DRec "CELValue")); ("subject",("Subject",DRec "CELValue"));
      ("description",("Description",DRec "CELValue"))]);
    ("BadRequest",                               (* decode.go:1407-1420 *)
     [("field_violations",("FieldViolations",DRecs "BadRequestFieldViolation"))]);
    ("BadRequestFieldViolation",                 (* decode.go:1440-1458 *)
     [("field",("Field",DRec "CELValue")); ("description",("Description",DRec "CELValue"))]);
    ("LocalizedMessage",                         (* decode.go:1478-1489 *)
     [("locale",("Locale",DAtom)); ("message",("Message",DRec "CELValue"))]);
    ("Method",                                   (* decode.go:1509-1544 *)
     [("name",("Name",DAtom)); ("request_id",("Request",DObj "Message"));
      ("response_id",("Response",DObj "Message")); ("service_id",("Service",DObj "Service"));
      ("rule",("Rule",DRec "MethodRule"))]);
    ("MethodRule",                               (* decode.go:1546-1563 *)
     [("timeout",("Timeout",DAtom)); ("response_id",("Response",DObj "Message"))]);
    ("Enum",                                     (* decode.go:1583-1618 *)
     [("name",("Name",DAtom)); ("value_ids",("Values",DObjs "EnumValue"));
      ("message_id",("Message",DObj "Message")); ("file_id",("File",DObj "File"));
      ("rule",("Rule",DRec "EnumRule"))]);
    ("EnumRule",                                 (* decode.go:1620-1631 *)
     [("alias_ids",("Aliases",DObjs "Enum"))]);
    ("EnumValueAlias",                           (* decode.go:1675-1691 *)
     [("enum_alias_id",("EnumAlias",DObj "Enum")); ("alias_ids",("Aliases",DObjs "EnumValue"))]);
    ("EnumValueAttribute",                       (* decode.go:1693-1701 *)
     [("name",("Name",DAtom)); ("value",("Value",DAtom))]);
    ("EnumValue",                                (* decode.go:1703-1728 *)
     [("value",("Value",DAtom)); ("enum_id",("Enum",DObj "Enum"));
      ("rule",("Rule",DRec "EnumValueRule"))]);
    ("EnumValueRule",                            (* decode.go:1730-1744 *)
     [("default",("Default",DAtom)); ("aliases",("Aliases",DRecs "EnumValueAlias"));
      ("attrs",("Attrs",DRecs "EnumValueAttribute"))]);
    ("CELPlugin",                                (* decode.go:1764-1787 *)
     [("name",("Name",DAtom)); ("description",("Desc",DAtom));
      ("functions",("Functions",DRecs "CELFunction"))]);
    ("CELFunction",                              (* decode.go:1804-1824 *)
     [("name",("Name",DAtom)); ("id",("ID",DAtom)); ("args",("Args",DRecs "Type"));
      ("return",("Return",DRec "Type")); ("receiver_id",("Receiver",DObj "Message"))]);
    ("Type",                                     (* decode.go:1844-1868, 1912-1921 *)
     [("kind",("Kind",DKind)); ("repeated",("Repeated",DAtom)); ("is_null",("IsNull",DAtom));
      ("message_id",("Message",DObj "Message")); ("enum_id",("Enum",DObj "Enum"));
      ("oneof_field_id",("OneofField",DObj "Field"))]) ].

(** Messages that are refused unless one of the fields is set (decode.go:570-572, 931, 1168). *)
Definition dec_needs : list (string * list string) :=
  [ ("Value", ["cel"]);
    ("VariableDefinitionGroup", ["sequential"; "concurrent"]);
    ("RetryPolicy", ["constant"; "exponential"]) ].

Definition wnil (w : wire) : bool := match w with WNil => true | _ => false end.

Definition wfield (ws : list (string * wire)) (l : string) : wire :=
  match assoc l ws with Some w => w | None => WNil end.

(** Whether a message has the fields it needs. *)
Definition needs_met (s : string) (ws : list (string * wire)) : bool :=
  match rows dec_needs s with
  | [] => true
  | ls => existsb (fun l => negb (wnil (wfield ws l))) ls
  end.

(** An empty id stands for nil (decode.go:96-98 and the like). *)
Definition ptr (k id : string) : value string :=
  if id =? "" then VNil else VObj k id.

(** What is read; [VObj k id] is the object made for that id. *)
Fixpoint dec_val (m : dmode) (w : wire) {struct w} : value string :=
  match w with
  | WNil => match m with DForce s => VRec s [] | _ => VNil end
  | WAtom t =>
      match m with DAtom => VAtom t | DKind => VAtom (dec_kind t) | _ => VNil end
  | WId id => match m with DObj k => ptr k id | _ => VNil end
  | WIds l =>
      match m with
      | DObjs k => VList (filter (fun v => negb (is_nil v)) (map (ptr k) l))
      | _ => VNil
      end
  | WList l =>
      match m with DRecs s => VList (map (dec_val (DRec s)) l) | _ => VNil end
  | WRec ws =>
      match m with
      | DRec s | DForce s =>
          VRec s ((fix dec_fs (l : list (string * wire)) : fields string :=
                     match l with
                     | [] => []
                     | (wl, w') :: r =>
                         match assoc wl (rows dec_table s) with
                         | Some (gl, m') => (gl, dec_val m' w') :: dec_fs r
                         | None => dec_fs r
                         end
                     end) ws)
      | _ => VNil
      end
  end.

(** The ids that are looked up, in order. *)
Fixpoint dec_refs (m : dmode) (w : wire) {struct w} : list (string * string) :=
  match w with
  | WNil | WAtom _ => []
  | WId id => match m with DObj k => if id =? "" then [] else [(k, id)] | _ => [] end
  | WIds l =>
      match m with
      | DObjs k => flat_map (fun id => if id =? "" then [] else [(k, id)]) l
      | _ => []
      end
  | WList l =>
      match m with DRecs s => flat_map (dec_refs (DRec s)) l | _ => [] end
  | WRec ws =>
      match m with
      | DRec s | DForce s =>
          (fix refs_fs (l : list (string * wire)) : list (string * string) :=
             match l with
             | [] => []
             | (wl, w') :: r =>
                 match assoc wl (rows dec_table s) with
                 | Some (_, m') => dec_refs m' w' ++ refs_fs r
                 | None => refs_fs r
                 end
             end) ws
      | _ => []
      end
  end%list.

(** Whether no nested message is refused. *)
Fixpoint dec_ok (m : dmode) (w : wire) {struct w} : bool :=
  match w with
  | WList l => match m with DRecs s => forallb (dec_ok (DRec s)) l | _ => true end
  | WRec ws =>
      match m with
      | DRec s | DForce s =>
          needs_met s ws &&
          (fix ok_fs (l : list (string * wire)) : bool :=
             match l with
             | [] => true
             | (wl, w') :: r =>
                 match assoc wl (rows dec_table s) with
                 | Some (_, m') => dec_ok m' w' && ok_fs r
                 | None => ok_fs r
                 end
             end) ws
      | _ => true
      end
  | _ => true
  end.

(** ** Visiting a graph once per id *)

Inductive res (B : Type) : Type :=
| Ok (b : B)
| Missing (k id : string)
| Refused (k id : string)
| OutOfFuel.
Arguments Ok {B} b.
Arguments Missing {B} k id.
Arguments Refused {B} k id.
Arguments OutOfFuel {B}.

Section Visit.
Variables X B : Type.
(** The map key of a node, and its content with the nodes it leads to. *)
Variable key : X -> string * string.
Variable expand : X -> res (B * list X).

(** The toX functions of both sides: an object whose id is already in the map is
    not visited again (encode.go:75-78; decode.go:99-101); otherwise it is put
    into the map before its children are visited. *)
Fixpoint visit (fuel : nat) (t : table B) (x : X) {struct fuel} : res (table B) :=
  match tfind (key x) t with
  | Some _ => Ok t
  | None =>
      match fuel with
      | O => OutOfFuel
      | S n =>
          match expand x with
          | Ok (b, xs) =>
              (fix go (xs : list X) (t : table B) : res (table B) :=
                 match xs with
                 | [] => Ok t
                 | y :: r =>
                     match visit n t y with
                     | Ok t' => go r t'
                     | e => e
                     end
                 end) xs ((key x, b) :: t)
          | Missing k id => Missing k id
          | Refused k id => Refused k id
          | OutOfFuel => OutOfFuel
          end
      end
  end.

Fixpoint visits (fuel : nat) (t : table B) (xs : list X) : res (table B) :=
  match xs with
  | [] => Ok t
  | y :: r =>
      match visit fuel t y with
      | Ok t' => visits fuel t' r
      | e => e
      end
  end.

End Visit.

(** ** The request *)

(** CodeGeneratorRequestConfig: encode.go:46-52. *)
Record config := {
  cf_type : string;
  cf_proto_path : string;
  cf_out_dir : string;
  cf_files : list string;
  cf_roots : list nat
}.

(** CodeGeneratorRequest of generator.proto:54-61. *)
Record request := {
  rq_type : string;
  rq_proto_path : string;
  rq_out_dir : string;
  rq_files : list string;
  rq_file_ids : list string;
  rq_reference : table wire
}.

(** What the plugin gets: decode.go:14-19; the objects are those of the heap
    [pl_heap], each named by the id it was made for. *)
Record plugin_view := {
  pl_proto_path : string;
  pl_out_dir : string;
  pl_files : list string;
  pl_roots : list string;
  pl_heap : table (fields string)
}.

Definition enc_expand (h : heap) (x : string * nat)
  : res (wire * list (string * nat)) :=
  match load h (fst x) (snd x) with
  | Some fs =>
      Ok (enc_val h (ERec (fst x)) (VRec (fst x) fs),
          enc_refs (ERec (fst x)) (VRec (fst x) fs))
  | None => Missing (fst x) ""
  end.

Definition enc_key (h : heap) (x : string * nat) : string * string :=
  (fst x, id_of h (fst x) (snd x)).

(** toCodeGeneratorRequest: encode.go:59-69.  [Type] and [Files] are not set. *)
Definition encode (h : heap) (c : config) : res request :=
  match visits _ _ (enc_key h) (enc_expand h) (length h) []
               (map (fun a => ("File", a)) (cf_roots c)) with
  | Ok t =>
      Ok {| rq_type := ""; rq_proto_path := cf_proto_path c;
            rq_out_dir := cf_out_dir c; rq_files := [];
            rq_file_ids := map (id_of h "File") (cf_roots c);
            rq_reference := t |}
  | Missing k id => Missing k id
  | Refused k id => Refused k id
  | OutOfFuel => OutOfFuel
  end.

Definition dec_expand (ref : table wire) (x : string * string)
  : res (fields string * list (string * string)) :=
  match tfind x ref with
  | None => Missing (fst x) (snd x)
  | Some w =>
      if dec_ok (DRec (fst x)) w then
        match dec_val (DRec (fst x)) w with
        | VRec _ fs => Ok (fs, dec_refs (DRec (fst x)) w)
        | _ => Refused (fst x) (snd x)
        end
      else Refused (fst x) (snd x)
  end.

(** newDecoder, toCodeGeneratorRequest: decode.go:50-78.  [ProtoPath] and
    [OutDir] are not set. *)
Definition decode (r : request) : res plugin_view :=
  match visits _ _ (fun x => x) (dec_expand (rq_reference r))
               (S (length (rq_reference r))) []
               (map (fun id => ("File", id)) (rq_file_ids r)) with
  | Ok t =>
      Ok {| pl_proto_path := ""; pl_out_dir := "";
            pl_files := rq_files r; pl_roots := rq_file_ids r; pl_heap := t |}
  | Missing k id => Missing k id
  | Refused k id => Refused k id
  | OutOfFuel => OutOfFuel
  end.

(** Encoding in the generator followed by decoding in the plugin. *)
Definition transfer (h : heap) (c : config) : res plugin_view :=
  match encode h c with
  | Ok r => decode r
  | Missing k id => Missing k id
  | Refused k id => Refused k id
  | OutOfFuel => OutOfFuel
  end.
