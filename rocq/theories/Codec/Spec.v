(** * Specification of the transfer of a schema to a code generator plugin

    A schema is what can be read from its files: follow fields and slice
    elements from the files, and look at what is found. *)

From Coq Require Import Ascii String List Arith Bool.
From Verif.Base Require Import Text.
From Verif.Codec Require Import Model.
Import ListNotations.
Local Open Scope string_scope.

(** ** The Go structs of a resolved schema *)

(** The shape of a field: a scalar (or a pointer to one), a type kind, a pointer
    to a registered object, a slice of such pointers, a pointer to a struct, a
    slice of pointers to structs. *)
Inductive shape :=
| SAtom | SKind | SObj (k : string) | SObjs (k : string)
| SRec (s : string) | SRecs (s : string).

(** The structs of resolver/types.go, without Desc, CheckedExpr and builder,
    which hold protobuf descriptors and source positions, and without the parent
    links and maps of graph nodes. *)
Definition attributes : list (string * list (string * shape)) :=
  [
    ("File", (* resolver/types.go:34-44 *)
     [("Name", SAtom); ("GoPackage", SRec "GoPackage");
      ("Package", SRec "Package"); ("Services", SObjs "Service");
      ("Messages", SObjs "Message"); ("Enums", SObjs "Enum");
      ("CELPlugins", SObjs "CELPlugin"); ("ImportFiles", SObjs "File")]);
    ("Package", (* resolver/types.go:15-18 *)
     [("Name", SAtom); ("Files", SObjs "File")]);
    ("GoPackage", (* resolver/types.go:48-52 *)
     [("Name", SAtom); ("ImportPath", SAtom); ("AliasName", SAtom)]);
    ("Service", (* resolver/types.go:54-63 *)
     [("Name", SAtom); ("Methods", SObjs "Method");
      ("Messages", SObjs "Message"); ("MessageArgs", SObjs "Message");
      ("CELPlugins", SObjs "CELPlugin"); ("File", SObj "File");
      ("Rule", SRec "ServiceRule")]);
    ("ServiceRule", (* resolver/types.go:74-77 *)
     [("Env", SRec "Env"); ("Vars", SRecs "ServiceVariable")]);
    ("ServiceVariable", (* resolver/types.go:96-100 *)
     [("Name", SAtom); ("If", SRec "CELValue");
      ("Expr", SRec "ServiceVariableExpr")]);
    ("ServiceVariableExpr", (* resolver/types.go:102-109 *)
     [("Type", SRec "Type"); ("By", SRec "CELValue"); ("Map", SRec "MapExpr");
      ("Message", SRec "MessageExpr"); ("Enum", SRec "EnumExpr");
      ("Validation", SRec "ServiceVariableValidationExpr")]);
    ("ServiceVariableValidationExpr", (* resolver/types.go:111-114 *)
     [("If", SRec "CELValue"); ("Message", SRec "CELValue")]);
    ("Env", (* resolver/types.go:79-81 *)
     [("Vars", SRecs "EnvVar")]);
    ("EnvVar", (* resolver/types.go:83-87 *)
     [("Name", SAtom); ("Type", SRec "Type"); ("Option", SRec "EnvVarOption")]);
    ("EnvVarOption", (* resolver/types.go:89-94 *)
     [("Alternate", SAtom); ("Default", SAtom); ("Required", SAtom);
      ("Ignored", SAtom)]);
    ("Message", (* resolver/types.go:126-137 *)
     [("Name", SAtom); ("IsMapEntry", SAtom); ("File", SObj "File");
      ("ParentMessage", SObj "Message"); ("NestedMessages", SObjs "Message");
      ("Enums", SObjs "Enum"); ("Fields", SObjs "Field");
      ("Oneofs", SObjs "Oneof"); ("Rule", SRec "MessageRule")]);
    ("MessageRule", (* resolver/types.go:173-178 *)
     [("CustomResolver", SAtom); ("Aliases", SObjs "Message");
      ("MessageArgument", SObj "Message");
      ("DefSet", SRec "VariableDefinitionSet")]);
    ("VariableDefinitionSet", (* resolver/types.go:180-184 *)
     [("Graph", SObj "MessageDependencyGraph");
      ("Defs", SObjs "VariableDefinition");
      ("Groups", SObjs "VariableDefinitionGroup")]);
    ("Enum", (* resolver/types.go:139-145 *)
     [("Name", SAtom); ("Values", SObjs "EnumValue");
      ("Message", SObj "Message"); ("File", SObj "File");
      ("Rule", SRec "EnumRule")]);
    ("EnumRule", (* resolver/types.go:147-149 *)
     [("Aliases", SObjs "Enum")]);
    ("EnumValueAlias", (* resolver/types.go:163-166 *)
     [("EnumAlias", SObj "Enum"); ("Aliases", SObjs "EnumValue")]);
    ("EnumValueAttribute", (* resolver/types.go:168-171 *)
     [("Name", SAtom); ("Value", SAtom)]);
    ("EnumValue", (* resolver/types.go:151-155 *)
     [("Value", SAtom); ("Enum", SObj "Enum"); ("Rule", SRec "EnumValueRule")]);
    ("EnumValueRule", (* resolver/types.go:157-161 *)
     [("Default", SAtom); ("Aliases", SRecs "EnumValueAlias");
      ("Attrs", SRecs "EnumValueAttribute")]);
    ("Field", (* resolver/types.go:345-352 *)
     [("Name", SAtom); ("Type", SRec "Type"); ("Oneof", SObj "Oneof");
      ("Rule", SRec "FieldRule"); ("Message", SObj "Message")]);
    ("FieldRule", (* resolver/types.go:363-378 *)
     [("Value", SRec "Value"); ("CustomResolver", SAtom);
      ("MessageCustomResolver", SAtom); ("Aliases", SObjs "Field");
      ("AutoBindField", SRec "AutoBindField"); ("Oneof", SRec "FieldOneofRule");
      ("Env", SRec "EnvVarOption")]);
    ("AutoBindField", (* resolver/types.go:358-361 *)
     [("VariableDefinition", SObj "VariableDefinition"); ("Field", SObj "Field")]);
    ("FieldOneofRule", (* resolver/types.go:381-386 *)
     [("Default", SAtom); ("If", SRec "CELValue"); ("By", SRec "CELValue");
      ("DefSet", SRec "VariableDefinitionSet")]);
    ("Oneof", (* resolver/types.go:339-343 *)
     [("Name", SAtom); ("Message", SObj "Message"); ("Fields", SObjs "Field")]);
    ("Method", (* resolver/types.go:65-72 *)
     [("Name", SAtom); ("Request", SObj "Message"); ("Response", SObj "Message");
      ("Service", SObj "Service"); ("Rule", SRec "MethodRule")]);
    ("MethodRule", (* resolver/types.go:121-124 *)
     [("Timeout", SAtom); ("Response", SObj "Message")]);
    ("CELPlugin", (* resolver/types.go:20-24 *)
     [("Name", SAtom); ("Desc", SAtom); ("Functions", SRecs "CELFunction")]);
    ("CELFunction", (* resolver/types.go:26-32 *)
     [("Name", SAtom); ("ID", SAtom); ("Args", SRecs "Type");
      ("Return", SRec "Type"); ("Receiver", SObj "Message")]);
    ("Type", (* resolver/types.go:411-418 *)
     [("Kind", SKind); ("Repeated", SAtom); ("IsNull", SAtom);
      ("Message", SObj "Message"); ("Enum", SObj "Enum");
      ("OneofField", SObj "Field")]);
    ("MessageDependencyGraph", (* resolver/types.go:398-400 *)
     [("Roots", SRecs "MessageDependencyGraphNode")]);
    ("MessageDependencyGraphNode", (* resolver/types.go:402-409 *)
     [("Children", SRecs "MessageDependencyGraphNode");
      ("BaseMessage", SObj "Message");
      ("VariableDefinition", SObj "VariableDefinition")]);
    ("VariableDefinition", (* resolver/types.go:186-194 *)
     [("Idx", SAtom); ("Name", SAtom); ("AutoBind", SAtom); ("Used", SAtom);
      ("If", SRec "CELValue"); ("Expr", SRec "VariableExpr")]);
    ("VariableDefinitionGroup", (* resolver/types.go:206-239 *)
     [("Sequential", SRec "SequentialVariableDefinitionGroup");
      ("Concurrent", SRec "ConcurrentVariableDefinitionGroup")]);
    ("SequentialVariableDefinitionGroup", (* resolver/types.go:219-222 *)
     [("Start", SObj "VariableDefinitionGroup");
      ("End", SObj "VariableDefinition")]);
    ("ConcurrentVariableDefinitionGroup", (* resolver/types.go:228-231 *)
     [("Starts", SObjs "VariableDefinitionGroup");
      ("End", SObj "VariableDefinition")]);
    ("CELValue", (* resolver/types.go:521-525 *)
     [("Expr", SAtom); ("Out", SRec "Type")]);
    ("VariableExpr", (* resolver/types.go:237-245 *)
     [("Type", SRec "Type"); ("By", SRec "CELValue"); ("Map", SRec "MapExpr");
      ("Call", SRec "CallExpr"); ("Message", SRec "MessageExpr");
      ("Enum", SRec "EnumExpr"); ("Validation", SRec "ValidationExpr")]);
    ("MapExpr", (* resolver/types.go:255-258 *)
     [("Iterator", SRec "Iterator"); ("Expr", SRec "MapIteratorExpr")]);
    ("Iterator", (* resolver/types.go:260-263 *)
     [("Name", SAtom); ("Source", SObj "VariableDefinition")]);
    ("MapIteratorExpr", (* resolver/types.go:265-270 *)
     [("Type", SRec "Type"); ("By", SRec "CELValue");
      ("Message", SRec "MessageExpr"); ("Enum", SRec "EnumExpr")]);
    ("CallExpr", (* resolver/types.go:247-253 *)
     [("Method", SObj "Method"); ("Request", SRec "Request"); ("Timeout", SAtom);
      ("Retry", SRec "RetryPolicy"); ("Errors", SRecs "GRPCError")]);
    ("Request", (* resolver/types.go:499-502 *)
     [("Args", SRecs "Argument"); ("Type", SObj "Message")]);
    ("RetryPolicy", (* resolver/types.go:469-473 *)
     [("If", SRec "CELValue"); ("Constant", SRec "RetryPolicyConstant");
      ("Exponential", SRec "RetryPolicyExponential")]);
    ("RetryPolicyConstant", (* resolver/types.go:485-488 *)
     [("Interval", SAtom); ("MaxRetries", SAtom)]);
    ("RetryPolicyExponential", (* resolver/types.go:490-497 *)
     [("InitialInterval", SAtom); ("RandomizationFactor", SAtom);
      ("Multiplier", SAtom); ("MaxInterval", SAtom); ("MaxRetries", SAtom);
      ("MaxElapsedTime", SAtom)]);
    ("MessageExpr", (* resolver/types.go:272-275 *)
     [("Message", SObj "Message"); ("Args", SRecs "Argument")]);
    ("Argument", (* resolver/types.go:509-514 *)
     [("Name", SAtom); ("Type", SRec "Type"); ("Value", SRec "Value");
      ("If", SRec "CELValue")]);
    ("Value", (* resolver/types.go:516-519 *)
     [("Inline", SAtom); ("CEL", SRec "CELValue")]);
    ("EnumExpr", (* resolver/types.go:277-280 *)
     [("Enum", SObj "Enum"); ("By", SRec "CELValue")]);
    ("ValidationExpr", (* resolver/types.go:282-285 *)
     [("Error", SRec "GRPCError"); ("Name", SAtom)]);
    ("GRPCError", (* resolver/types.go:287-296 *)
     [("Code", SAtom); ("If", SRec "CELValue"); ("Message", SRec "CELValue");
      ("Details", SRecs "GRPCErrorDetail"); ("Ignore", SAtom);
      ("IgnoreAndResponse", SRec "CELValue");
      ("DefSet", SRec "VariableDefinitionSet"); ("LogLevel", SAtom)]);
    ("GRPCErrorDetail", (* resolver/types.go:300-308 *)
     [("DefSet", SRec "VariableDefinitionSet"); ("If", SRec "CELValue");
      ("By", SRecs "CELValue");
      ("PreconditionFailures", SRecs "PreconditionFailure");
      ("BadRequests", SRecs "BadRequest");
      ("LocalizedMessages", SRecs "LocalizedMessage");
      ("Messages", SRec "VariableDefinitionSet")]);
    ("PreconditionFailure", (* resolver/types.go:310-312 *)
     [("Violations", SRecs "PreconditionFailureViolation")]);
    ("PreconditionFailureViolation", (* resolver/types.go:314-318 *)
     [("Type", SRec "CELValue"); ("Subject", SRec "CELValue");
      ("Description", SRec "CELValue")]);
    ("BadRequest", (* resolver/types.go:320-322 *)
     [("FieldViolations", SRecs "BadRequestFieldViolation")]);
    ("BadRequestFieldViolation", (* resolver/types.go:324-327 *)
     [("Field", SRec "CELValue"); ("Description", SRec "CELValue")]);
    ("LocalizedMessage", (* resolver/types.go:329-332 *)
     [("Locale", SAtom); ("Message", SRec "CELValue")]) ].

(** Fields that are not transferred: the error rules of a call, the names of
    validations, definitions and log level of error rules, the env option of a
    field. *)
Definition dropped : list (string * list string) :=
  [ ("CallExpr", ["Errors"]); ("ValidationExpr", ["Name"]);
    ("GRPCError", ["DefSet"; "LogLevel"]); ("FieldRule", ["Env"]) ].

(** Structs whose absence does not survive: a nil set of definitions and a nil
    env arrive as empty ones. *)
Definition presence_lost : list string := ["VariableDefinitionSet"; "Env"].

(** Fields that are written as a name only, trusting that the object they point
    to is listed elsewhere in the schema. *)
Definition by_name : list (string * list string) :=
  [ ("EnumRule", ["Aliases"]); ("EnumValueAlias", ["EnumAlias"; "Aliases"]);
    ("Iterator", ["Source"]) ].

(** At most one of these fields is set. *)
Definition exclusive : list (string * list string) :=
  [ ("ServiceVariableExpr", ["By"; "Map"; "Message"; "Enum"; "Validation"]);
    ("Type", ["Message"; "Enum"]);
    ("VariableDefinitionGroup", ["Sequential"; "Concurrent"]);
    ("VariableExpr", ["By"; "Map"; "Call"; "Message"; "Enum"; "Validation"]);
    ("MapIteratorExpr", ["By"; "Message"; "Enum"]);
    ("RetryPolicy", ["Constant"; "Exponential"]) ].

(** At least one of these fields is set. *)
Definition required : list (string * list string) :=
  [ ("Value", ["CEL"]);
    ("VariableDefinitionGroup", ["Sequential"; "Concurrent"]);
    ("RetryPolicy", ["Constant"; "Exponential"]) ].

Definition type_kinds : list string :=
  [ "unknown"; "double"; "float"; "int64"; "uint64"; "int32"; "fixed64"; "fixed32";
    "bool"; "string"; "group"; "message"; "bytes"; "uint32"; "enum"; "sfixed32";
    "sfixed64"; "sint32"; "sint64" ].

Definition has_attribute (s l : string) : bool :=
  match assoc l (rows attributes s) with Some _ => true | None => false end.

Definition written (s l : string) : bool :=
  has_attribute s l && negb (mem l (rows dropped s)).

(** The fields the round trip is claimed for; the link from the type of a oneof
    field back to that field is transferred only for scalar types. *)
Definition kept (s l : string) : bool :=
  written s l && negb ((s =? "Type") && (l =? "OneofField")).

(** ** Well-formed schemas *)

(** A Go value of a shape, all of whose pointers lead to objects. *)
Inductive fits (h : heap) : shape -> value nat -> Prop :=
| fit_no_atom : fits h SAtom VNil
| fit_atom : forall s, fits h SAtom (VAtom s)
| fit_kind : forall s, In s type_kinds -> fits h SKind (VAtom s)
| fit_no_obj : forall k, fits h (SObj k) VNil
| fit_obj : forall k a, load h k a <> None -> fits h (SObj k) (VObj k a)
| fit_objs : forall k l,
    (forall v, In v l -> exists a, v = VObj k a /\ load h k a <> None) ->
    fits h (SObjs k) (VList l)
| fit_no_rec : forall s, fits h (SRec s) VNil
| fit_rec : forall s fs, fits_fields h s fs -> fits h (SRec s) (VRec s fs)
| fit_recs : forall s l,
    (forall v, In v l -> exists fs, v = VRec s fs /\ fits_fields h s fs) ->
    fits h (SRecs s) (VList l)

with fits_fields (h : heap) : string -> fields nat -> Prop :=
| fit_fields : forall s fs,
    NoDup (map fst fs) ->
    (forall l sh, In (l, sh) (rows attributes s) -> written s l = true ->
       exists v, In (l, v) fs /\ fits h sh v) ->
    (forall l1 l2 v1 v2,
       In l1 (rows exclusive s) -> In l2 (rows exclusive s) -> In (l1, v1) fs ->
       In (l2, v2) fs -> v1 <> VNil -> v2 <> VNil -> l1 = l2) ->
    (rows required s <> [] ->
       exists l v, In l (rows required s) /\ In (l, v) fs /\ v <> VNil) ->
    fits_fields h s fs.

Definition well_typed (h : heap) : Prop :=
  forall k a fs, load h k a = Some fs -> fits_fields h k fs.

(** A value holds a pointer to an object, in a field for which [use] holds. *)
Inductive mentions (use : string -> string -> bool)
  : value nat -> string -> nat -> Prop :=
| mention_here : forall k a, mentions use (VObj k a) k a
| mention_item : forall l v k a,
    In v l -> mentions use v k a -> mentions use (VList l) k a
| mention_field : forall s fs l v k a,
    In (l, v) fs -> use s l = true -> mentions use v k a ->
    mentions use (VRec s fs) k a.

Definition registering (s l : string) : bool :=
  kept s l && negb (mem l (rows by_name s)).

(** Objects reached from the files in steps along fields for which [use] holds. *)
Inductive reached (use : string -> string -> bool) (h : heap) (roots : list nat)
  : string -> nat -> Prop :=
| reached_root : forall a, In a roots -> reached use h roots "File" a
| reached_step : forall k a fs k' a',
    reached use h roots k a -> load h k a = Some fs ->
    mentions use (VRec k fs) k' a' -> reached use h roots k' a'.

(** The objects of the schema: reached from the files without relying on names. *)
Definition listed (h : heap) (roots : list nat) : string -> nat -> Prop :=
  reached registering h roots.

(** Nothing is referred to by name only. *)
Definition all_listed (h : heap) (roots : list nat) : Prop :=
  forall k a, reached written h roots k a -> listed h roots k a.

(** ** Names *)

(** The names that tell an object from the others of its kind. *)
Definition naming (h : heap) (k : string) (a : nat) : list string :=
  let o := VObj k a in
  let name_in (owner : value nat) (l : string) :=
    [text (get h owner "FQDN"); text (get h o l)] in
  if k =? "File" then
    [text (get h (get h o "Package") "Name"); text (get h o "Name")]
  else if k =? "Field" then
    match get h o "Message" with
    | VNil => [text (get h o "Name")]
    | m => name_in m "Name"
    end
  else if k =? "Oneof" then name_in (get h o "Message") "Name"
  else if k =? "EnumValue" then name_in (get h o "Enum") "Value"
  else if k =? "MessageDependencyGraph" then
    map (fun n => text (get h (get h n "BaseMessage") "FQDN") ++ "_"
                  ++ text (get h (get h n "VariableDefinition") "Name"))
        (items (get h o "Roots"))
  else if k =? "VariableDefinitionGroup" then
    (match get h o "Sequential" with VNil => "concurrent" | _ => "sequential" end)
    :: map (fun d => text (get h d "Name")) (items (get h o "Flat"))
  else if (k =? "CELPlugin") || (k =? "VariableDefinition") then
    [text (get h o "Name")]
  else [text (get h o "FQDN")].

(** Package names have no colon; names of fields, oneofs and enum values no dot;
    names of variables and messages no colon; groups and graphs are not empty. *)
Definition lexical (k : string) (names : list string) : Prop :=
  if k =? "File" then has_char ":" (hd "" names) = false
  else if (k =? "Field") || (k =? "Oneof") || (k =? "EnumValue") then
    has_char "." (last names "") = false /\ names <> [""]
  else if k =? "MessageDependencyGraph" then
    names <> [] /\ forall n, In n names -> has_char ":" n = false
  else if k =? "VariableDefinitionGroup" then
    tl names <> [] /\ forall n, In n names -> has_char ":" n = false
  else hd "" names <> "".

Definition well_named (h : heap) (roots : list nat) : Prop :=
  forall k a, listed h roots k a -> lexical k (naming h k a).

(** No two objects of a kind have the same names. *)
Definition distinctly_named (kinds : string -> bool) (h : heap) (roots : list nat)
  : Prop :=
  forall k a b, kinds k = true ->
    listed h roots k a -> listed h roots k b -> naming h k a = naming h k b -> a = b.

Definition any_kind (_ : string) : bool := true.

(** Kinds whose names protobuf itself keeps apart. *)
Definition proto_kind (k : string) : bool :=
  mem k ["File"; "Service"; "Method"; "Message"; "Oneof"; "Enum"; "EnumValue"; "CELPlugin"].

(** ** Reading a schema *)

Inductive step := Attr (l : string) | Elem (n : nat).

(** Follow a path; reading a field of nil gives nil. *)
Fixpoint follow {A : Type} (use : string -> string -> bool)
  (g : string -> A -> option (fields A)) (p : list step) (v : value A)
  : option (value A) :=
  match p with
  | [] => Some v
  | Attr l :: p' =>
      match v with
      | VNil => follow use g p' VNil
      | VObj k a =>
          match g k a with
          | Some fs => follow use g p' (if use k l then field fs l else VNil)
          | None => None
          end
      | VRec s fs => follow use g p' (if use s l then field fs l else VNil)
      | _ => None
      end
  | Elem n :: p' =>
      match v with
      | VList l =>
          match nth_error l n with
          | Some v' => follow use g p' v'
          | None => None
          end
      | _ => None
      end
  end.

(** What is seen at the end of a path. *)
Inductive sight :=
| Absent | Text (s : string) | Object (k : string) | Many (n : nat) | Struct (s : string).

Definition look {A : Type} (v : value A) : sight :=
  match v with
  | VNil => Absent
  | VAtom s => Text s
  | VObj k _ => Object k
  | VList l => Many (List.length l)
  | VRec s _ => if mem s presence_lost then Absent else Struct s
  end.

(** The same, telling a nil struct from an empty one. *)
Definition look_exact {A : Type} (v : value A) : sight :=
  match v with VRec s _ => Struct s | _ => look v end.

Definition files_of {A : Type} (roots : list A) : value A :=
  VList (map (VObj "File") roots).

Definition plugin_graph (v : plugin_view) (k : string) (id : string)
  : option (fields string) := tfind (k, id) (pl_heap v).

(** Every path shows the plugin what it shows the generator. *)
Definition same_schema (use : string -> string -> bool)
  (lk : forall A, value A -> sight) (h : heap) (roots : list nat) (v : plugin_view)
  : Prop :=
  forall p,
    option_map (lk _) (follow use (load h) p (files_of roots))
    = option_map (lk _) (follow use (plugin_graph v) p (files_of (pl_roots v))).

(** Two paths meet in one object for the plugin exactly when they do for the
    generator. *)
Definition same_sharing (h : heap) (roots : list nat) (v : plugin_view) : Prop :=
  forall p q k a b,
    follow kept (load h) p (files_of roots) = Some (VObj k a) ->
    follow kept (load h) q (files_of roots) = Some (VObj k b) ->
    exists a' b',
      follow kept (plugin_graph v) p (files_of (pl_roots v)) = Some (VObj k a') /\
      follow kept (plugin_graph v) q (files_of (pl_roots v)) = Some (VObj k b') /\
      (a = b <-> a' = b').
