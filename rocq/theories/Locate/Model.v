(** * Error positions: from a location to the node of the source file

    Every error grpc-federation reports about a proto file carries a
    location ([source.Location]): which message, which option, which
    definition, which part of it.  [File.NodeInfoByLocation]
    (/repo/source/file.go:970-2020) turns a location into the node of the
    syntax tree, and so into the line and column shown to the user by the
    command line tools and by the language server.  The functions
    [nodeInfoBy...] are modelled one by one.

    Simplifications, for the whole file:
    - a location is a structure of optional parts in Go; the builders of
      /repo/source/location_builder.go fill exactly one part at each level,
      so that a location is a chain, and it is a chain here.  The conditions
      [def.Name && fieldName == "name"] of the Go switches then select one
      case, and each function here has one case per part;
    - a node is a number; [f.nodeInfo(node)] is [Found] of this number
      (file.go:2010-2016);
    - the comparison of file names at the start of [NodeInfoByLocation]
      (971-976) is left out. *)

From Coq Require Import Ascii String List Arith Bool.
From Verif.Base Require Import Text.
Import ListNotations.
Local Open Scope string_scope.
Local Open Scope list_scope.

(** ** The syntax tree *)

(** Values of options (bufbuild/protocompile ast.ValueNode): a string literal,
    a concatenation of string literals ("a" "b", ast.CompoundStringLiteralNode),
    an identifier or a number, a message literal, an array literal.  The first
    argument is the node, the text is what [Value()] returns. *)
Inductive value : Type :=
| VStr (id : nat) (text : string)
| VCat (id : nat) (text : string)
| VIdent (id : nat)
| VMsg (id : nat) (elems : list (string * value))
| VArr (id : nat) (elems : list value).

Definition elems := list (string * value).

(** A message literal: the node and its elements. *)
Definition lit := (nat * elems)%type.

(** An option statement (ast.OptionNode): the parts of the name, as
    "(grpc.federation.message).alias" has "grpc.federation.message" and
    "alias"; the node; the value. *)
Record stmt := Stmt { o_parts : list string; o_id : nat; o_val : value }.

(** Declarations.  The options of a declaration and its inner declarations are
    two lists here and one list in Go (a location never looks for both).  The
    type is the node of [FieldType()] of a field.  Fields and map fields
    (ast.FieldNode, ast.MapFieldNode) are one kind: file.go:1027-1034 and
    1053-1060 are the same code. *)
Inductive dkind := KMessage | KField | KOneof | KEnum | KEnumValue | KService | KRpc.

Inductive decl : Type :=
| Decl (k : dkind) (name : string) (id : nat) (ty : option nat) (opts : list stmt) (body : list decl).

Definition d_kind (d : decl) : dkind := match d with Decl k _ _ _ _ _ => k end.
Definition d_name (d : decl) : string := match d with Decl _ n _ _ _ _ => n end.
Definition d_id (d : decl) : nat := match d with Decl _ _ i _ _ _ => i end.
Definition d_ty (d : decl) : option nat := match d with Decl _ _ _ t _ _ => t end.
Definition d_opts (d : decl) : list stmt := match d with Decl _ _ _ _ o _ => o end.
Definition d_body (d : decl) : list decl := match d with Decl _ _ _ _ _ b => b end.

(** A file: the import statements (name and node), the options of the file, the
    declarations. *)
Record file := File { f_imports : list (string * nat); f_opts : list stmt; f_decls : list decl }.

(** ** Locations (/repo/source/location.go, location_builder.go) *)

(** ArgumentOption (location_builder.go:1129-1160). *)
Inductive arg_part := AHere | AName | ABy | AInline.
(** MessageExprOption (1069-1092). *)
Inductive msg_part := GHere | GName | GArgs (idx : nat) (p : arg_part).
(** EnumExprOption (1100-1121). *)
Inductive enum_part := NHere | NName | NBy.
(** MapExprOption (1569-1624). *)
Inductive map_part := PHere | PBy | PIterName | PIterSrc | PMessage (g : msg_part) | PEnum (n : enum_part).
(** RetryOption (1273-1314). *)
Inductive retry_part := RHere | RIf | RConstInterval | RExpInitial | RExpMax.
(** RequestOption (1322-1353). *)
Inductive req_part := QHere | QField | QBy | QIf.

(** VariableDefinitionOption (970-1061), CallExprOption (1208-1265),
    ValidationExprOption (1361-1383), GRPCErrorOption (1388-1463) and
    GRPCErrorDetailOption (1471-1561).  The error of a validation has the
    index 0 (1371-1383).  The message of a detail is the location of a
    definition in Go (1483-1493); the resolver makes a definition with a
    message expression for it (/repo/resolver/resolver.go:2798-2830), so that
    the location is of this definition or of a part of its message. *)
Inductive def_part :=
| DHere | DName | DIf | DBy
| DMap (m : map_part) | DMessage (g : msg_part) | DEnum (n : enum_part)
| DCall (c : call_part)
| DValName | DValError (e : err_part)
with call_part :=
| CHere | CMethod | CTimeout | CRetry (r : retry_part) | CRequest (idx : nat) (q : req_part)
| CError (idx : nat) (e : err_part)
with err_part :=
| EHere | EIf | ECode | EMessage | EIgnore | EIgnoreRes
| EDef (idx : nat) (p : def_part) | EDetail (idx : nat) (t : detail_part)
with detail_part :=
| THere | TIf | TBy
| TDef (idx : nat) (p : def_part) | TMessageHere (idx : nat) | TMessage (idx : nat) (g : msg_part)
| TPrecondition (i j : nat) (field : string)
| TBadRequest (i j : nat) (field : string)
| TLocalized (i : nat) (field : string).

(** MessageOption (1168-1191). *)
Inductive mopt_part := MOHere | MOAlias | MODef (idx : nat) (p : def_part).
(** FieldOneof (919-962) and FieldOption (878-911). *)
Inductive oneof_part := OHere | OIf | ODefault | OBy | ODef (idx : nat) (p : def_part).
Inductive fopt_part := FOHere | FOBy | FOAlias | FOOneof (o : oneof_part).
(** Field (857-872; the type: location.go, Field.Type). *)
Inductive field_part := FHere | FType | FOpt (o : fopt_part).
(** EnumValueAttribute, EnumValueOption, EnumValue, Enum (640-754). *)
Inductive attr_part := BHere | BName | BValue.
Inductive vopt_part := VOHere | VOAlias | VODefault | VOAttr (idx : nat) (b : attr_part).
Inductive ev_part := UHere | UOpt (o : vopt_part).
Inductive enum_loc := XHere | XOpt | XValue (name : string) (p : ev_part).
(** Message (762-823). *)
Inductive msg_loc :=
| LHere | LOpt (o : mopt_part) | LField (name : string) (p : field_part) | LOneof (name : string)
| LNested (name : string) (l : msg_loc) | LEnum (name : string) (x : enum_loc).
(** Env, EnvVar, ServiceVariable (403-632).  An env variable has the parts type
    and option beside the name. *)
Inductive envvar_part := WHere | WName | WType | WOption.
Inductive env_part := YHere | YMessage | YVar (idx : nat) (w : envvar_part).
Inductive svalid_part := JHere | JIf | JMessage.
Inductive svar_part :=
| SHere | SName | SIf | SBy | SMap (m : map_part) | SMessage (g : msg_part) | SEnum (n : enum_part)
| SValidation (j : svalid_part).
Inductive sopt_part := SOHere | SOEnv (y : env_part) | SOVar (idx : nat) (s : svar_part).
(** MethodOption, Method, Service (267-362). *)
Inductive mtd_part := THereM | TRequest | TResponse | TOptHere | TOptTimeout | TOptResponse.
Inductive svc_loc := ZHere | ZOpt (o : sopt_part) | ZMethod (name : string) (m : mtd_part).
(** Location (location.go; location_builder.go:33-94).  The locations in
    plugins (Export, 49-259) are one constructor: [NodeInfoByLocation] does not
    look at them. *)
Inductive loc :=
| TopImport (name : string) | TopGoPackage | TopExport (name : string)
| TopMessage (name : string) (l : msg_loc) | TopEnum (name : string) (x : enum_loc)
| TopService (name : string) (z : svc_loc).

(** ** Results *)

(** The node; nil, which the callers print as no position; a nil pointer
    dereference. *)
Inductive result := Found (id : nat) | Nil | Panic.

(** [f.nodeInfo(value)] (file.go:2010-2016). *)
Definition value_id (v : value) : nat :=
  match v with VStr i _ | VCat i _ | VIdent i | VMsg i _ | VArr i _ => i end.

(** The value of the first element of a name: the loops
    [for _, elem := range node.Elements] with one selected case. *)
Fixpoint first (es : elems) (name : string) : option value :=
  match es with
  | [] => None
  | (f, v) :: r => if String.eqb f name then Some v else first r name
  end.

(** A selected case that returns the string literal, or nil for any other node
    (for instance 1226-1231). *)
Definition on_str (es : elems) (name : string) (here : nat) : result :=
  match first es name with
  | None => Found here
  | Some (VStr i _) => Found i
  | Some _ => Nil
  end.

(** A selected case that returns whatever the value is (for instance 1347). *)
Definition on_any (es : elems) (name : string) (here : nat) : result :=
  match first es name with
  | None => Found here
  | Some v => Found (value_id v)
  end.

(** A selected case that requires an identifier (1532-1537). *)
Definition on_ident (es : elems) (name : string) (here : nat) : result :=
  match first es name with
  | None => Found here
  | Some (VIdent i) => Found i
  | Some _ => Nil
  end.

(** A selected case that requires a message literal and goes on in it
    (for instance 1244-1249). *)
Definition on_msg (es : elems) (name : string) (here : nat) (k : nat -> elems -> result) : result :=
  match first es name with
  | None => Found here
  | Some (VMsg i es') => k i es'
  | Some _ => Nil
  end.

(** [getMessageListFromNode] (file.go:497-513). *)
Definition message_list (v : value) : list lit :=
  match v with
  | VMsg i es => [(i, es)]
  | VArr _ l => flat_map (fun w => match w with VMsg i es => [(i, es)] | _ => [] end) l
  | _ => []
  end.

(** The selected cases that collect the message literals of all the elements of
    a name (for instance 1341-1342). *)
Fixpoint collect (es : elems) (name : string) : list lit :=
  match es with
  | [] => []
  | (f, v) :: r => if String.eqb f name then message_list v ++ collect r name else collect r name
  end.

(** What follows such a loop: [if len(list) != 0] the function on the list,
    which gives nil when the index is out of range and goes on in the literal
    of this index otherwise; the enclosing node if the list is empty (for
    instance 1351-1353 and 1511-1514). *)
Definition on_item (es : elems) (name : string) (here : nat) (idx : nat) (k : nat -> elems -> result)
  : result :=
  match collect es name with
  | [] => Found here
  | l => match nth_error l idx with None => Nil | Some (i, es') => k i es' end
  end.

(** ** The values of options *)

(** [nodeInfoByArgument] (file.go:1704-1727): no case for the name. *)
Definition by_argument (here : nat) (es : elems) (p : arg_part) : result :=
  match p with
  | AHere => Found here
  | AName => Found here
  | ABy => on_str es "by" here
  | AInline => on_str es "inline" here
  end.

(** [nodeInfoByMessageExpr] (1448-1467). *)
Definition by_message_expr (here : nat) (es : elems) (g : msg_part) : result :=
  match g with
  | GHere => Found here
  | GName => on_str es "name" here
  | GArgs idx p => on_item es "args" here idx (fun i es' => by_argument i es' p)
  end.

(** [nodeInfoByEnumExpr] (1469-1488). *)
Definition by_enum_expr (here : nat) (es : elems) (n : enum_part) : result :=
  match n with
  | NHere => Found here
  | NName => on_str es "name" here
  | NBy => on_str es "by" here
  end.

(** The iterator of a map (1284-1298): when the iterator does not have the
    part, the loop over the elements of the map goes on. *)
Fixpoint iterator (es : elems) (part : string) (here : nat) : result :=
  match es with
  | [] => Found here
  | (f, v) :: r =>
      if String.eqb f "iterator" then
        match v with
        | VMsg _ es' =>
            match first es' part with
            | Some w => Found (value_id w)
            | None => iterator r part here
            end
        | _ => Nil
        end
      else iterator r part here
  end.

(** [nodeInfoByMapExpr] (1280-1319). *)
Definition by_map_expr (here : nat) (es : elems) (m : map_part) : result :=
  match m with
  | PHere => Found here
  | PBy => on_str es "by" here
  | PIterName => iterator es "name" here
  | PIterSrc => iterator es "src" here
  | PMessage g => on_msg es "message" here (fun i es' => by_message_expr i es' g)
  | PEnum n => on_msg es "enum" here (fun i es' => by_enum_expr i es' n)
  end.

(** [nodeInfoByRetry], [nodeInfoByRetryConstant] and
    [nodeInfoByRetryExponential] (1389-1446). *)
Definition by_retry (here : nat) (es : elems) (r : retry_part) : result :=
  match r with
  | RHere => Found here
  | RIf => on_str es "if" here
  | RConstInterval => on_msg es "constant" here (fun i es' => on_any es' "interval" i)
  | RExpInitial => on_msg es "exponential" here (fun i es' => on_any es' "initial_interval" i)
  | RExpMax => on_msg es "exponential" here (fun i es' => on_any es' "max_interval" i)
  end.

(** [nodeInfoByMethodRequest] (1358-1387). *)
Definition by_request (here : nat) (es : elems) (q : req_part) : result :=
  match q with
  | QHere => Found here
  | QField => on_str es "field" here
  | QBy => on_str es "by" here
  | QIf => on_str es "if" here
  end.

(** [nodeInfoByPreconditionFailureViolations],
    [nodeInfoByBadRequestFieldViolations] (1632-1648, 1686-1702) and the part
    of [nodeInfoByLocalizedMessage] in the literal (1672-1683): the field has
    the name the location carries. *)
Definition by_named (here : nat) (es : elems) (field : string) : result := on_str es field here.

(** [nodeInfoByValidationExpr] (1490-1509) for the name: the case "error" is
    not guarded by [opt.Error != nil], and [nodeInfoByGRPCError] reads
    [opt.Idx] of a nil pointer. *)
Fixpoint validation_name (es : elems) (here : nat) : result :=
  match es with
  | [] => Found here
  | (f, v) :: r =>
      if String.eqb f "name" then match v with VStr i _ => Found i | _ => Nil end
      else if String.eqb f "error" then match v with VMsg _ _ => Panic | _ => Nil end
      else validation_name r here
  end.

(** [nodeInfoByDef] in the literal of the index (1223-1277),
    [nodeInfoByCallExpr] (1321-1356), [nodeInfoByGRPCError] in the literal of
    the index (1515-1553; no case for the code and the message) and
    [nodeInfoByGRPCErrorDetail] in the literal of the index (1560-1611).  The
    message of a detail is looked up by [nodeInfoByDef] (1599-1601), as if it
    were a definition. *)
Fixpoint by_def (here : nat) (es : elems) (p : def_part) {struct p} : result :=
  match p with
  | DHere => Found here
  | DName => on_str es "name" here
  | DIf => on_str es "if" here
  | DBy => on_str es "by" here
  | DMap m => on_msg es "map" here (fun i es' => by_map_expr i es' m)
  | DMessage g => on_msg es "message" here (fun i es' => by_message_expr i es' g)
  | DEnum n => on_msg es "enum" here (fun i es' => by_enum_expr i es' n)
  | DCall c => on_msg es "call" here (fun i es' => by_call i es' c)
  | DValName => on_msg es "validation" here (fun i es' => validation_name es' i)
  | DValError e =>
      on_msg es "validation" here (fun i es' =>
        on_msg es' "error" i (fun j es'' => by_error j es'' e))
  end
with by_call (here : nat) (es : elems) (c : call_part) {struct c} : result :=
  match c with
  | CHere => Found here
  | CMethod => on_str es "method" here
  | CTimeout => on_any es "timeout" here
  | CRetry r => on_msg es "retry" here (fun i es' => by_retry i es' r)
  | CRequest idx q => on_item es "request" here idx (fun i es' => by_request i es' q)
  | CError idx e => on_item es "error" here idx (fun i es' => by_error i es' e)
  end
with by_error (here : nat) (es : elems) (e : err_part) {struct e} : result :=
  match e with
  | EHere => Found here
  | EIf => on_str es "if" here
  | ECode => Found here
  | EMessage => Found here
  | EIgnore => on_ident es "ignore" here
  | EIgnoreRes => on_str es "ignore_and_response" here
  | EDef idx p => on_item es "def" here idx (fun i es' => by_def i es' p)
  | EDetail idx t => on_item es "details" here idx (fun i es' => by_detail i es' t)
  end
with by_detail (here : nat) (es : elems) (t : detail_part) {struct t} : result :=
  match t with
  | THere => Found here
  | TIf => on_str es "if" here
  | TBy => on_str es "by" here
  | TDef idx p => on_item es "def" here idx (fun i es' => by_def i es' p)
  | TMessageHere idx => on_item es "message" here idx (fun i _ => Found i)
  | TMessage idx g =>
      on_item es "message" here idx (fun i es' =>
        on_msg es' "message" i (fun j es'' => by_message_expr j es'' g))
  | TPrecondition i j field =>
      on_item es "precondition_failure" here i (fun n es' =>
        on_item es' "violations" n j (fun n' es'' => by_named n' es'' field))
  | TBadRequest i j field =>
      on_item es "bad_request" here i (fun n es' =>
        on_item es' "field_violations" n j (fun n' es'' => by_named n' es'' field))
  | TLocalized i field =>
      on_item es "localized_message" here i (fun n es' => by_named n es' field)
  end.

(** ** Option statements *)

Definition service_option := "grpc.federation.service".
Definition method_option := "grpc.federation.method".
Definition message_option := "grpc.federation.message".
Definition field_option := "grpc.federation.field".
Definition enum_option := "grpc.federation.enum".
Definition enum_value_option := "grpc.federation.enum_value".
Definition file_option := "grpc.federation.file".

(** [optionName] (929-935). *)
Definition option_name (s : stmt) : string := String.concat "." (o_parts s).

(** [strings.TrimPrefix(target, ".")]. *)
Definition trim_dot (s : string) : string :=
  match s with String "." r => r | _ => s end.

(** [strings.HasSuffix]. *)
Definition has_suffix (suffix s : string) : bool :=
  String.eqb (substring (String.length s - String.length suffix) (String.length suffix) s) suffix
  && Nat.leb (String.length suffix) (String.length s).

(** [matchOption] (2018-2020). *)
Definition match_option (target opt : string) : bool := String.prefix opt (trim_dot target).

(** The loops over the statements of a declaration: the first one that matches
    is the only one that is read (for instance 1022-1029). *)
Definition option_stmt (opts : list stmt) (ext : string) : option stmt :=
  find (fun s => match_option (option_name s) ext) opts.

(** [nodeInfoByMessageOption] (1195-1217). *)
Definition by_message_option (s : stmt) (o : mopt_part) : result :=
  match o_val s with
  | VStr i _ =>
      match o with
      | MOAlias => if has_suffix "alias" (option_name s) then Found i else Found (o_id s)
      | _ => Found (o_id s)
      end
  | VMsg _ es =>
      match o with
      | MOHere => Found (o_id s)
      | MOAlias => on_any es "alias" (o_id s)
      | MODef idx p => on_item es "def" (o_id s) idx (fun i es' => by_def i es' p)
      end
  | _ => Found (o_id s)
  end.

(** [nodeInfoByFieldOneof] (1776-1799): the definitions of the first element
    "def" only, and nil when it has none. *)
Definition by_field_oneof (here : nat) (es : elems) (o : oneof_part) : result :=
  match o with
  | OHere => Found here
  | OIf => on_str es "if" here
  | ODefault => on_any es "default" here
  | OBy => on_str es "by" here
  | ODef idx p =>
      match first es "def" with
      | None => Found here
      | Some v => match nth_error (message_list v) idx with
                  | None => Nil
                  | Some (i, es') => by_def i es' p
                  end
      end
  end.

(** [nodeInfoByFieldOption] (1745-1774): no case for the alias. *)
Definition by_field_option (s : stmt) (o : fopt_part) : result :=
  match o_val s with
  | VStr i _ =>
      match o with
      | FOBy => if has_suffix "by" (option_name s) then Found i else Found (o_id s)
      | _ => Found (o_id s)
      end
  | VMsg i es =>
      match o with
      | FOHere | FOAlias => Found (o_id s)
      | FOBy => on_str es "by" (o_id s)
      | FOOneof p =>
          if has_suffix "oneof" (option_name s) then by_field_oneof i es p
          else on_msg es "oneof" (o_id s) (fun j es' => by_field_oneof j es' p)
      end
  | _ => Found (o_id s)
  end.

(** [nodeInfoByEnumOption] (1110-1126); the builder always asks for the alias
    (location_builder.go:640-648). *)
Definition by_enum_option (s : stmt) : result :=
  match o_val s with
  | VStr i _ => if has_suffix "alias" (option_name s) then Found i else Found (o_id s)
  | VMsg _ es => on_any es "alias" (o_id s)
  | _ => Found (o_id s)
  end.

(** [nodeInfoByEnumValueAttribute] in the literal of the index (1174-1193). *)
Definition by_attribute (here : nat) (es : elems) (b : attr_part) : result :=
  match b with
  | BHere => Found here
  | BName => on_str es "name" here
  | BValue => on_str es "value" here
  end.

(** [nodeInfoByEnumValueOption] (1141-1168). *)
Definition by_enum_value_option (s : stmt) (o : vopt_part) : result :=
  match o_val s with
  | VStr i _ =>
      match o with
      | VODefault => if has_suffix "default" (option_name s) then Found i else Found (o_id s)
      | VOAlias => if has_suffix "alias" (option_name s) then Found i else Found (o_id s)
      | _ => Found (o_id s)
      end
  | VMsg _ es =>
      match o with
      | VOHere => Found (o_id s)
      | VOAlias => on_any es "alias" (o_id s)
      | VODefault => on_any es "default" (o_id s)
      | VOAttr idx b => on_item es "attr" (o_id s) idx (fun i es' => by_attribute i es' b)
      end
  | _ => Found (o_id s)
  end.

(** [nodeInfoByEnvVar] in the literal of the index (1873-1886): a case for the
    name only. *)
Definition by_env_var (here : nat) (es : elems) (w : envvar_part) : result :=
  match w with
  | WName => on_str es "name" here
  | WHere | WType | WOption => Found here
  end.

(** [nodeInfoByEnv] (1848-1867). *)
Definition by_env (here : nat) (es : elems) (y : env_part) : result :=
  match y with
  | YHere => Found here
  | YMessage => on_str es "message" here
  | YVar idx w => on_item es "var" here idx (fun i es' => by_env_var i es' w)
  end.

(** [nodeInfoByServiceVariableValidationExpr] (1943-1962). *)
Definition by_service_validation (here : nat) (es : elems) (j : svalid_part) : result :=
  match j with
  | JHere => Found here
  | JIf => on_str es "if" here
  | JMessage => on_str es "message" here
  end.

(** [nodeInfoByServiceVariable] in the literal of the index (1892-1941). *)
Definition by_service_variable (here : nat) (es : elems) (v : svar_part) : result :=
  match v with
  | SHere => Found here
  | SName => on_str es "name" here
  | SIf => on_str es "if" here
  | SBy => on_str es "by" here
  | SMap m => on_msg es "map" here (fun i es' => by_map_expr i es' m)
  | SMessage g => on_msg es "message" here (fun i es' => by_message_expr i es' g)
  | SEnum n => on_msg es "enum" here (fun i es' => by_enum_expr i es' n)
  | SValidation j => on_msg es "validation" here (fun i es' => by_service_validation i es' j)
  end.

(** [nodeInfoByServiceOption] (1824-1846). *)
Definition by_service_option (s : stmt) (o : sopt_part) : result :=
  match o_val s with
  | VMsg _ es =>
      match o with
      | SOHere => Found (o_id s)
      | SOEnv y => on_msg es "env" (o_id s) (fun i es' => by_env i es' y)
      | SOVar idx v => on_item es "var" (o_id s) idx (fun i es' => by_service_variable i es' v)
      end
  | _ => Found (o_id s)
  end.

(** [nodeInfoByMethodOption] (1979-2008). *)
Definition by_method_option (s : stmt) (m : mtd_part) : result :=
  match o_val s with
  | VStr i _ =>
      match m with
      | TOptTimeout => if has_suffix "timeout" (option_name s) then Found i else Found (o_id s)
      | TOptResponse => if has_suffix "response" (option_name s) then Found i else Found (o_id s)
      | _ => Found (o_id s)
      end
  | VMsg _ es =>
      match m with
      | TOptTimeout => on_str es "timeout" (o_id s)
      | TOptResponse => on_str es "response" (o_id s)
      | _ => Found (o_id s)
      end
  | _ => Found (o_id s)
  end.

(** ** Declarations *)

Definition kind_eqb (a b : dkind) : bool :=
  match a, b with
  | KMessage, KMessage | KField, KField | KOneof, KOneof | KEnum, KEnum
  | KEnumValue, KEnumValue | KService, KService | KRpc, KRpc => true
  | _, _ => false
  end.

Definition is_decl (k : dkind) (name : string) (d : decl) : bool :=
  kind_eqb (d_kind d) k && String.eqb (d_name d) name.

(** [nodeInfoByMethod] (1964-1977): nil for a location without an option, and
    for a method without the option statement. *)
Definition by_method (d : decl) (m : mtd_part) : result :=
  match m with
  | THereM | TRequest | TResponse => Nil
  | _ => match option_stmt (d_opts d) method_option with
         | Some s => by_method_option s m
         | None => Nil
         end
  end.

(** [nodeInfoByService] (1801-1822). *)
Definition by_service (d : decl) (z : svc_loc) : result :=
  match z with
  | ZHere => Found (d_id d)
  | ZOpt o => match option_stmt (d_opts d) service_option with
              | Some s => by_service_option s o
              | None => Found (d_id d)
              end
  | ZMethod name m => match find (is_decl KRpc name) (d_body d) with
                      | Some r => by_method r m
                      | None => Found (d_id d)
                      end
  end.

(** [nodeInfoByEnumValue] (1128-1139). *)
Definition by_enum_value (d : decl) (p : ev_part) : result :=
  match p with
  | UHere => Found (d_id d)
  | UOpt o => match option_stmt (d_opts d) enum_value_option with
              | Some s => by_enum_value_option s o
              | None => Found (d_id d)
              end
  end.

(** [nodeInfoByEnum] (1088-1108). *)
Definition by_enum (d : decl) (x : enum_loc) : result :=
  match x with
  | XHere => Found (d_id d)
  | XOpt => match option_stmt (d_opts d) enum_option with
            | Some s => by_enum_option s
            | None => Found (d_id d)
            end
  | XValue name p => match find (is_decl KEnumValue name) (d_body d) with
                     | Some v => by_enum_value v p
                     | None => Found (d_id d)
                     end
  end.

(** [nodeInfoByField] (1729-1743). *)
Definition by_field (d : decl) (p : field_part) : result :=
  match p with
  | FHere => Found (d_id d)
  | FType => match d_ty d with Some i => Found i | None => Found (d_id d) end
  | FOpt o => match option_stmt (d_opts d) field_option with
              | Some s => by_field_option s o
              | None => Found (d_id d)
              end
  end.

(** The loop of [nodeInfoByMessage] for a field (1033-1046, 1059-1065): a field
    of the message, or a field of a oneof by [nodeInfoByOneof] (1066-1086),
    whose nil lets the loop go on. *)
Fixpoint message_field (ds : list decl) (name : string) (p : field_part) (here : nat) : result :=
  match ds with
  | [] => Found here
  | d :: r =>
      if is_decl KField name d then by_field d p
      else if kind_eqb (d_kind d) KOneof then
        match find (is_decl KField name) (d_body d) with
        | Some x => match by_field x p with Nil => message_field r name p here | res => res end
        | None => message_field r name p here
        end
      else message_field r name p here
  end.

(** [nodeInfoByMessage] (1018-1064).  A nil result in a nested message lets the
    loop go on (1042-1047).  Nothing looks for the name of a oneof. *)
Fixpoint by_message (d : decl) (l : msg_loc) {struct l} : result :=
  match l with
  | LHere => Found (d_id d)
  | LOpt o => match option_stmt (d_opts d) message_option with
              | Some s => by_message_option s o
              | None => Found (d_id d)
              end
  | LField name p => message_field (d_body d) name p (d_id d)
  | LOneof _ => Found (d_id d)
  | LNested name l' =>
      (fix nested (ds : list decl) : result :=
         match ds with
         | [] => Found (d_id d)
         | x :: r =>
             if is_decl KMessage name x then
               match by_message x l' with Nil => nested r | res => res end
             else nested r
         end) (d_body d)
  | LEnum name x => match find (is_decl KEnum name) (d_body d) with
                    | Some e => by_enum e x
                    | None => Found (d_id d)
                    end
  end.

(** ** The file *)

(** [val.Value().(string)]: strings and concatenations. *)
Definition text_of (v : value) : option string :=
  match v with VStr _ t | VCat _ t => Some t | _ => None end.

(** [optionValuesByImportRule] (937-967): the value after ".import"; or the
    elements of the first "import" of the message literal, when it is an
    array. *)
Definition import_values (s : stmt) : list value :=
  if negb (match_option (option_name s) file_option) then []
  else if has_suffix ".import" (option_name s) then [o_val s]
  else match o_val s with
       | VMsg _ es => match first es "import" with
                      | Some (VArr _ l) => l
                      | _ => []
                      end
       | _ => []
       end.

Definition has_text (name : string) (v : value) : bool :=
  match text_of v with Some t => String.eqb t name | None => false end.

(** [NodeInfoByLocation] (970-1016).  Imports and options of the file come in
    the order of the file in Go; here the imports come first.  A location in a
    plugin matches no case. *)
Definition node_info (f : file) (l : loc) : result :=
  match l with
  | TopImport name =>
      match find (fun i => String.eqb (fst i) name) (f_imports f) with
      | Some (_, i) => Found i
      | None => match find (has_text name) (flat_map import_values (f_opts f)) with
                | Some v => Found (value_id v)
                | None => Nil
                end
      end
  | TopGoPackage =>
      match option_stmt (f_opts f) "go_package" with
      | Some s => Found (value_id (o_val s))
      | None => Nil
      end
  | TopExport _ => Nil
  | TopMessage name l' =>
      match find (is_decl KMessage name) (f_decls f) with
      | Some d => by_message d l'
      | None => Nil
      end
  | TopEnum name x =>
      match find (is_decl KEnum name) (f_decls f) with
      | Some d => by_enum d x
      | None => Nil
      end
  | TopService name z =>
      match find (is_decl KService name) (f_decls f) with
      | Some d => by_service d z
      | None => Nil
      end
  end.
