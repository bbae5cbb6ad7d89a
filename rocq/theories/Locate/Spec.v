(** * What a location means

    Nothing here looks at the functions of the model: a location names a
    declaration by the names on the way to it, an option of it by the name of
    the extension, and a value in the option by a path of field names and
    indices of federation.proto. *)

From Coq Require Import String List Arith Bool.
From Verif.Locate Require Import Model.
Import ListNotations.
Local Open Scope string_scope.
Local Open Scope list_scope.

(** ** Paths in the value of an option *)

(** What the value of a field may be in a file that compiles: a string (one
    literal or several), an identifier or number, a message; [Any] is for
    repeated fields whose location has no index. *)
Inductive kind := Str | Word | Msg | Any.

(** A step goes to a field that has one value, or to a message of a repeated
    field.  "args: [{..}, {..}]" and "args {..} args {..}" are the same. *)
Inductive step := One (field : string) (k : kind) | Nth (field : string) (i : nat).

Definition path := list step.

Definition node (v : value) : nat :=
  match v with VStr i _ | VCat i _ | VIdent i | VMsg i _ | VArr i _ => i end.

Definition of_kind (k : kind) (v : value) : bool :=
  match k, v with
  | Str, VStr _ _ | Str, VCat _ _ => true
  | Word, VIdent _ => true
  | Msg, VMsg _ _ => true
  | Any, _ => true
  | _, _ => false
  end.

(** The values written for a field. *)
Definition written (field : string) (v : value) : list value :=
  match v with
  | VMsg _ es => map snd (filter (fun e => String.eqb (fst e) field) es)
  | _ => []
  end.

(** The messages in a value of a repeated field. *)
Definition is_msg (v : value) : bool := match v with VMsg _ _ => true | _ => false end.

Definition messages (v : value) : list value :=
  match v with
  | VMsg _ _ => [v]
  | VArr _ l => filter is_msg l
  | _ => []
  end.

(** The value one step further, if the file has exactly one. *)
Definition follow (v : value) (s : step) : option value :=
  match s with
  | One field k => match written field v with
                   | [w] => if of_kind k w then Some w else None
                   | _ => None
                   end
  | Nth field i => nth_error (flat_map messages (written field v)) i
  end.

Fixpoint at_path (v : value) (p : path) : option value :=
  match p with
  | [] => Some v
  | s :: r => match follow v s with Some w => at_path w r | None => None end
  end.

(** ** The path of a location *)

Definition arg_path (p : arg_part) : path :=
  match p with
  | AHere => [] | AName => [One "name" Str] | ABy => [One "by" Str] | AInline => [One "inline" Str]
  end.

Definition msg_path (g : msg_part) : path :=
  match g with
  | GHere => [] | GName => [One "name" Str] | GArgs i p => Nth "args" i :: arg_path p
  end.

Definition enum_path (n : enum_part) : path :=
  match n with NHere => [] | NName => [One "name" Str] | NBy => [One "by" Str] end.

Definition map_path (m : map_part) : path :=
  match m with
  | PHere => [] | PBy => [One "by" Str]
  | PIterName => [One "iterator" Msg; One "name" Str]
  | PIterSrc => [One "iterator" Msg; One "src" Str]
  | PMessage g => One "message" Msg :: msg_path g
  | PEnum n => One "enum" Msg :: enum_path n
  end.

Definition retry_path (r : retry_part) : path :=
  match r with
  | RHere => [] | RIf => [One "if" Str]
  | RConstInterval => [One "constant" Msg; One "interval" Str]
  | RExpInitial => [One "exponential" Msg; One "initial_interval" Str]
  | RExpMax => [One "exponential" Msg; One "max_interval" Str]
  end.

Definition req_path (q : req_part) : path :=
  match q with
  | QHere => [] | QField => [One "field" Str] | QBy => [One "by" Str] | QIf => [One "if" Str]
  end.

(** The message of a detail is a MessageExpr (federation.proto,
    GRPCErrorDetail): its name and its arguments are fields of it. *)
Fixpoint def_path (p : def_part) : path :=
  match p with
  | DHere => [] | DName => [One "name" Str] | DIf => [One "if" Str] | DBy => [One "by" Str]
  | DMap m => One "map" Msg :: map_path m
  | DMessage g => One "message" Msg :: msg_path g
  | DEnum n => One "enum" Msg :: enum_path n
  | DCall c => One "call" Msg :: call_path c
  | DValName => [One "validation" Msg; One "name" Str]
  | DValError e => One "validation" Msg :: One "error" Msg :: err_path e
  end
with call_path (c : call_part) : path :=
  match c with
  | CHere => [] | CMethod => [One "method" Str] | CTimeout => [One "timeout" Str]
  | CRetry r => One "retry" Msg :: retry_path r
  | CRequest i q => Nth "request" i :: req_path q
  | CError i e => Nth "error" i :: err_path e
  end
with err_path (e : err_part) : path :=
  match e with
  | EHere => [] | EIf => [One "if" Str] | ECode => [One "code" Word] | EMessage => [One "message" Str]
  | EIgnore => [One "ignore" Word] | EIgnoreRes => [One "ignore_and_response" Str]
  | EDef i p => Nth "def" i :: def_path p
  | EDetail i t => Nth "details" i :: detail_path t
  end
with detail_path (t : detail_part) : path :=
  match t with
  | THere => [] | TIf => [One "if" Str] | TBy => [One "by" Any]
  | TDef i p => Nth "def" i :: def_path p
  | TMessageHere i => [Nth "message" i]
  | TMessage i g => Nth "message" i :: msg_path g
  | TPrecondition i j f => [Nth "precondition_failure" i; Nth "violations" j; One f Str]
  | TBadRequest i j f => [Nth "bad_request" i; Nth "field_violations" j; One f Str]
  | TLocalized i f => [Nth "localized_message" i; One f Str]
  end.

Definition mopt_path (o : mopt_part) : path :=
  match o with MOHere => [] | MOAlias => [One "alias" Any] | MODef i p => Nth "def" i :: def_path p end.

Definition oneof_path (o : oneof_part) : path :=
  match o with
  | OHere => [] | OIf => [One "if" Str] | ODefault => [One "default" Word] | OBy => [One "by" Str]
  | ODef i p => Nth "def" i :: def_path p
  end.

Definition fopt_path (o : fopt_part) : path :=
  match o with
  | FOHere => [] | FOBy => [One "by" Str] | FOAlias => [One "alias" Str]
  | FOOneof p => One "oneof" Msg :: oneof_path p
  end.

Definition attr_path (b : attr_part) : path :=
  match b with BHere => [] | BName => [One "name" Str] | BValue => [One "value" Str] end.

Definition vopt_path (o : vopt_part) : path :=
  match o with
  | VOHere => [] | VOAlias => [One "alias" Any] | VODefault => [One "default" Word]
  | VOAttr i b => Nth "attr" i :: attr_path b
  end.

Definition envvar_path (w : envvar_part) : path :=
  match w with
  | WHere => [] | WName => [One "name" Str] | WType => [One "type" Msg] | WOption => [One "option" Msg]
  end.

Definition env_path (y : env_part) : path :=
  match y with
  | YHere => [] | YMessage => [One "message" Str] | YVar i w => Nth "var" i :: envvar_path w
  end.

Definition svalid_path (j : svalid_part) : path :=
  match j with JHere => [] | JIf => [One "if" Str] | JMessage => [One "message" Str] end.

Definition svar_path (s : svar_part) : path :=
  match s with
  | SHere => [] | SName => [One "name" Str] | SIf => [One "if" Str] | SBy => [One "by" Str]
  | SMap m => One "map" Msg :: map_path m
  | SMessage g => One "message" Msg :: msg_path g
  | SEnum n => One "enum" Msg :: enum_path n
  | SValidation j => One "validation" Msg :: svalid_path j
  end.

Definition sopt_path (o : sopt_part) : path :=
  match o with
  | SOHere => [] | SOEnv y => One "env" Msg :: env_path y | SOVar i s => Nth "var" i :: svar_path s
  end.

Definition mtd_path (m : mtd_part) : path :=
  match m with TOptTimeout => [One "timeout" Str] | TOptResponse => [One "response" Str] | _ => [] end.

(** ** Option statements *)

(** The statement sets the extension, or a field of it. *)
Definition sets (ext : string) (s : stmt) : bool :=
  match o_parts s with
  | e :: _ => String.eqb e ext || String.eqb e ("." ++ ext)
  | [] => false
  end.

(** What a statement writes in the message of the extension:
    "option (ext) = { f: v }", "option (ext).f = v",
    "option (ext).f.g = v". *)
Fixpoint wrap (id : nat) (fields : list string) (v : value) : value :=
  match fields with [] => v | f :: r => VMsg id [(f, wrap id r v)] end.

Definition contribution (s : stmt) : elems :=
  match wrap (o_id s) (tl (o_parts s)) (o_val s) with VMsg _ es => es | _ => [] end.

(** A place in a file: a declaration or a statement, or a value in an option. *)
Inductive target := Whole (id : nat) | In_value (v : value).

Definition target_node (t : target) : nat :=
  match t with Whole i => i | In_value v => node v end.

(** The statements of the extension are put together; the location of the option
    itself is the first of them. *)
Definition at_option (opts : list stmt) (ext : string) (p : path) : option target :=
  match filter (sets ext) opts with
  | [] => None
  | s :: r =>
      match p with
      | [] => Some (Whole (o_id s))
      | _ => option_map In_value (at_path (VMsg (o_id s) (flat_map contribution (s :: r))) p)
      end
  end.

(** ** Declarations *)

Definition only {A} (l : list A) : option A := match l with [x] => Some x | _ => None end.

Definition named (k : dkind) (name : string) (ds : list decl) : option decl :=
  only (filter (fun d => match d_kind d, k with
                         | KMessage, KMessage | KField, KField | KOneof, KOneof | KEnum, KEnum
                         | KEnumValue, KEnumValue | KService, KService | KRpc, KRpc =>
                             String.eqb (d_name d) name
                         | _, _ => false
                         end) ds).

(** The fields of a message include those of its oneofs. *)
Definition with_oneof_fields (ds : list decl) : list decl :=
  flat_map (fun d => match d_kind d with KOneof => d_body d | _ => [d] end) ds.

Definition bind {A B} (x : option A) (k : A -> option B) : option B :=
  match x with Some a => k a | None => None end.

Definition at_field (d : decl) (p : field_part) : option target :=
  match p with
  | FHere => Some (Whole (d_id d))
  | FType => option_map Whole (d_ty d)
  | FOpt o => at_option (d_opts d) "grpc.federation.field" (fopt_path o)
  end.

Definition at_enum_value (d : decl) (p : ev_part) : option target :=
  match p with
  | UHere => Some (Whole (d_id d))
  | UOpt o => at_option (d_opts d) "grpc.federation.enum_value" (vopt_path o)
  end.

Definition at_enum (d : decl) (x : enum_loc) : option target :=
  match x with
  | XHere => Some (Whole (d_id d))
  | XOpt => at_option (d_opts d) "grpc.federation.enum" [One "alias" Any]
  | XValue name p => bind (named KEnumValue name (d_body d)) (fun v => at_enum_value v p)
  end.

Fixpoint at_message (d : decl) (l : msg_loc) : option target :=
  match l with
  | LHere => Some (Whole (d_id d))
  | LOpt o => at_option (d_opts d) "grpc.federation.message" (mopt_path o)
  | LField name p => bind (named KField name (with_oneof_fields (d_body d))) (fun x => at_field x p)
  | LOneof name => option_map (fun x => Whole (d_id x)) (named KOneof name (d_body d))
  | LNested name l' => bind (named KMessage name (d_body d)) (fun x => at_message x l')
  | LEnum name x => bind (named KEnum name (d_body d)) (fun e => at_enum e x)
  end.

Definition at_method (d : decl) (m : mtd_part) : option target :=
  match m with
  | THereM | TRequest | TResponse => Some (Whole (d_id d))
  | _ => at_option (d_opts d) "grpc.federation.method" (mtd_path m)
  end.

Definition at_service (d : decl) (z : svc_loc) : option target :=
  match z with
  | ZHere => Some (Whole (d_id d))
  | ZOpt o => at_option (d_opts d) "grpc.federation.service" (sopt_path o)
  | ZMethod name m => bind (named KRpc name (d_body d)) (fun r => at_method r m)
  end.

(** The node a location names.  Imports, the go_package and plugins are not
    part of this definition. *)
Definition node_at (f : file) (l : loc) : option target :=
  match l with
  | TopMessage name l' => bind (named KMessage name (f_decls f)) (fun d => at_message d l')
  | TopEnum name x => bind (named KEnum name (f_decls f)) (fun d => at_enum d x)
  | TopService name z => bind (named KService name (f_decls f)) (fun d => at_service d z)
  | TopImport _ | TopGoPackage | TopExport _ => None
  end.

(** ** The nodes on the way *)

(** All the nodes a reader meets on the way to the place a location names; when
    a field is written several times, all of them. *)
Definition follow_all (v : value) (s : step) : list value :=
  match s with
  | One field _ => written field v
  | Nth field i => match nth_error (flat_map messages (written field v)) i with
                   | Some w => [w]
                   | None => []
                   end
  end.

Fixpoint along (v : value) (p : path) : list nat :=
  node v :: match p with
            | [] => []
            | s :: r => flat_map (fun w => along w r) (follow_all v s)
            end.

(** In the option: each statement of the extension, and what is on the way in
    its value. *)
Definition along_option (opts : list stmt) (ext : string) (p : path) : list nat :=
  flat_map (fun s => o_id s :: along (wrap (o_id s) (tl (o_parts s)) (o_val s)) p)
           (filter (sets ext) opts).

Definition all_named (k : dkind) (name : string) (ds : list decl) : list decl :=
  filter (fun d => match d_kind d, k with
                   | KMessage, KMessage | KField, KField | KOneof, KOneof | KEnum, KEnum
                   | KEnumValue, KEnumValue | KService, KService | KRpc, KRpc =>
                       String.eqb (d_name d) name
                   | _, _ => false
                   end) ds.

Definition along_field (p : field_part) (d : decl) : list nat :=
  d_id d :: match p with
            | FHere => []
            | FType => match d_ty d with Some i => [i] | None => [] end
            | FOpt o => along_option (d_opts d) "grpc.federation.field" (fopt_path o)
            end.

Definition along_enum_value (p : ev_part) (d : decl) : list nat :=
  d_id d :: match p with
            | UHere => []
            | UOpt o => along_option (d_opts d) "grpc.federation.enum_value" (vopt_path o)
            end.

Definition along_enum (x : enum_loc) (d : decl) : list nat :=
  d_id d :: match x with
            | XHere => []
            | XOpt => along_option (d_opts d) "grpc.federation.enum" [One "alias" Any]
            | XValue name p => flat_map (along_enum_value p) (all_named KEnumValue name (d_body d))
            end.

Fixpoint along_message (l : msg_loc) (d : decl) : list nat :=
  d_id d :: match l with
            | LHere => []
            | LOpt o => along_option (d_opts d) "grpc.federation.message" (mopt_path o)
            | LField name p =>
                flat_map (along_field p) (all_named KField name (with_oneof_fields (d_body d)))
            | LOneof name => map d_id (all_named KOneof name (d_body d))
            | LNested name l' => flat_map (along_message l') (all_named KMessage name (d_body d))
            | LEnum name x => flat_map (along_enum x) (all_named KEnum name (d_body d))
            end.

Definition along_method (m : mtd_part) (d : decl) : list nat :=
  d_id d :: along_option (d_opts d) "grpc.federation.method" (mtd_path m).

Definition along_service (z : svc_loc) (d : decl) : list nat :=
  d_id d :: match z with
            | ZHere => []
            | ZOpt o => along_option (d_opts d) "grpc.federation.service" (sopt_path o)
            | ZMethod name m => flat_map (along_method m) (all_named KRpc name (d_body d))
            end.

Definition way (f : file) (l : loc) : list nat :=
  match l with
  | TopMessage name l' => flat_map (along_message l') (all_named KMessage name (f_decls f))
  | TopEnum name x => flat_map (along_enum x) (all_named KEnum name (f_decls f))
  | TopService name z => flat_map (along_service z) (all_named KService name (f_decls f))
  | TopImport _ | TopGoPackage | TopExport _ => []
  end.

(** ** Conditions on files *)

(** All the declarations of a file. *)
Inductive inside : decl -> list decl -> Prop :=
| inside_here d ds : In d ds -> inside d ds
| inside_deeper d e ds : In e ds -> inside d (d_body e) -> inside d ds.

Definition extensions : list string :=
  ["grpc.federation.message"; "grpc.federation.field"; "grpc.federation.enum";
   "grpc.federation.enum_value"; "grpc.federation.service"; "grpc.federation.method"].

(** The extensions that go with a kind of declaration. *)
Definition extension_of (k : dkind) : string :=
  match k with
  | KMessage => "grpc.federation.message" | KField => "grpc.federation.field"
  | KOneof => "grpc.federation.oneof" | KEnum => "grpc.federation.enum"
  | KEnumValue => "grpc.federation.enum_value" | KService => "grpc.federation.service"
  | KRpc => "grpc.federation.method"
  end.

(** No other option of a declaration has a name that starts as the name of the
    extension of grpc-federation. *)
Definition starts (ext s : string) : bool := String.prefix ext s || String.prefix ("." ++ ext) s.

Definition no_lookalikes (f : file) : Prop :=
  forall d s, inside d (f_decls f) -> In s (d_opts d) ->
    starts (extension_of (d_kind d)) (String.concat "." (o_parts s)) = true ->
    sets (extension_of (d_kind d)) s = true.

(** Every option of grpc-federation is written once, as
    "option (grpc.federation.message) = { ... }". *)
Definition as_block (ext : string) (s : stmt) : Prop :=
  (o_parts s = [ext] \/ o_parts s = [("." ++ ext)%string]) /\ exists i es, o_val s = VMsg i es.

Definition blocks (f : file) : Prop :=
  forall d, inside d (f_decls f) ->
    filter (sets (extension_of (d_kind d))) (d_opts d) = []
    \/ exists s, filter (sets (extension_of (d_kind d))) (d_opts d) = [s]
                 /\ as_block (extension_of (d_kind d)) s.

(** The place is not a string written as several literals. *)
Definition plain (t : target) : bool :=
  match t with In_value (VCat _ _) => false | _ => true end.

(** ** Which locations are looked up *)

(** Left out: the name of an argument; the code and the message of an error;
    the strings "by" of a detail and the parts of its message; the name of a
    validation; the type and the option of an env variable; the alias of a
    field; the definitions of a oneof field; a oneof; a method, its request and
    its response. *)
Definition arg_ok (p : arg_part) : bool := match p with AName => false | _ => true end.
Definition msg_ok (g : msg_part) : bool := match g with GArgs _ p => arg_ok p | _ => true end.
Definition map_ok (m : map_part) : bool := match m with PMessage g => msg_ok g | _ => true end.

Fixpoint def_ok (p : def_part) : bool :=
  match p with
  | DMap m => map_ok m | DMessage g => msg_ok g | DCall c => call_ok c
  | DValError e => err_ok e | DValName => false
  | _ => true
  end
with call_ok (c : call_part) : bool :=
  match c with CError _ e => err_ok e | _ => true end
with err_ok (e : err_part) : bool :=
  match e with
  | ECode | EMessage => false
  | EDef _ p => def_ok p | EDetail _ t => detail_ok t
  | _ => true
  end
with detail_ok (t : detail_part) : bool :=
  match t with TBy | TMessage _ _ => false | TDef _ p => def_ok p | _ => true end.

Definition mopt_ok (o : mopt_part) : bool := match o with MODef _ p => def_ok p | _ => true end.
Definition fopt_ok (o : fopt_part) : bool :=
  match o with FOAlias | FOOneof (ODef _ _) => false | _ => true end.
Definition field_ok (p : field_part) : bool := match p with FOpt o => fopt_ok o | _ => true end.
Definition sopt_ok (o : sopt_part) : bool :=
  match o with
  | SOEnv (YVar _ (WType | WOption)) => false
  | SOVar _ (SMap m) => map_ok m
  | SOVar _ (SMessage g) => msg_ok g
  | _ => true
  end.
Fixpoint msg_loc_ok (l : msg_loc) : bool :=
  match l with
  | LOpt o => mopt_ok o | LField _ p => field_ok p | LOneof _ => false
  | LNested _ l' => msg_loc_ok l'
  | _ => true
  end.
Definition svc_ok (z : svc_loc) : bool :=
  match z with
  | ZOpt o => sopt_ok o
  | ZMethod _ (THereM | TRequest | TResponse) => false
  | _ => true
  end.
Definition looked_up (l : loc) : bool :=
  match l with TopMessage _ l' => msg_loc_ok l' | TopService _ z => svc_ok z | _ => true end.

(** Locations without a part of the message of a detail. *)
Fixpoint def_nodm (p : def_part) : bool :=
  match p with DCall c => call_nodm c | DValError e => err_nodm e | _ => true end
with call_nodm (c : call_part) : bool :=
  match c with CError _ e => err_nodm e | _ => true end
with err_nodm (e : err_part) : bool :=
  match e with EDef _ p => def_nodm p | EDetail _ t => detail_nodm t | _ => true end
with detail_nodm (t : detail_part) : bool :=
  match t with TMessage _ _ => false | TDef _ p => def_nodm p | _ => true end.

Fixpoint msg_nodm (l : msg_loc) : bool :=
  match l with
  | LOpt (MODef _ p) => def_nodm p
  | LField _ (FOpt (FOOneof (ODef _ p))) => def_nodm p
  | LNested _ l' => msg_nodm l'
  | _ => true
  end.

Definition no_detail_message (l : loc) : bool :=
  match l with TopMessage _ l' => msg_nodm l' | _ => true end.

(** The string the location names is not one of: the iterator of a map, a
    timeout, an interval. *)
Definition map_strict (m : map_part) : bool :=
  match m with PIterName | PIterSrc => false | _ => true end.
Definition retry_strict (r : retry_part) : bool :=
  match r with RConstInterval | RExpInitial | RExpMax => false | _ => true end.
Fixpoint def_strict (p : def_part) : bool :=
  match p with
  | DMap m => map_strict m | DCall c => call_strict c | DValError e => err_strict e | _ => true
  end
with call_strict (c : call_part) : bool :=
  match c with
  | CTimeout => false | CRetry r => retry_strict r | CError _ e => err_strict e | _ => true
  end
with err_strict (e : err_part) : bool :=
  match e with EDef _ p => def_strict p | EDetail _ t => detail_strict t | _ => true end
with detail_strict (t : detail_part) : bool :=
  match t with TDef _ p => def_strict p | _ => true end.

(** The location of the name of a validation. *)
Fixpoint def_vname (p : def_part) : bool :=
  match p with DValName => true | DCall c => call_vname c | DValError e => err_vname e | _ => false end
with call_vname (c : call_part) : bool :=
  match c with CError _ e => err_vname e | _ => false end
with err_vname (e : err_part) : bool :=
  match e with EDef _ p => def_vname p | EDetail _ t => detail_vname t | _ => false end
with detail_vname (t : detail_part) : bool :=
  match t with TDef _ p => def_vname p | _ => false end.

Fixpoint msg_vname (l : msg_loc) : bool :=
  match l with
  | LOpt (MODef _ p) => def_vname p
  | LField _ (FOpt (FOOneof (ODef _ p))) => def_vname p
  | LNested _ l' => msg_vname l'
  | _ => false
  end.

Definition names_validation (l : loc) : bool :=
  match l with TopMessage _ l' => msg_vname l' | _ => false end.
