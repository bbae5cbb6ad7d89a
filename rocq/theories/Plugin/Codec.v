(** Values crossing the boundary between a service and a CEL plugin.
    Models grpc/federation/cel/plugin.go (sendRequest, recvResponse, refToCELPluginValue, celPluginValueToRef,
    ValidatePlugin), grpc/federation/cel_plugin.go (the To... functions), the generated plugin
    (generator/templates/plugin.go.tmpl), and the choice of the conversions (generator/code_generator.go Converter,
    toCELTypeDeclare; resolver/resolver.go resolvePluginType).
    Simplified: protojson is taken to deliver the message it was given (one line of text); floating point numbers are
    an arbitrary type with a rounding to single precision; the elements of a CEL list are CEL values (cel-go's
    NativeToValue is the identity on them). *)
From Coq Require Import String List Bool ZArith.
From Verif.Cast Require Import Model.
Import ListNotations.
Local Open Scope list_scope.

(** A Go function that returns an error or panics. *)
Inductive out (A : Type) := Good (a : A) | Fails (why : string) | Panicked.
Arguments Good {A}. Arguments Fails {A}. Arguments Panicked {A}.
Definition obind {A B} (o : out A) (f : A -> out B) : out B :=
  match o with Good a => f a | Fails w => Fails w | Panicked => Panicked end.

(** The usual loop: convert the elements in order, stop at the first failure. *)
Fixpoint omap {A B} (f : A -> out B) (l : list A) : out (list B) :=
  match l with
  | [] => Good []
  | x :: l => obind (f x) (fun y => obind (omap f l) (fun ys => Good (y :: ys)))
  end.

(** ** Declared types *)
(** federation.TypeKind (federation.pb.go:30-45), federation.CELType. *)
Inductive tkind := KUnknown | KString | KBool | KInt64 | KUint64 | KDouble | KDuration.
Inductive decl :=
| DKind (k : tkind) | DRepeated (d : decl) | DMap (k v : decl) | DMessage (fqdn : string) | DEnum (fqdn : string).

(** resolver.Type as far as plugins use it. [RDuration] is the shared DurationType (a message type). *)
Inductive rbase :=
| RKind (k : kind)              (* a kind that carries no name *)
| RMessage (fqdn : string)
| REnum (fqdn : string)
| RDuration
| RMap (k v : rtype)
with rtype := RT (b : rbase) (repeated : bool).

(** resolver/resolver.go:934-995 resolvePluginType. Not modelled: the lookup of the message or enum (assumed to
    succeed). *)
Fixpoint resolve_plugin_type (d : decl) (repeated : bool) : option rtype :=
  match d with
  | DKind KString => Some (RT (RKind String_) repeated)
  | DKind KBool => Some (RT (RKind Bool) repeated)
  | DKind KInt64 => Some (RT (RKind Int64) repeated)
  | DKind KUint64 => Some (RT (RKind Uint64) repeated)
  | DKind KDouble => Some (RT (RKind Double) repeated)
  | DKind KDuration => Some (RT RDuration repeated)
  | DKind KUnknown => None
  | DRepeated d => resolve_plugin_type d true
  | DMap k v =>
      match resolve_plugin_type k false, resolve_plugin_type v false with
      | Some k, Some v => Some (RT (RMap k v) false)
      | _, _ => None
      end
  | DMessage n => Some (RT (RMessage n) repeated)
  | DEnum n => Some (RT (REnum n) repeated)
  end.

(** ** CEL types, as far as plugin.go distinguishes them: types.Kind and the element type of lists. *)
Inductive ctype :=
| TList (t : ctype) | TBool | TDouble | TInt | TBytes | TString | TUint | TStruct (fqdn : string)
| TMap | TDuration | TTimestamp | TAny | TDyn | TNull
| TNullable (t : ctype).         (* types.NewNullableType: Kind() is the one of t *)

(** cel-go v0.23.1 common/types/types.go NewObjectType: names of well-known types give other types. *)
Definition NewObjectType (n : string) : ctype :=
  if String.eqb n "google.protobuf.BoolValue" then TNullable TBool
  else if String.eqb n "google.protobuf.BytesValue" then TNullable TBytes
  else if String.eqb n "google.protobuf.DoubleValue" then TNullable TDouble
  else if String.eqb n "google.protobuf.FloatValue" then TNullable TDouble
  else if String.eqb n "google.protobuf.Int64Value" then TNullable TInt
  else if String.eqb n "google.protobuf.Int32Value" then TNullable TInt
  else if String.eqb n "google.protobuf.UInt64Value" then TNullable TUint
  else if String.eqb n "google.protobuf.UInt32Value" then TNullable TUint
  else if String.eqb n "google.protobuf.StringValue" then TNullable TString
  else if String.eqb n "google.protobuf.Any" then TAny
  else if String.eqb n "google.protobuf.Duration" then TDuration
  else if String.eqb n "google.protobuf.Timestamp" then TTimestamp
  else if String.eqb n "google.protobuf.ListValue" then TList TDyn
  else if String.eqb n "google.protobuf.NullValue" then TNull
  else if String.eqb n "google.protobuf.Struct" then TMap
  else if String.eqb n "google.protobuf.Value" then TDyn
  else TStruct n.

(** generator/code_generator.go:1083-1114 toCELTypeDeclare; a kind without a CEL type gives "" ([None]). *)
Definition toCELTypeDeclare_base (b : rbase) : option ctype :=
  match b with
  | RKind k =>
      match k with
      | Double | Float => Some TDouble
      | Int32 | Int64 | Sint32 | Sint64 | Sfixed32 | Sfixed64 | Enum => Some TInt
      | Uint32 | Uint64 | Fixed32 | Fixed64 => Some TUint
      | Bool => Some TBool
      | String_ => Some TString
      | Bytes => Some TBytes
      | _ => None
      end
  | REnum _ => Some TInt
  | RMap _ _ => Some TMap
  | RDuration => Some (NewObjectType "google.protobuf.Duration")
  | RMessage n => Some (NewObjectType n)
  end.
Definition toCELTypeDeclare (t : rtype) : option ctype :=
  match t with
  | RT b false => toCELTypeDeclare_base b
  | RT b true => option_map TList (toCELTypeDeclare_base b)
  end.

Section Codec.
  Variable F : Type.             (* float64 *)
  Variable fzero : F.
  Variable round32 : F -> F.     (* float64(float32(x)) *)
  Variable msg : Type.           (* protobuf messages *)
  Variable msg_name : msg -> string.
  Variable marshal : msg -> out string.                       (* proto.Marshal *)
  Variable unmarshal : string -> string -> out msg.           (* Any.UnmarshalNew: type name and bytes *)

  (** CEL values (ref.Val), as far as plugins can carry them, and null. *)
  Inductive cval :=
  | CBool (b : bool) | CDouble (f : F) | CInt (z : Z) | CUint (z : Z) | CBytes (s : string) | CString (s : string)
  | CMsg (m : msg)               (* v.Value() is a message other than Any *)
  | CAny (n b : string)          (* v.Value() is a message of type Any *)
  | COther                       (* a struct whose v.Value() is no protobuf message; null; anything else *)
  | CList (l : list cval).

  (** plugin.CELPluginValue: a oneof; [WNone] is an absent value or one without a member set. A message member holds an
      Any: type name and bytes. *)
  Inductive wire :=
  | WNone | WBool (b : bool) | WDouble (f : F) | WInt64 (z : Z) | WUint64 (z : Z) | WBytes (s : string)
  | WString (s : string) | WMessage (n b : string) | WList (l : list wire).

  (** The generated getters: the zero value unless the member is set. *)
  Definition GetBool (w : wire) : bool := match w with WBool b => b | _ => false end.
  Definition GetDouble (w : wire) : F := match w with WDouble f => f | _ => fzero end.
  Definition GetInt64 (w : wire) : Z := match w with WInt64 z => z | _ => 0%Z end.
  Definition GetUint64 (w : wire) : Z := match w with WUint64 z => z | _ => 0%Z end.
  Definition GetBytes (w : wire) : string := match w with WBytes s => s | _ => ""%string end.
  Definition GetString (w : wire) : string := match w with WString s => s | _ => ""%string end.
  Definition GetMessage (w : wire) : option (string * string) := match w with WMessage n b => Some (n, b) | _ => None end.
  Definition GetValues (w : wire) : list wire := match w with WList l => l | _ => [] end.

  (** anypb.New *)
  Definition any_new (m : msg) : out (string * string) := obind (marshal m) (fun b => Good (msg_name m, b)).
  (** Any.UnmarshalNew on a possibly nil Any: no type URL is an error. *)
  Definition unmarshal_new (a : option (string * string)) : out msg :=
    match a with None => Fails "invalid empty type URL" | Some (n, b) => unmarshal n b end.

  (** ** The service's side *)
  (** plugin.go:407-485 refToCELPluginValue. The type assertions on v panic if v has another type. *)
  Fixpoint refToCELPluginValue (t : ctype) (v : cval) {struct t} : out wire :=
    match t with
    | TList e =>
        match v with
        | CList l => obind (omap (refToCELPluginValue e) l) (fun ws => Good (WList ws))
        | _ => Panicked                                   (* reflect: Len of a non-list *)
        end
    | TBool => match v with CBool b => Good (WBool b) | _ => Panicked end
    | TDouble => match v with CDouble f => Good (WDouble f) | _ => Panicked end
    | TInt => match v with CInt z => Good (WInt64 z) | _ => Panicked end
    | TBytes => match v with CBytes s => Good (WBytes s) | _ => Panicked end
    | TString => match v with CString s => Good (WString s) | _ => Panicked end
    | TUint => match v with CUint z => Good (WUint64 z) | _ => Panicked end
    | TStruct _ =>
        match v with
        | CMsg m => obind (any_new m) (fun a => Good (WMessage (fst a) (snd a)))
        | CAny n b => Good (WMessage n b)
        | _ => Fails "currently unsupported native proto message"
        end
    | TNullable t => refToCELPluginValue t v              (* same Kind() *)
    | TMap | TDuration | TTimestamp | TAny | TDyn | TNull => Fails "found unexpected cel function's argument type"
    end.

  (** plugin.go:487-522 celPluginValueToRef; errors are CEL error values. cel-go's NativeToValue unpacks an Any and
      rejects a nil one. Simplified: message types are registered with the service. *)
  Definition native_any (a : option (string * string)) : out cval :=
    obind (unmarshal_new a) (fun m => Good (CMsg m)).
  Fixpoint celPluginValueToRef (t : ctype) (w : wire) {struct t} : out cval :=
    match t with
    | TList e => obind (omap (celPluginValueToRef e) (GetValues w)) (fun l => Good (CList l))
    | TBool => Good (CBool (GetBool w))
    | TBytes => Good (CBytes (GetBytes w))
    | TDouble => Good (CDouble (GetDouble w))
    | TInt => Good (CInt (GetInt64 w))
    | TString => Good (CString (GetString w))
    | TUint => Good (CUint (GetUint64 w))
    | TStruct _ => native_any (GetMessage w)
    | TNullable t => celPluginValueToRef t w
    | TMap | TDuration | TTimestamp | TAny | TDyn | TNull => Fails "unknown result type"
    end.

  (** ** The plugin's side: Go values of the parameter and result types *)
  Inductive gval :=
  | GoBool (b : bool) | GoInt (z : Z) | GoFloat (f : F) | GoString (s : string) | GoBytes (s : string)
  | GoMsg (m : msg) | GoList (l : list gval).

  (** cel_plugin.go:38-179: the argument conversions, for one element. T(v.GetInt64()) of an enum wraps to 32 bits;
      msg.(T) panics for a message of another type. A kind without conversion does not compile ([None]). *)
  Definition arg_conv (b : rbase) : option (wire -> out gval) :=
    match b with
    | RKind k =>
        match k with
        | Double => Some (fun w => Good (GoFloat (GetDouble w)))
        | Float => Some (fun w => Good (GoFloat (round32 (GetDouble w))))
        | Int32 | Sint32 | Sfixed32 => Some (fun w => Good (GoInt (go_wrap GInt32 (GetInt64 w))))
        | Int64 | Sint64 | Sfixed64 => Some (fun w => Good (GoInt (GetInt64 w)))
        | Uint32 | Fixed32 => Some (fun w => Good (GoInt (go_wrap GUint32 (GetUint64 w))))
        | Uint64 | Fixed64 => Some (fun w => Good (GoInt (GetUint64 w)))
        | Bool => Some (fun w => Good (GoBool (GetBool w)))
        | String_ => Some (fun w => Good (GoString (GetString w)))
        | Bytes => Some (fun w => Good (GoBytes (GetBytes w)))
        | _ => None
        end
    | REnum _ => Some (fun w => Good (GoInt (go_wrap GInt32 (GetInt64 w))))
    | RMessage n => Some (fun w => obind (unmarshal_new (GetMessage w))
                                     (fun m => if String.eqb (msg_name m) n then Good (GoMsg m) else Panicked))
    | RDuration => Some (fun w => obind (unmarshal_new (GetMessage w))
                                    (fun m => if String.eqb (msg_name m) "google.protobuf.Duration"
                                              then Good (GoMsg m) else Panicked))
    | RMap _ _ => None                                    (* ToMessage[map[..]..] *)
    end.
  (** code_generator.go:169-230 CELFunctionArgument.Converter: the List variants loop over the elements. *)
  Definition arg_converter (t : rtype) : option (wire -> out gval) :=
    match t with
    | RT b false => arg_conv b
    | RT b true => option_map (fun f w => obind (omap f (GetValues w)) (fun l => Good (GoList l))) (arg_conv b)
    end.

  (** cel_plugin.go:181-343: the result conversions, for one element of its Go type. A value that does not have the Go
      type does not occur ([Panicked] as a placeholder). Narrow integers widen; enums are passed where an int32 is expected, which
      does not compile in Go for a named enum type (see [ret_converter]). *)
  Definition ret_conv (b : rbase) : option (gval -> out wire) :=
    match b with
    | RKind k =>
        match k with
        | Double | Float => Some (fun g => match g with GoFloat f => Good (WDouble f) | _ => Panicked end)
        | Int32 | Sint32 | Sfixed32 | Int64 | Sint64 | Sfixed64 =>
            Some (fun g => match g with GoInt z => Good (WInt64 z) | _ => Panicked end)
        | Uint32 | Fixed32 | Uint64 | Fixed64 =>
            Some (fun g => match g with GoInt z => Good (WUint64 z) | _ => Panicked end)
        | Bool => Some (fun g => match g with GoBool b => Good (WBool b) | _ => Panicked end)
        | String_ => Some (fun g => match g with GoString s => Good (WString s) | _ => Panicked end)
        | Bytes => Some (fun g => match g with GoBytes s => Good (WBytes s) | _ => Panicked end)
        | _ => None
        end
    | REnum _ => None                                     (* ToInt32CELPluginResponse(ret) with ret of a named type *)
    | RMessage _ | RDuration =>
        Some (fun g => match g with
                       | GoMsg m => obind (any_new m) (fun a => Good (WMessage (fst a) (snd a)))
                       | _ => Panicked
                       end)
    | RMap _ _ => None
    end.
  (** code_generator.go:249-302 CELFunctionReturn.Converter. *)
  Definition ret_converter (t : rtype) : option (gval -> out wire) :=
    match t with
    | RT b false => ret_conv b
    | RT b true =>
        option_map (fun f g => match g with
                               | GoList l => obind (omap f l) (fun ws => Good (WList ws))
                               | _ => Panicked
                               end) (ret_conv b)
    end.

  (** ** A call *)
  (** CELPluginRequest and CELPluginResponse. *)
  Definition md := list (string * list string).
  Record request := { method : string; metadata : list (string * list string); args : list wire }.
  Record response := { error : string; value : wire }.

  (** A function as declared: identifier, argument types, result type. *)
  Record fn := { id : string; params : list rtype; result_type : rtype }.

  (** plugin.go:322-345 sendRequest: the request. [order] is the metadata in the order in which Go ranges over the
      map; fn.Args[idx] panics if there are more arguments than parameters. *)
  Fixpoint conv_args (ts : list ctype) (vs : list cval) : out (list wire) :=
    match vs, ts with
    | [], _ => Good []
    | v :: vs, t :: ts => obind (refToCELPluginValue t v) (fun w => obind (conv_args ts vs) (fun ws => Good (w :: ws)))
    | _ :: _, [] => Panicked
    end.
  Definition make_request (f : fn) (cts : list ctype) (order : md) (vs : list cval) : out request :=
    obind (conv_args cts vs) (fun ws => Good {| method := id f; metadata := order; args := ws |}).

  (** plugin.go:347-360 recvResponse, after the text is decoded. *)
  Definition read_response (t : ctype) (r : response) : out cval :=
    if String.eqb (error r) "" then celPluginValueToRef t (value r) else Fails (error r).

  (** The plugin's implementation of one function: context metadata (as a finite map) and arguments to a result, or an
      error with a text. *)
  Definition impl := (string -> option (list string)) -> list gval -> gval + string.

  (** md[m.GetKey()] = m.GetValues() in order (plugin.go.tmpl:61-64): later entries win. *)
  Definition md_of (l : md) : string -> option (list string) :=
    fold_left (fun m kv k => if String.eqb k (fst kv) then Some (snd kv) else m k) l (fun _ => None).

  (** plugin.go.tmpl:72-77: the arguments one after the other, the first failure is returned. The number of arguments is
      checked before. *)
  Fixpoint plugin_args (cs : list (wire -> out gval)) (ws : list wire) : out (list gval) :=
    match cs, ws with
    | c :: cs, w :: ws => obind (c w) (fun g => obind (plugin_args cs ws) (fun gs => Good (g :: gs)))
    | _, _ => Good []
    end.

  (** plugin.go.tmpl:57-89 handle: dispatch on the method. An error becomes a response with the error's text
      (plugin.go.tmpl:44-47, cel_plugin.go:181-183). A function whose conversions do not compile gives no plugin. *)
  Record compiled := { c_id : string; c_args : list (wire -> out gval); c_ret : gval -> out wire; c_impl : impl }.
  Definition handle (fs : list compiled) (r : request) : out response :=
    match find (fun f => String.eqb (c_id f) (method r)) fs with
    | None => Good {| error := "unexpected method name"; value := WNone |}
    | Some f =>
        if Nat.eqb (length (args r)) (length (c_args f)) then
          match plugin_args (c_args f) (args r) with
          | Panicked => Panicked
          | Fails w => Good {| error := w; value := WNone |}
          | Good gs =>
              match c_impl f (md_of (metadata r)) gs with
              | inr e => Good {| error := e; value := WNone |}
              | inl g =>
                  match c_ret f g with
                  | Good w => Good {| error := ""; value := w |}
                  | Fails w => Good {| error := w; value := WNone |}
                  | Panicked => Panicked
                  end
              end
          end
        else Good {| error := "invalid argument number"; value := WNone |}
    end.

  (** The generated code of one function: conversions for every parameter and the result. *)
  Fixpoint all_some {A} (l : list (option A)) : option (list A) :=
    match l with
    | [] => Some []
    | Some a :: l => option_map (cons a) (all_some l)
    | None :: _ => None
    end.
  Definition compile (f : fn) (i : impl) : option compiled :=
    match all_some (map arg_converter (params f)), ret_converter (result_type f) with
    | Some cs, Some r => Some {| c_id := id f; c_args := cs; c_ret := r; c_impl := i |}
    | _, _ => None
    end.

  (** A whole call, from the service and back. [order] is some order of the metadata. A panic in the plugin terminates
      it; the service then gets an error (see Instance.v). *)
  Definition call (fs : list compiled) (f : fn) (order : md) (vs : list cval) : option (out cval) :=
    match all_some (map toCELTypeDeclare (params f)), toCELTypeDeclare (result_type f) with
    | Some cts, Some rt =>
        Some (obind (make_request f cts order vs) (fun req =>
              match handle fs req with
              | Good resp => read_response rt resp
              | Fails w => Fails w
              | Panicked => Fails "module closed"
              end))
    | _, _ => None
    end.

  (** plugin.go:175-215 ValidatePlugin, after the answer to the version command is decoded: protocol version 1 and
      every function of the service among the ones the plugin lists (plugin.go.tmpl:30-41). *)
  Definition validate (service : list fn) (version : Z) (listed : list string) : out unit :=
    if negb (Z.eqb version 1) then Fails "cel plugin protocol version mismatch"
    else match filter (fun f => negb (existsb (String.eqb (id f)) listed)) service with
         | [] => Good tt
         | _ :: _ => Fails "cel plugin functions are missing"
         end.
End Codec.
Arguments CBool {F msg}. Arguments CDouble {F msg}. Arguments CInt {F msg}. Arguments CUint {F msg}.
Arguments CBytes {F msg}. Arguments CString {F msg}. Arguments CMsg {F msg}. Arguments CAny {F msg}.
Arguments COther {F msg}. Arguments CList {F msg}.
Arguments WNone {F}. Arguments WBool {F}. Arguments WDouble {F}. Arguments WInt64 {F}. Arguments WUint64 {F}.
Arguments WBytes {F}. Arguments WString {F}. Arguments WMessage {F}. Arguments WList {F}.
Arguments GoBool {F msg}. Arguments GoInt {F msg}. Arguments GoFloat {F msg}. Arguments GoString {F msg}.
Arguments GoBytes {F msg}. Arguments GoMsg {F msg}. Arguments GoList {F msg}.
