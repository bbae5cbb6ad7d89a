(** * The functions that turn messages into log values

    Models LogValues and what it calls, generator/code_generator.go:1232-1559; toTypeText,
    code_generator.go:1116-1175; the structs for message arguments, code_generator.go:736-808; the places that call the functions, generator/templates/eval.go.tmpl:134 and
    server.go.tmpl:545, 605; and the functions themselves, server.go.tmpl:634-680.

    Simplifications. Messages and enums are numbers, the entry of a map is part of the type; expressions of the generated code are
    trees instead of text, a field is named by its proto name; the attributes of a function are made at once, in Go while the
    types of the fields are visited (nothing reads them in between). A message type is the same Go type exactly if
    it is the same message. *)

From Coq Require Import Ascii String List Bool Arith ZArith.
From Verif.Base Require Import Text.
From Verif.Ident Require Model.
Import ListNotations.
Local Open Scope string_scope.

(** types/types.go:7-27, without messages and enums *)
Inductive kind :=
| Double | Float | Int64 | Uint64 | Int32 | Fixed64 | Fixed32 | Bool | Str
| Group | Bytes | Uint32 | Sfixed32 | Sfixed64 | Sint32 | Sint64.

(** resolver/types.go:411-418 Type. [fqdn]: the full name of the message that is the entry of a map: "." for the maps made by
    NewMapType (resolver/message.go:22-30), which have neither a name nor a file. *)
Inductive ty :=
| Scalar (k : kind) (rep : bool)
| Null (rep : bool)
| Msg (i : nat) (rep : bool)
| Enm (i : nat) (rep : bool)
| Map (fqdn : string) (key value : ty) (rep : bool).

(** A message. [m_path]: its name, after the names of the messages it is in. [m_nested]: the messages in it, as types.
    [m_arg]: the fields of the message argument if the message has a rule. [m_vars]: the variables of the message that are used. *)
Record message := {
  m_pkg : string; m_path : list string;
  m_fields : list (string * ty); m_nested : list ty; m_enums : list nat;
  m_arg : option (list (string * ty)); m_vars : list (string * ty) }.
Record enum := { e_fqdn : string; e_values : list (string * Z) }.

(** Types of Go. *)
Inductive gotype :=
| GText (s : string)       (** a type without structure *)
| GAny
| GGroup
| GValue                   (** slog.Value *)
| GMessage (i : nat)       (** a pointer to a message *)
| GEnum (i : nat)
| GStruct (name : string)  (** a pointer to a struct of the generated file *)
| GSlice (g : gotype)
| GMap (k v : gotype).

(** Expressions of the generated code. *)
Inductive expr :=
| Var (n : string)                 (** a field, or the variable of the loop *)
| Call (f : string) (e : expr)     (** s.f(e) *)
| ToString (e : expr)              (** e.String() *)
| Cast (t : string) (e : expr)     (** t(e) *)
| StringValue (e : expr)           (** slog.StringValue(e) *)
| AnyValue (e : expr).             (** slog.AnyValue(e) *)

(** LogValueAttr: code_generator.go:1259-1263. *)
Record attr := { a_type : string; a_key : string; a_value : expr }.

(** What is in a function; the messages and enums tell where it is from. *)
Inductive body :=
| BMessage (i : nat) (attrs : list attr)
| BArgument (i : nat) (attrs : list attr)
| BMap (value : ty) (e : expr)
| BRepeated (element : ty) (f : string)
| BEnum (i : nat) (cases : list (string * Z)).

(** LogValue: code_generator.go:1232-1238. *)
Record def := { d_name : string; d_param : gotype; d_body : body }.

Definition field_types (l : list (string * ty)) : list ty := map snd l.

(** toTypeText *)
Definition scalar_text (k : kind) : gotype :=
  match k with
  | Double => GText "float64" | Float => GText "float32"
  | Int32 | Sint32 | Sfixed32 => GText "int32"
  | Int64 | Sint64 | Sfixed64 => GText "int64"
  | Uint32 | Fixed32 => GText "uint32"
  | Uint64 | Fixed64 => GText "uint64"
  | Bool => GText "bool" | Str => GText "string" | Bytes => GText "[]byte"
  | Group => GGroup
  end.
Definition sliced (rep : bool) (g : gotype) : gotype := if rep then GSlice g else g.
Fixpoint go_of (t : ty) : gotype :=
  match t with
  | Scalar k rep => sliced rep (scalar_text k)
  | Null _ => GAny
  | Msg i rep => sliced rep (GMessage i)
  | Enm i rep => sliced rep (GEnum i)
  | Map _ k v _ => GMap (go_of k) (go_of v)
  end.

(** The fields of the struct for the message argument, with their Go names: newTypeDeclaresWithMessage,
    code_generator.go:747-808. Arguments that are members of a oneof are not modelled. *)
Fixpoint lookup (n : string) (l : list (string * gotype)) : option gotype :=
  match l with [] => None | (m, g) :: r => if String.eqb m n then Some g else lookup n r end.
Definition add_field (l : list (string * gotype)) (x : string * ty) : list (string * gotype) :=
  let n := Ident.Model.public (fst x) in
  match lookup n l with Some _ => l | None => (l ++ [(n, go_of (snd x))])%list end.
Definition struct_fields (vars args : list (string * ty)) : list (string * gotype) :=
  fold_left add_field args (fold_left add_field vars []).

Section Service.
  Variable msgs : nat -> message.
  Variable enums : nat -> enum.
  (** Service.ServiceName *)
  Variable service : string.

  (** Message.FQDN: resolver/fqdn.go:22-30. *)
  Definition m_fqdn (i : nat) : string := join "." (m_pkg (msgs i) :: m_path (msgs i)).
  (** newMessageArgument: resolver/message.go:71, and the package of setLogValueByMessageArgument: code_generator.go:1359-1366. *)
  Definition arg_fqdn (i : nat) : string :=
    join "." [m_pkg (msgs i); join "_" (removelast (m_path (msgs i)) ++ [(last (m_path (msgs i)) "" ++ "Argument")%string])%list].

  (** code_generator.go:1435-1449 *)
  Definition fn (fqdn : string) : string := "logvalue_" ++ Ident.Model.go_name fqdn.
  Definition repeated_fn (fqdn : string) : string := "logvalue_repeated_" ++ Ident.Model.go_name fqdn.
  (** logValueFuncName: code_generator.go:1544-1559, without "s." *)
  Definition func_name (t : ty) : string :=
    match t with
    | Msg i true => repeated_fn (m_fqdn i)
    | Msg i false => fn (m_fqdn i)
    | Map q _ _ _ => fn q
    | Enm i true => repeated_fn (e_fqdn (enums i))
    | Enm i false => fn (e_fqdn (enums i))
    | _ => ""
    end.

  (** logType: code_generator.go:1451-1473. [None]: log.Fatalf. *)
  Definition log_type (t : ty) : option string :=
    match t with
    | Scalar _ true | Null true | Msg _ true | Enm _ true | Map _ _ _ true => Some "Any"
    | Scalar k false =>
        Some match k with
             | Double | Float => "Float64"
             | Int32 | Int64 | Sint32 | Sint64 | Sfixed32 | Sfixed64 => "Int64"
             | Uint32 | Uint64 | Fixed32 | Fixed64 => "Uint64"
             | Bool => "Bool"
             | Str | Bytes => "String"
             | Group => "Any"
             end
    | Enm _ false => Some "String"
    | Msg _ false | Map _ _ _ false => Some "Any"
    | Null false => None
    end.

  (** logValue and msgArgumentLogValue: code_generator.go:1475-1500, 1517-1542. *)
  Definition log_value (n : string) (t : ty) : expr :=
    match t with
    | Msg _ _ | Map _ _ _ _ | Enm _ true => Call (func_name t) (Var n)
    | Enm _ false => ToString (Call (func_name t) (Var n))
    | Scalar _ true | Null _ => Var n
    | Scalar k false =>
        match k with
        | Int32 | Sint32 | Sfixed32 => Cast "int64" (Var n)
        | Uint32 | Fixed32 => Cast "uint64" (Var n)
        | Float => Cast "float64" (Var n)
        | Bytes => Cast "string" (Var n)
        | _ => Var n
        end
    end.
  (** logMapValue: code_generator.go:1502-1515. *)
  Definition log_map_value (t : ty) : expr :=
    match t with
    | Msg _ _ | Map _ _ _ _ | Enm _ true => Call (func_name t) (Var "value")
    | Enm _ false => StringValue (ToString (Call (func_name t) (Var "value")))
    | Scalar Bytes _ => StringValue (Cast "string" (Var "value"))
    | _ => AnyValue (Var "value")
    end.

  (** code_generator.go:1340-1345, 1377-1382 *)
  Fixpoint attrs (fs : list (string * ty)) : option (list attr) :=
    match fs with
    | [] => Some []
    | (n, t) :: r =>
        match log_type t, attrs r with
        | Some s, Some l => Some ({| a_type := s; a_key := n; a_value := log_value n t |} :: l)
        | _, _ => None
        end
    end.

  (** nameToLogValueMap *)
  Definition has (st : list def) (f : string) : bool := existsb (fun d => String.eqb (d_name d) f) st.
  Definition add (d : def) (st : list def) : list def := if has st (d_name d) then st else (st ++ [d])%list.

  (** setLogValueByEnum: code_generator.go:1387-1406. *)
  Definition enum_def (i : nat) : def :=
    {| d_name := fn (e_fqdn (enums i)); d_param := GEnum i; d_body := BEnum i (e_values (enums i)) |}.
  (** setLogValueByRepeatedType: code_generator.go:1408-1433. *)
  Definition repeated_def (t : ty) (fqdn : string) : def :=
    {| d_name := repeated_fn fqdn; d_param := GSlice (go_of t); d_body := BRepeated t (fn fqdn) |}.
  (** setLogValueByMapMessage: code_generator.go:1322-1337. *)
  Definition map_def (q : string) (k v : ty) : def :=
    {| d_name := fn q; d_param := GMap (go_of k) (go_of v); d_body := BMap v (log_map_value v) |}.
  (** setLogValueByMessage: code_generator.go:1289-1320. *)
  Definition message_def (i : nat) (l : list attr) : def :=
    {| d_name := fn (m_fqdn i); d_param := GMessage i; d_body := BMessage i l |}.
  (** setLogValueByMessageArgument: code_generator.go:1352-1385. *)
  Definition argument_def (i : nat) (l : list attr) : def :=
    {| d_name := fn (arg_fqdn i); d_param := GStruct (service ++ "_" ++ Ident.Model.go_name (arg_fqdn i)); d_body := BArgument i l |}.

  (** [Fatal]: log.Fatalf. [More]: the fuel is used up. *)
  Inductive out := Done (st : list def) | Fatal | More.
  Definition bind (r : out) (f : list def -> out) : out := match r with Done st => f st | _ => r end.
  Fixpoint each {A : Type} (f : A -> list def -> out) (l : list A) (st : list def) : out :=
    match l with [] => Done st | x :: r => bind (f x st) (each f r) end.

  (** setLogValueByType: code_generator.go:1339-1350; [rec] is setLogValueByMessage. *)
  Fixpoint set_type (rec : nat -> list def -> out) (t : ty) (st : list def) : out :=
    match t with
    | Scalar _ _ | Null _ => Done st
    | Msg i rep => bind (rec i st) (fun st => Done (if rep then add (repeated_def (Msg i false) (m_fqdn i)) st else st))
    | Enm i rep => let st := add (enum_def i) st in
                   Done (if rep then add (repeated_def (Enm i false) (e_fqdn (enums i))) st else st)
    | Map q k v _ => if has st (fn q) then Done st else set_type rec v (add (map_def q k v) st)
    end.

  (** setLogValueByMessage: code_generator.go:1289-1320. *)
  Fixpoint set_message (fuel : nat) (i : nat) (st : list def) : out :=
    match fuel with
    | 0 => More
    | S fuel =>
        if has st (fn (m_fqdn i)) then Done st
        else match attrs (m_fields (msgs i)) with
             | None => Fatal
             | Some l =>
                 bind (each (set_type (set_message fuel)) (field_types (m_fields (msgs i))) (add (message_def i l) st)) (fun st =>
                 bind (each (set_type (set_message fuel)) (m_nested (msgs i)) st) (fun st =>
                 each (fun e st => Done (add (enum_def e) st)) (m_enums (msgs i)) st))
             end
    end.

  (** setLogValueByMessageArgument, if there is a rule: code_generator.go:1273-1276, 1352-1385. *)
  Definition set_argument (fuel : nat) (i : nat) (st : list def) : out :=
    match m_arg (msgs i) with
    | None => Done st
    | Some fs =>
        if has st (fn (arg_fqdn i)) then Done st
        else match attrs fs with
             | None => Fatal
             | Some l => each (set_type (set_message fuel)) (field_types fs) (add (argument_def i l) st)
             end
    end.

  (** LogValues: code_generator.go:1265-1287, before sorting. [own]: the messages of the service; [requests]: those of the methods
      of the services it depends on. *)
  Definition LogValues (fuel : nat) (own requests : list nat) : out :=
    each (fun i st => bind (set_argument fuel i st) (set_message fuel i)) (own ++ requests)%list [].

  (** The structs that are declared for message arguments: code_generator.go:736-760, server.go.tmpl:56-67. *)
  Definition structs (own : list nat) : list string :=
    flat_map (fun i => match m_arg (msgs i) with
                       | None => []
                       | Some _ => [(service ++ "_" ++ Ident.Model.go_name (m_fqdn i) ++ "Argument")%string]
                       end) own.

  (** The calls outside of the functions, each with the Go type of its argument: server.go.tmpl:545 and 605 for the messages
      with a rule (the template also asks for HasRule, so there may be fewer), eval.go.tmpl:134 for the request of each method that is called. *)
  Definition calls (own called : list nat) : list (string * gotype) :=
    (flat_map (fun i => match m_arg (msgs i) with
                        | None => []
                        | Some _ => [("logvalue_" ++ Ident.Model.go_name (m_fqdn i) ++ "Argument",
                                      GStruct (service ++ "_" ++ Ident.Model.go_name (m_fqdn i) ++ "Argument"));
                                     ("logvalue_" ++ Ident.Model.go_name (m_fqdn i), GMessage i)]%string
                        end) own
     ++ map (fun i => ("logvalue_" ++ Ident.Model.go_name (m_fqdn i), GMessage i)%string) called)%list.
End Service.
