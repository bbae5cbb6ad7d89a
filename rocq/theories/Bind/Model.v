(** * Calls of functions in CEL expressions

    Model of BindFunction and BindMemberFunction, grpc/federation/cel/bind.go:20-62, of
    toSelectorName, cel/conv.go:47-63, of the list of functions of the library,
    cel/lib.go:15-35 with url.go, strings.go, math.go, time.go, list.go, rand.go, uuid.go,
    enum.go, metadata.go and log.go, and of the functions of plugins,
    cel/plugin.go:277-310.

    What cel-go 0.23 does is part of the model: a macro for receivers is looked up by name and
    number of arguments and then by name only, and a later macro replaces an earlier one with
    the same key (parser.Macros, parser.expandMacro); a call whose receiver is a qualified
    name is a call of the function with the name so qualified, if there is one, and otherwise
    one of a method (checker.checkCall); names are looked up in the container from the inside
    out (containers.ResolveCandidateNames).

    Simplifications.  Of expressions the parts are kept that matter for calls.  Types are left
    out: whether the overloads of a function fit is only decided on whether the first argument
    is the context, which is a variable that nobody else has (context.go:12), and which the
    functions bound by these two functions all take and no other does.  What a macro of CEL
    itself, like map or filter, makes of its arguments is left as it is. *)

From Coq Require Import Ascii String List Bool Arith.
From Verif.Base Require Import Text.
Import ListNotations.
Local Open Scope string_scope.

Inductive expr :=
| Const (n : nat)
| Ident (x : string)
| Select (e : expr) (f : string)
| List (l : list expr)
| Call (f : string) (args : list expr)
| Member (target : expr) (f : string) (args : list expr)
| Macro (target : expr) (f : string) (args : list expr).

(** ContextVariableName: context.go:12. *)
Definition context_name : string := "__CTX__".
Definition context : expr := Ident context_name.

(** toSelectorName: conv.go:47-63. *)
Fixpoint selector_name (e : expr) : string :=
  match e with
  | Select o f => let p := selector_name o in if String.eqb p "" then f else p ++ "." ++ f
  | Ident x => x
  | _ => ""
  end.

(** A function bound by BindFunction, with its full name, or by BindMemberFunction. *)
Inductive binding := Func (name : string) | Meth (name : string).

(** The name of the macro: bind.go:21-22 and 53. *)
Definition short (b : binding) : string :=
  match b with Func n => last (split "." n) "" | Meth n => n end.

(** The macro in force for a name: that of the last binding. *)
Fixpoint macro_of (bs : list binding) (f : string) : option binding :=
  match bs with
  | [] => None
  | b :: r => match macro_of r f with
              | Some x => Some x
              | None => if String.eqb (short b) f then Some b else None
              end
  end.

(** The context is put before the arguments, if it is not there: bind.go:34-39, 54-59. *)
Definition starts_with_context (args : list expr) : bool :=
  match args with Ident x :: _ => String.eqb x context_name | _ => false end.
Definition with_context (args : list expr) : list expr :=
  if starts_with_context args then args else context :: args.

(** The macros: bind.go:28-40 and 53-60. *)
Definition expand_call (b : binding) (t : expr) (f : string) (args : list expr) : expr :=
  match b with
  | Func _ =>
      let sel := selector_name t in
      Call (if String.eqb sel "" then f else sel ++ "." ++ f) (with_context args)
  | Meth _ => Member t f (with_context args)
  end.

(** The environment: the bindings in the order in which they are made; the receiver macros of
    CEL, with a number of arguments; the functions and methods that are declared otherwise;
    and the container. *)
Record env := {
  bindings : list binding;
  fixed : list (string * nat);
  functions : list string;
  methods : list string;
  container : list string
}.

Definition is_fixed (E : env) (f : string) (n : nat) : bool :=
  existsb (fun p => String.eqb (fst p) f && Nat.eqb (snd p) n) (fixed E).

(** The parser: arguments and receivers are expanded before the call. *)
Fixpoint expand (E : env) (e : expr) : expr :=
  match e with
  | Const n => Const n
  | Ident x => Ident x
  | Select o f => Select (expand E o) f
  | List l => List (map (expand E) l)
  | Call f args => Call f (map (expand E) args)
  | Macro t f args => Macro (expand E t) f (map (expand E) args)
  | Member t f args =>
      let t' := expand E t in
      let args' := map (expand E) args in
      if is_fixed E f (List.length args') then Macro t' f args'
      else match macro_of (bindings E) f with
           | Some b => expand_call b t' f args'
           | None => Member t' f args'
           end
  end.

(** ** The checker *)

Fixpoint prefixes (c : list string) : list (list string) :=
  match c with [] => [[]] | x :: r => ([] :: map (cons x) (prefixes r))%list end.

(** ResolveCandidateNames: the longest first. *)
Definition candidates (c : list string) (name : string) : list string :=
  map (fun p => join "." (p ++ [name])%list) (rev (prefixes c)).

Definition memb (x : string) (l : list string) : bool := existsb (String.eqb x) l.

Fixpoint bound_functions (bs : list binding) : list string :=
  match bs with [] => [] | Func n :: r => n :: bound_functions r | Meth _ :: r => bound_functions r end.
Fixpoint bound_methods (bs : list binding) : list string :=
  match bs with [] => [] | Func _ :: r => bound_methods r | Meth n :: r => n :: bound_methods r end.

Definition lookup (E : env) (name : string) : option string :=
  find (fun n => memb n (functions E) || memb n (bound_functions (bindings E))) (candidates (container E) name).

(** ToQualifiedName: the receiver as a name. *)
Fixpoint qualified_name (e : expr) : option string :=
  match e with
  | Ident x => Some x
  | Select o f => match qualified_name o with Some p => Some (p ++ "." ++ f) | None => None end
  | _ => None
  end.

(** A call that the checker has resolved; [own] tells a function that CEL has otherwise from
    a bound one, and [None] is an error. *)
Inductive target :=
| ConstT (n : nat)
| IdentT (x : string)
| SelectT (e : target) (f : string)
| ListT (l : list target)
| FuncT (own : bool) (name : string) (args : list target)
| MethT (own : bool) (e : target) (name : string) (args : list target)
| MacroT (e : target) (f : string) (args : list target).

Fixpoint all_some {A : Type} (l : list (option A)) : option (list A) :=
  match l with
  | [] => Some []
  | x :: r => match x, all_some r with Some a, Some m => Some (a :: m) | _, _ => None end
  end.

(** Which of the overloads of a name fits: with the context that of a binding. *)
Definition overload (bound own : bool) (args : list expr) : option bool :=
  if starts_with_context args then if bound then Some false else None
  else if own then Some true else None.

(** The arguments but for the context. *)
Definition visible {A : Type} (args : list expr) (rs : list A) : list A :=
  if starts_with_context args then tl rs else rs.

Definition check_function (E : env) (name : string) (args : list expr) (rs : option (list target)) : option target :=
  match rs with
  | Some rs =>
      match overload (memb name (bound_functions (bindings E))) (memb name (functions E)) args with
      | Some own => Some (FuncT own name (visible args rs))
      | None => None
      end
  | None => None
  end.

Definition check_method (E : env) (t : option target) (f : string) (args : list expr) (rs : option (list target)) : option target :=
  match t, rs with
  | Some t, Some rs =>
      match overload (memb f (bound_methods (bindings E))) (memb f (methods E)) args with
      | Some own => Some (MethT own t f (visible args rs))
      | None => None
      end
  | _, _ => None
  end.

Fixpoint check (E : env) (e : expr) : option target :=
  match e with
  | Const n => Some (ConstT n)
  | Ident x => Some (IdentT x)
  | Select o f => match check E o with Some r => Some (SelectT r f) | None => None end
  | List l => match all_some (map (check E) l) with Some r => Some (ListT r) | None => None end
  | Macro t f args =>
      match check E t, all_some (map (check E) args) with
      | Some r, Some rs => Some (MacroT r f rs)
      | _, _ => None
      end
  | Call f args =>
      match lookup E f with
      | Some n => check_function E n args (all_some (map (check E) args))
      | None => None
      end
  | Member t f args =>
      match qualified_name t with
      | Some q =>
          match lookup E (q ++ "." ++ f) with
          | Some n => check_function E n args (all_some (map (check E) args))
          | None => check_method E (check E t) f args (all_some (map (check E) args))
          end
      | None => check_method E (check E t) f args (all_some (map (check E) args))
      end
  end.

(** Env.Compile *)
Definition compile (E : env) (e : expr) : option target := check E (expand E e).

(** ** Printing and parsing again

    cel.go:775-793: an expression in which comparisons with null were changed is printed and
    compiled again.  A call of a function with a qualified name is printed as such, and is then
    parsed as the call of a method. *)
Fixpoint selectors (p : expr) (l : list string) : expr :=
  match l with [] => p | x :: r => selectors (Select p x) r end.

Definition qualified_call (name : string) (args : list expr) : expr :=
  match split "." name with
  | x :: y :: r => Member (selectors (Ident x) (removelast (y :: r))) (last (y :: r) "") args
  | _ => Call name args
  end.

Fixpoint reparse (e : expr) : expr :=
  match e with
  | Const n => Const n
  | Ident x => Ident x
  | Select o f => Select (reparse o) f
  | List l => List (map reparse l)
  | Macro t f args => Macro (reparse t) f (map reparse args)
  | Member t f args => Member (reparse t) f (map reparse args)
  | Call f args => qualified_call f (map reparse args)
  end.

(** ** The library *)

(** NewLibrary: lib.go:15-35; the bindings in the order of CompileOptions. *)
Definition library : list binding := [
  Func "grpc.federation.url.joinPath"; Func "grpc.federation.url.pathEscape";
  Func "grpc.federation.url.pathUnescape"; Func "grpc.federation.url.queryEscape";
  Func "grpc.federation.url.queryUnescape"; Func "grpc.federation.url.parse";
  Func "grpc.federation.url.parseRequestURI"; Meth "scheme"; Meth "opaque"; Meth "userinfo"; Meth "host";
  Meth "path"; Meth "rawPath"; Meth "omitHost"; Meth "forceQuery"; Meth "rawQuery"; Meth "fragment";
  Meth "rawFragment"; Meth "escapedFragment"; Meth "escapedPath"; Meth "hostname"; Meth "isAbs"; Meth "joinPath";
  Meth "marshalBinary"; Meth "parse"; Meth "port"; Meth "query"; Meth "redacted"; Meth "requestURI";
  Meth "resolveReference"; Meth "string"; Meth "unmarshalBinary"; Func "grpc.federation.url.user";
  Func "grpc.federation.url.userPassword"; Meth "username"; Meth "password"; Meth "passwordSet"; Meth "string";
  Func "grpc.federation.strings.clone"; Func "grpc.federation.strings.compare";
  Func "grpc.federation.strings.contains"; Func "grpc.federation.strings.containsAny";
  Func "grpc.federation.strings.containsRune"; Func "grpc.federation.strings.count";
  Func "grpc.federation.strings.cut"; Func "grpc.federation.strings.cutPrefix";
  Func "grpc.federation.strings.cutSuffix"; Func "grpc.federation.strings.equalFold";
  Func "grpc.federation.strings.fields"; Func "grpc.federation.strings.hasPrefix";
  Func "grpc.federation.strings.hasSuffix"; Func "grpc.federation.strings.index";
  Func "grpc.federation.strings.indexAny"; Func "grpc.federation.strings.indexByte";
  Func "grpc.federation.strings.indexRune"; Func "grpc.federation.strings.join";
  Func "grpc.federation.strings.lastIndex"; Func "grpc.federation.strings.lastIndexAny";
  Func "grpc.federation.strings.lastIndexByte"; Func "grpc.federation.strings.repeat";
  Func "grpc.federation.strings.replace"; Func "grpc.federation.strings.replaceAll";
  Func "grpc.federation.strings.split"; Func "grpc.federation.strings.splitAfter";
  Func "grpc.federation.strings.splitAfterN"; Func "grpc.federation.strings.splitN";
  Func "grpc.federation.strings.title"; Func "grpc.federation.strings.toLower";
  Func "grpc.federation.strings.toTitle"; Func "grpc.federation.strings.toUpper";
  Func "grpc.federation.strings.toValidUTF8"; Func "grpc.federation.strings.trim";
  Func "grpc.federation.strings.trimLeft"; Func "grpc.federation.strings.trimPrefix";
  Func "grpc.federation.strings.trimRight"; Func "grpc.federation.strings.trimSpace";
  Func "grpc.federation.strings.trimSuffix"; Func "grpc.federation.strings.appendBool";
  Func "grpc.federation.strings.appendFloat"; Func "grpc.federation.strings.appendInt";
  Func "grpc.federation.strings.appendQuote"; Func "grpc.federation.strings.appendQuoteRune";
  Func "grpc.federation.strings.appendQuoteRuneToASCII"; Func "grpc.federation.strings.appendQuoteRuneToGraphic";
  Func "grpc.federation.strings.appendQuoteToASCII"; Func "grpc.federation.strings.appendQuoteToGraphic";
  Func "grpc.federation.strings.appendUint"; Func "grpc.federation.strings.atoi";
  Func "grpc.federation.strings.canBackquote"; Func "grpc.federation.strings.formatBool";
  Func "grpc.federation.strings.formatComplex"; Func "grpc.federation.strings.formatFloat";
  Func "grpc.federation.strings.formatInt"; Func "grpc.federation.strings.formatUint";
  Func "grpc.federation.strings.isGraphic"; Func "grpc.federation.strings.isPrint";
  Func "grpc.federation.strings.itoa"; Func "grpc.federation.strings.parseBool";
  Func "grpc.federation.strings.parseComplex"; Func "grpc.federation.strings.parseFloat";
  Func "grpc.federation.strings.parseInt"; Func "grpc.federation.strings.parseUint";
  Func "grpc.federation.strings.quote"; Func "grpc.federation.strings.quoteRune";
  Func "grpc.federation.strings.quoteRuneToASCII"; Func "grpc.federation.strings.quoteRuneToGraphic";
  Func "grpc.federation.strings.quoteToASCII"; Func "grpc.federation.strings.quoteToGraphic";
  Func "grpc.federation.strings.quotedPrefix"; Func "grpc.federation.strings.unquote";
  Func "grpc.federation.strings.unquoteChar"; Func "grpc.federation.math.sqrt"; Func "grpc.federation.math.pow";
  Func "grpc.federation.math.floor"; Func "grpc.federation.time.LOCAL"; Func "grpc.federation.time.UTC";
  Func "grpc.federation.time.toDuration"; Func "grpc.federation.time.parseDuration";
  Func "grpc.federation.time.since"; Func "grpc.federation.time.until"; Meth "abs"; Meth "hours";
  Meth "microseconds"; Meth "milliseconds"; Meth "minutes"; Meth "nanoseconds"; Meth "round"; Meth "seconds";
  Meth "string"; Meth "truncate"; Func "grpc.federation.time.fixedZone"; Func "grpc.federation.time.loadLocation";
  Func "grpc.federation.time.loadLocationFromTZData"; Meth "string"; Meth "asTime"; Func "grpc.federation.time.date";
  Func "grpc.federation.time.now"; Func "grpc.federation.time.parse"; Func "grpc.federation.time.parseInLocation";
  Func "grpc.federation.time.unix"; Func "grpc.federation.time.unixMicro"; Func "grpc.federation.time.unixMilli";
  Meth "add"; Meth "addDate"; Meth "after"; Meth "appendFormat"; Meth "before"; Meth "compare"; Meth "day";
  Meth "equal"; Meth "format"; Meth "hour"; Meth "withLocation"; Meth "isDST"; Meth "isZero"; Meth "local";
  Meth "location"; Meth "minute"; Meth "month"; Meth "nanosecond"; Meth "round"; Meth "second"; Meth "string";
  Meth "sub"; Meth "truncate"; Meth "utc"; Meth "unix"; Meth "unixMicro"; Meth "unixMilli"; Meth "unixNano";
  Meth "weekday"; Meth "year"; Meth "yearDay"; Func "grpc.federation.rand.newSource"; Meth "int63"; Meth "seed";
  Func "grpc.federation.rand.new"; Meth "expFloat64"; Meth "float32"; Meth "float64"; Meth "int"; Meth "int31";
  Meth "int31n"; Meth "int63"; Meth "int63n"; Meth "intn"; Meth "normFloat64"; Meth "seed"; Meth "uint32";
  Func "grpc.federation.uuid.new"; Func "grpc.federation.uuid.newRandom";
  Func "grpc.federation.uuid.newRandomFromRand"; Meth "domain"; Meth "id"; Meth "time"; Meth "urn"; Meth "string";
  Meth "version"; Func "grpc.federation.enum.select"; Func "grpc.federation.metadata.incoming";
  Func "grpc.federation.log.info"; Func "grpc.federation.log.debug"; Func "grpc.federation.log.warn";
  Func "grpc.federation.log.error"; Func "grpc.federation.log.add"
].

(** The receiver macros of the standard library of CEL, of its optional types and of list.go:42-62. *)
Definition cel_macros : list (string * nat) := [
  ("all", 2); ("exists", 2); ("exists_one", 2); ("map", 2); ("map", 3); ("filter", 2); ("optMap", 2); ("optFlatMap", 2);
  ("reduce", 4); ("first", 2); ("sortAsc", 2); ("sortDesc", 2); ("sortStableAsc", 2); ("sortStableDesc", 2)
].

(** The methods of the standard library of CEL, of its extension for strings, of its optional
    types and of list.go:88. *)
Definition cel_methods : list string := [
  "contains"; "endsWith"; "startsWith"; "matches"; "size"; "getDate"; "getDayOfMonth"; "getDayOfWeek"; "getDayOfYear";
  "getFullYear"; "getHours"; "getMilliseconds"; "getMinutes"; "getMonth"; "getSeconds";
  "charAt"; "indexOf"; "lastIndexOf"; "lowerAscii"; "upperAscii"; "replace"; "split"; "substring"; "trim"; "format";
  "join"; "reverse"; "hasValue"; "value"; "or"; "orValue"; "flatten"
].

(** The environment of an expression: cel.go:262-276 and resolver.go:4504-4524, with the
    bindings of plugins after those of the library, and the functions of enums among
    [functions]. *)
Definition service_env (plugins : list binding) (functions : list string) (container : list string) : env :=
  {| bindings := (library ++ plugins)%list; fixed := cel_macros; functions := functions; methods := cel_methods;
     container := container |}.

(** The environment in which the generator checks an expression: CELPlugin.CompileOptions,
    resolver/cel.go:279-296, and createCELEnv, resolver/resolver.go:4504-4524.  The functions
    and methods of plugins are declared without the macros and without the context. *)
Definition resolver_env (plugins : list binding) (functions : list string) (container : list string) : env :=
  {| bindings := library; fixed := cel_macros; functions := (functions ++ bound_functions plugins)%list;
     methods := (cel_methods ++ bound_methods plugins)%list; container := container |}.
