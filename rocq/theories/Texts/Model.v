(** * Texts of the proto files in the generated code

    Models the places where the templates write expressions, names and other texts of the options into Go code: raw literals and comments of
    declDef, generator/templates/eval.go.tmpl:1-115; setCELArgument, eval.go.tmpl:247-285; setReturnValueByCEL, server.go.tmpl:766-781; the details of
    errors, error_handler.go.tmpl:261-303; attributes of enums, server.go.tmpl:32-42; the formatting of the comments, resolver/format.go:9-440, with
    ProtoComment, generator/code_generator.go:2531-2534, 3180-3186, 3451-3458.

    Simplifications. The fixed text of the templates is shortened to what stands around the texts; it holds no quotes and no slashes. Texts are bytes. *)

From Coq Require Import Ascii String List Bool Arith.
Import ListNotations.
Local Open Scope string_scope.

Definition newline : ascii := "010"%char.
Definition return_ : ascii := "013"%char.
Definition backtick : ascii := "`"%char.
Definition dquote : ascii := "034"%char.
Definition backslash : ascii := "\"%char.
Definition nl : string := String newline "".

(** ** Formatting options as text: resolver/format.go *)

(** %q, strconv.Quote: characters of more than one byte stay as they are here. *)
Definition hex (n : nat) : string :=
  match nth_error (list_ascii_of_string "0123456789abcdef") n with Some c => String c "" | None => "" end.
Definition quote_char (c : ascii) : string :=
  if Ascii.eqb c dquote then "\""" else if Ascii.eqb c backslash then "\\"
  else if Ascii.eqb c "007" then "\a" else if Ascii.eqb c "008" then "\b" else if Ascii.eqb c "012" then "\f"
  else if Ascii.eqb c newline then "\n" else if Ascii.eqb c return_ then "\r" else if Ascii.eqb c "009" then "\t" else if Ascii.eqb c "011" then "\v"
  else if Nat.ltb (nat_of_ascii c) 32 || Nat.eqb (nat_of_ascii c) 127 then "\x" ++ hex (nat_of_ascii c / 16) ++ hex (nat_of_ascii c mod 16)
  else String c "".
Fixpoint quote_chars (s : string) : string := match s with EmptyString => "" | String c r => quote_char c ++ quote_chars r end.
Definition quote (s : string) : string := """" ++ quote_chars s ++ """".

(** indentFormat with an empty prefix: format.go:9-22. *)
Fixpoint indent (level : nat) : string := match level with O => "" | S n => "  " ++ indent n end.

(** Argument, Value: format.go:405-440. *)
Record arg := { g_name : string; g_inline : bool; g_value : string; g_if : option string }.
Definition value_format (inline : bool) (e : string) : string := if inline then "inline: " ++ quote e else "by: " ++ quote e.
Definition arg_format (a : arg) (is_request : bool) : string :=
  let elems := ((if String.eqb (g_name a) "" then [] else [((if is_request then "field: " else "name: ") ++ quote (g_name a))%string]) ++
                [value_format (g_inline a) (g_value a)] ++
                match g_if a with Some e => [("if: " ++ quote e)%string] | None => [] end)%list in
  "{ " ++ String.concat ", " elems ++ " }".
(** protoFormatMessageArgs and Request.ProtoFormat: format.go:231-254, 284-312. *)
Definition args_format (level : nat) (key : string) (is_request : bool) (args : list arg) : list string :=
  match args with
  | [] => []
  | [a] => [indent level ++ key ++ " " ++ arg_format a is_request]
  | _ => [indent level ++ key ++ ": [" ++ nl ++ String.concat ("," ++ nl) (map (fun a => indent (S level) ++ arg_format a is_request) args) ++ nl ++ indent level ++ "]"]
  end.

Definition block (level : nat) (key : string) (elems : list string) : string :=
  indent level ++ key ++ " {" ++ nl ++ String.concat nl elems ++ nl ++ indent level ++ "}".
Definition line (level : nat) (key : string) (text : string) : string := indent level ++ key ++ ": " ++ quote text.
Definition lines (level : nat) (key : string) (text : option string) : list string := match text with Some t => [line level key t] | None => [] end.
Definition named (level : nat) (name : string) : list string := if String.eqb name "" then [] else [line level "name" name].

(** GRPCErrorDetail, GRPCErrorDetails, GRPCError: format.go:332-403. Of messages and details only the number is shown. *)
Record detail := { t_if : string; t_messages : nat; t_preconditions : nat; t_bad_requests : nat; t_localized : nat }.
Definition detail_list (level : nat) (key : string) (n : nat) : list string :=
  match n with
  | O => []
  | 1 => [indent level ++ key ++ " {...}"]
  | _ => [indent level ++ key ++ ": [" ++ nl ++ String.concat ("," ++ nl) (repeat (indent (S level) ++ "{...}") n) ++ nl ++ indent level ++ "]"]
  end.
Definition detail_format (level : nat) (d : detail) : string :=
  String.concat nl ([line (S level) "if" (t_if d)] ++ detail_list (S level) "message" (t_messages d) ++ detail_list (S level) "precondition_failure" (t_preconditions d) ++
             detail_list (S level) "bad_request" (t_bad_requests d) ++ detail_list (S level) "localized_message" (t_localized d))%list.
Definition details_format (level : nat) (ds : list detail) : list string :=
  match ds with
  | [] => []
  | [d] => [block level "details" [detail_format level d]]
  | _ => [indent level ++ "details: [" ++ nl ++
          String.concat ("," ++ nl) (map (fun d => indent (S level) ++ "{" ++ nl ++ detail_format (S level) d ++ nl ++ indent (S level) ++ "}") ds) ++ nl ++ indent level ++ "]"]
  end.
Inductive code := Unknown | InvalidArgument | DeadlineExceeded | NotFound | AlreadyExists | PermissionDenied | ResourceExhausted | FailedPrecondition | Aborted | OutOfRange
                | Unimplemented | Internal | Unavailable | DataLoss | Unauthenticated | Cancelled | NoCode.
Definition code_name (c : code) : string :=
  match c with
  | Unknown => "UNKNOWN" | InvalidArgument => "INVALID_ARGUMENT" | DeadlineExceeded => "DEADLINE_EXCEEDED" | NotFound => "NOT_FOUND" | AlreadyExists => "ALREADY_EXISTS"
  | PermissionDenied => "PERMISSION_DENIED" | ResourceExhausted => "RESOURCE_EXHAUSTED" | FailedPrecondition => "FAILED_PRECONDITION" | Aborted => "ABORTED"
  | OutOfRange => "OUT_OF_RANGE" | Unimplemented => "UNIMPLEMENTED" | Internal => "INTERNAL" | Unavailable => "UNAVAILABLE" | DataLoss => "DATA_LOSS"
  | Unauthenticated => "UNAUTHENTICATED" | Cancelled => "CANCELLED" | NoCode => "<nil>"
  end.
Record error := { e_code : code; e_if : option string; e_message : option string; e_details : list detail }.
Definition error_format (level : nat) (e : error) : string :=
  block level "error" ([(indent (S level) ++ "code: " ++ code_name (e_code e))%string] ++ lines (S level) "if" (e_if e) ++ lines (S level) "message" (e_message e) ++
                       details_format (S level) (e_details e))%list.

(** VariableExpr and VariableDefinition: format.go:98-330. *)
Inductive each := EachBy (e : string) | EachMessage (name : string) (args : list arg) | EachEnum (e : string).
Inductive expr :=
| By (e : string)
| Call (method : string) (args : list arg)
| Message (name : string) (args : list arg)
| Enum (name by_ : string)
| Map (iterator source : string) (e : each)
| Validation (name : string) (e : error).
Definition message_format (level : nat) (name : string) (args : list arg) : string :=
  block level "message" (line (S level) "name" name :: args_format (S level) "args" false args).
Definition expr_format (level : nat) (e : expr) : string :=
  match e with
  | By e => line level "by" e
  | Call m args => block level "call" (line (S level) "method" m :: args_format (S level) "request" true args)
  | Message n args => message_format level n args
  | Enum n e => block level "enum" [line (S level) "name" n; line (S level) "by" e]
  | Map i s e =>
      block level "map" (block (S level) "iterator" [line (S (S level)) "name" i; line (S (S level)) "src" s] ::
                         match e with EachBy e => [line (S level) "by" e] | EachMessage n args => [message_format (S level) n args] | EachEnum _ => [] end)
  | Validation n e => block level "validation" (named (S level) n ++ [error_format (S level) e])%list
  end.
Record def := { d_name : string; d_if : option string; d_autobind : bool; d_expr : expr }.
Definition def_format (d : def) : string :=
  block 0 "def" (named 1 (d_name d) ++ lines 1 "if" (d_if d) ++ (if d_autobind d then [(indent 1 ++ "autobind: true")%string] else []) ++ [expr_format 1 (d_expr d)])%list.

(** ** The templates *)

(** Fixed text; `…`; "…"; a comment over lines; a comment to the end of the line. *)
Inductive piece := Code (s : string) | Raw (s : string) | Quoted (s : string) | Block (s : string) | Line (s : string).
Definition render1 (p : piece) : string :=
  match p with
  | Code s => s
  | Raw s => "`" ++ s ++ "`"
  | Quoted s => """" ++ s ++ """"
  | Block s => "/*" ++ nl ++ s ++ nl ++ "*/"
  | Line s => "//" ++ s ++ nl
  end.
Definition render (ps : list piece) : string := String.concat "" (map render1 ps).

(** What is generated: definitions, arguments of calls and messages, fields bound by an expression, details of errors, attributes of enum values. *)
Inductive item :=
| Definition_ (d : def)
| Argument (a : arg) (is_request : bool)
| Field (inline : bool) (e : string)
| Precondition (type subject desc : string)
| BadRequest (field desc : string)
| Localized (locale message : string)
| Attribute (name value : string).

Definition pieces (i : item) : list piece :=
  match i with
  | Definition_ d =>
      [Block (def_format d); Code "def := func(ctx context.Context) error { return grpcfed.EvalDef(ctx, value, grpcfed.Def{"] ++
      match d_if d with Some e => [Code "If: "; Raw e; Code ","] | None => [] end ++
      [Code "Name: "; Raw (d_name d); Code ","] ++
      match d_expr d with
      | By e => [Code "By: "; Raw e; Code ","]
      | Enum _ e => [Code "Expr: "; Raw e; Code ","]
      | Map i _ e => [Code "IteratorName: "; Raw i; Code ","] ++ match e with EachBy e | EachEnum e => [Code "Expr: "; Raw e; Code ","] | EachMessage _ _ => [] end
      | Validation _ e => match e_if e with Some c => [Code "Expr: "; Raw c; Code ","] | None => [] end ++ match e_message e with Some m => [Code "Expr: "; Raw m; Code ","] | None => [] end
      | _ => []
      end ++
      [Code "})}"]
  | Argument a is_request =>
      [Line (" " ++ arg_format a is_request)%string] ++
      match g_if a with
      | Some e => [Code "if err := grpcfed.If(ctx, &grpcfed.IfParam{ Expr: "; Raw e; Code ", Body: "; Code "Expr: "; Raw (g_value a); Code "})"]
      | None => [Code "if err := grpcfed.SetCELValue(ctx, &grpcfed.SetCELValueParam{ Expr: "; Raw (g_value a); Code "})"]
      end
  | Field inline e =>
      (* FieldRule.ProtoFormat: format.go:37-55, the first ":" becomes " =" *)
      [Line (" (grpc.federation.field)." ++ (if inline then "inline = " else "by = ") ++ quote e)%string;
       Code "if err := grpcfed.SetCELValue(ctx, &grpcfed.SetCELValueParam{ Expr: "; Raw e; Code "})"]
  | Precondition t s d => [Code "{ Type: "; Raw t; Code ", Subject: "; Raw s; Code ", Desc: "; Raw d; Code "},"]
  | BadRequest f d => [Code "{ Field: "; Raw f; Code ", Desc: "; Raw d; Code "},"]
  | Localized l m => [Code "{ Locale: "; Quoted l; Code ", Message: "; Raw m; Code "},"]
  | Attribute n v => [Raw n; Code ": "; Raw v; Code ","]
  end%list.

(** The generated file. *)
Definition generate (l : list item) : string := render (flat_map pieces l).
