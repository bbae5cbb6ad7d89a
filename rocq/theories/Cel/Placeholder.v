(** The placeholder of the message argument.
    Models grpc/federation/cel.go:779, resolver/resolver.go:686, 4429-4432 and grpc/federation/const.go. *)
From Coq Require Import String Ascii List Bool.
Import ListNotations.
Local Open Scope string_scope.

(** const.go:9 *)
Definition arg_name : string := "__ARG__".

(** strings.Replace(expr, "$", MessageArgumentVariableName, -1) *)
Fixpoint replace_dollar (s : string) : string :=
  match s with
  | EmptyString => EmptyString
  | String c s' => if Ascii.eqb c "$" then arg_name ++ replace_dollar s' else String c (replace_dollar s')
  end.

(** strings.Contains(expr, "__ARG__") *)
Fixpoint contains (sub s : string) : bool :=
  String.prefix sub s || match s with EmptyString => false | String _ s' => contains sub s' end.

(** resolver.go:4429-4432 *)
Definition resolve_text (s : string) : option string := if contains arg_name s then None else Some (replace_dollar s).
