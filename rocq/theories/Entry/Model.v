(** A method of the generated server: its rule, the arguments it hands to its response message, and its body.
    Models: resolver/resolver.go:768-780 (validateMethodResponse), 1297-1301 (resolveMethodRules), 2304-2363 (resolveMethodRule), 3602-3627
    (the part of resolveMessageArgument for the response of a method), 5153-5160 (lookupRequestMessageFromResponseMessage);
    resolver/method.go:3-8 (FederationResponse); generator/code_generator.go:1653-1707 (UseTimeout, CustomResponse, ResolverName, ArgumentName,
    ReturnType, ReturnTypeArguments); generator/templates/server.go.tmpl:457-533 (the body of a method).
    Simplified: messages are numbers; the names of fields are those of the generated structs; the arguments of a message that other messages
    use are given (they are the subject of Args); tracing, the recovery from panics, the context and the plugins are left out; the Go compiler
    checks the fields of the argument's literal and the type of what is returned. *)
From Coq Require Import String List Bool ZArith.
From Verif.Args Require Import Model.
Import ListNotations.
Local Open Scope string_scope.

(** federation.MethodRule: timeout and response, "" when they are not given; resolver.MethodRule *)
Record rule_def := { d_timeout : string; d_response : string }.
Record rule := { r_timeout : option Z; r_response : option nat }.
(** resolver.Method *)
Record method := { request : nat; response : nat; m_rule : option rule }.
Inductive rule_error := BadTimeout | UnknownResponse | MissingFields (names : list string).

Section Rule.
  (** time.ParseDuration; resolveMessageByName; the fields of a message *)
  Variable parse_duration : string -> option Z.
  Variable by_name : string -> option nat.
  Variable F : nat -> list field.

  (** Message.Field: message.go:384-395 *)
  Definition field_of (fs : list field) (n : string) : option type := option_map snd (find (fun f => fst f =? n) fs).
  (** resolver.go:2336-2347 *)
  Definition lacking (alias org : list field) : list string :=
    map fst (filter (fun f => match field_of alias (fst f) with None => true | Some t => is_different t (snd f) end) org).
  (** resolver.go:2304-2363 *)
  Definition resolve_rule (res : nat) (def : option rule_def) : option rule * list rule_error :=
    match def with
    | None => (None, [])
    | Some d =>
        let '(t, e1) := if d_timeout d =? "" then (None, [])
                        else match parse_duration (d_timeout d) with Some z => (Some z, []) | None => (None, [BadTimeout]) end in
        let '(r, e2) := if d_response d =? "" then (None, [])
                        else match by_name (d_response d) with
                             | None => (None, [UnknownResponse])
                             | Some m => (Some m, match lacking (F m) (F res) with [] => [] | l => [MissingFields l] end)
                             end in
        (Some {| r_timeout := t; r_response := r |}, (e1 ++ e2)%list)
    end.
End Rule.

(** method.go:3-8 *)
Definition federation_response (m : method) : nat :=
  match m_rule m with Some {| r_response := Some r |} => r | _ => response m end.
Definition timeout (m : method) : option Z := match m_rule m with Some r => r_timeout r | None => None end.
Definition custom (m : method) : option nat := match m_rule m with Some r => r_response r | None => None end.

(** the types of the fields of generated structs *)
Definition kind_same (a b : kind) : bool :=
  match a, b with
  | KMessage x, KMessage y => Nat.eqb x y
  | KEnum, KEnum => true
  | KNumber x, KNumber y => Nat.eqb x y
  | KBytes, KBytes => true
  | KOther x, KOther y => Nat.eqb x y
  | _, _ => false
  end.
Definition type_same (a b : type) : bool := kind_same (ty_kind a) (ty_kind b) && Bool.eqb (ty_repeated a) (ty_repeated b).
Definition assignable (args : list field) (f : field) : bool := existsb (fun a => (fst a =? fst f) && type_same (snd a) (snd f)) args.

Section Server.
  Variable F : nat -> list field.
  (** whether a message has a rule; the fields of the argument of a message that other messages use *)
  Variable has_rule : nat -> bool.
  Variable inner : nat -> option (list field).

  (** resolver.go:768-780 *)
  Definition valid_responses (ms : list method) : bool := forallb (fun m => has_rule (federation_response m)) ms.

  (** resolver.go:5153-5160; [order] is the order in which the map of methods is visited *)
  Definition lookup_request (order : list method) (res : nat) : option nat :=
    option_map request (find (fun m => Nat.eqb (federation_response m) res) order).
  (** resolver.go:3602-3627: the fields of the argument *)
  Definition arg_fields (order : list method) (res : nat) : list field :=
    match inner res with
    | Some fs => fs
    | None => match lookup_request order res with Some q => F q | None => [] end
    end.
  (** whether the Go compiler accepts the method: server.go.tmpl:486-530 *)
  Definition returned (m : method) : nat :=
    match timeout m with
    | Some _ => federation_response m
    | None => response m
    end.
  Definition compiles (order : list method) (m : method) : bool :=
    forallb (assignable (arg_fields order (federation_response m))) (F (request m)) && Nat.eqb (returned m) (response m).

  Section Run.
    Variables V R E : Type.
    Variable zero : type -> V.
    (** the resolver of a message; the cast between two messages; WithTimeout *)
    Variable resolve : nat -> list (string * V) -> R + E.
    Variable cast : nat -> nat -> R -> R + E.
    Variable timed : Z -> (R + E) -> R + E.
    Inductive event := Span (e : E) | Log (e : E).

    (** the struct literal: server.go.tmpl:488-492, 501-505, 519-523 *)
    Definition literal (order : list method) (m : method) (req : string -> V) : list (string * V) :=
      map (fun a => (fst a, if existsb (fun f => fst f =? fst a) (F (request m)) then req (fst a) else zero (snd a)))
          (arg_fields order (federation_response m)).
    Definition finish (r : R + E) : (R + E) * list event :=
      match r with inr e => (inr e, [Span e; Log e]) | inl v => (inl v, []) end.
    (** server.go.tmpl:486-530 *)
    Definition serve (order : list method) (m : method) (req : string -> V) : (R + E) * list event :=
      let args := literal order m req in
      match timeout m with
      | Some d => finish (timed d (resolve (federation_response m) args))
      | None =>
          match custom m with
          | Some c => match resolve (federation_response m) args with
                      | inr e => finish (inr e)
                      | inl v => finish (cast c (response m) v)
                      end
          | None => finish (resolve (federation_response m) args)
          end
      end.
  End Run.
End Server.
