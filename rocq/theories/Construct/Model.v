(** * Creating and cleaning up a service

    Model of the generated New...() and Cleanup...() functions,
    generator/templates/server.go.tmpl:233-407, and of NewCELPlugin,
    grpc/federation/cel/plugin.go:62-93.

    Simplifications.  Clients, resolvers, modules and errors from outside are opaque
    values.  The CEL environment, the tracer and the logger are left out: nothing
    below can fail on them.  Whether an instance answers ValidatePlugin well is an
    oracle here; C47 says what it checks. *)

From Coq Require Import String List Bool.
Import ListNotations.

Section Construct.
(** Clients, custom resolvers, file contents, compiled modules, errors. *)
Variables client resolver content module error : Type.

(** What is generated for a service: the methods of the client factory with the
    service names they are given (server.go.tmpl:252-259), whether there are custom
    resolvers, its plugins, environment and service variables. *)
Record decl := {
  d_clients : list (string * string);
  d_customs : bool;
  d_plugins : list string;
  d_env : bool;
  d_vars : bool
}.

(** CELPluginWasmConfig: a reader and the expected SHA-256. *)
Record wasm := { w_reader : option nat; w_sha : string }.

(** The generated configuration: server.go.tmpl:23-85. *)
Record config := {
  c_client : option (string -> string -> client + error);
  c_resolver : option resolver;
  c_plugin : option (string -> wasm);
  c_handler : option (string -> error -> option error)
}.

(** Errors of New. *)
Inductive failure :=
| ErrClientConfig | ErrResolverConfig | ErrCELPluginConfig     (* error.go:136-138 *)
| ReaderRequired
| ContentMismatch (got : string)
| External (e : error)
| NilDereference.                    (* a crash, not an error *)

(** What the outside world sees. *)
Inductive event :=
| CreateClient (name svc : string)
| Start (plugin : string)            (* CreateInstance: a running module *)
| Validate (plugin : string)
| LoadEnv
| InitVariables
| Close (plugin : string).

(** An instance: plugin name and module. *)
Definition instance : Type := (string * module)%type.

Record service := {
  s_clients : list (string * client);
  s_resolver : option resolver;
  s_plugins : list instance;
  s_handler : string -> error -> option error;
  s_config : config
}.

(** What readers still hold; an error once read, or nothing. *)
Inductive stream := Holds (b : content) | Broken (e : error).
Definition readers := nat -> stream.

(** io.ReadAll consumes what it reads. *)
Variable empty : content.
Definition read_all (r : nat) (w : readers) : (content + error) * readers :=
  match w r with
  | Holds b => (inl b, fun r' => if Nat.eqb r' r then Holds empty else w r')
  | Broken e => (inr e, w)
  end.

(** crypto/sha256 with encoding/hex; wazero's compiler; what ValidatePlugin says
    of a module; envconfig; evaluation of the service variables. *)
Variable sha : content -> string.
Variable compile : content -> module + error.
Variable validate : string -> module -> option error.
Variable env : option error.
Variable variables : service -> option error.

(** NewCELPlugin: plugin.go:62-93. *)
Definition new_plugin (cfg : wasm) (w : readers) : (module + failure) * readers :=
  match w_reader cfg with
  | None => (inr ReaderRequired, w)
  | Some r =>
      match read_all r w with
      | (inr e, w') => (inr (External e), w')
      | (inl b, w') =>
          if String.eqb (w_sha cfg) (sha b) then
            match compile b with
            | inl m => (inl m, w')
            | inr e => (inr (External e), w')
            end
          else (inr (ContentMismatch (sha b)), w')
      end
  end.

(** server.go.tmpl:252-259. *)
Fixpoint make_clients (factory : option (string -> string -> client + error))
  (l : list (string * string)) : list event * (list (string * client) + failure) :=
  match l with
  | [] => ([], inl [])
  | (name, svc) :: r =>
      match factory with
      | None => ([], inr NilDereference)
      | Some f =>
          match f name svc with
          | inr e => ([CreateClient name svc], inr (External e))
          | inl c =>
              match make_clients factory r with
              | (t, inl cs) => (CreateClient name svc :: t, inl ((name, c) :: cs))
              | (t, inr e) => (CreateClient name svc :: t, inr e)
              end
          end
      end
  end.

(** server.go.tmpl:319-356.  On an error the instances made so far are left. *)
Fixpoint make_plugins (cfg : option (string -> wasm)) (l : list string) (w : readers)
  : list event * (list instance + failure) * readers :=
  match l with
  | [] => ([], inl [], w)
  | p :: r =>
      match (match cfg with
             | None => (inr NilDereference, w)
             | Some f => new_plugin (f p) w
             end) with
      | (inr e, w') => ([], inr e, w')
      | (inl m, w') =>
          match validate p m with
          | Some e => ([Start p; Validate p], inr (External e), w')
          | None =>
              match make_plugins cfg r w' with
              | (t, inl is, w'') => (Start p :: Validate p :: t, inl ((p, m) :: is), w'')
              | (t, inr e, w'') => (Start p :: Validate p :: t, inr e, w'')
              end
          end
      end
  end.

Definition some {A : Type} (l : list A) : bool := match l with [] => false | _ => true end.
Definition none {A : Type} (o : option A) : bool := match o with None => true | _ => false end.

(** New: server.go.tmpl:233-395.  The configuration, logger and error handler have
    defaults; the checks are generated only where there is something to check. *)
Definition new (d : decl) (cfg : config) (w : readers)
  : list event * (service + failure) * readers :=
  if some (d_clients d) && none (c_client cfg) then ([], inr ErrClientConfig, w) else
  if d_customs d && none (c_resolver cfg) then ([], inr ErrResolverConfig, w) else
  if some (d_plugins d) && none (c_plugin cfg) then ([], inr ErrCELPluginConfig, w) else
  match make_clients (c_client cfg) (d_clients d) with
  | (t1, inr e) => (t1, inr e, w)
  | (t1, inl cs) =>
      match make_plugins (c_plugin cfg) (d_plugins d) w with
      | (t2, inr e, w') => (t1 ++ t2, inr e, w')
      | (t2, inl is, w') =>
          let t3 := if d_env d then [LoadEnv] else [] in
          match (if d_env d then env else None) with
          | Some e => (t1 ++ t2 ++ t3, inr (External e), w')
          | None =>
              let svc :=
                {| s_clients := cs;
                   s_resolver := if d_customs d then c_resolver cfg else None;
                   s_plugins := is;
                   s_handler := match c_handler cfg with
                                | Some h => h
                                | None => fun _ e => Some e
                                end;
                   s_config := cfg |} in
              let t4 := if d_vars d then [InitVariables] else [] in
              match (if d_vars d then variables svc else None) with
              | Some e => (t1 ++ t2 ++ t3 ++ t4, inr (External e), w')
              | None => (t1 ++ t2 ++ t3 ++ t4, inl svc, w')
              end
          end
      end
  end.

(** cleanup: server.go.tmpl:403-407. *)
Definition cleanup (svc : service) : list event :=
  map (fun i => Close (fst i)) (s_plugins svc).

End Construct.

Arguments Holds {content error} b.
Arguments Broken {content error} e.
Arguments ErrClientConfig {error}.
Arguments ErrResolverConfig {error}.
Arguments ErrCELPluginConfig {error}.
Arguments ReaderRequired {error}.
Arguments ContentMismatch {error} got.
Arguments External {error} e.
Arguments NilDereference {error}.
Arguments c_client {client resolver error} _.
Arguments c_resolver {client resolver error} _.
Arguments c_plugin {client resolver error} _.
Arguments c_handler {client resolver error} _.
Arguments s_clients {client resolver module error} _.
Arguments s_resolver {client resolver module error} _.
Arguments s_plugins {client resolver module error} _.
Arguments s_handler {client resolver module error} _.
Arguments s_config {client resolver module error} _.
Arguments cleanup {client resolver module error} svc.
Arguments new {client resolver content module error} empty sha compile validate env variables d cfg w.
