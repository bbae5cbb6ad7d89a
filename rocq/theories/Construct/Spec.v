(** * What creating a service should do *)

From Coq Require Import String List Bool.
From Verif.Construct Require Import Model.
Import ListNotations.

(** The configuration has every part the service asks for. *)
Definition complete {client resolver error} (d : decl) (cfg : config client resolver error)
  : Prop :=
  (d_clients d <> [] -> c_client cfg <> None) /\
  (d_customs d = true -> c_resolver cfg <> None) /\
  (d_plugins d <> [] -> c_plugin cfg <> None).

(** A plugin's file can be read, has the expected digest, compiles, and its module is
    valid. *)
Definition usable {content module error} (sha : content -> string)
  (compile : content -> module + error) (validate : string -> module -> option error)
  (w : readers content error) (p : string) (x : wasm) (m : module) : Prop :=
  exists r b, w_reader x = Some r /\ w r = Holds b /\ w_sha x = sha b /\
    compile b = inl m /\ validate p m = None.

(** Every plugin has a reader of its own. *)
Definition own_readers (d : decl) (f : string -> wasm) : Prop :=
  forall i j p q r,
    nth_error (d_plugins d) i = Some p -> nth_error (d_plugins d) j = Some q ->
    w_reader (f p) = Some r -> w_reader (f q) = Some r -> i = j.

(** Plugins started in a trace, and closed. *)
Definition started (t : list event) : list string :=
  flat_map (fun e => match e with Start p => [p] | _ => [] end) t.
Definition closed (t : list event) : list string :=
  flat_map (fun e => match e with Close p => [p] | _ => [] end) t.
