(** The functions of expressions that write to the log.
    Models: grpc/federation/cel/log.go:39-92 (the functions and their overloads), 102-120 (debug, info, warn, error), 122-140 (log),
    142-162 (expandVal), 164-176 (add); grpc/federation/log/context.go:23-33 (Logger), 61-71 (AddAttrs).
    Simplified: values that are neither maps nor lists are numbers and are logged as they are; the entries of a map are listed in the order
    in which this run visits them; the logger writes every level; one context (the references to loggers are the subject of Log). *)
From Coq Require Import String List Bool ZArith Decimal DecimalString.
Import ListNotations.
Local Open Scope string_scope.

(** The keys a map of CEL can have. *)
Inductive key := KBool (b : bool) | KInt (z : Z) | KUint (n : N) | KString (s : string).
Inductive value := VScalar (x : nat) | VList (l : list value) | VMap (m : list (key * value)).
(** any: what is handed to slog; a nil slice is null *)
Inductive out := OScalar (x : nat) | ONull | OList (l : list out) | OMap (m : list (string * out)).

(** fmt.Sprint(k.Value()) *)
Definition text (k : key) : string :=
  match k with
  | KBool true => "true"
  | KBool false => "false"
  | KInt z => NilEmpty.string_of_int (Z.to_int z)
  | KUint n => NilEmpty.string_of_uint (N.to_uint n)
  | KString s => s
  end.

(** o[s] = v *)
Definition put (s : string) (v : out) (m : list (string * out)) : list (string * out) := (s, v) :: filter (fun e => negb (fst e =? s)) m.
(** append to a slice that is nil at first: log.go:154-159 *)
Definition append_all (l : list out) : out := match l with [] => ONull | _ => OList l end.

(** log.go:142-162 *)
Fixpoint expand (v : value) : out :=
  match v with
  | VMap m => OMap (fold_left (fun o e => match e with (k, w) => put (text k) (expand w) o end) m [])
  | VList l => append_all (map expand l)
  | VScalar x => OScalar x
  end.

(** log.go:128-134, 167-172 *)
Definition attributes (m : list (key * value)) : list (string * out) := map (fun e => (text (fst e), expand (snd e))) m.

Inductive level := Debug | Info | Warn | Error.
Inductive func := FDebug | FInfo | FWarn | FError.
(** log.go:102-120 *)
Definition level_of (f : func) : level := match f with FDebug => Debug | FInfo => Info | FWarn => Warn | FError => Error end.
Record entry := { e_level : level; e_message : string; e_attrs : list (string * out) }.
Inductive call := Log (f : func) (msg : string) (args : option (list (key * value))) | Add (args : list (key * value)).

(** log.go:122-140, 164-176, with log/context.go:23-33, 61-71: the attributes of the context, what is written, and the value of the call *)
Definition step (attrs : list (string * out)) (c : call) : list (string * out) * list entry * bool :=
  match c with
  | Log f msg None => (attrs, [{| e_level := level_of f; e_message := msg; e_attrs := attrs |}], true)
  | Log f msg (Some m) => (attrs, [{| e_level := level_of f; e_message := msg; e_attrs := (attrs ++ attributes m)%list |}], true)
  | Add m => ((attrs ++ attributes m)%list, [], true)
  end.
Fixpoint run (attrs : list (string * out)) (cs : list call) : list (string * out) * list entry * list bool :=
  match cs with
  | [] => (attrs, [], [])
  | c :: cs =>
      let '(attrs, w, r) := step attrs c in
      let '(attrs, ws, rs) := run attrs cs in
      (attrs, (w ++ ws)%list, r :: rs)
  end.
