(** Evaluation of one variable definition.
    Models grpc/federation/cel.go:482-690 (Def, DefMap, EvalDef, IgnoreAndResponse, evalDef, evalDefMap,
    evalMap, If) and the LocalValue setters cel.go:421-433. Locking is not modelled here: each
    function is taken as one atomic step (area Exec models the scheduling of definitions). *)
From Coq Require Import String List Arith Bool.
From Verif.Base Require Import Result Slice.
Import ListNotations.

Section Def.
  Variable V : Type.        (* Go values held by variables *)
  Variable E : Type.        (* Go errors *)
  Variable CT : Type.       (* *cel.Type *)
  Variable W : Type.        (* everything outside the LocalValue: the struct fields written by Setter,
                               other goroutines, dependencies *)
  Variable zero : V.        (* var v T *)
  Variable of_list : list V -> V.
  Variable room : nat.      (* spare capacity chosen by append *)

  Definition decl : Type := (string * CT)%type.       (* cel.Variable(name, typ) *)

  (** cel.go:321-327 LocalValue (without the single-flight part). *)
  Record lvalue := { opts : slice; vals : string -> option V }.

  Record state := { hp : heap decl; lv : lvalue; world : W }.

  (** evalValues[name] = value *)
  Definition set_val (m : string -> option V) (name : string) (v : V) : string -> option V :=
    fun k => if String.eqb k name then Some v else m k.

  (** The condition and the body run arbitrary CEL and arbitrary generated code. A body returns
      (any, error) where the value may be nil. *)
  Record def := {
    d_name : string;
    d_type : CT;
    d_if : option (state -> result bool E * state);
    d_body : state -> (option V * option E) * state;
    d_setter : V -> W -> option E * W
  }.

  (** cel.go:568-573 / 637-642: lock, Setter, setEnvOptValue (cel.go:429-434), setEvalValue, unlock *)
  Definition assign (d : def) (v : V) (st : state) : option E * state :=
    let '(serr, w) := d_setter d v (world st) in
    let '(h, s) := append room (hp st) (opts (lv st)) [Some (d_name d, d_type d)] in
    (serr, {| hp := h; lv := {| opts := s; vals := set_val (vals (lv st)) (d_name d) v |}; world := w |}).

  (** cel.go:519-581 evalDef. The returned list is empty for nil, has one element for that error, more
      for errors.Join. *)
  Definition eval_def (d : def) (st : state) : list E * state :=
    let run (cond : bool) (st : state) :=
      let '(v, errs, st) :=
        if cond then
          let '((ret, runErr), st) := d_body d st in
          (match ret with Some v => v | None => zero end,
           match runErr with Some e => [e] | None => [] end, st)
        else (zero, [], st) in
      let '(serr, st) := assign d v st in
      (errs ++ match serr with Some e => [e] | None => [] end, st) in
    match d_if d with
    | None => run true st
    | Some c =>
        match c st with
        | (Err e, st) => ([e], st)
        | (Ok b, st) => run b st
        end
    end.

  (** Body of a map definition. [m_source] is IteratorSource; [m_iter] is Iterator: it sees the
      iterator's CEL environment, its values and the world. Copying the Go map of values is
      modelled by the (immutable) function. *)
  Record mapping := {
    m_name : string;
    m_type : CT;
    m_source : lvalue -> W -> list V;
    m_iter : list (option decl) -> (string -> option V) -> W -> result V E * W
  }.

  (** cel.go:673-684: the loop. [base] is envOpts taken at the start, iterValue.envOpts is rebuilt
      for each element. *)
  Fixpoint map_loop (m : mapping) (base : slice) (ms : string -> option V) (src : list V)
    (h : heap decl) (w : W) (acc : list V) : result (list V) E * (heap decl * W) :=
    match src with
    | [] => (Ok acc, (h, w))
    | x :: src' =>
        let '(h1, s1) := append room h (empty_slice h) (view h base) in
        let '(h2, s2) := append room h1 s1 [Some (m_name m, m_type m)] in
        let ms' := set_val ms (m_name m) x in
        match m_iter m (view h2 s2) ms' w with
        | (Err e, w') => (Err e, (h2, w'))
        | (Ok v, w') => map_loop m base ms' src' h2 w' (acc ++ [v])
        end
    end.

  (** cel.go:652-686 evalMap *)
  Definition eval_map (m : mapping) (st : state) : result (list V) E * state :=
    let src := m_source m (lv st) (world st) in
    let '(r, (h, w)) := map_loop m (opts (lv st)) (vals (lv st)) src (hp st) (world st) [] in
    (r, {| hp := h; lv := lv st; world := w |}).

  (** cel.go:592-650 evalDefMap: the text of evalDef with evalMap as body. *)
  Definition eval_def_map (d : def) (m : mapping) (st : state) : list E * state :=
    eval_def {| d_name := d_name d; d_type := d_type d; d_if := d_if d; d_setter := d_setter d;
                d_body := fun st => match eval_map m st with
                                    | (Ok l, st) => ((Some (of_list l), None), st)
                                    | (Err e, st) => ((None, Some e), st)
                                    end |} st.
End Def.
