(** The dependency graph between messages and its cycle check.
    Models resolver/graph.go:11-222 and 450-490. *)
From Coq Require Import String List Arith Bool.
From Verif.Base Require Import Sort.
From Verif.Graph Require Import Dfs.
Import ListNotations.

(** What graph.go looks at in the expression of a variable definition (graph.go:98-114; a nil Expr
    is [XOther]). Messages are numbers: the position in the list of all messages
    (resolver.go:386-394; every file taking part in the compilation is in that list, so
    every resolved message has a position). [None] is the nil message of a name that did not
    resolve. *)
Inductive mexpr :=
| XOther                              (* by, enum, switch ... *)
| XMessage (m : option nat)           (* types.go MessageExpr.Message *)
| XMap (inner : option (option nat))  (* MapExpr: None = no expr or expr is not a message *)
| XCall (errs : list gerr)            (* CallExpr.Errors *)
| XValidation (err : option gerr)     (* ValidationExpr.Error *)
with gerr :=                          (* types.go GRPCError *)
| GErr (defs : list mexpr) (details : list gdetail)
with gdetail :=                       (* types.go GRPCErrorDetail: DefSet, Messages *)
| GDetail (defs : list mexpr) (msgs : list mexpr).

Record message := {
  has_rule : bool;                    (* msg.Rule != nil *)
  msg_defs : list mexpr;              (* msg.Rule.DefSet.Definitions() *)
  oneof_defs : list (list mexpr);     (* per field with a oneof rule: its DefSet *)
  every_field_rule : bool;            (* HasRuleEveryFields, message.go:255-266 *)
  msg_name : string
}.

Inductive gerror :=
| UndefinedMessage                    (* graph.go:125-131, 173-179 *)
| NoMessageOption (m : nat)           (* graph.go:133-139, 181-187 *)
| CyclicDependency (path : list nat). (* graph.go:473-481 *)

Section Build.
  Variable ms : list message.

  (** msgToNode (graph.go:13-19): messages with a rule. *)
  Definition in_map (m : nat) : bool :=
    match nth_error ms m with Some d => has_rule d | None => false end.

  (** Builder state: Children of the node under construction, and the reported errors. childMap
      holds exactly the nodes in Children (graph.go:146-150). *)
  Definition bstate : Type := (list nat * list gerror)%type.

  (** graph.go:116-151 buildMessage; graph.go:153-199 buildMap has the same body. A message without
      rule gets a fresh node (graph.go:144), which has no children; it is represented by the
      number [length ms + m], outside the messages. Two fresh nodes for the same message are
      identified, which no later code can observe because they are leaves. *)
  Definition build_dep (m : option nat) (st : bstate) : bstate :=
    let (kids, errs) := st in
    match m with
    | None => (kids, errs ++ [UndefinedMessage])
    | Some m =>
        if in_map m then
          if existsb (Nat.eqb m) kids then (kids, errs) else (kids ++ [m], errs)
        else
          let errs' := match nth_error ms m with
                       | Some d => if every_field_rule d then errs else errs ++ [NoMessageOption m]
                       | None => errs
                       end in
          (kids ++ [length ms + m], errs')
    end.

  (** graph.go:98-114 buildVariableDefinition, 116-120 buildCall, 201-203 buildValidation,
      205-215 buildGRPCError, 217-227 buildGRPCErrorDetail *)
  Fixpoint build_def (x : mexpr) (st : bstate) : bstate :=
    match x with
    | XOther => st
    | XMessage m => build_dep m st
    | XMap None => st
    | XMap (Some m) => build_dep m st
    | XCall errs => fold_left (fun st e => build_err e st) errs st
    | XValidation None => st
    | XValidation (Some e) => build_err e st
    end
  with build_err (e : gerr) (st : bstate) : bstate :=
    match e with
    | GErr defs details =>
        fold_left (fun st d => build_detail d st) details
          (fold_left (fun st d => build_def d st) defs st)
    end
  with build_detail (d : gdetail) (st : bstate) : bstate :=
    match d with
    | GDetail defs msgs =>
        fold_left (fun st d => build_def d st) msgs
          (fold_left (fun st d => build_def d st) defs st)
    end.

  (** graph.go:75-96 Build *)
  Definition build (d : message) : bstate :=
    fold_left (fun st ds => fold_left (fun st x => build_def x st) ds st) (oneof_defs d)
      (fold_left (fun st x => build_def x st) (msg_defs d) ([], [])).

  (** Children of a node after graph.go:21-27. *)
  Definition kids (i : nat) : list nat :=
    match nth_error ms i with
    | Some d => if has_rule d then fst (build d) else []
    | None => []
    end.

  Definition build_errors : list gerror :=
    concat (map (fun d => if has_rule d then snd (build d) else []) ms).

  (** len(node.Parent) != 0: Parent is extended together with Children (graph.go:146-149). *)
  Definition has_parent (i : nat) : bool :=
    existsb (fun p => existsb (Nat.eqb i) (kids p)) (seq 0 (length ms)).

  Definition name_of (i : nat) : string :=
    match nth_error ms i with Some d => msg_name d | None => EmptyString end.

  (** graph.go:28-39. The iteration order of the Go map and the order of equally named roots only
      decide which of several cyclic roots is reported. *)
  Definition roots : list nat :=
    sort_by name_of (filter (fun i => in_map i && negb (has_parent i)) (seq 0 (length ms))).

  (** graph.go:12-45 CreateAllMessageDependencyGraph: the reported errors and whether a graph is
      returned ([false] = nil). [None] = recursion deeper than [fuel]. *)
  Definition create_graph (fuel : nat) : option (bool * list gerror) :=
    match roots with
    | [] => Some (false, build_errors)
    | rs =>
        match validate kids fuel rs with
        | VOk => Some (true, build_errors)
        | VCycle p => Some (false, build_errors ++ [CyclicDependency p])
        | VFuel => None
        end
    end.
End Build.
