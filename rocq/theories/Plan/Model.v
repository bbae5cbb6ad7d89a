(** From the variable definitions of a message to the evaluation plan.
    Models resolver/graph.go:224-448. *)
From Coq Require Import String List Arith Bool.
From Verif.Base Require Import Sort.
From Verif.Graph Require Import Dfs.
Import ListNotations.

(** What graph.go looks at in a VariableDefinition (resolver/types.go VariableDefinition):
    its name, the result of ReferenceNames() (resolver/def.go:205-212, modelled in area Refs),
    the name of the map iterator if the expression is a map with an iterator (graph.go:341-344;
    [None] gives the Go zero value "" for iterName) and whether it is a validation
    (def.go:138-143). *)
Record vdef := {
  vname : string;
  vrefs : list string;
  viter : option string;
  vvalidation : bool
}.

(** Graph node = position of the definition in the definition list (graph.go:301-305 creates one
    node per definition, in order). Children/ChildrenMap and Parent/ParentMap (graph.go:288-295)
    always hold the same elements, so each pair is one duplicate free list in insertion order. *)
Record graph := {
  children : nat -> list nat;
  parents : nat -> list nat
}.

Definition empty_graph : graph := {| children := fun _ => []; parents := fun _ => [] |}.

Definition mem (x : nat) (l : list nat) : bool := existsb (Nat.eqb x) l.

Definition upd (f : nat -> list nat) (i : nat) (l : list nat) : nat -> list nat :=
  fun j => if Nat.eqb j i then l else f j.

(** graph.go:355-362 and 377-384: append the edge to both lists unless already present. *)
Definition add_edge (p : nat) (c : nat) (g : graph) : graph :=
  {| children := if mem c (children g p) then children g
                 else upd (children g) p (children g p ++ [c]);
     parents := if mem p (parents g c) then parents g
                else upd (parents g) c (parents g c ++ [p]) |}.

(** nameToNode, a Go map: later assignments to the same key win. *)
Fixpoint lookup (m : list (string * nat)) (k : string) : option nat :=
  match m with
  | [] => None
  | (k', v) :: m' => if String.eqb k k' then Some v else lookup m' k
  end.

(** graph.go:345-363: one definition's references, in order. *)
Fixpoint add_refs (node : nat) (iterName : string) (m : list (string * nat))
         (refs : list string) (g : graph) : graph :=
  match refs with
  | [] => g
  | r :: rs =>
      let g' :=
        if String.eqb r iterName then g
        else match lookup m r with
             | None => g
             | Some refNode => add_edge refNode node g
             end in
      add_refs node iterName m rs g'
  end.

Definition iter_name (d : vdef) : string :=
  match viter d with Some s => s | None => EmptyString end.

(** graph.go:329-365 setupVariableDependencyByReferenceName *)
Fixpoint by_reference (idx : nat) (ds : list vdef) (m : list (string * nat)) (g : graph) : graph :=
  match ds with
  | [] => g
  | d :: ds' =>
      let m' := if String.eqb (vname d) EmptyString then m else (vname d, idx) :: m in
      by_reference (S idx) ds' m' (add_refs idx (iter_name d) m' (vrefs d) g)
  end.

(** graph.go:371-387: the first validation at or after the start of [nodes] precedes every
    later node. [nodes] pairs each node with its definition. *)
Fixpoint first_validation (nodes : list (nat * vdef)) (g : graph) : graph :=
  match nodes with
  | [] => g
  | (i, d) :: rest =>
      if vvalidation d
      then fold_left (fun g n => add_edge i (fst n) g) rest g
      else first_validation rest g
  end.

(** graph.go:367-389 setupVariableDependencyByValidation (recursion on nodes[1:]) *)
Fixpoint by_validation (nodes : list (nat * vdef)) (g : graph) : graph :=
  match nodes with
  | [] => g
  | _ :: rest => by_validation rest (first_validation nodes g)
  end.

Definition number (ds : list vdef) : list (nat * vdef) := combine (seq 0 (length ds)) ds.

(** graph.go:301-308 *)
Definition build_graph (ds : list vdef) : graph :=
  by_validation (number ds) (by_reference 0 ds [] empty_graph).

(** resolver/types.go VariableDefinitionGroup: sequential or concurrent, ending in a definition. *)
Inductive group :=
| Seq (start : option group) (e : nat)
| Conc (starts : list group) (e : nat).

(** Evaluate a partial function on a list, left to right. *)
Fixpoint map_opt {A B} (f : A -> option B) (l : list A) : option (list B) :=
  match l with
  | [] => Some []
  | x :: l' =>
      match f x, map_opt f l' with
      | Some y, Some ys => Some (y :: ys)
      | _, _ => None
      end
  end.

Section Groups.
  Variable g : graph.
  Variable key : nat -> string.   (* FQDN of a node: resolver/fqdn.go:89-94 *)

  (** graph.go:250-260 children: all leaves below [node], with repetition. The Go recursion is
      unguarded; [None] means it does not finish within [fuel] nested calls. *)
  Fixpoint leaves (fuel : nat) (node : nat) : option (list nat) :=
    match fuel with
    | O => None
    | S f =>
        match children g node with
        | [] => Some [node]
        | cs => option_map (@concat nat) (map_opt (leaves f) cs)
        end
    end.

  (** graph.go:234-248 uniqueChildren. The Go map iteration order is irrelevant because the
      result is sorted by FQDN and FQDNs of distinct nodes differ (names are unique). *)
  Definition unique_children (fuel : nat) (roots : list nat) : option (list nat) :=
    match map_opt (leaves fuel) roots with
    | Some ls => Some (sort_by key (nodup Nat.eq_dec (concat ls)))
    | None => None
    end.

  (** graph.go:262-286 createVariableDefinitionGroup. Unguarded recursion on Parent; [None] means it
      does not finish within [fuel] nested calls. The in-place sort of node.Parent only
      changes the order in which later code lists parents. *)
  Fixpoint mk_group (fuel : nat) (node : nat) : option group :=
    match fuel with
    | O => None
    | S f =>
        match parents g node with
        | [] => Some (Seq None node)
        | [p] =>
            match mk_group f p with
            | Some s => Some (Seq (Some s) node)
            | None => None
            end
        | ps =>
            match map_opt (mk_group f) (sort_by key ps) with
            | Some ss => Some (Conc ss node)
            | None => None
            end
        end
    end.

  (** graph.go:224-232 VariableDefinitionGroups *)
  Definition groups (fuel : nat) (roots : list nat) : option (list group) :=
    match unique_children fuel roots with
    | Some ls => map_opt (mk_group fuel) ls
    | None => None
    end.
End Groups.

(** Outcome of setupVariableDefinitionSet (graph.go:300-327). *)
Inductive setup_result :=
| NoRoots                      (* line 316-318: silent return, Groups stays nil *)
| CyclicError (path : list nat)(* line 321-324 *)
| Planned (gs : list group)    (* line 325-326 *)
| OutOfFuel.                   (* a recursion needs more than [fuel] nested calls *)

(** graph.go:310-315 *)
Definition roots_of (g : graph) (n : nat) : list nat :=
  filter (fun i => match parents g i with [] => true | _ => false end) (seq 0 n).

Definition node_key (ds : list vdef) (i : nat) : string :=
  match nth_error ds i with Some d => vname d | None => EmptyString end.

(** graph.go:300-327 setupVariableDefinitionSet. Nodes of one message share BaseMessage, so
    comparing FQDNs is comparing names. *)
Definition setup (fuel : nat) (ds : list vdef) : setup_result :=
  let g := build_graph ds in
  let rs := roots_of g (length ds) in
  match rs with
  | [] => NoRoots
  | _ =>
      match validate (children g) fuel rs with
      | VCycle p => CyclicError p
      | VFuel => OutOfFuel
      | VOk =>
          match groups g (node_key ds) fuel rs with
          | Some gs => Planned gs
          | None => OutOfFuel
          end
      end
  end.

(** def.go:40-56: the definitions a group evaluates. *)
Fixpoint group_defs (gr : group) : list nat :=
  match gr with
  | Seq None e => [e]
  | Seq (Some s) e => group_defs s ++ [e]
  | Conc ss e => concat (map group_defs ss) ++ [e]
  end.
