(** Path-based depth first search used by both cycle checks.
    Models resolver/graph.go:407-448 validateMessageNodeCyclicDependency and
    resolver/graph.go:466-490 validateAllMessageGraphNodeCyclicDependency, which have the
    same control flow: [visited] holds exactly the nodes of the current path (it is
    deleted on the way back, line 446), so the path prefix represents both [visited] and
    [path]. Nodes are numbers; the error text is reduced to the reported path.
    The Go recursion has no fuel; running out of fuel is the explicit value [VFuel]. *)
From Coq Require Import List Arith Bool.
Import ListNotations.

Inductive vres :=
| VOk
| VCycle (path : list nat)     (* dependency path of the error, root first *)
| VFuel.

Section Dfs.
  Variable children : nat -> list nat.

  Fixpoint dfs (fuel : nat) (visited : list nat) (target : nat) : vres :=
    match fuel with
    | O => VFuel
    | S f =>
        if existsb (Nat.eqb target) visited then VCycle (rev (target :: visited))
        else
          (fix go (cs : list nat) : vres :=
             match cs with
             | [] => VOk
             | c :: cs' =>
                 match dfs f (target :: visited) c with
                 | VOk => go cs'
                 | r => r
                 end
             end) (children target)
    end.

  (** resolver/graph.go:391-398 validateMessageGraph / 450-457 validateAllMessageGraph:
      check every root, stop at the first error. *)
  Fixpoint validate (fuel : nat) (roots : list nat) : vres :=
    match roots with
    | [] => VOk
    | r :: rs =>
        match dfs fuel [] r with
        | VOk => validate fuel rs
        | e => e
        end
    end.
End Dfs.
