(** Failing calls of one message share the `error` variable of its LocalValue.
    Models SetGRPCError (cel.go:818-875) as one locked write, and each expression of the error rules
    (EvalCEL, cel.go:718-760, under the same lock) as one locked read of that variable, for calls handled
    by different goroutines (error_handler.go.tmpl:6-191, started by GoWithRecover in eval.go.tmpl). *)
From Coq Require Import List Arith.
Import ListNotations.

Section Race.
  Variable G : Type.        (* values of the `error` variable *)

  Inductive op := Set_ (g : option G)   (* SetGRPCError; None: the error has no status, returns early *)
                | See.                  (* evaluate a rule expression that mentions `error` *)

  (** The handling of one failed call: record the error, then [n] expressions. *)
  Definition handling (g : option G) (n : nat) : list op := Set_ g :: repeat See n.

  Record config := { var : option G; progs : list (list op); log : list (nat * option G) }.

  Fixpoint pop (i : nat) (ps : list (list op)) : option (op * list (list op)) :=
    match ps, i with
    | [], _ => None
    | [] :: _, 0 => None
    | (o :: p) :: ps', 0 => Some (o, p :: ps')
    | p :: ps', S i' => match pop i' ps' with Some (o, ps'') => Some (o, p :: ps'') | None => None end
    end.

  (** Goroutine [i] makes one step (none if it is finished). *)
  Definition step (i : nat) (c : config) : config :=
    match pop i (progs c) with
    | None => c
    | Some (Set_ None, ps) => {| var := var c; progs := ps; log := log c |}
    | Some (Set_ (Some g), ps) => {| var := Some g; progs := ps; log := log c |}
    | Some (See, ps) => {| var := var c; progs := ps; log := log c ++ [(i, var c)] |}
    end.

  Definition run (sched : list nat) (c : config) : config := fold_left (fun c i => step i c) sched c.

  Definition start (v : option G) (calls : list (option G * nat)) : config :=
    {| var := v; progs := map (fun p => handling (fst p) (snd p)) calls; log := [] |}.

  (** The schedule that handles the calls one after the other, numbered from [i0]. *)
  Definition one_by_one (i0 : nat) (calls : list (option G * nat)) : list nat :=
    concat (map (fun p => repeat (fst p) (S (snd (snd p)))) (combine (seq i0 (length calls)) calls)).
End Race.
Arguments Set_ {G}. Arguments See {G}. Arguments var {G}. Arguments progs {G}. Arguments log {G}.
Arguments run {G}. Arguments start {G}. Arguments step {G}. Arguments pop {G}. Arguments handling {G}.
Arguments one_by_one {G}.
