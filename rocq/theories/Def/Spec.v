(** Vocabulary for statements about definitions. *)
From Coq Require Import String List.
From Verif.Base Require Import Result Slice.
From Verif.Def Require Import Model.
Import ListNotations.

(** Calling [call] on the elements of a list one after the other, stopping at the first error. *)
Inductive maps {X V E W} (call : X -> W -> result V E * W) : list X -> W -> result (list V) E -> W -> Prop :=
| maps_nil w : maps call [] w (Ok []) w
| maps_ok x xs w v w1 vs w2 :
    call x w = (Ok v, w1) -> maps call xs w1 (Ok vs) w2 -> maps call (x :: xs) w (Ok (v :: vs)) w2
| maps_later x xs w v w1 e w2 :
    call x w = (Ok v, w1) -> maps call xs w1 (Err e) w2 -> maps call (x :: xs) w (Err e) w2
| maps_now x xs w e w1 :
    call x w = (Err e, w1) -> maps call (x :: xs) w (Err e) w1.

Section S.
  Context {V E CT W : Type}.
  Implicit Types st : state V CT W.

  (** What CEL sees of a LocalValue: the declared variables and the values. *)
  Definition declared st : list (option (decl CT)) := view (hp _ _ _ st) (opts _ (lv _ _ _ st)).
  Definition value_of st (x : string) : option V := vals _ (lv _ _ _ st) x.

  (** [st'] is [st] with variable [name] of type [t] declared and set to [v], nothing else visible to
      CEL changed. *)
  Definition with_variable (name : string) (t : CT) (v : V) st st' : Prop :=
    declared st' = declared st ++ [Some (name, t)] /\
    value_of st' name = Some v /\
    forall x, x <> name -> value_of st' x = value_of st x.

  (** The condition of a definition (absent = true) evaluates to [r]. *)
  Definition cond_gives (d : def V E CT W) st (r : result bool E) st' : Prop :=
    match d_if _ _ _ _ d with
    | None => r = Ok true /\ st' = st
    | Some c => c st = (r, st')
    end.
End S.

Definition is_valid {V CT W} (st : state V CT W) : Prop := valid (hp _ _ _ st) (opts _ (lv _ _ _ st)).
