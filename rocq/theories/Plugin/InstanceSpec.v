(** Vocabulary for statements about a plugin instance. *)
From Coq Require Import List.
From Verif.Plugin Require Import Instance.
Import ListNotations.

Section Spec.
  Variable V : Type.

  (** The call, Close or garbage collection of [p] has begun and not ended. *)
  Definition pending (p : pc V) : Prop := match p with Waiting _ | InWrite _ _ | InRead _ => True | _ => False end.
  (** It has ended (the goroutine serving gcQueue goes back to its start). *)
  Definition ended (p : pc V) : Prop := match p with Finished _ | NotStarted => True | _ => False end.

  (** Events that are neither new calls of the API nor the death of the plugin. *)
  Definition internal (ev : event V) : Prop :=
    match ev with Start _ _ | CallGC | Dequeue | Die _ => False | _ => True end.

  (** [t] waits and will wait whatever happens. *)
  Definition hangs (s : state V) (t : tid) : Prop :=
    pending (th s t) /\ forall evs s', runs s evs = Some s' -> pending (th s' t).

  (** Close was called twice, or garbage collection requested after a call of Close. *)
  Definition closed_twice (evs : list (event V)) : Prop :=
    exists t1 t2, t1 <> t2 /\ In (Start t1 OClose) evs /\ In (Start t2 OClose) evs.
  Definition gc_after_close (evs : list (event V)) : Prop :=
    exists pre post t, evs = pre ++ CallGC :: post /\ In (Start t OClose) pre.
End Spec.
Arguments pending {V}. Arguments ended {V}. Arguments internal {V}. Arguments hangs {V}.
Arguments closed_twice {V}. Arguments gc_after_close {V}.
