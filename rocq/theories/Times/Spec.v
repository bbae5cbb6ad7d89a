(** * The same chain in Go *)

From Coq Require Import String List Bool ZArith.
From Verif.Times Require Import Model.
Local Open Scope Z_scope.

(** The location an expression names. *)
Definition named (w : world) (e : loc_expr) : option location :=
  match e with
  | UTC => Some utc
  | Local => Some (local w)
  | Load n => load w n
  | FixedZone n o => Some (fixed n o)
  | FromData n z => Some {| l_name := n; l_zone := z |}
  end.
(** The chain on values of time.Time, which keep their location. *)
Definition go_op (w : world) (o : op) (t : time) : option time :=
  match o with
  | Add n => Some (add n t)
  | AddDate y m d => Some (add_date w y m d t)
  | Round d => Some (round d t)
  | Truncate d => Some (truncate d t)
  | ToUtc => Some (in_ utc t)
  | ToLocal => Some (in_ (local w) t)
  | WithLocation e => match named w e with Some l => Some (in_ l t) | None => None end
  end.
Fixpoint go (w : world) (ops : list op) (t : time) : option time :=
  match ops with nil => Some t | cons o r => match go_op w o t with None => None | Some t' => go w r t' end end.

(** All that can be seen of a time: the instant, and the zone in use. The clock and the calendar follow from them. *)
Definition view (t : time) : Z * zone := (t_instant t, zone_of t).

(** A location with one zone, and without daylight saving, that is found again by the name and the offset of this zone. *)
Definition steady (w : world) (l : location) : Prop :=
  exists n o, (forall u, l_zone l u = {| z_name := n; z_offset := o; z_dst := false |}) /\
              (o <> 0 \/ exists l', load w n = Some l' /\ forall u, l_zone l' u = {| z_name := n; z_offset := 0; z_dst := false |}).
Definition steady_op (w : world) (o : op) : Prop :=
  match o with
  | WithLocation e => match e with FromData _ _ => False | _ => forall l, named w e = Some l -> steady w l end
  | ToLocal => steady w (local w)
  | _ => True
  end.
Definition keeps_clock (o : op) : Prop := match o with AddDate _ _ _ => False | _ => True end.
(** The first of January of year 1 in UTC, in nanoseconds before 1970. *)
Definition first_day : Z := -62135596800 * 1000000000.
