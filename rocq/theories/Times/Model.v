(** * Times and locations in expressions

    Models grpc/federation/cel/time.go: the values grpc.federation.time.Time and Location, their conversion from and to Go's time.Time and *time.Location (lines 20-36, 63-82),
    and the functions of the library that take and give times (lines 212-227, 380-416, 430-565, 697-712, 737-761, 798-818, 861-893).

    Simplifications. Instants are unbounded integers. Go's time package is modelled as far as the functions need it: a location maps instants to zones; the calendar is a
    parameter. Functions that give a number or a text (hour, format, isDST, unix, before, ...) depend on the instant, and on the name, the offset and the daylight saving
    flag of the zone at this instant: see [view]. *)

From Coq Require Import String List Bool ZArith.
Local Open Scope string_scope.
Local Open Scope Z_scope.

(** ** Go's package time *)

Record zone := { z_name : string; z_offset : Z; z_dst : bool }.
(** time.Location: its name and the zone in use at each second. *)
Record location := { l_name : string; l_zone : Z -> zone }.
Definition fixed (name : string) (offset : Z) : location := {| l_name := name; l_zone := fun _ => {| z_name := name; z_offset := offset; z_dst := false |} |}.
Definition utc : location := fixed "UTC" 0.

(** The time zone database, the location of the machine, and the calendar: the day [y] years, [m] months and [d] days after a day. *)
Record world := { w_db : string -> option (Z -> zone); w_local : Z -> zone; w_shift : Z -> Z -> Z -> Z -> Z }.
Definition local (w : world) : location := {| l_name := "Local"; l_zone := w_local w |}.
(** time.LoadLocation. *)
Definition load (w : world) (name : string) : option location :=
  if String.eqb name "" || String.eqb name "UTC" then Some utc
  else if String.eqb name "Local" then Some (local w)
  else match w_db w name with Some z => Some {| l_name := name; l_zone := z |} | None => None end.

Definition second : Z := 1000000000.
(** time.Time: nanoseconds since 1970, and a location. *)
Record time := { t_instant : Z; t_loc : location }.
Definition unix (t : time) : Z := t_instant t / second.
Definition nanosecond (t : time) : Z := t_instant t mod second.
(** Time.Zone *)
Definition zone_of (t : time) : zone := l_zone (t_loc t) (unix t).
Definition day : Z := 86400.
(** The clock on the wall, in seconds. *)
Definition wall (t : time) : Z := unix t + z_offset (zone_of t).
(** time.Date: the instant at which the clocks of a location show a time. *)
Definition resolve (l : location) (clock : Z) : Z := clock - z_offset (l_zone l (clock - z_offset (l_zone l clock))).
Definition add (n : Z) (t : time) : time := {| t_instant := t_instant t + n; t_loc := t_loc t |}.
Definition add_date (w : world) (y m d : Z) (t : time) : time :=
  {| t_instant := resolve (t_loc t) (w_shift w y m d (wall t / day) * day + wall t mod day) * second + nanosecond t; t_loc := t_loc t |}.
(** Time.Truncate and Time.Round count from the first of January of year 1. *)
Definition year1 : Z := -62135596800 * second.
Definition truncate (d : Z) (t : time) : time := if d <=? 0 then t else add (- ((t_instant t - year1) mod d)) t.
Definition round (d : Z) (t : time) : time :=
  if d <=? 0 then t else let r := (t_instant t - year1) mod d in if r + r <? d then add (- r) t else add (d - r) t.
Definition in_ (l : location) (t : time) : time := {| t_instant := t_instant t; t_loc := l |}.

(** ** The library *)

(** grpc.federation.time.Location and Time: proto/grpc/federation/time.proto. *)
Record loc_value := { lv_name : string; lv_offset : Z }.
Record value := { v_seconds : Z; v_nanos : Z; v_loc : loc_value }.
(** Location.GoLocation: time.go:28-37. *)
Definition go_location (w : world) (l : loc_value) : option location :=
  if negb (lv_offset l =? 0) then Some (fixed (lv_name l) (lv_offset l)) else load w (lv_name l).
(** Time.GoTime: time.go:20-26. *)
Definition go_time (w : world) (v : value) : option time :=
  match go_location w (v_loc v) with None => None | Some l => Some {| t_instant := v_seconds v * second + v_nanos v; t_loc := l |} end.
(** toTimeValue: time.go:67-76. *)
Definition to_value (t : time) : value :=
  {| v_seconds := unix t; v_nanos := nanosecond t; v_loc := {| lv_name := z_name (zone_of t); lv_offset := z_offset (zone_of t) |} |}.

(** Expressions for locations. [FromData name z]: loadLocationFromTZData with data that describe [z]. *)
Inductive loc_expr := UTC | Local | Load (name : string) | FixedZone (name : string) (offset : Z) | FromData (name : string) (z : Z -> zone).
(** time.go:212-227, 380-416: toLocationValue, time.go:78-80. *)
Definition eval_loc (w : world) (e : loc_expr) : option loc_value :=
  match e with
  | UTC => Some {| lv_name := l_name utc; lv_offset := 0 |}
  | Local => Some {| lv_name := l_name (local w); lv_offset := 0 |}
  | FixedZone n o => Some {| lv_name := n; lv_offset := o |}
  | Load n => match load w n with Some l => Some {| lv_name := l_name l; lv_offset := 0 |} | None => None end
  | FromData n _ => Some {| lv_name := n; lv_offset := 0 |}
  end.

(** Functions from times to times. *)
Inductive op := Add (n : Z) | AddDate (y m d : Z) | Round (d : Z) | Truncate (d : Z) | WithLocation (e : loc_expr) | ToUtc | ToLocal.
(** One function: time.go:527-565, 697-712, 737-748, 798-818, 861-893. [None]: an error. *)
Definition eval_op (w : world) (o : op) (v : value) : option value :=
  match o with
  | WithLocation e =>
      match eval_loc w e with
      | None => None
      | Some lv =>
          match go_location w lv with
          | None => None
          | Some l => match go_time w v with None => None | Some t => Some (to_value (in_ l t)) end
          end
      end
  | _ =>
      match go_time w v with
      | None => None
      | Some t =>
          Some (to_value (match o with
                          | Add n => add n t
                          | AddDate y m d => add_date w y m d t
                          | Round d => round d t
                          | Truncate d => truncate d t
                          | ToUtc => in_ utc t
                          | ToLocal => in_ (local w) t
                          | WithLocation _ => t
                          end))
      end
  end.
(** A chain of functions on a time that Go gave: time.date, time.parse, time.now, time.unix, asTime. *)
Fixpoint eval_ops (w : world) (ops : list op) (v : value) : option value :=
  match ops with
  | nil => Some v
  | cons o r => match eval_op w o v with None => None | Some v' => eval_ops w r v' end
  end.
Definition eval (w : world) (start : time) (ops : list op) : option value := eval_ops w ops (to_value start).
(** What every function that gives a number or a text reads. *)
Definition read (w : world) (v : option value) : option time := match v with None => None | Some v => go_time w v end.
