(** What a log entry is to show. The definitions do not use the functions of the model, but for its data. *)
From Coq Require Import String List Bool ZArith Permutation Decimal DecimalString.
From Verif.Loglib Require Import Model.
Import ListNotations.
Local Open Scope string_scope.

(** How a key is written. *)
Inductive written : key -> string -> Prop :=
| written_true : written (KBool true) "true"
| written_false : written (KBool false) "false"
| written_int z : written (KInt z) (NilEmpty.string_of_int (Z.to_int z))
| written_uint n : written (KUint n) (NilEmpty.string_of_uint (N.to_uint n))
| written_string s : written (KString s) s.

(** A place in a value or in a log entry, and what is found there. *)
Inductive at_ := Key (s : string) | Index (n : nat).
Inductive seen := Scalar (x : nat) | AList | AMap | Null.

(** What a value has at a place. *)
Inductive shows : value -> list at_ -> seen -> Prop :=
| shows_scalar x : shows (VScalar x) [] (Scalar x)
| shows_list l : shows (VList l) [] AList
| shows_map m : shows (VMap m) [] AMap
| shows_index l n w p o : nth_error l n = Some w -> shows w p o -> shows (VList l) (Index n :: p) o
| shows_key m k w s p o : In (k, w) m -> written k s -> shows w p o -> shows (VMap m) (Key s :: p) o.

(** What a reader of the log finds at a place. *)
Inductive reads : out -> list at_ -> seen -> Prop :=
| reads_scalar x : reads (OScalar x) [] (Scalar x)
| reads_null : reads ONull [] Null
| reads_list l : reads (OList l) [] AList
| reads_map m : reads (OMap m) [] AMap
| reads_index l n w p o : nth_error l n = Some w -> reads w p o -> reads (OList l) (Index n :: p) o
| reads_key m s w p o : In (s, w) m -> reads w p o -> reads (OMap m) (Key s :: p) o.

(** The values in a value. *)
Inductive part : value -> value -> Prop :=
| part_self v : part v v
| part_list l w v : In w l -> part v w -> part v (VList l)
| part_map m k w v : In (k, w) m -> part v w -> part v (VMap m).

(** Values of CEL: a map has a key once. *)
Definition proper (v : value) : Prop := forall m, part (VMap m) v -> NoDup (map fst m).
(** No two keys of a map are written alike. *)
Definition clear (v : value) : Prop := forall m k k' w w' s, part (VMap m) v -> In (k, w) m -> In (k', w') m -> written k s -> written k' s -> k = k'.
(** The keys of a map are of one kind. *)
Definition same_kind (a b : key) : Prop :=
  match a, b with KBool _, KBool _ => True | KInt _, KInt _ => True | KUint _, KUint _ => True | KString _, KString _ => True | _, _ => False end.
Definition one_kind (v : value) : Prop := forall m k k' w w', part (VMap m) v -> In (k, w) m -> In (k', w') m -> same_kind k k'.
Definition no_empty_list (v : value) : Prop := ~ part (VList []) v.

(** The value at a place. *)
Inductive found : value -> list at_ -> value -> Prop :=
| found_here v : found v [] v
| found_index l n w p v : nth_error l n = Some w -> found w p v -> found (VList l) (Index n :: p) v
| found_key m k w s p v : In (k, w) m -> written k s -> found w p v -> found (VMap m) (Key s :: p) v.

(** The same value, its maps visited in another order. *)
Inductive reordered : value -> value -> Prop :=
| reordered_scalar x : reordered (VScalar x) (VScalar x)
| reordered_list l l' : Forall2 reordered l l' -> reordered (VList l) (VList l')
| reordered_map m m1 m' : Permutation m m1 -> Forall2 (fun a b => fst a = fst b /\ reordered (snd a) (snd b)) m1 m' -> reordered (VMap m) (VMap m').

(** The attributes of a map: one for every entry, in the same order. *)
Definition attributes_of (m : list (key * value)) (l : list (string * out)) : Prop :=
  Forall2 (fun e a => written (fst e) (fst a) /\ forall p o, reads (snd a) p o <-> shows (snd e) p o) m l.

Inductive has_level : func -> level -> Prop :=
| has_debug : has_level FDebug Debug | has_info : has_level FInfo Info | has_warn : has_level FWarn Warn | has_error : has_level FError Error.

(** What the calls before have added, and how many entries they have written. *)
Definition added (cs : list call) : list (key * value) := flat_map (fun c => match c with Add m => m | Log _ _ _ => [] end) cs.
Definition logged (cs : list call) : nat := List.length (filter (fun c => match c with Log _ _ _ => true | Add _ => false end) cs).
