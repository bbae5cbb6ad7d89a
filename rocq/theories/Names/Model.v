(** The names of the variables of a message.
    Models: resolver/resolver.go:1440-1460 (validateName), 1472-1532 (validateDuplicatedVariableName, WithDef, WithGRPCError),
    2366-2384 (resolveMessageRule), 2416-2427 (resolveVariableDefinitions), 2713-2729 (resolveGRPCError),
    2776-2791 (resolveGRPCErrorDetails), 2813-2826 (resolveGRPCDetailMessages), 3003-3017 (resolveFieldOneofRule),
    context.go:60-64 (withDefIndex).
    Simplified: of a definition only its name and the definitions inside it are kept; strings are bytes. *)
From Coq Require Import Ascii String List Arith Bool DecimalString.
Import ListNotations.
Local Open Scope string_scope.

(** The options as written: an empty name is one left out. *)
Inductive odef := ODef (name : string) (e : oexpr)
with oexpr := NoExpr | Simple | OCall (errors : list orule) | OValidation (error : orule)
with orule := ORule (defs : list odef) (details : list odetail)
with odetail := ODetail (defs : list odef) (messages : nat).
Record omessage := { defs : list odef; oneofs : list (list odef) }.

(** The definitions as resolved. *)
Inductive rdef := RDef (name : string) (e : rexpr)
with rexpr := RNoExpr | RSimple | RCall (errors : list rrule) | RValidation (error : rrule)
with rrule := RRule (defs : list rdef) (details : list rdetail)
with rdetail := RDetail (defs : list rdef) (messages : list string).
Record rmessage := { rdefs : list rdef; roneofs : list (list rdef) }.

(** resolver.go:1440 namePattern: ^[a-zA-Z][a-zA-Z0-9_]*$ *)
Definition letter (c : ascii) : bool :=
  let n := nat_of_ascii c in (((97 <=? n) && (n <=? 122)) || ((65 <=? n) && (n <=? 90)))%nat.
Definition word (c : ascii) : bool :=
  let n := nat_of_ascii c in (letter c || ((48 <=? n) && (n <=? 57)) || (n =? 95))%nat.
Fixpoint all_word (s : string) : bool := match s with EmptyString => true | String c s => word c && all_word s end.
Definition name_matches (s : string) : bool := match s with EmptyString => false | String c s => letter c && all_word s end.
(** resolver.go:1449-1460 validateName: no error *)
Definition validateName (s : string) : bool :=
  if s =? "" then true else if negb (name_matches s) then false else negb (s =? "error").

(** fmt %d *)
Definition dec (n : nat) : string := NilZero.string_of_uint (Nat.to_uint n).

Section Mapi.
  Context {A B : Type}.
  Variable f : nat -> A -> B.
  Fixpoint mapi_from (i : nat) (l : list A) : list B := match l with [] => [] | x :: l => f i x :: mapi_from (S i) l end.
End Mapi.
Definition mapi {A B} (f : nat -> A -> B) (l : list A) : list B := mapi_from f 0 l.

(** The name of definition [idx]: chosen if left out, emptied (with an error) if invalid *)
Definition assign (auto : nat -> string) (idx : nat) (name : string) : string :=
  if name =? "" then auto idx else if validateName name then name else "".

Definition auto_def (idx : nat) : string := "_def" ++ dec idx.                                          (* 2372 *)
Definition auto_error_def (defIndex idx : nat) : string := "_def" ++ dec defIndex ++ "_def" ++ dec idx. (* 2716 *)
Definition auto_detail_def (defIndex detail idx : nat) : string := "_def" ++ dec defIndex ++ "_err_detail" ++ dec detail ++ "_def" ++ dec idx.  (* 2779 *)
Definition auto_detail_msg (defIndex detail idx : nat) : string := "_def" ++ dec defIndex ++ "_err_detail" ++ dec detail ++ "_msg" ++ dec idx.  (* 2819 *)
Definition auto_oneof_def (idx : nat) : string := "_oneof_def" ++ dec idx.                              (* 3006 *)

(** resolver.go:2416-2427: a definition is resolved with its own index as the index for the definitions inside it. *)
Fixpoint resolve_def (auto : nat -> string) (idx : nat) (d : odef) : rdef :=
  match d with ODef n e => RDef (assign auto idx n) (resolve_expr idx e) end
with resolve_expr (defIndex : nat) (e : oexpr) : rexpr :=
  match e with
  | NoExpr => RNoExpr
  | Simple => RSimple
  | OCall rs => RCall (map (resolve_rule defIndex) rs)
  | OValidation r => RValidation (resolve_rule defIndex r)
  end
with resolve_rule (defIndex : nat) (r : orule) : rrule :=
  match r with ORule ds ts => RRule (mapi (resolve_def (auto_error_def defIndex)) ds) (mapi (resolve_detail defIndex) ts) end
with resolve_detail (defIndex detail : nat) (t : odetail) : rdetail :=
  match t with ODetail ds n => RDetail (mapi (resolve_def (auto_detail_def defIndex detail)) ds) (map (auto_detail_msg defIndex detail) (seq 0 n)) end.
Definition resolve (m : omessage) : rmessage :=
  {| rdefs := mapi (resolve_def auto_def) (defs m); roneofs := map (mapi (resolve_def auto_oneof_def)) (oneofs m) |}.

(** No name is reported as invalid. *)
Fixpoint valid_def (d : odef) : bool := match d with ODef n e => validateName n && valid_expr e end
with valid_expr (e : oexpr) : bool :=
  match e with NoExpr => true | Simple => true | OCall rs => forallb valid_rule rs | OValidation r => valid_rule r end
with valid_rule (r : orule) : bool := match r with ORule ds ts => forallb valid_def ds && forallb valid_detail ts end
with valid_detail (t : odetail) : bool := match t with ODetail ds _ => forallb valid_def ds end.
Definition valid_message (m : omessage) : bool := forallb valid_def (defs m) && forallb (forallb valid_def) (oneofs m).

(** Go's range loop over a list, with the map of names and whether an error was added *)
Section Each.
  Context {A : Type}.
  Variable f : A -> list string * bool -> list string * bool.
  Fixpoint each (l : list A) (s : list string * bool) : list string * bool := match l with [] => s | x :: l => each l (f x s) end.
End Each.
Definition mem (n : string) (l : list string) : bool := existsb (String.eqb n) l.

(** resolver.go:1495-1532 *)
Fixpoint check_def (d : rdef) (s : list string * bool) : list string * bool :=
  match d with
  | RDef _ RNoExpr => s
  | RDef n e =>
      let (seen, ok) := s in
      let ok := if negb (n =? "") && mem n seen then false else ok in
      check_expr e (n :: seen, ok)
  end
with check_expr (e : rexpr) (s : list string * bool) : list string * bool :=
  match e with
  | RNoExpr => s
  | RSimple => s
  | RCall rs => each check_rule rs s
  | RValidation r => check_rule r s
  end
with check_rule (r : rrule) (s : list string * bool) : list string * bool :=
  match r with RRule ds ts => each check_detail ts (each check_def ds s) end
with check_detail (t : rdetail) (s : list string * bool) : list string * bool :=
  match t with RDetail ds _ => each check_def ds s end.
(** resolver.go:1472-1493 validateDuplicatedVariableName *)
Definition check (m : rmessage) : list string * bool := each (each check_def) (roneofs m) (each check_def (rdefs m) ([], true)).

(** The message is accepted as far as names go. *)
Definition accepted (m : omessage) : bool := valid_message m && snd (check (resolve m)).
