(** * The arguments of messages

    Model of resolveMessageArgument, resolveMessageArgumentRecursive,
    resolveMessageArgumentFields and validateMessageDependencyArgumentName,
    resolver/resolver.go:3574-3838, and of isDifferentType, resolver.go:5301-5316.

    Simplifications.  Messages are numbers.  The type of the value of an argument
    (Value.Type(), found by the CEL compiler) is given and does not change between
    two visits of the calling message.  Registering the argument with CEL, creating
    the CEL environment and evaluating CEL values (3654-3676), which may add further
    errors and end the visit of a message, are left out, and so are the positions of
    errors. *)

From Coq Require Import String List Bool Arith.
Import ListNotations.

(** Kinds: types/types.go.  A message kind comes with its message
    (Type.Message). *)
Inductive kind := KNumber (n : nat) | KEnum | KMessage (m : nat) | KBytes | KOther (n : nat).

(** Type: resolver/types.go:160-181.  [ty_null] is IsNull. *)
Record type := { ty_kind : kind; ty_repeated : bool; ty_null : bool }.

Definition field : Type := (string * type)%type.

Definition kind_eqb (a b : kind) : bool :=
  match a, b with
  | KNumber x, KNumber y => x =? y
  | KEnum, KEnum => true
  | KMessage _, KMessage _ => true
  | KBytes, KBytes => true
  | KOther x, KOther y => x =? y
  | _, _ => false
  end.

(** Type.IsNumber: resolver/types.go:431-448. *)
Definition is_number (t : type) : bool :=
  match ty_kind t with KNumber _ => true | _ => false end.

(** isDifferentType: resolver.go:5301-5316. *)
Definition is_different (from to : type) : bool :=
  if is_number from && is_number to then false else
  if kind_eqb (ty_kind from) KEnum && is_number to then false else
  if ty_null from && (ty_repeated to || kind_eqb (ty_kind to) (KMessage 0)
                      || kind_eqb (ty_kind to) KBytes) then false else
  negb (kind_eqb (ty_kind from) (ty_kind to)).

(** Argument: a name, possibly empty, and a value: whether it is inline, and its
    type.  [None] is a nil value: an argument with neither by nor inline. *)
Record arg := { a_name : string; a_value : option (bool * option type) }.

(** A message expression: its arguments. *)
Definition expr := list arg.

Inductive error := EMissing (n : string) | EDifferent (n : string) | EInline.

(** The type map evaluatedArgNameMap: the last entry of a name counts. *)
Definition look (n : string) (ev : list field) : option type :=
  match find (fun p => String.eqb (fst p) n) (rev ev) with
  | Some (_, t) => Some t
  | None => None
  end.

Section Args.
Variable F : nat -> list field.

(** argNameMap: resolver.go:3718-3728, 3732-3735. *)
Definition explicit (es : list expr) : list string :=
  flat_map (fun e => filter (fun n => negb (String.eqb n "")) (map a_name e)) es.

(** curDepArgNameMap: resolver.go:3809-3825; [None]: arg.Value is nil and
    arg.Value.CEL is a nil dereference. *)
Fixpoint current (e : expr) : option (list string) :=
  match e with
  | [] => Some []
  | a :: r =>
      match a_value a, current r with
      | Some v, Some l =>
          Some ((if String.eqb (a_name a) "" then [] else [a_name a])
                ++ (match v with
                    | (true, Some {| ty_kind := KMessage m |}) => map fst (F m)
                    | _ => []
                    end) ++ l)
      | _, _ => None
      end
  end.

(** validateMessageDependencyArgumentName: resolver.go:3807-3838. *)
Definition validate (names : list string) (e : expr) : option (list error) :=
  match current e with
  | None => None
  | Some cur =>
      Some (map EMissing (filter (fun n => negb (existsb (String.eqb n) cur)) names))
  end.

(** The loop over the fields of an inline value: resolver.go:3777-3795. *)
Fixpoint inline_fields (ev : list field) (fs : list field) : list field * list error :=
  match fs with
  | [] => (ev, [])
  | (n, t) :: r =>
      match look n ev with
      | Some t0 =>
          let (ev', es) := inline_fields ev r in
          (ev', if is_different t0 t then EDifferent n :: es else es)
      | None => inline_fields (ev ++ [(n, t)]) r
      end
  end.

(** The loop over the arguments of one message expression: resolver.go:3741-3803.
    The fields of the argument and the map evaluatedArgNameMap have the same
    content. *)
Fixpoint add_args (ev : list field) (e : expr) : list field * list error :=
  match e with
  | [] => (ev, [])
  | a :: r =>
      match a_value a with
      | Some (inline, Some t) =>
          match look (a_name a) ev with
          | Some t0 =>
              let (ev', es) := add_args ev r in
              (ev', if is_different t0 t then EDifferent (a_name a) :: es else es)
          | None =>
              if inline then
                match ty_kind t with
                | KMessage m =>
                    let (ev1, es1) := inline_fields ev (F m) in
                    let (ev', es) := add_args ev1 r in (ev', es1 ++ es)
                | _ => let (ev', es) := add_args ev r in (ev', EInline :: es)
                end
              else add_args (ev ++ [(a_name a, t)]) r
          end
      | _ => add_args ev r
      end
  end.

(** The loop over the definitions: resolver.go:3738-3804. *)
Fixpoint add_defs (names : list string) (ev : list field) (es : list expr)
  : option (list field * list error) :=
  match es with
  | [] => Some (ev, [])
  | e :: r =>
      match validate names e with
      | None => None
      | Some e1 =>
          let (ev1, e2) := add_args ev e in
          match add_defs names ev1 r with
          | None => None
          | Some (ev', e3) => Some (ev', e1 ++ e2 ++ e3)
          end
      end
  end.

(** resolveMessageArgumentFields: resolver.go:3717-3805, and the append at 3707. *)
Definition group (ev : list field) (es : list expr) : option (list field * list error) :=
  add_defs (explicit es ++ map fst ev) ev es.

(** The fields of the arguments of all messages, and the errors so far. *)
Record state := { st_args : nat -> list field; st_errors : list error }.

Definition upd (f : nat -> list field) (m : nat) (v : list field) : nat -> list field :=
  fun k => if k =? m then v else f k.

(** The dependency graph, the message expressions of a message for each of its
    children (MessageToDefsMap with those of oneof fields: 3678-3689), and whether a
    message has a rule. *)
Variable children : nat -> list nat.
Variable calls : nat -> nat -> list expr.
Variable has_rule : nat -> bool.

(** One child: resolver.go:3691-3709. *)
Definition edge (c d : nat) (s : state) : option state :=
  match group (st_args s d) (calls c d) with
  | None => None
  | Some (ev, errs) =>
      Some {| st_args := upd (st_args s) d ev; st_errors := st_errors s ++ errs |}
  end.

(** resolveMessageArgumentRecursive: resolver.go:3647-3715.  The outer [None] is
    running out of fuel, the inner one a nil dereference. *)
Fixpoint visit (fuel : nat) (m : nat) (s : state) : option (option state) :=
  match fuel with
  | O => None
  | S k =>
      (fix go (ds : list nat) (s : state) : option (option state) :=
         match ds with
         | [] => Some (Some s)
         | d :: r =>
             if has_rule d then
               match edge m d s with
               | None => Some None
               | Some s1 =>
                   match visit k d s1 with
                   | Some (Some s2) => go r s2
                   | x => x
                   end
               end
             else go r s
         end) (children m) s
  end.

(** resolveMessageArgument: resolver.go:3601-3628.  A root comes with the fields of
    the request of its method; [None]: it is no response, and the errors of its visit
    are dropped. *)
Fixpoint roots (fuel : nat) (rs : list (nat * option (list field))) (s : state)
  : option (option state) :=
  match rs with
  | [] => Some (Some s)
  | (m, Some req) :: r =>
      match visit fuel m {| st_args := upd (st_args s) m (st_args s m ++ req);
                            st_errors := st_errors s |} with
      | Some (Some s') => roots fuel r s'
      | x => x
      end
  | (m, None) :: r =>
      match visit fuel m s with
      | Some (Some s') => roots fuel r {| st_args := st_args s'; st_errors := st_errors s |}
      | x => x
      end
  end.

Definition resolve (fuel : nat) (rs : list (nat * option (list field))) : option (option state) :=
  roots fuel rs {| st_args := fun _ => []; st_errors := [] |}.

End Args.
