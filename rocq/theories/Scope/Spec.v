(** Go's rules for the names in these statements, and what the contexts are when they run. *)
From Coq Require Import List Arith Bool.
From Verif.Plan Require Import Model Spec.
From Verif.Scope Require Import Model.
Import ListNotations.

Definition name_eqb (a b : name) : bool :=
  match a, b with
  | Ctx, Ctx => true | CtxN n, CtxN m => Nat.eqb n m | Eg, Eg => true | DefName n, DefName m => Nat.eqb n m | _, _ => false
  end.

(** ** Running *)
(** A context is numbered: that of each function, and that of each goroutine group, which is cancelled as soon as one of its
    goroutines fails or the group has been waited for. *)
Inductive value := VCtx (id : nat) | VEg (id : nat) | VDef.
Definition scope := list (name * value).
Fixpoint find (x : name) (s : scope) : option value :=
  match s with [] => None | (y, v) :: s => if name_eqb x y then Some v else find x s end.
Fixpoint lookup (x : name) (env : list scope) : option value :=
  match env with [] => None | s :: env => match find x s with Some v => Some v | None => lookup x env end end.
Definition declared (x : name) (env : list scope) : bool :=
  match env with [] => false | s :: _ => match find x s with Some _ => true | None => false end end.
Definition declare (b : scope) (env : list scope) : list scope := match env with [] => [b] | s :: env => (b ++ s) :: env end.

(** The statement calls a definition with context [c], or makes group [id] below context [c], in a goroutine of group [cur]
    (or the function whose context is [cur]). *)
Inductive event := Called (k c cur : nat) | Made (id c cur : nat).
Record st := { env : list scope; next : nat; cancelled : list nat; log : list event }.
Definition alive (id : nat) (t : st) : bool := negb (existsb (Nat.eqb id) (cancelled t)).

(** The group of the innermost function has not been waited for. *)
Definition pending (t : st) : bool :=
  match env t with s :: _ => match find Eg s with Some (VEg id) => alive id t | _ => false end | [] => false end.

(** [None]: the code does not compile (a name is not declared, is not what it is used as, or is declared twice in one scope), or
    uses a group or the context of a group that was waited for already, or calls a definition or returns before waiting for the
    group it made. The body of a definition is checked where it is
    declared, with a context of its own. *)
Fixpoint exec (s : stmt) (cur : nat) (t : st) : option st :=
  let fix block (l : list stmt) (cur : nat) (t : st) : option st :=
    match l with [] => Some t | s :: l => match exec s cur t with Some t => block l cur t | None => None end end in
  let body (b : scope) (l : list stmt) (cur : nat) (t : st) : option st :=
    match block l cur {| env := b :: env t; next := next t; cancelled := cancelled t; log := log t |} with
    | Some t' => if pending t' then None else Some {| env := tl (env t'); next := next t'; cancelled := cancelled t'; log := log t' |}
    | None => None
    end in
  match s with
  | NewGroup c p =>
      if declared Eg (env t) && declared c (env t) then None   (* no new variables on left side of := *)
      else match lookup p (env t) with
           | Some (VCtx id) => if alive id t then Some {| env := declare [(c, VCtx (next t)); (Eg, VEg (next t))] (env t); next := S (next t);
                                                         cancelled := cancelled t; log := Made (next t) id cur :: log t |} else None
           | _ => None
           end
  | Go l => match lookup Eg (env t) with Some (VEg id) => if alive id t then body [] l id t else None | _ => None end
  | Wait => match lookup Eg (env t) with
            | Some (VEg id) => if alive id t then Some {| env := env t; next := next t; cancelled := id :: cancelled t; log := log t |} else None
            | _ => None
            end
  | DeclDef k l =>
      if declared (DefName k) (env t) then None
      else match body [(Ctx, VCtx (next t))] l (next t) {| env := env t; next := S (next t); cancelled := cancelled t; log := log t |} with
           | Some t => Some {| env := declare [(DefName k, VDef)] (env t); next := next t; cancelled := cancelled t; log := log t |}
           | None => None
           end
  | CallDef k c =>
      if pending t then None else
      match lookup (DefName k) (env t), lookup c (env t) with
      | Some VDef, Some (VCtx id) => if alive id t then Some {| env := env t; next := next t; cancelled := cancelled t; log := Called k id cur :: log t |} else None
      | _, _ => None
      end
  | Func l => body [] l cur t
  end.
Fixpoint exec_block (l : list stmt) (cur : nat) (t : st) : option st :=
  match l with [] => Some t | s :: l => match exec s cur t with Some t => exec_block l cur t | None => None end end.
(** The resolver of a message: its own context is number 0. *)
Definition exec_function (l : list stmt) : option st :=
  match exec_block l 0 {| env := [[(Ctx, VCtx 0)]]; next := 1; cancelled := []; log := [] |} with
  | Some t => if pending t then None else Some t
  | None => None
  end.

(** What runs in a group (or function) gets the context of exactly that group (or function). *)
Definition own_context (e : event) : Prop := match e with Called _ c cur => c = cur | Made _ c cur => c = cur end.

(** ** Names must be used *)
Definition declares (x : name) (s : stmt) : bool :=
  match s with NewGroup c _ => name_eqb x c || name_eqb x Eg | DeclDef k _ => name_eqb x (DefName k) | _ => false end.
Fixpoint uses (x : name) (s : stmt) : bool :=
  let fix block (l : list stmt) : bool :=
    match l with [] => false | s :: l => uses x s || (negb (declares x s) && block l) end in
  match s with
  | NewGroup _ p => name_eqb x p
  | Go l => name_eqb x Eg || block l
  | Wait => name_eqb x Eg
  | DeclDef _ l => negb (name_eqb x Ctx) && block l
  | CallDef k c => name_eqb x (DefName k) || name_eqb x c
  | Func l => block l
  end.
Fixpoint uses_block (x : name) (l : list stmt) : bool :=
  match l with [] => false | s :: l => uses x s || (negb (declares x s) && uses_block x l) end.
(** Every variable declared is used. *)
Fixpoint all_used (s : stmt) (rest : list stmt) : Prop :=
  let fix block (l : list stmt) : Prop := match l with [] => True | s :: l => all_used s l /\ block l end in
  match s with
  | NewGroup c _ => uses_block c rest = true /\ uses_block Eg rest = true
  | Go l => block l | Func l => block l
  | DeclDef k l => uses_block (DefName k) rest = true /\ block l
  | Wait => True | CallDef _ _ => True
  end.
Fixpoint all_used_block (l : list stmt) : Prop := match l with [] => True | s :: l => all_used s l /\ all_used_block l end.

(** ** What the messages are *)
(** The keys of a message, all levels *)
Fixpoint set_keys (s : dset) : list nat := match s with Set_ ds _ => concat (map def_keys ds) end
with def_keys (d : ddef) : list nat := match d with Def k kind => k :: kind_keys kind end
with kind_keys (k : dkind) : list nat := match k with Plain => [] | Call rs => concat (map rule_keys rs) | Validation r => rule_keys r end
with rule_keys (r : rule) : list nat := match r with Rule s ds => set_keys s ++ concat (map detail_keys ds) end
with detail_keys (d : detail) : list nat := match d with Detail s m => set_keys s ++ set_keys m end.
Definition message_keys (m : message) : list nat := set_keys (defs m) ++ concat (map set_keys (cases m)).

(** Definitions that start a goroutine group in the function itself *)
Fixpoint forks (g : group) : bool := match g with Seq None _ => false | Seq (Some s) _ => forks s | Conc _ _ => true end.
Definition concurrent (s : dset) : bool := match s with Set_ _ [g] => forks g | Set_ _ [] => false | Set_ _ _ => true end.

(** A concurrent group has something to run. *)
Fixpoint nonempty (g : group) : bool :=
  match g with Seq None _ => true | Seq (Some s) _ => nonempty s | Conc ss _ => negb (match ss with [] => true | _ => false end) && forallb nonempty ss end.
(** A set is planned: its groups evaluate exactly its definitions; so at all levels. *)
Definition key_of (d : ddef) : nat := match d with Def k _ => k end.
Definition exactly (ds : list ddef) (gs : list group) : Prop :=
  (forall k, In k (map key_of ds) <-> In k (planned_defs gs)) /\ forallb nonempty gs = true.
Definition at_most_one {A} (f : A -> bool) (l : list A) : Prop := length (filter f l) <= 1.
Definition rule_set (r : rule) : dset := match r with Rule s _ => s end.
Fixpoint fine_set (P : list ddef -> list group -> Prop) (Q : list rule -> Prop) (s : dset) : Prop :=
  match s with Set_ ds gs => P ds gs /\ fold_right and True (map (fine_def P Q) ds) end
with fine_def P Q (d : ddef) : Prop := match d with Def _ k => fine_kind P Q k end
with fine_kind P Q (k : dkind) : Prop := match k with Plain => True | Call rs => Q rs /\ fold_right and True (map (fine_rule P Q) rs) | Validation r => fine_rule P Q r end
with fine_rule P Q (r : rule) : Prop := match r with Rule s ds => fine_set P Q s /\ fold_right and True (map (fine_detail P Q) ds) end
with fine_detail P Q (d : detail) : Prop := match d with Detail s m => fine_set P Q s /\ fine_set P Q m end.
(** In all sets of a message [P] holds, and for the error rules of all calls [Q]. *)
Definition everywhere (P : list ddef -> list group -> Prop) (Q : list rule -> Prop) (m : message) : Prop :=
  fine_set P Q (defs m) /\ fold_right and True (map (fine_set P Q) (cases m)).
(** At most one of the error rules of a call has definitions that start a group. *)
Definition one_concurrent (rs : list rule) : Prop := at_most_one (fun r => concurrent (rule_set r)) rs.

(** A plan in which the definitions are called by their keys instead of their positions *)
Fixpoint rename (f : nat -> nat) (g : group) : group :=
  match g with Seq None e => Seq None (f e) | Seq (Some s) e => Seq (Some (rename f s)) (f e) | Conc ss e => Conc (map (rename f) ss) (f e) end.
