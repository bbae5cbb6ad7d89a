(** * What the calls in an expression mean *)

From Coq Require Import Ascii String List Bool Arith.
From Verif.Base Require Import Text.
From Verif.Bind Require Import Model.
Import ListNotations.
Local Open Scope string_scope.

(** A function is declared by CEL and its users otherwise ([own]), or is bound by the library
    or a plugin; the same for methods. *)
Definition function (E : env) (own : bool) (n : string) : Prop :=
  if own then In n (functions E) else In (Func n) (bindings E).
Definition method (E : env) (own : bool) (f : string) : Prop :=
  if own then In f (methods E) else In (Meth f) (bindings E).

Definition declared (E : env) (n : string) : Prop := exists own, function E own n.

(** The full name [n] that [name] stands for: the container is prefixed, or what is left of
    it from some point on is cut off; the longest that is declared. *)
Definition within (E : env) (p : list string) : Prop := exists s, container E = (p ++ s)%list.
Definition stands_for (E : env) (name n : string) : Prop :=
  exists p, within E p /\ n = join "." (p ++ [name])%list /\ declared E n /\
    forall p', within E p' -> List.length p < List.length p' -> ~ declared E (join "." (p' ++ [name])%list).

Definition plain (f : string) : Prop := has_char "." f = false.

(** An expression that is a qualified name. *)
Inductive dotted : expr -> string -> Prop :=
| dotted_ident : forall x, x <> "" -> plain x -> dotted (Ident x) x
| dotted_select : forall e f q, plain f -> dotted e q -> dotted (Select e f) (q ++ "." ++ f).

(** What an expression means that somebody writes: each function and method is called with the
    arguments written.  A call with a qualified name before it is that of a function, if there
    is one.  The meaning is limited to the calls with a dot for which [P own is_method f]. *)
Inductive means (E : env) (P : bool -> bool -> string -> Prop) : expr -> target -> Prop :=
| means_const : forall n, means E P (Const n) (ConstT n)
| means_ident : forall x, x <> "" -> plain x -> x <> context_name -> means E P (Ident x) (IdentT x)
| means_select : forall e f r, plain f -> means E P e r -> means E P (Select e f) (SelectT r f)
| means_list : forall l rs, Forall2 (means E P) l rs -> means E P (List l) (ListT rs)
| means_call : forall f args n rs, plain f -> stands_for E f n -> function E true n ->
    Forall2 (means E P) args rs -> means E P (Call f args) (FuncT true n rs)
| means_macro : forall t f args r rs, plain f -> In (f, List.length args) (fixed E) ->
    means E P t r -> Forall2 (means E P) args rs -> means E P (Member t f args) (MacroT r f rs)
| means_function : forall t f args q own n rs, plain f -> ~ In (f, List.length args) (fixed E) ->
    dotted t q -> stands_for E (q ++ "." ++ f) n -> function E own n -> P own false f ->
    Forall2 (means E P) args rs -> means E P (Member t f args) (FuncT own n rs)
| means_method : forall t f args own r rs, plain f -> ~ In (f, List.length args) (fixed E) ->
    (forall q n, dotted t q -> ~ stands_for E (q ++ "." ++ f) n) -> method E own f -> P own true f ->
    means E P t r -> Forall2 (means E P) args rs -> means E P (Member t f args) (MethT own r f rs).

Definition anything (own is_method : bool) (f : string) : Prop := True.

(** The last part of the name of a binding. *)
Definition named (f : string) (b : binding) : Prop :=
  match b with Func n => n = f \/ exists p, n = p ++ "." ++ f | Meth n => n = f end.

(** A function or method that is declared otherwise is within reach if nothing is bound under
    the last part of its name; a bound method, if no function is bound under its name after
    it; a bound function always. *)
Definition within_reach (E : env) (own is_method : bool) (f : string) : Prop :=
  if own then forall b, In b (bindings E) -> ~ named f b
  else if is_method then
    forall before b after, bindings E = (before ++ b :: after)%list -> named f b -> (exists n, b = Func n) ->
      exists b', In b' after /\ named f b' /\ b' = Meth f
  else True.

(** ** Generator and service *)

(** Two resolved expressions call the same functions and methods with the same arguments. *)
Inductive same_calls : target -> target -> Prop :=
| same_const : forall n, same_calls (ConstT n) (ConstT n)
| same_ident : forall x, same_calls (IdentT x) (IdentT x)
| same_select : forall r r' f, same_calls r r' -> same_calls (SelectT r f) (SelectT r' f)
| same_list : forall l l', Forall2 same_calls l l' -> same_calls (ListT l) (ListT l')
| same_function : forall o o' n rs rs', Forall2 same_calls rs rs' -> same_calls (FuncT o n rs) (FuncT o' n rs')
| same_method : forall o o' r r' f rs rs', same_calls r r' -> Forall2 same_calls rs rs' ->
    same_calls (MethT o r f rs) (MethT o' r' f rs')
| same_macro : forall r r' f rs rs', same_calls r r' -> Forall2 same_calls rs rs' ->
    same_calls (MacroT r f rs) (MacroT r' f rs').

(** [f] is called by its bare name somewhere in the expression. *)
Inductive bare_call (f : string) : expr -> Prop :=
| bare_here : forall args, bare_call f (Call f args)
| bare_select : forall e g, bare_call f e -> bare_call f (Select e g)
| bare_list : forall l e, In e l -> bare_call f e -> bare_call f (List l)
| bare_args : forall g args e, In e args -> bare_call f e -> bare_call f (Call g args)
| bare_target : forall t g args, bare_call f t -> bare_call f (Member t g args)
| bare_member : forall t g args e, In e args -> bare_call f e -> bare_call f (Member t g args).

(** No function or method of a plugin has the last name of another function or method. *)
Definition separate (plugins : list binding) (fs : list string) : Prop :=
  forall b f, In b plugins -> named f b ->
    ~ In f cel_methods /\
    (forall n, In n fs -> ~ named f (Func n)) /\
    (forall n, b = Func n -> ~ In (Meth f) library /\ ~ In (Meth f) plugins).

(** Names stand for the same functions in both environments. *)
Definition names_agree (E E' : env) : Prop := forall name n, stands_for E name n <-> stands_for E' name n.
