(** What rewriting of null comparisons is meant to do. *)
From Coq Require Import String List ZArith Bool.
From Verif.Base Require Import Result.
From Verif.Cel Require Import Null.
Import ListNotations.
Local Open Scope string_scope.

(** [e] is the literal null. *)
Definition null_literal (e : expr) : Prop := exists i, e = Node i (KConst CNull).
(** [e] already is an application of the cast. *)
Definition already_cast (e : expr) : Prop := exists i t args, e = Node i (KCall t cast_null args).
Definition comparison (fn : string) : Prop := fn = "_==_" \/ fn = "_!=_".

(** [l op r] compares the expression on the left (right) with the literal null. *)
Definition compares_left (fn : string) (l r : expr) : Prop :=
  comparison fn /\ null_literal r /\ ~ null_literal l /\ ~ already_cast l.
Definition compares_right (fn : string) (l r : expr) : Prop :=
  comparison fn /\ null_literal l /\ ~ null_literal r /\ ~ already_cast r.

(** [rewritten e e']: [e'] is [e] where, everywhere except in the keys of map literals, exactly the operands compared with
    the literal null are wrapped in the cast. All nodes of [e] keep their ids; the ids of the casts are not constrained
    here. *)
Inductive rewritten : expr -> expr -> Prop :=
| RwConst i c : rewritten (Node i (KConst c)) (Node i (KConst c))
| RwIdent i n : rewritten (Node i (KIdent n)) (Node i (KIdent n))
| RwSelect i o o' f t : rewritten o o' -> rewritten (Node i (KSelect o f t)) (Node i (KSelect o' f t))
| RwLeft i t t' fn l l' r r' rest rest' j : compares_left fn l r ->
    rewritten_opt t t' -> rewritten l l' -> rewritten r r' -> rewritten_all rest rest' ->
    rewritten (Node i (KCall t fn (l :: r :: rest)))
              (Node i (KCall t' fn (Node j (KCall None "grpc.federation.cast.null_value" [l']) :: r' :: rest')))
| RwRight i t t' fn l l' r r' rest rest' j : compares_right fn l r ->
    rewritten_opt t t' -> rewritten l l' -> rewritten r r' -> rewritten_all rest rest' ->
    rewritten (Node i (KCall t fn (l :: r :: rest)))
              (Node i (KCall t' fn (l' :: Node j (KCall None "grpc.federation.cast.null_value" [r']) :: rest')))
| RwCall i t t' fn args args' :
    (forall l r rest, args = l :: r :: rest -> ~ compares_left fn l r /\ ~ compares_right fn l r) ->
    rewritten_opt t t' -> rewritten_all args args' ->
    rewritten (Node i (KCall t fn args)) (Node i (KCall t' fn args'))
| RwList i es es' : rewritten_all es es' -> rewritten (Node i (KList es)) (Node i (KList es'))
| RwStruct i n ents ents' : rewritten_entries ents ents' -> rewritten (Node i (KStruct n ents)) (Node i (KStruct n ents'))
| RwComp i it ac a a' b b' c c' d d' f f' :
    rewritten a a' -> rewritten b b' -> rewritten c c' -> rewritten d d' -> rewritten f f' ->
    rewritten (Node i (KComp it ac a b c d f)) (Node i (KComp it ac a' b' c' d' f'))
with rewritten_opt : option expr -> option expr -> Prop :=
| RwNone : rewritten_opt None None
| RwSome e e' : rewritten e e' -> rewritten_opt (Some e) (Some e')
with rewritten_all : list expr -> list expr -> Prop :=
| RwNil : rewritten_all [] []
| RwCons e e' es es' : rewritten e e' -> rewritten_all es es' -> rewritten_all (e :: es) (e' :: es')
with rewritten_entries : list (option expr * string * expr) -> list (option expr * string * expr) -> Prop :=
| RwENil : rewritten_entries [] []
| RwECons key f v v' es es' : rewritten v v' -> rewritten_entries es es' ->
    rewritten_entries ((key, f, v) :: es) ((key, f, v') :: es').

(** All ids of a tree, keys of map literals included. *)
Fixpoint ids (e : expr) : list Z :=
  match e with
  | Node i k =>
      (i :: match k with
            | KConst _ | KIdent _ => []
            | KSelect o _ _ => ids o
            | KCall t _ args => flat_map ids args ++ match t with Some t => ids t | None => [] end
            | KList es => flat_map ids es
            | KStruct _ ents => flat_map (fun '(key, _, v) => match key with Some k => ids k | None => [] end ++ ids v) ents
            | KComp _ _ a b c d f => ids a ++ ids b ++ ids c ++ ids d ++ ids f
            end)%list
  end.

(** ** Meaning *)
Section Meaning.
  (** Values; [nullish]: null, or a nil pointer of a message type. Functions get the outcomes of their arguments, so that
      they may be lazy or tolerate errors. *)
  Variable V E : Type.
  Variable vnull : V.
  Variable nullish : V -> bool.
  Variable vbool : bool -> V.
  Variable vconst : string -> V.
  Variable vselect : V -> string -> bool -> result V E.
  Variable apply : string -> option (result V E) -> list (result V E) -> result V E.
  Variable vlist : list (result V E) -> result V E.
  Variable vstruct : string -> list (option (result V E) * string * result V E) -> result V E.
  (** a fold over the range: the environment of the condition and of the step, the environment of the result *)
  Variable fold : result V E -> result V E -> (V -> result V E -> result V E) -> (V -> result V E -> result V E) ->
                  (result V E -> result V E) -> result V E.

  Definition env := string -> result V E.
  Definition upd (r : env) (x : string) (v : result V E) : env := fun y => if String.eqb x y then v else r y.

  (** The ordinary meaning of an expression. *)
  Fixpoint meaning (r : env) (e : expr) : result V E :=
    match e with
    | Node _ k =>
        match k with
        | KConst CNull => Ok vnull
        | KConst (COther t) => Ok (vconst t)
        | KIdent x => r x
        | KSelect o f t => match meaning r o with Ok v => vselect v f t | Err e => Err e end
        | KCall t f args => apply f (match t with Some t => Some (meaning r t) | None => None end) (map (meaning r) args)
        | KList es => vlist (map (meaning r) es)
        | KStruct n ents => vstruct n (map (fun '(key, f, v) => (match key with Some k => Some (meaning r k) | None => None end, f, meaning r v)) ents)
        | KComp it ac a b c d f =>
            fold (meaning r a) (meaning r b)
              (fun x acc => meaning (upd (upd r it (Ok x)) ac acc) c)
              (fun x acc => meaning (upd (upd r it (Ok x)) ac acc) d)
              (fun acc => meaning (upd r ac acc) f)
        end
    end.

  (** Outcome of comparing with null. *)
  Definition null_test (fn : string) (o : result V E) : result V E :=
    match o with
    | Err e => Err e
    | Ok v => Ok (vbool (if String.eqb fn "_==_" then nullish v else negb (nullish v)))
    end.

  (** The intended meaning: as the ordinary one, but [e == null] ([e != null]) asks whether the value of [e] is null or a nil
      message. *)
  Fixpoint intended (r : env) (e : expr) : result V E :=
    match e with
    | Node _ k =>
        match k with
        | KConst CNull => Ok vnull
        | KConst (COther t) => Ok (vconst t)
        | KIdent x => r x
        | KSelect o f t => match intended r o with Ok v => vselect v f t | Err e => Err e end
        | KCall None f ([a; Node _ (KConst CNull)]) =>
            if String.eqb f "_==_" || String.eqb f "_!=_" then null_test f (intended r a)
            else apply f None [intended r a; Ok vnull]
        | KCall None f ([Node _ (KConst CNull); a]) =>
            if String.eqb f "_==_" || String.eqb f "_!=_" then null_test f (intended r a)
            else apply f None [Ok vnull; intended r a]
        | KCall t f args => apply f (match t with Some t => Some (intended r t) | None => None end) (map (intended r) args)
        | KList es => vlist (map (intended r) es)
        | KStruct n ents => vstruct n (map (fun '(key, f, v) => (match key with Some k => Some (intended r k) | None => None end, f, intended r v)) ents)
        | KComp it ac a b c d f =>
            fold (intended r a) (intended r b)
              (fun x acc => intended (upd (upd r it (Ok x)) ac acc) c)
              (fun x acc => intended (upd (upd r it (Ok x)) ac acc) d)
              (fun acc => intended (upd r ac acc) f)
        end
    end.
End Meaning.

(** Comparison calls are global calls of two arguments, as the CEL parser makes them. *)
Fixpoint parsed (e : expr) : Prop :=
  match e with
  | Node _ k =>
      match k with
      | KConst _ | KIdent _ => True
      | KSelect o _ _ => parsed o
      | KCall t f args =>
          (f = "_==_" \/ f = "_!=_" -> t = None /\ length args = 2) /\
          (f = "grpc.federation.cast.null_value" -> t = None /\ length args = 1) /\
          (fix all l := match l with [] => True | a :: l => parsed a /\ all l end) args /\
          match t with Some t => parsed t | None => True end
      | KList es => (fix all l := match l with [] => True | a :: l => parsed a /\ all l end) es
      | KStruct _ ents => (fix all l := match l with [] => True | (key, _, v) :: l => match key with Some k => parsed k | None => True end /\ parsed v /\ all l end) ents
      | KComp _ _ a b c d f => parsed a /\ parsed b /\ parsed c /\ parsed d /\ parsed f
      end
  end.
(** No key of a map literal compares anything with null. *)
Definition null_free_call (f : string) (args : list expr) : Prop :=
  match args with [a; b] => ~ compares_left f a b /\ ~ compares_right f a b | _ => True end.
Fixpoint null_free (e : expr) : Prop :=
  match e with
  | Node _ k =>
      match k with
      | KConst _ | KIdent _ => True
      | KSelect o _ _ => null_free o
      | KCall t f args => null_free_call f args /\
          (fix all l := match l with [] => True | a :: l => null_free a /\ all l end) args /\
          match t with Some t => null_free t | None => True end
      | KList es => (fix all l := match l with [] => True | a :: l => null_free a /\ all l end) es
      | KStruct _ ents => (fix all l := match l with [] => True | (key, _, v) :: l => match key with Some k => null_free k | None => True end /\ null_free v /\ all l end) ents
      | KComp _ _ a b c d f => null_free a /\ null_free b /\ null_free c /\ null_free d /\ null_free f
      end
  end.
Fixpoint keys_null_free (e : expr) : Prop :=
  match e with
  | Node _ k =>
      match k with
      | KConst _ | KIdent _ => True
      | KSelect o _ _ => keys_null_free o
      | KCall t _ args =>
          (fix all l := match l with [] => True | a :: l => keys_null_free a /\ all l end) args /\
          match t with Some t => keys_null_free t | None => True end
      | KList es => (fix all l := match l with [] => True | a :: l => keys_null_free a /\ all l end) es
      | KStruct _ ents => (fix all l := match l with [] => True | (key, _, v) :: l => match key with Some k => null_free k | None => True end /\ keys_null_free v /\ all l end) ents
      | KComp _ _ a b c d f => keys_null_free a /\ keys_null_free b /\ keys_null_free c /\ keys_null_free d /\ keys_null_free f
      end
  end.
