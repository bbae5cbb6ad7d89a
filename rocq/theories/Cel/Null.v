(** Rewriting of comparisons with null.
    Models grpc/federation/cel.go:778-803 (createCELAst), 905-1073 (comparingNullResolver, exprVisitor) and
    cel/cast.go:40-46 (nullValue).
    Simplifications: the in-place mutation of the proto tree is a function returning the new tree; the reference
    and type maps are represented by their largest key; constants other than null are opaque. *)
From Coq Require Import String List ZArith Bool.
From Verif.Base Require Import Result.
Import ListNotations.
Local Open Scope string_scope.

(** exprpb.Constant *)
Inductive const := CNull | COther (text : string).

(** exprpb.Expr: an id and a kind. A struct entry has an optional map key and a value. *)
Inductive expr := Node (id : Z) (k : kind)
with kind :=
| KConst (c : const)
| KIdent (name : string)
| KSelect (operand : expr) (field : string) (test_only : bool)
| KCall (target : option expr) (fn : string) (args : list expr)
| KList (elems : list expr)
| KStruct (name : string) (entries : list (option expr * string * expr))
| KComp (iter accu : string) (range init cond step result : expr).

Definition eid (e : expr) : Z := match e with Node i _ => i end.
Definition ekind (e : expr) : kind := match e with Node _ k => k end.

(** operators.Equals, operators.NotEquals, grpcfedcel.CastNullValueFunc *)
Definition op_equals : string := "_==_".
Definition op_not_equals : string := "_!=_".
Definition cast_null : string := "grpc.federation.cast.null_value".

(** lhs.GetConstExpr().GetConstantKind() is a Constant_NullValue *)
Definition is_null_const (e : expr) : bool := match ekind e with KConst CNull => true | _ => false end.
(** target.GetCallExpr() != nil && Function == CastNullValueFunc *)
Definition is_cast (e : expr) : bool := match ekind e with KCall _ f _ => String.eqb f cast_null | _ => false end.

(** cel.go:974-1007 lookupComparingNullCallExpr: which argument to wrap, if any.
    (An equality with fewer than two arguments cannot come out of the checker.) *)
Inductive side := L | R.
Definition lookup (e : expr) : option side :=
  match ekind e with
  | KCall _ fn (lhs :: rhs :: _) =>
      if String.eqb fn op_equals || String.eqb fn op_not_equals then
        let t := if is_null_const lhs then Some R else None in
        let t := if is_null_const rhs then match t with Some _ => None | None => Some L end else t in
        match t with
        | None => None
        | Some R => if is_cast rhs then None else Some R
        | Some L => if is_cast lhs then None else Some L
        end
      else None
  | _ => None
  end.

(** The resolver: lastID, resolved *)
Record rst := { last_id : Z; resolved : bool }.

(** cel.go:948-972: the target becomes a call of the cast with the old target as argument *)
Definition wrap (new_id : Z) (e : expr) : expr := Node new_id (KCall None cast_null [e]).

(** cel.go:942-972 resolveCallExpr: the callback *)
Definition callback (e : expr) (s : rst) : expr * rst :=
  match lookup e, e with
  | Some L, Node i (KCall t f (lhs :: rest)) =>
      (Node i (KCall t f (wrap (last_id s + 1) lhs :: rest)), {| last_id := last_id s + 1; resolved := true |})
  | Some R, Node i (KCall t f (lhs :: rhs :: rest)) =>
      (Node i (KCall t f (lhs :: wrap (last_id s + 1) rhs :: rest)), {| last_id := last_id s + 1; resolved := true |})
  | _, _ => (e, s)
  end.

Definition omap_st {A B S} (f : A -> S -> option (B * S)) : list A -> S -> option (list B * S) :=
  fix go l s :=
    match l with
    | [] => Some ([], s)
    | x :: l => match f x s with
                | None => None
                | Some (y, s) => match go l s with None => None | Some (ys, s) => Some (y :: ys, s) end
                end
    end.

(** cel.go:1021-1073 exprVisitor.visit: callback first, then the children of the (changed) node.
    [None]: out of fuel. *)
Fixpoint visit (fuel : nat) (e : expr) (s : rst) : option (expr * rst) :=
  match fuel with
  | O => None
  | S fuel =>
      let '(e, s) := callback e s in
      match e with
      | Node i k =>
          match k with
          | KConst _ | KIdent _ => Some (e, s)
          | KSelect o f t =>
              match visit fuel o s with None => None | Some (o, s) => Some (Node i (KSelect o f t), s) end
          | KCall t f args =>
              match omap_st (visit fuel) args s with
              | None => None
              | Some (args, s) =>
                  match t with
                  | None => Some (Node i (KCall None f args), s)
                  | Some t => match visit fuel t s with None => None | Some (t, s) => Some (Node i (KCall (Some t) f args), s) end
                  end
              end
          | KList es => match omap_st (visit fuel) es s with None => None | Some (es, s) => Some (Node i (KList es), s) end
          | KStruct n ents =>
              (* only the value of an entry is visited, not its key *)
              match omap_st (fun '(key, field, v) s => match visit fuel v s with None => None | Some (v, s) => Some ((key, field, v), s) end) ents s with
              | None => None
              | Some (ents, s) => Some (Node i (KStruct n ents), s)
              end
          | KComp it ac r0 i0 c0 s0 res0 =>
              match visit fuel r0 s with None => None | Some (r1, s) =>
              match visit fuel i0 s with None => None | Some (i1, s) =>
              match visit fuel c0 s with None => None | Some (c1, s) =>
              match visit fuel s0 s with None => None | Some (s1, s) =>
              match visit fuel res0 s with None => None | Some (res1, s) =>
                Some (Node i (KComp it ac r1 i1 c1 s1 res1), s)
              end end end end end
          end
      end
  end.

(** cel.go:913-945 init, Resolve. [max_id]: the largest key of the reference and type maps (0 if there is none). *)
Definition resolve (fuel : nat) (max_id : Z) (e : expr) : option (expr * bool) :=
  match visit fuel e {| last_id := max_id; resolved := false |} with
  | None => None
  | Some (e, s) => Some (e, resolved s)
  end.

(** Everything [parser.Unparse] of cel-go v0.23.1 cannot print: a comprehension for which no macro call was recorded;
    neither environment of the code under study records macro calls. *)
Fixpoint has_comp (e : expr) : bool :=
  match e with
  | Node _ k =>
      match k with
      | KConst _ | KIdent _ => false
      | KSelect o _ _ => has_comp o
      | KCall t _ args => existsb has_comp args || match t with Some t => has_comp t | None => false end
      | KList es => existsb has_comp es
      | KStruct _ ents => existsb (fun '(key, _, v) => has_comp v || match key with Some k => has_comp k | None => false end) ents
      | KComp _ _ _ _ _ _ _ => true
      end
  end.

(** cel.go:778-803 createCELAst after the first compilation: the tree that becomes the program, or the error of
    Unparse. Compiling the printed text gives back the tree, up to ids (cel-go). *)
Definition create_ast (fuel : nat) (max_id : Z) (e : expr) : option (result expr string) :=
  match resolve fuel max_id e with
  | None => None
  | Some (e', false) => Some (Ok e)
  | Some (e', true) => if has_comp e' then Some (Err "unsupported expression") else Some (Ok e')
  end.
