(** The phase of the resolver that gives every expression of a message its
    type: which variables an expression may use, which type the variable of a
    definition gets, and which type each place asks for
    (resolver/resolver.go:3841-4398), with the part of the phase before it that
    looks for the source of a map (resolver.go:2426-2437, 2482-2515,
    context.go:78-88).

    What is simplified.  The CEL checker of cel-go is an oracle; it also stands
    for the two rewritings of the text before it (resolver.go:4429-4434).  The
    two phases are one traversal here, so the order of the errors differs and
    only their presence is used.  The types of the fields of requests
    (validateRequestFieldType) and the names of messages, enums and methods are
    resolved elsewhere (C38, C39).  Locations of errors are left out (C74). *)

From Coq Require Import String List Bool.
Import ListNotations.
Local Open Scope list_scope.
Local Open Scope string_scope.

(** The types of CEL that fromCELType tells apart: cel-go's [Type].  A message
    type stands for wrappers, timestamps, durations and Any as well: they are
    messages for the resolver.  [COpt] is an opaque type that is neither an enum
    nor a selector of enums. *)
Inductive celty : Type :=
| CBool
| CString
| CInt
| CUint
| CDouble
| CBytes
| CNull
| CDyn
| CObj (msg : string)
| CEnum (enum : string)
| CSel (a b : celty)
| CMap (k v : celty)
| CList (t : celty)
| COpt (t : celty).

(** resolver/types.go:407-418 [Type]: a kind with its message or enum, and the
    flag [Repeated].  The message of an entry of a map and the one of a selector
    of enums carry the types of their two fields. *)
Inductive kind : Type :=
| KBool
| KString
| KInt
| KUint
| KDouble
| KBytes
| KNull
| KMsg (msg : string)
| KEntry (k v : ty)
| KSelector (a b : ty)
| KEnum (enum : string)
with ty : Type :=
| Ty (k : kind) (repeated : bool).

(** The field [Kind] of a type. *)
Definition kind_of (t : ty) : kind := match t with Ty k _ => k end.

(** The field [Repeated] of a type. *)
Definition repeated_of (t : ty) : bool := match t with Ty _ r => r end.

(** A clone of a type with [Repeated] set: resolver.go:4000-4001, 4015-4016,
    4831-4833. *)
Definition with_repeated (t : ty) (r : bool) : ty := match t with Ty k _ => Ty k r end.

(** Whether a type has an enum or is a selector: resolver.go:4872. *)
Definition selectable (t : ty) : bool :=
  match kind_of t with
  | KEnum _ => true
  | KSelector _ _ => true
  | _ => false
  end.

(** resolver.go:4780-4885 [fromCELType]; [None] is an error. *)
Fixpoint from_cel (t : celty) : option ty :=
  match t with
  | CBool => Some (Ty KBool false)
  | CString => Some (Ty KString false)
  | CInt => Some (Ty KInt false)
  | CUint => Some (Ty KUint false)
  | CDouble => Some (Ty KDouble false)
  | CBytes => Some (Ty KBytes false)
  | CNull => Some (Ty KNull false)
  | CDyn => None
  | CObj m => Some (Ty (KMsg m) false)
  | CEnum e => Some (Ty (KEnum e) false)
  | CMap k v =>
      match from_cel k, from_cel v with
      | Some k', Some v' => Some (Ty (KEntry k' v') false)
      | _, _ => None
      end
  | CList e =>
      match from_cel e with
      | Some e' => Some (with_repeated e' true)
      | None => None
      end
  | CSel a b =>
      match from_cel a, from_cel b with
      | Some a', Some b' =>
          if selectable a' && selectable b' then Some (Ty (KSelector a' b') false) else None
      | _, _ => None
      end
  | COpt e => from_cel e
  end.

(** resolver/cel.go:94-123 [toCELType], 125-129 [toEnumSelectorCELType]: the
    flag [Repeated] is not looked at. *)
Fixpoint to_cel_kind (k : kind) : celty :=
  match k with
  | KBool => CBool
  | KString => CString
  | KInt => CInt
  | KUint => CUint
  | KDouble => CDouble
  | KBytes => CBytes
  | KNull => CNull
  | KMsg m => CObj m
  | KEntry (Ty a _) (Ty b _) => CMap (to_cel_kind a) (to_cel_kind b)
  | KSelector (Ty a _) (Ty b _) => CSel (to_cel_kind a) (to_cel_kind b)
  | KEnum e => CEnum e
  end.

(** resolver/cel.go:87-92 [ToCELType]. *)
Definition to_cel (t : ty) : celty :=
  if repeated_of t then CList (to_cel_kind (kind_of t)) else to_cel_kind (kind_of t).

(** An argument of a request: its value, absent if the option has none, and its
    condition, absent if it has none (resolver.go:3498-3539). *)
Record arg : Type := { a_by : option string; a_if : option string }.

(** The expression of a map: resolver.go:2517-2527 [resolveMapIteratorExpr].  A map
    without one is not modelled: the resolver stops with a nil pointer for it
    (resolver.go:4022). *)
Inductive body : Type :=
| BBy (e : string)
| BMsg (args : list (option string)) (msg : string)
| BEnum (enum : string) (by_ : string).

(** The definitions of variables, the handlers of errors and their details:
    [VariableDefinition] (its condition and its expression), [GRPCError],
    [GRPCErrorDetail] of resolver/types.go.  The conditions of a handler and of a
    detail are always there ("true" if the option has none,
    resolver.go:2757-2762).  The texts of a detail are the expressions of its
    precondition failures, bad requests and localized messages in the order in
    which they are checked. *)
Inductive vdef : Type :=
| VDef (name : string) (cond : option string) (x : vexpr)
with vdefs : Type :=
| DNil
| DCons (d : vdef) (r : vdefs)
with vexpr : Type :=
| XNone
| XBy (e : string)
| XMap (iter : string) (src : string) (b : body)
| XCall (args : list arg) (retry : option string) (errs : gerrs) (response : string)
| XMsg (args : list (option string)) (msg : string)
| XEnum (enum : string) (by_ : string)
| XValid (g : gerr)
with gerr : Type :=
| GErr (defs : vdefs) (cond : string) (ignore_and_response : option string)
       (message : option string) (ds : details)
with gerrs : Type :=
| GNil
| GCons (g : gerr) (r : gerrs)
with detail : Type :=
| Det (defs : vdefs) (cond : string) (bys : list string) (msgs : vdefs) (texts : list string)
with details : Type :=
| TNil
| TCons (d : detail) (r : details).

(** The rule of a field: [FieldRule] with its value or its oneof
    (resolver.go:3849-3902). *)
Record oneof : Type := { o_if : option string; o_defs : vdefs; o_by : option string }.
Inductive rule : Type :=
| RNone
| RValue (e : string)
| ROneof (o : oneof).

(** A message: the definitions of its option and the rules of its fields. *)
Record message : Type := { m_defs : vdefs; m_fields : list rule }.

(** The errors of the phase. *)
Inductive err : Type :=
| ECheck (e : string)        (* the checker or fromCELType refused the text *)
| EBool (e : string)         (* "if" must be bool *)
| EString (e : string)       (* must always return a string value *)
| EMessage (e : string)      (* "by" must always return a message value *)
| EResponse (e : string)     (* value must be the response type *)
| EEnum (e : string)         (* enum must always return a enum value *)
| EAlias (e : string)        (* required specify alias *)
| EIterName                  (* map iterator name must be specified *)
| EIterSrc                   (* map iterator src must be specified *)
| EIterUndef (src : string)  (* variable is not defined *)
| EIterType                  (* src value type could not be determined *)
| EIterRepeated.             (* src value type must be repeated type *)

(** The environment of the checker: the newest variable first. *)
Definition env : Type := list (string * celty).

(** The variables the phase before keeps in [variableMap], with the type this
    phase finds for them; the newest first. *)
Definition locals : Type := list (string * option ty).

(** A lookup in a list that has the newest entry first. *)
Fixpoint look {A : Type} (l : list (string * A)) (n : string) : option A :=
  match l with
  | [] => None
  | (k, v) :: r => if String.eqb k n then Some v else look r n
  end.

Section Check.
  (** [env.Compile] and [OutputType] of cel-go: resolver.go:4435-4443. *)
  Variable chk : env -> string -> option celty.
  (** resolver.go [findEnumAliasName]: whether the first enum has an alias for
      the second. *)
  Variable alias : string -> string -> bool.

  (** resolver.go:4425-4454 [resolveCELValue]: the type of the text. *)
  Definition resolve_cel (G : env) (e : string) : option ty :=
    match chk G e with
    | Some t => from_cel t
    | None => None
    end.

  (** The text is checked and nothing is asked of its type: e.g.
      resolver.go:3856-3865. *)
  Definition check_any (G : env) (e : string) : list err :=
    match resolve_cel G e with
    | Some _ => []
    | None => [ECheck e]
    end.

  (** A value that may be absent: resolver.go:4426-4428, 4043-4045. *)
  Definition check_opt (f : string -> list err) (e : option string) : list err :=
    match e with
    | Some s => f s
    | None => []
    end.

  (** The condition: resolver.go:3909-3928, 4061-4077, 4084-4099, 4140-4155,
      4205-4220, 3871-3888. *)
  Definition check_bool (G : env) (e : string) : list err :=
    match resolve_cel G e with
    | None => [ECheck e]
    | Some t => match kind_of t with KBool => [] | _ => [EBool e] end
    end.

  (** A text that must be a string: resolver.go:4176-4193, 4246-4349. *)
  Definition check_string (G : env) (e : string) : list err :=
    match resolve_cel G e with
    | None => [ECheck e]
    | Some t => match kind_of t with KString => [] | _ => [EString e] end
    end.

  (** A text that must be a message: resolver.go:4221-4238.  The kind of an entry
      of a map and of a selector of enums is a message, too. *)
  Definition check_message_kind (G : env) (e : string) : list err :=
    match resolve_cel G e with
    | None => [ECheck e]
    | Some t =>
        match kind_of t with
        | KMsg _ | KEntry _ _ | KSelector _ _ => []
        | _ => [EMessage e]
        end
    end.

  (** The response of an ignored error: resolver.go:4156-4175; [None] for the
      response is the one of a validation. *)
  Definition check_response (G : env) (response : option string) (e : string) : list err :=
    match resolve_cel G e with
    | None => [ECheck e]
    | Some t =>
        match response with
        | None => []
        | Some m =>
            match kind_of t with
            | KMsg m' => if String.eqb m' m then [] else [EResponse e]
            | _ => [EResponse e]
            end
        end
    end.

  (** resolver.go:4107-4131 [resolveMessageExprCELValues]. *)
  Definition check_msg (G : env) (args : list (option string)) (m : string)
    : list err * option ty :=
    (flat_map (check_opt (check_any G)) args, Some (Ty (KMsg m) false)).

  (** resolver.go:4353-4398 [resolveEnumExprCELValues]. *)
  Definition check_enum (G : env) (to_ : string) (by_ : string) : list err * option ty :=
    (match resolve_cel G by_ with
     | None => [ECheck by_]
     | Some t =>
         match kind_of t with
         | KEnum from =>
             if String.eqb from to_ then []
             else if alias from to_ then [] else [EAlias by_]
         | KSelector _ _ => []
         | _ => [EEnum by_]
         end
     end,
     Some (Ty (KEnum to_) false)).

  (** resolver.go:4020-4038 [resolveMapIteratorExprCELValues]. *)
  Definition check_body (G : env) (b : body) : list err * option ty :=
    match b with
    | BBy e => (check_any G e, resolve_cel G e)
    | BMsg args m => check_msg G args m
    | BEnum en by_ => check_enum G en by_
    end.

  (** resolver.go:4013-4017. *)
  Definition map_type (r : list err * option ty) : list err * option ty :=
    (fst r, match snd r with Some t => Some (with_repeated t true) | None => None end).

  (** resolver.go:2482-2515 [resolveMapIterator] and 3976-4018
      [resolveMapExprCELValues]. *)
  Definition check_map (G : env) (L : locals) (iter src : string) (b : body)
    : list err * option ty :=
    let ename := if String.eqb iter "" then [EIterName] else [] in
    let '(esrc, source) :=
      if String.eqb src "" then ([EIterSrc], None)
      else match look L src with
           | None => ([EIterUndef src], None)
           | Some t => ([], Some t)
           end in
    let '(es, t) :=
      if String.eqb iter "" then map_type (check_body G b)
      else match source with
           | None => map_type (check_body G b)
           | Some None => ([EIterType], None)
           | Some (Some st) =>
               if repeated_of st
               then map_type (check_body ((iter, to_cel (with_repeated st false)) :: G) b)
               else ([EIterRepeated], None)
           end in
    ((ename ++ esrc ++ es)%list, t).

  (** An argument of a request: resolver.go:4042-4079. *)
  Definition check_arg (G : env) (a : arg) : list err :=
    match a_by a with
    | None => []
    | Some e => (check_any G e ++ check_opt (check_bool G) (a_if a))%list
    end.

  (** The variable of the error in retries and handlers: resolver.go:4081-4083. *)
  Definition error_var : string * celty := ("error", CObj "grpc.federation.private.Error").

  (** Whether the phase before replaces the map of variables while it works on
      the expression: a call with handlers and a validation resolve nested
      definitions with the context of the definition, whose map is cleared
      (resolver.go:2427), so that the definition itself is then added to the new
      map (resolver.go:2433), which nobody looks at again. *)
  Definition map_replaced (x : vexpr) : bool :=
    match x with
    | XCall _ _ (GCons _ _) _ => true
    | XValid _ => true
    | _ => false
    end.

  (** resolver.go:2426-2437: the variables kept for the maps of the same list. *)
  Definition keep (L : locals) (n : string) (x : vexpr) (t : option ty) : locals :=
    if map_replaced x then L else (n, t) :: L.

  (** resolver.go:3934-3945: the variable is added if it has a name and a type. *)
  Definition extend (G : env) (n : string) (t : option ty) : env :=
    match t with
    | Some t' => if String.eqb n "" then G else (n, to_cel t') :: G
    | None => G
    end.

  (** resolver.go:3907-3946 [resolveVariableDefinitionCELValues], 3948-3974
      [resolveVariableExprCELValues], 4040-4105 [resolveCallExprCELValues],
      4133-4198 [resolveGRPCErrorCELValues], 4200-4351
      [resolveGRPCErrorDetailCELValues].  [vdefs] is the loop over a list, e.g.
      resolver.go:3845-3848; the list of kept variables starts empty for each
      list (resolver.go:2427). *)
  Fixpoint check_def (G : env) (L : locals) (d : vdef) : list err * env * locals :=
    match d with
    | VDef n c x =>
        let ec := check_opt (check_bool G) c in
        let '(ex, t) := check_expr G L x in
        ((ec ++ ex)%list, extend G n t, keep L n x t)
    end
  with check_defs (G : env) (L : locals) (ds : vdefs) : list err * env :=
    match ds with
    | DNil => ([], G)
    | DCons d r =>
        let '(e1, G1, L1) := check_def G L d in
        let '(e2, G2) := check_defs G1 L1 r in
        ((e1 ++ e2)%list, G2)
    end
  with check_expr (G : env) (L : locals) (x : vexpr) : list err * option ty :=
    match x with
    | XNone => ([], None)
    | XBy e => (check_any G e, resolve_cel G e)
    | XMap iter src b => check_map G L iter src b
    | XCall args retry errs m =>
        let G' := error_var :: G in
        ((flat_map (check_arg G) args
          ++ check_opt (check_bool G') retry
          ++ check_errs G' (Some m) errs)%list,
         Some (Ty (KMsg m) false))
    | XMsg args m => check_msg G args m
    | XEnum en by_ => check_enum G en by_
    | XValid g => (check_err G None g, Some (Ty KBool false))
    end
  with check_err (G : env) (response : option string) (g : gerr) : list err :=
    match g with
    | GErr defs c ig msg ds =>
        let '(e1, G1) := check_defs G [] defs in
        (e1 ++ check_bool G1 c
         ++ check_opt (check_response G1 response) ig
         ++ check_opt (check_string G1) msg
         ++ check_details G1 ds)%list
    end
  with check_errs (G : env) (response : option string) (gs : gerrs) : list err :=
    match gs with
    | GNil => []
    | GCons g r => (check_err G response g ++ check_errs G response r)%list
    end
  with check_detail (G : env) (d : detail) : list err :=
    match d with
    | Det defs c bys msgs texts =>
        let '(e1, G1) := check_defs G [] defs in
        let '(e2, G2) := check_defs G1 [] msgs in
        (e1 ++ check_bool G1 c
         ++ flat_map (check_message_kind G1) bys
         ++ e2
         ++ flat_map (check_string G2) texts)%list
    end
  with check_details (G : env) (ds : details) : list err :=
    match ds with
    | TNil => []
    | TCons d r => (check_detail G d ++ check_details G r)%list
    end.

  (** The rule of a field: resolver.go:3849-3902. *)
  Definition check_rule (G : env) (r : rule) : list err :=
    match r with
    | RNone => []
    | RValue e => check_any G e
    | ROneof o =>
        let e1 := check_opt (check_bool G) (o_if o) in
        let '(e2, G1) := check_defs G [] (o_defs o) in
        (e1 ++ e2 ++ check_opt (check_any G1) (o_by o))%list
    end.

  (** resolver.go:3841-3905 [resolveMessageCELValues]; the first environment is
      the one of createMessageCELEnv (resolver.go:4476-4502). *)
  Definition check_message (G : env) (m : message) : list err :=
    let '(e1, G1) := check_defs G [] (m_defs m) in
    (e1 ++ flat_map (check_rule G1) (m_fields m))%list.
End Check.
