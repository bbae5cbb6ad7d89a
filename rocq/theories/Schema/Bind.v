(** How the fields of a message get their values: the options of the fields, automatic binding, the checks on them, and the
    generated code that fills the response.
    Models: resolver/resolver.go (resolveFieldRule, resolveAutoBindFields, validateFieldsOneofRule, validateMessageFields),
    generator/code_generator.go (ReturnFields, oneofValueToReturnField, autoBindFieldToReturnField,
    celValueToReturnField), generator/templates/server.go.tmpl ("field binding section").
    Simplified: expressions, definitions of oneof branches and conversions are oracles, see [Exec]; the definitions of a
    branch are visible in that branch only (names are unique in a message). Not modelled: error locations. *)
From Coq Require Import String List Bool Arith.
From Verif.Cast Require Import Model.
From Verif.Schema Require Import Model.
Import ListNotations.
Local Open Scope nat_scope.

Section Bind.
  Variables (expr defs : Type).

  (** federation.FieldOneof: "if" and "default" exclude each other (members of one protobuf oneof); [o_if = None] and
      [o_default = false] if neither is set. [o_type]: the type of "by". *)
  Record orule := { o_if : option expr; o_default : bool; o_defs : defs; o_by : expr; o_type : ty }.

  (** federation.FieldRule: "custom_resolver", "by" and "alias" exclude each other (resolver.go:5119-5151 resolveValue);
      "oneof" and "env" come first. *)
  Inductive fopt := ONone | OBy (e : expr) (t : ty) | OCustom (b : bool) | OAlias (name : string) | OOneof (r : orule) | OEnv.

  Record fdecl := { f_name : string; f_type : ty; f_oneof : option string; f_opt : fopt }.
  (** A variable definition, as far as automatic binding uses it. *)
  Record vdef := { d_name : string; d_auto : bool; d_type : ty }.
  (** A message with a "grpc.federation.message" option. *)
  Record mdecl := { m_fields : list fdecl; m_oneofs : list string; m_defs : list vdef; m_custom : bool; m_aliases : list nat }.

  (** resolver/types.go FieldRule. *)
  Record frule := { r_value : option (expr * ty); r_custom : bool; r_msg_custom : bool; r_aliases : list (nat * string);
                    r_auto : option (vdef * (string * ty)); r_oneof : option orule; r_env : bool }.
  Definition empty_rule := {| r_value := None; r_custom := false; r_msg_custom := false; r_aliases := []; r_auto := None;
                              r_oneof := None; r_env := false |}.

  Variable s : schema.
  (** The fields of the messages (name, type). *)
  Variable fields_of : nat -> list (string * ty).
  Definition lookup (n : string) (l : list (string * ty)) : option ty :=
    option_map snd (find (fun f => String.eqb (fst f) n) l).

  (** resolver.go:3066-3095 resolveFieldAlias, 3032-3064 resolveFieldRuleByAutoAlias *)
  Definition resolveFieldAlias (f : fdecl) (name : string) (m : nat) : option (nat * string) :=
    match lookup name (fields_of m) with
    | Some t => if isDifferentType (f_type f) t then None else Some (m, name)
    | None => None
    end.
  Fixpoint all {A B} (g : A -> option B) (l : list A) : option (list B) :=
    match l with
    | [] => Some []
    | a :: l => match g a, all g l with Some b, Some r => Some (b :: r) | _, _ => None end
    end.

  (** resolver.go:2917-2977 resolveFieldRule. [None]: an error was reported; [Some None]: no rule. *)
  Definition resolveFieldRule (m : mdecl) (f : fdecl) : option (option frule) :=
    match f_opt f with
    | ONone =>
        if negb (m_custom m) && Nat.eqb (length (m_aliases m)) 0 then Some None
        else match all (resolveFieldAlias f (f_name f)) (m_aliases m) with
             | Some l => Some (Some {| r_value := None; r_custom := false; r_msg_custom := m_custom m; r_aliases := l;
                                       r_auto := None; r_oneof := None; r_env := false |})
             | None => None
             end
    | o =>
        let alias := match o with OAlias n => n | _ => f_name f end in
        match o, m_aliases m with
        | OAlias _, [] => None
        | _, _ =>
            match o, f_oneof f with
            | OOneof _, None => None
            | _, _ =>
                match all (resolveFieldAlias f alias) (m_aliases m) with
                | Some l => Some (Some {| r_value := match o with OBy e t => Some (e, t) | _ => None end;
                                          r_custom := match o with OCustom b => b | _ => false end; r_msg_custom := false;
                                          r_aliases := l; r_auto := None;
                                          r_oneof := match o with OOneof r => Some r | _ => None end;
                                          r_env := match o with OEnv => true | _ => false end |})
                | None => None
                end
            end
        end
    end.

  (** resolver.go:1381-1402: the fields an automatically bound definition offers under a name. *)
  Definition offered (t : ty) : list (string * ty) :=
    match base_of t with
    | BMsg i => fields_of i
    | BMap k v => [("key", k); ("value", v)]%string
    | BSelector a b => [("true", a); ("false", b)]%string
    | _ => []
    end.
  Definition candidates (m : mdecl) (n : string) : list (vdef * (string * ty)) :=
    flat_map (fun d => if d_auto d then map (pair d) (filter (fun f => String.eqb (fst f) n) (offered (d_type d))) else [])
             (m_defs m).

  (** resolver.go:1403-1437: automatic binding of a field without a rule. [None]: an error was reported. *)
  Definition autobind (m : mdecl) (f : fdecl) (r : option frule) : option (option frule) :=
    match r with
    | Some r => Some (Some r)
    | None =>
        if m_custom m then Some None
        else match candidates m (f_name f) with
             | [] => Some None
             | [c] => if isDifferentType (snd (snd c)) (f_type f) then Some None
                      else Some (Some {| r_value := None; r_custom := false; r_msg_custom := false; r_aliases := [];
                                         r_auto := Some c; r_oneof := None; r_env := false |})
             | _ => None
             end
    end.

  (** resolver.go:1539-1578 validateMessageFields, for one field; [true]: no error. The aliases of a field are checked
      against its type. *)
  Definition field_ok (f : fdecl) (r : option frule) : bool :=
    match r with
    | None => false
    | Some r =>
        if r_msg_custom r || r_custom r then true
        else match r_value r with
             | Some (_, t) => validateEnumMultipleAliases s t (f_type f) && validateBindFieldType s t (f_type f)
             | None => true
             end
             && forallb (fun a => match lookup (snd a) (fields_of (fst a)) with
                                  | Some t => validateBindFieldType s t (f_type f)
                                  | None => true
                                  end) (r_aliases r)
             && match r_auto r with Some (_, (_, t)) => validateBindFieldType s t (f_type f) | None => true end
    end.

  (** resolver.go:1331-1371 validateFieldsOneofRule: [seen] is usedDefault. A missing "by" is an error as well. *)
  Fixpoint oneofs_ok (seen : bool) (rs : list frule) : bool :=
    match rs with
    | [] => true
    | r :: rs =>
        match r_oneof r with
        | None => oneofs_ok seen rs
        | Some o =>
            negb (o_default o && seen) && (o_default o || match o_if o with Some _ => true | None => false end)
            && oneofs_ok (seen || o_default o) rs
        end
    end.

  Definition oapp {A B} (o : option A) (g : A -> option B) : option B := match o with Some a => g a | None => None end.
  (** The fields of an accepted message with their rules; [None]: some error is reported. Messages without the option are
      not resolved. *)
  Definition resolve (m : mdecl) : option (list (fdecl * frule)) :=
    oapp (all (fun f => oapp (oapp (resolveFieldRule m f) (autobind m f)) (fun r =>
                        oapp r (fun r => if field_ok f (Some r) then Some (f, r) else None))) (m_fields m))
         (fun l => if oneofs_ok false (map snd l) then Some l else None).

  (** ** The generated code *)
  (** One case of the switch: the member, its condition (an expression evaluated before, or "the source is not nil"), and
      how it is set. *)
  Inductive source := SExpr (cond : option expr) (d : defs) (by_ : expr) (t : ty) | SAuto (v : vdef) (f : string * ty).
  Record ocase := { k_name : string; k_type : ty; k_src : source }.
  (** generator/code_generator.go:1895-1955, 2389-2442 ReturnField *)
  Inductive ret_field :=
  | RCustom (f : fdecl)
  | RCel (f : fdecl) (e : expr) (t : ty)
  | RAuto (f : fdecl) (v : vdef) (src : string * ty)
  | ROneof (name : string) (cases : list ocase) (dflt : option ocase).

  (** code_generator.go:2389-2431 ReturnFields, fields outside oneofs *)
  Definition plain_return (fr : fdecl * frule) : list ret_field :=
    let (f, r) := fr in
    match f_oneof f with
    | Some _ => []
    | None =>
        if r_custom r then [RCustom f]
        else match r_value r with
             | Some (e, t) => [RCel f e t]
             | None => match r_auto r with Some (v, src) => [RAuto f v src] | None => [] end
             end
    end.
  (** code_generator.go:2588-2683 oneofValueToReturnField *)
  Definition case_of (fr : fdecl * frule) : option (bool * ocase) :=
    let (f, r) := fr in
    match r_auto r, r_oneof r with
    | Some (v, src), _ => Some (false, {| k_name := f_name f; k_type := f_type f; k_src := SAuto v src |})
    | None, Some o =>
        if o_default o then Some (true, {| k_name := f_name f; k_type := f_type f; k_src := SExpr None (o_defs o) (o_by o) (o_type o) |})
        else Some (false, {| k_name := f_name f; k_type := f_type f; k_src := SExpr (o_if o) (o_defs o) (o_by o) (o_type o) |})
    | None, None => None
    end.
  Fixpoint oneof_cases (l : list (fdecl * frule)) (cases : list ocase) (dflt : option ocase) : list ocase * option ocase :=
    match l with
    | [] => (cases, dflt)
    | fr :: l =>
        match case_of fr with
        | None => oneof_cases l cases dflt
        | Some (true, c) => oneof_cases l cases (Some c)
        | Some (false, c) => oneof_cases l (cases ++ [c]) dflt
        end
    end.
  Definition in_oneof (n : string) (fr : fdecl * frule) : bool :=
    match f_oneof (fst fr) with Some o => String.eqb o n | None => false end.
  Definition oneof_return (l : list (fdecl * frule)) (n : string) : ret_field :=
    let (cases, dflt) := oneof_cases (filter (in_oneof n) l) [] None in ROneof n cases dflt.
  Definition ReturnFields (m : mdecl) (l : list (fdecl * frule)) : list ret_field :=
    flat_map plain_return l ++ map (oneof_return l) (m_oneofs m).

  (** Whether the generated Go code of a oneof compiles (server.go.tmpl setReturnValueByOneofFields). If any case has a
      rule, the condition of every case is evaluated into a variable, also of the automatically bound ones, which do not
      use it: "declared and not used". An automatically bound member is compared with nil, and assigned as it is unless it
      is converted, so that it needs a message or bytes and a conversion. The variable an automatically bound field is read
      from has getters only if it is a message. *)
  Definition has_getters (v : vdef) : bool :=
    match d_type v with T (BMsg _) false _ _ => true | _ => false end.
  Definition is_auto (c : ocase) : bool := match k_src c with SAuto _ _ => true | _ => false end.
  Definition oneof_compiles (cases : list ocase) (dflt : option ocase) : bool :=
    (forallb (fun c => negb (is_auto c)) cases || (forallb is_auto cases && match dflt with None => true | Some _ => false end))
    && forallb (fun c => match k_src c with
                         | SAuto v (_, t) => has_getters v && (kind_eqb (kind_of t) Message || kind_eqb (kind_of t) Bytes) && requiredCast t (k_type c)
                         | _ => true
                         end) cases.
  Definition compiles (rf : ret_field) : bool :=
    match rf with ROneof _ cases dflt => oneof_compiles cases dflt | RAuto _ v _ => has_getters v | _ => true end.

  (** ** Running it *)
  Section Exec.
    Variables (env V : Type).
    Variable eval_if : env -> expr -> option bool.        (* EvalCEL to bool; None: an error *)
    Variable eval : env -> expr -> option V.
    Variable run_defs : env -> defs -> option env.        (* evalDefSet *)
    Variable get : env -> string -> string -> V.          (* value.vars.<v>.Get<f>() *)
    Variable is_nil : V -> bool.
    Variable convert : ty -> ty -> V -> option V.         (* the conversion functions *)
    Variable custom : env -> string -> option V.          (* the user's resolver of a field *)

    (** The response: its plain fields and its oneofs (the member that is set). *)
    Record response := { plain : string -> option V; slot : string -> option (string * V) }.
    Definition set_plain (r : response) (n : string) (v : V) : response :=
      {| plain := fun k => if String.eqb k n then Some v else plain r k; slot := slot r |}.
    Definition set_slot (r : response) (n f : string) (v : V) : response :=
      {| plain := plain r; slot := fun k => if String.eqb k n then Some (f, v) else slot r k |}.

    Definition converted (from to : ty) (v : V) : option V := if requiredCast from to then convert from to v else Some v.

    (** The conditions, evaluated in order before the switch; any error ends the resolution. *)
    Fixpoint conditions (e : env) (cs : list ocase) : option (list bool) :=
      match cs with
      | [] => Some []
      | c :: cs =>
          oapp (match k_src c with
                | SExpr (Some x) _ _ _ => eval_if e x
                | SExpr None _ _ _ => None                (* an empty expression does not compile *)
                | SAuto v (f, _) => Some (negb (is_nil (get e (d_name v) f)))
                end) (fun b => oapp (conditions e cs) (fun bs => Some (b :: bs)))
      end.
    (** setReturnValueByOneofField *)
    Definition set_case (e : env) (n : string) (c : ocase) (r : response) : option response :=
      match k_src c with
      | SExpr _ d x t => oapp (run_defs e d) (fun e' => oapp (eval e' x) (fun v => oapp (converted t (k_type c) v) (fun v =>
                           Some (set_slot r n (k_name c) v))))
      | SAuto v (f, t) => oapp (converted t (k_type c) (get e (d_name v) f)) (fun v => Some (set_slot r n (k_name c) v))
      end.
    (** switch { case ...: } *)
    Fixpoint switch (e : env) (n : string) (cs : list ocase) (bs : list bool) (dflt : option ocase) (r : response) : option response :=
      match cs, bs with
      | c :: cs, b :: bs => if b then set_case e n c r else switch e n cs bs dflt r
      | _, _ => match dflt with Some c => set_case e n c r | None => Some r end
      end.

    Definition exec1 (e : env) (rf : ret_field) (r : response) : option response :=
      match rf with
      | RCustom f => oapp (custom e (f_name f)) (fun v => Some (set_plain r (f_name f) v))
      | RCel f x t => oapp (eval e x) (fun v => oapp (converted t (f_type f) v) (fun v => Some (set_plain r (f_name f) v)))
      | RAuto f v (g, t) => oapp (converted t (f_type f) (get e (d_name v) g)) (fun v => Some (set_plain r (f_name f) v))
      | ROneof n cs dflt => oapp (conditions e cs) (fun bs => switch e n cs bs dflt r)
      end.
    Fixpoint exec (e : env) (rfs : list ret_field) (r : response) : option response :=
      match rfs with
      | [] => Some r
      | rf :: rfs => oapp (exec1 e rf r) (exec e rfs)
      end.
  End Exec.
End Bind.
Arguments ONone {expr defs}. Arguments OBy {expr defs}. Arguments OCustom {expr defs}. Arguments OAlias {expr defs}.
Arguments OOneof {expr defs}. Arguments OEnv {expr defs}.
Arguments SExpr {expr defs}. Arguments SAuto {expr defs}.
