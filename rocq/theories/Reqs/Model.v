(** * The arguments of a message while it is resolved

    Models the function generated for a message, generator/templates/server.go.tmpl:537-616 with
    setReturnValueByFieldCustomResolver, setReturnValueByOneofFields and setReturnValueByCEL, 683-773; CustomResolverArguments,
    generator/code_generator.go:2377-2400; which variables are used: UseAllNameReference, ReferenceNames and MarkUsed, resolver/message.go:276-329,
    resolver/def.go:324-346, resolver/resolver.go:1304-1320, 4400-4423; EvalDef and the cache by name, grpc/federation/cel.go:328-392, 508-594.

    Simplifications. Definitions are evaluated in the order of the list, which is one of the orders of the plan (C03, C29); an expression stands for
    whatever a definition has (by, call, message, map or enum, with its condition), and [eval] for its evaluation. Definitions in error rules and
    validations, and fields bound automatically, are left out. The argument struct is a list from Go names to values; that its fields have the
    types of the values is C68. The assignments before the custom resolver are not sorted. *)

From Coq Require Import String List Bool.
From Verif.Ident Require Model.
Import ListNotations.
Local Open Scope string_scope.

Section Message.
  Variables expr V E : Type.

  Record def := { d_name : string; d_expr : expr }.
  (** A field of a oneof: its condition, its definitions and its value. The default has no condition. *)
  Record alt := { a_field : string; a_defs : list def; a_by : expr }.
  Inductive field :=
  | ByExpr (name : string) (e : expr)
  | Custom (name : string)
  | Oneof (cases : list (expr * alt)) (default : option alt).
  Record message := { m_defs : list def; m_custom : bool; m_fields : list field }.

  (** CELValue.ReferenceNames *)
  Variable refs : expr -> list string.

  (** ** Which variables are used *)

  Definition is_custom (f : field) : bool := match f with Custom _ => true | _ => false end.
  (** HasCustomResolver, HasCustomResolverFields *)
  Definition any_custom (m : message) : bool := m_custom m || existsb is_custom (m_fields m).
  (** Message.ReferenceNames: the definitions of the message, the values of its fields and the conditions of oneofs. *)
  Definition reference_names (m : message) : list string :=
    flat_map (fun d => refs (d_expr d)) (m_defs m) ++
    flat_map (fun f => match f with
                       | ByExpr _ e => refs e
                       | Custom _ => []
                       | Oneof cases _ => flat_map (fun c => refs (fst c)) cases
                       end) (m_fields m).
  Definition used_defs (m : message) : list string :=
    filter (fun n => any_custom m || existsb (String.eqb n) (reference_names m)) (map d_name (m_defs m)).
  (** The definitions of a field of a oneof are used if its value refers to them. *)
  Definition used_alt (a : alt) : list string := filter (fun n => existsb (String.eqb n) (refs (a_by a))) (map d_name (a_defs a)).
  Definition alts (f : field) : list alt :=
    match f with Oneof cases d => map snd cases ++ match d with Some a => [a] | None => [] end | _ => [] end.
  (** CustomResolverArguments: the variables assigned, each once. *)
  Definition assigned (m : message) : list string :=
    nodup string_dec (used_defs m ++ flat_map (fun f => flat_map used_alt (alts f)) (m_fields m)).

  (** ** Resolving a message *)

  Definition table := list (string * V).
  Fixpoint get (t : table) (k : string) : option V :=
    match t with [] => None | (k', x) :: r => if String.eqb k' k then Some x else get r k end.
  Fixpoint put (t : table) (k : string) (x : V) : table :=
    match t with
    | [] => [(k, x)]
    | (k', x') :: r => if String.eqb k' k then (k, x) :: r else (k', x') :: put r k x
    end.

  (** Variables, then arguments, by name. *)
  Variable eval : expr -> (string -> option V) -> (string -> option V) -> V + E.
  Variable eval_bool : expr -> (string -> option V) -> (string -> option V) -> bool + E.
  (** The zero value of the type of a variable. *)
  Variable zero : string -> V.
  (** The custom resolvers: they get the struct, by the names of its fields; that of a field gets the message too if it comes from a custom resolver. *)
  Variable custom : (string -> option V) -> table + E.
  Variable custom_field : string -> (string -> option V) -> option table -> V + E.

  (** value.vars, by Go name, and the values for CEL, by name. *)
  Record state := { vars : table; vals : table }.

  (** [$.n]: the field map has the arguments only. *)
  Definition arg (args : list string) (req : table) (n : string) : option V :=
    if existsb (String.eqb n) args then get req (Ident.Model.public n) else None.

  (** evalDefSet: a name that was evaluated is not evaluated again. *)
  Fixpoint eval_defs (args : list string) (req : table) (ds : list def) (s : state) : state + E :=
    match ds with
    | [] => inl s
    | d :: r =>
        match get (vals s) (d_name d) with
        | Some _ => eval_defs args req r s
        | None =>
            match eval (d_expr d) (get (vals s)) (arg args req) with
            | inr e => inr e
            | inl x => eval_defs args req r {| vars := put (vars s) (Ident.Model.public (d_name d)) x; vals := put (vals s) (d_name d) x |}
            end
        end
    end.

  (** req.X = value.vars.X *)
  Definition assign (s : state) (names : list string) (req : table) : table :=
    fold_left (fun req n => put req (Ident.Model.public n)
                 match get (vars s) (Ident.Model.public n) with Some x => x | None => zero n end) names req.

  Fixpoint conditions (args : list string) (req : table) (s : state) (cases : list (expr * alt)) : list (bool * alt) + E :=
    match cases with
    | [] => inl []
    | (c, a) :: r =>
        match eval_bool c (get (vals s)) (arg args req) with
        | inr e => inr e
        | inl b => match conditions args req s r with inr e => inr e | inl l => inl ((b, a) :: l) end
        end
    end.
  Definition select (l : list (bool * alt)) (default : option alt) : option alt :=
    match find fst l with Some (_, a) => Some a | None => default end.

  (** The field binding section. *)
  Fixpoint bind (args : list string) (req : table) (from_custom : bool) (fs : list field) (s : state) (ret : table) : table + E :=
    match fs with
    | [] => inl ret
    | ByExpr n e :: r =>
        match eval e (get (vals s)) (arg args req) with
        | inr e => inr e
        | inl x => bind args req from_custom r s (put ret n x)
        end
    | Custom n :: r =>
        match custom_field n (get req) (if from_custom then Some ret else None) with
        | inr e => inr e
        | inl x => bind args req from_custom r s (put ret n x)
        end
    | Oneof cases default :: r =>
        match conditions args req s cases with
        | inr e => inr e
        | inl l =>
            match select l default with
            | None => bind args req from_custom r s ret
            | Some a =>
                match eval_defs args req (a_defs a) s with
                | inr e => inr e
                | inl s =>
                    match eval (a_by a) (get (vals s)) (arg args req) with
                    | inr e => inr e
                    | inl x => bind args req from_custom r s (put ret (a_field a) x)
                    end
                end
            end
        end
    end.

  (** The caller makes the struct of the arguments. *)
  Definition request (passed : list (string * V)) : table := map (fun p => (Ident.Model.public (fst p), snd p)) passed.

  Definition resolve (m : message) (passed : list (string * V)) : table + E :=
    let args := map fst passed in
    let req := request passed in
    match eval_defs args req (m_defs m) {| vars := []; vals := [] |} with
    | inr e => inr e
    | inl s =>
        let req := assign s (assigned m) req in
        match (if m_custom m then custom (get req) else inl []) with
        | inr e => inr e
        | inl ret => bind args req (m_custom m) (m_fields m) s ret
        end
    end.
End Message.
