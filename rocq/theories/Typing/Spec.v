(** When the expressions of a message are well typed, said without the
    resolver's types and without its errors.

    The rules are given once and for all lists, handlers and details.  What a
    place asks of a type, which type a variable gets from its expression and
    which variables a map may go over are parameters ([rules]), so that what a
    user expects ([expected]) and what the code does ([implemented]) are two
    instances of the same rules and can be compared line by line. *)

From Coq Require Import String List Bool.
From Verif.Typing Require Import Model.
Import ListNotations.
Local Open Scope list_scope.
Local Open Scope string_scope.

(** The variables of the current list, with the type each has. *)
Definition siblings : Type := list (string * option celty).

Record rules : Type := {
  (* the type of a condition *)
  fits_bool : celty -> Prop;
  (* the type of a text of an error *)
  fits_string : celty -> Prop;
  (* the type of a message of a detail *)
  fits_message : celty -> Prop;
  (* the type of a value given back instead of the response *)
  fits_response : string -> celty -> Prop;
  (* the type of a value converted to an enum *)
  fits_enum : string -> celty -> Prop;
  (* an expression of the first type may be used at all *)
  fits_any : celty -> Prop;
  (* a variable whose expression has the first type has the second *)
  var_type : celty -> celty -> Prop;
  (* the variable of a map whose expression has the first type has the second *)
  map_var_type : celty -> celty -> Prop;
  (* with these visible variables and these siblings, a map may go over the
     variable, and its elements have this type *)
  elements : env -> siblings -> string -> celty -> Prop
}.

Section Rules.
  Variable chk : env -> string -> option celty.
  Variable R : rules.

  Definition typed (G : env) (e : string) (P : celty -> Prop) : Prop :=
    exists t, chk G e = Some t /\ P t.

  Definition if_given {A : Type} (o : option A) (P : A -> Prop) : Prop :=
    match o with
    | Some a => P a
    | None => True
    end.

  Definition all {A : Type} (l : list A) (P : A -> Prop) : Prop :=
    forall a, In a l -> P a.

  Definition message_ok (G : env) (args : list (option string)) : Prop :=
    all args (fun a => if_given a (fun e => typed G e (fits_any R))).

  (** The expression of a map has, for one element, the type [t]. *)
  Definition body_ok (G : env) (b : body) (t : celty) : Prop :=
    match b with
    | BBy e => chk G e = Some t /\ fits_any R t
    | BMsg args m => message_ok G args /\ t = CObj m
    | BEnum en e => typed G e (fits_enum R en) /\ t = CEnum en
    end.

  Definition arg_ok (G : env) (a : arg) : Prop :=
    if_given (a_by a) (fun e =>
      typed G e (fits_any R) /\
      if_given (a_if a) (fun c => typed G c (fits_bool R))).

  (** The variable of a definition is visible after it. *)
  Definition visible (n : string) (t : celty) (G : env) : env :=
    if String.eqb n "" then G else (n, t) :: G.

  (** A definition without handlers of errors can be the source of a map in the
      same list. *)
  Definition sibling (n : string) (x : vexpr) (t : option celty) (L : siblings) : siblings :=
    match x with
    | XCall _ _ (GCons _ _) _ => L
    | XValid _ => L
    | _ => (n, t) :: L
    end.

  Definition error_in (G : env) : env :=
    ("error", CObj "grpc.federation.private.Error") :: G.

  (** [K] is what has to hold with the variables visible after a list. *)
  Fixpoint defs_ok (G : env) (L : siblings) (ds : vdefs) (K : env -> Prop) : Prop :=
    match ds with
    | DNil => K G
    | DCons (VDef n c x) r =>
        if_given c (fun e => typed G e (fits_bool R)) /\
        match x with
        | XNone => defs_ok G (sibling n x None L) r K
        | _ =>
            exists t, expr_ok G L x t /\
                      defs_ok (visible n t G) (sibling n x (Some t) L) r K
        end
    end
  with expr_ok (G : env) (L : siblings) (x : vexpr) (t : celty) : Prop :=
    match x with
    | XNone => False
    | XBy e => typed G e (fun u => var_type R u t)
    | XMap iter src b =>
        iter <> "" /\ src <> "" /\
        exists u v, elements R G L src u /\ body_ok ((iter, u) :: G) b v /\ map_var_type R v t
    | XCall args retry errs m =>
        all args (arg_ok G) /\
        if_given retry (fun c => typed (error_in G) c (fits_bool R)) /\
        errs_ok (error_in G) (Some m) errs /\
        t = CObj m
    | XMsg args m => message_ok G args /\ t = CObj m
    | XEnum en e => typed G e (fits_enum R en) /\ t = CEnum en
    | XValid g => err_ok G None g /\ t = CBool
    end
  with err_ok (G : env) (response : option string) (g : gerr) : Prop :=
    match g with
    | GErr defs c ig msg ds =>
        defs_ok G [] defs (fun G1 =>
          typed G1 c (fits_bool R) /\
          if_given ig (fun e =>
            typed G1 e (fun t =>
              fits_any R t /\ if_given response (fun m => fits_response R m t))) /\
          if_given msg (fun e => typed G1 e (fits_string R)) /\
          details_ok G1 ds)
    end
  with errs_ok (G : env) (response : option string) (gs : gerrs) : Prop :=
    match gs with
    | GNil => True
    | GCons g r => err_ok G response g /\ errs_ok G response r
    end
  with detail_ok (G : env) (d : detail) : Prop :=
    match d with
    | Det defs c bys msgs texts =>
        defs_ok G [] defs (fun G1 =>
          typed G1 c (fits_bool R) /\
          all bys (fun e => typed G1 e (fits_message R)) /\
          defs_ok G1 [] msgs (fun G2 =>
            all texts (fun e => typed G2 e (fits_string R))))
    end
  with details_ok (G : env) (ds : details) : Prop :=
    match ds with
    | TNil => True
    | TCons d r => detail_ok G d /\ details_ok G r
    end.

  Definition rule_ok (G : env) (r : rule) : Prop :=
    match r with
    | RNone => True
    | RValue e => typed G e (fits_any R)
    | ROneof o =>
        if_given (o_if o) (fun c => typed G c (fits_bool R)) /\
        defs_ok G [] (o_defs o) (fun G1 =>
          if_given (o_by o) (fun e => typed G1 e (fits_any R)))
    end.

  Definition message_well_typed (G : env) (m : message) : Prop :=
    defs_ok G [] (m_defs m) (fun G1 => all (m_fields m) (rule_ok G1)).
End Rules.

(** The enums a value of the type may be of: an enum, or the enums of a
    selector. *)
Fixpoint enums_of (t : celty) : list string :=
  match t with
  | CEnum e => [e]
  | CSel a b => (enums_of a ++ enums_of b)%list
  | _ => []
  end.

(** What a user expects: each place has exactly the type it asks for, a variable
    has the type of its expression, the variable of a map is a list of the type
    of its expression, and a map goes over any visible list. *)
Definition expected (alias : string -> string -> bool) : rules := {|
  fits_bool := fun t => t = CBool;
  fits_string := fun t => t = CString;
  fits_message := fun t => exists m, t = CObj m;
  fits_response := fun m t => t = CObj m;
  fits_enum := fun en t =>
    enums_of t <> [] /\
    forall e, In e (enums_of t) -> e = en \/ alias e en = true;
  fits_any := fun _ => True;
  var_type := fun t u => u = t;
  map_var_type := fun t u => u = CList t;
  elements := fun G _ src t => look G src = Some (CList t)
|}.

(** A type as the resolver can write it down: without any list. *)
Fixpoint inner (t : celty) : celty :=
  match t with
  | CList e => inner e
  | COpt e => inner e
  | CMap k v => CMap (inner k) (inner v)
  | CSel a b => CSel (inner a) (inner b)
  | _ => t
  end.

(** Whether the type is a list (of lists, of optional values, ...). *)
Fixpoint listed (t : celty) : bool :=
  match t with
  | CList _ => true
  | COpt e => listed e
  | _ => false
  end.

(** The type the resolver remembers: one list at most, around everything. *)
Definition flat (t : celty) : celty :=
  if listed t then CList (inner t) else inner t.

(** An enum or a selector of enums. *)
Definition of_enums (t : celty) : Prop :=
  match t with
  | CEnum _ => True
  | CSel _ _ => True
  | _ => False
  end.

(** The types the resolver can write down at all. *)
Fixpoint supported (t : celty) : Prop :=
  match t with
  | CDyn => False
  | CList e => supported e
  | COpt e => supported e
  | CMap k v => supported k /\ supported v
  | CSel a b => (supported a /\ supported b) /\ of_enums (inner a) /\ of_enums (inner b)
  | _ => True
  end.

(** A message, a map or a selector of enums. *)
Definition message_like (t : celty) : Prop :=
  match t with
  | CObj _ => True
  | CMap _ _ => True
  | CSel _ _ => True
  | _ => False
  end.

(** What the code does: lists around a type are not looked at, a variable has the
    flat type of its expression, and a map goes over a list that is defined in
    the same list of definitions. *)
Definition implemented (alias : string -> string -> bool) : rules := {|
  fits_bool := fun t => supported t /\ inner t = CBool;
  fits_string := fun t => supported t /\ inner t = CString;
  fits_message := fun t => supported t /\ message_like (inner t);
  fits_response := fun m t => inner t = CObj m;
  fits_enum := fun en t =>
    supported t /\
    ((exists e, inner t = CEnum e /\ (e = en \/ alias e en = true)) \/
     (exists a b, inner t = CSel a b));
  fits_any := supported;
  var_type := fun t u => supported t /\ u = flat t;
  map_var_type := fun t u => u = CList (inner t);
  elements := fun _ L src t => look L src = Some (Some (CList t))
|}.

(** The same, but a map goes over any visible list. *)
Definition lenient (alias : string -> string -> bool) : rules := {|
  fits_bool := fits_bool (implemented alias);
  fits_string := fits_string (implemented alias);
  fits_message := fits_message (implemented alias);
  fits_response := fits_response (implemented alias);
  fits_enum := fits_enum (implemented alias);
  fits_any := fits_any (implemented alias);
  var_type := var_type (implemented alias);
  map_var_type := map_var_type (implemented alias);
  elements := fun G _ src t => look G src = Some (CList t)
|}.

(** What a user expects, of a message that stays away from lists of lists, maps
    with lists, optional values, dynamic values, selectors of enums, and maps
    over variables of an outer list. *)
Definition careful (alias : string -> string -> bool) : rules := {|
  fits_bool := fun t => t = CBool;
  fits_string := fun t => t = CString;
  fits_message := fun t => exists m, t = CObj m;
  fits_response := fun m t => t = CObj m;
  fits_enum := fun en t => exists e, t = CEnum e /\ (e = en \/ alias e en = true);
  fits_any := supported;
  var_type := fun t u => supported t /\ flat t = t /\ u = t;
  map_var_type := fun t u => inner t = t /\ u = CList t;
  elements := fun G L src t =>
    look G src = Some (CList t) /\ look L src = Some (Some (CList t))
|}.

(** A type in which no list and no optional value occurs. *)
Fixpoint bare (t : celty) : Prop :=
  match t with
  | CList _ => False
  | COpt _ => False
  | CMap k v => bare k /\ bare v
  | CSel a b => bare a /\ bare b
  | _ => True
  end.

(** A bare type or a list of one. *)
Definition one_list (t : celty) : Prop :=
  match t with
  | CList e => bare e
  | _ => bare t
  end.

(** The names of the definitions of a list. *)
Fixpoint names_of (ds : vdefs) : list string :=
  match ds with
  | DNil => []
  | DCons (VDef n _ _) r => n :: names_of r
  end.

(** No list of definitions, at any depth, defines a name twice. *)
Fixpoint distinct_defs (ds : vdefs) : Prop :=
  match ds with
  | DNil => True
  | DCons (VDef n _ x) r =>
      ~ In n (names_of r) /\ n <> "" /\ distinct_expr x /\ distinct_defs r
  end
with distinct_expr (x : vexpr) : Prop :=
  match x with
  | XCall _ _ gs _ => distinct_errs gs
  | XValid g => distinct_err g
  | _ => True
  end
with distinct_err (g : gerr) : Prop :=
  match g with GErr defs _ _ _ ds => distinct_defs defs /\ distinct_details ds end
with distinct_errs (gs : gerrs) : Prop :=
  match gs with
  | GNil => True
  | GCons g r => distinct_err g /\ distinct_errs r
  end
with distinct_detail (d : detail) : Prop :=
  match d with Det defs _ _ msgs _ => distinct_defs defs /\ distinct_defs msgs end
with distinct_details (ds : details) : Prop :=
  match ds with
  | TNil => True
  | TCons d r => distinct_detail d /\ distinct_details r
  end.

Definition distinct_message (m : message) : Prop :=
  distinct_defs (m_defs m) /\
  forall o, In (ROneof o) (m_fields m) -> distinct_defs (o_defs o).
