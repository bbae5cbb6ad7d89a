(** * grpc.federation.enum.select

    Model of the function, grpc/federation/cel/enum.go:35-59; of the check of its arguments,
    enum.go:104-196; of the type the resolver gives the expression, fromCELType,
    resolver/resolver.go:4858-4877; of the check of an enum definition, resolveEnumExprCELValues,
    resolver.go:4353-4398, and of a field, resolver.go:1720-1729 and 1796-1821; of
    createEnumSelectorParam, generator/code_generator.go:2546-2573, and of the code the template
    setEnumValueByEnumSelector makes of it, eval.go.tmpl:351-393.

    Simplifications.  Expressions are calls of select and anything else, given by its type and
    value; a variable that holds a selector is the call it was defined by.  Of the checks of a
    field only those of the types of enums are here (C38 has the others). *)

From Coq Require Import String List Bool ZArith.
Import ListNotations.
Local Open Scope string_scope.

(** Types of CEL: kinds with opaque types apart. *)
Inductive ctype :=
| CInt
| COther (n : nat)
| COpaque (name : string) (params : list ctype).

(** Values: numbers, selectors, and what is neither. *)
Inductive branch_value := BNumber (z : Z) | BSelector (s : selector)
with selector := Selector (cond : bool) (t f : branch_value).

Inductive cvalue := VNumber (z : Z) | VSelector (s : selector) | VOther.

Inductive expr :=
| Any (t : ctype) (v : cvalue)
| Select (cond : bool) (t f : expr).

(** enum.go:16. *)
Definition fqdn : string := "grpc.federation.private.EnumSelector".

(** The overload: enum.go:27-33. *)
Fixpoint type_of (e : expr) : ctype :=
  match e with
  | Any t _ => t
  | Select _ a b => COpaque fqdn [type_of a; type_of b]
  end.

(** validateType with the candidates of Validate: enum.go:112-115 and 163-196.  A candidate of kind
    int is met by every type of that kind. *)
Definition valid_argument (t : ctype) : bool :=
  match t with
  | COpaque n ps => String.eqb n fqdn || String.eqb n "enum" || match ps with [CInt] => true | _ => false end
  | _ => false
  end.

(** Validate: enum.go:104-143, for every call in the expression. *)
Fixpoint valid (e : expr) : bool :=
  match e with
  | Any _ _ => true
  | Select _ a b => valid_argument (type_of a) && valid_argument (type_of b) && valid a && valid b
  end.

(** Types of the resolver: an enum, a selector, or another one. *)
Inductive rtype := REnum (n : string) | RSelector (t f : rtype) | ROther.

Section Enums.
  (** The enums the resolver knows. *)
  Variable known : string -> bool.

  Definition enum_or_selector (t : rtype) : bool := match t with ROther => false | _ => true end.

  (** fromCELType: resolver.go:4858-4877; [None] is an error. *)
  Fixpoint from_cel (t : ctype) : option rtype :=
    match t with
    | COpaque n ps =>
        match ps with
        | [] => None
        | p :: r =>
            if known n && match p with CInt => true | _ => false end then Some (REnum n)
            else if String.eqb n fqdn then
              match r with
              | q :: _ =>
                  match from_cel p, from_cel q with
                  | Some a, Some b => if enum_or_selector a && enum_or_selector b then Some (RSelector a b) else None
                  | _, _ => None
                  end
              | [] => None
              end
            else from_cel p
        end
    | _ => Some ROther
    end.

  (** An expression the generator takes for a selector, and its type. *)
  Definition resolve (e : expr) : option rtype := if valid e then from_cel (type_of e) else None.
End Enums.

(** Conversion to int32. *)
Definition to_int32 (z : Z) : Z := ((z + 2 ^ 31) mod 2 ^ 32 - 2 ^ 31)%Z.

Definition branch (v : cvalue) : option branch_value :=
  match v with
  | VSelector s => Some (BSelector s)
  | VNumber z => Some (BNumber (to_int32 z))
  | VOther => None
  end.

(** The function: enum.go:35-59; [None] is a panic, of the conversion to celtypes.Int. *)
Fixpoint eval (e : expr) : option cvalue :=
  match e with
  | Any _ v => Some v
  | Select c a b =>
      match eval a, eval b with
      | Some x, Some y =>
          match branch x, branch y with
          | Some p, Some q => Some (VSelector (Selector c p q))
          | _, _ => None
          end
      | _, _ => None
      end
  end.

(** EnumSelectorSetterParam: code_generator.go:1893-1903; [Convert]: the enum of the values, and
    whether a conversion is needed. *)
Inductive param := Convert (from : string) (cast : bool) | Nested (t f : param).

(** createEnumSelectorParam: code_generator.go:2546-2573; [to] is the enum that is wanted. *)
Fixpoint selector_param (to : string) (t : rtype) : option param :=
  match t with
  | REnum n => Some (Convert n (negb (String.eqb n to)))
  | RSelector a b =>
      match selector_param to a, selector_param to b with
      | Some p, Some q => Some (Nested p q)
      | _, _ => None
      end
  | ROther => None
  end.

(** The functions the template makes of nested selectors: eval.go.tmpl:355 has a result, 372 has
    none, although it returns nil and is used as a value.  [false] is code that does not compile. *)
Fixpoint compiles (p : param) : bool :=
  match p with
  | Convert _ _ => true
  | Nested t f => compiles t && match f with Convert _ _ => true | Nested _ _ => false end
  end.

(** The getters of the message EnumSelector: of nil, and of the other variant of a oneof, they
    are zero. *)
Definition get_cond (s : option selector) : bool := match s with Some (Selector c _ _) => c | None => false end.
Definition get_true (s : option selector) : option branch_value := match s with Some (Selector _ t _) => Some t | None => None end.
Definition get_false (s : option selector) : option branch_value := match s with Some (Selector _ _ f) => Some f | None => None end.
Definition get_number (b : option branch_value) : Z := match b with Some (BNumber z) => z | _ => 0%Z end.
Definition get_selector (b : option branch_value) : option selector := match b with Some (BSelector s) => Some s | _ => None end.

Section Run.
  (** The conversion functions that are generated: C23 is about them; [None] is an error. *)
  Variable cast : string -> Z -> option Z.

  (** setEnumValueByEnumSelector: eval.go.tmpl:351-393; [b] is the value at hand, a selector if
      [p] is nested. *)
  Fixpoint run (p : param) (b : option branch_value) : option Z :=
    match p with
    | Convert n c => if c then cast n (get_number b) else Some (get_number b)
    | Nested t f =>
        let s := get_selector b in
        if get_cond s then run t (get_true s) else run f (get_false s)
    end.

  (** The setter of a field or of a definition: eval.go.tmpl:94-113, server.go.tmpl:816-822.
      [None] in the first place: there is no valid code, or no value. *)
  Definition assign (known : string -> bool) (to : string) (e : expr) : option (option Z) :=
    match resolve known e, eval e with
    | Some (RSelector a b), Some (VSelector s) =>
        match selector_param to (RSelector a b) with
        | Some p => if compiles p then Some (run p (Some (BSelector s))) else None
        | None => None
        end
    | _, _ => None
    end.
End Run.

Section Checks.
  (** The enums named by alias in the option of an enum. *)
  Variable aliases : string -> list string.

  (** findEnumAliasName: resolver.go:1698-1718. *)
  Definition find_alias (from to : string) : bool :=
    existsb (String.eqb to) (aliases from) || existsb (String.eqb from) (aliases to).

  (** A field: validateBindFieldType and validateBindFieldEnumSelectorType, resolver.go:1720-1729 and
      1796-1821. *)
  Fixpoint field_accepts (to : string) (t : rtype) : bool :=
    match t with
    | REnum n => String.eqb n to || find_alias n to
    | RSelector a b => field_accepts to a && field_accepts to b
    | ROther => false
    end.

  (** A definition: resolveEnumExprCELValues, resolver.go:4353-4398.  The type of a selector has no
      enum, and nothing is checked. *)
  Definition definition_accepts (to : string) (t : rtype) : bool :=
    match t with
    | REnum n => String.eqb n to || find_alias n to
    | RSelector _ _ => true
    | ROther => false
    end.
End Checks.

(** Equal: enum.go:79-84. *)
Definition selector_equal (s : selector) (v : cvalue) : bool := match v with VSelector _ => true | _ => false end.
