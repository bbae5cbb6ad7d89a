(** Completion in the editor: resolver/candidates.go and lsp/server/completion.go.

    What is simplified.  Pointers to types, messages and enums are numbers.  Of a
    message there is what the functions read: its package, its fields, its definitions
    and its arguments.  The maps of messages and methods are lists with one entry for a
    name, in any order.  A place in the text is the record that
    source/location.go gives; what is not read of it is left out.  The parser, the
    compiler and the resolver that run before (completion.go:82-98) are not modelled. *)

From Coq Require Import Ascii String List Arith ZArith Bool.
From Verif.Base Require Import Text Sort.
From Verif.Goto Require Import Model.
Import ListNotations.
Local Open Scope list_scope.
Local Open Scope string_scope.

(** Type: resolver/types.go:411-418, with its address; a kind is a number type, enum,
    message or another one. *)
Inductive kind : Type := KNumber (n : nat) | KEnum | KMessage | KOther (n : nat).
Record typ : Type := {
  ty_ptr : nat;
  ty_kind : kind;
  ty_msg : option nat;
  ty_enum : option nat
}.
Definition kind_eqb (a b : kind) : bool :=
  match a, b with
  | KNumber x, KNumber y => Nat.eqb x y
  | KEnum, KEnum => true
  | KMessage, KMessage => true
  | KOther x, KOther y => Nat.eqb x y
  | _, _ => false
  end.
(** Type.IsNumber: resolver/types.go:431-448. *)
Definition is_number (t : typ) : bool := match ty_kind t with KNumber _ => true | _ => false end.
Definition same (a b : option nat) : bool :=
  match a, b with Some x, Some y => Nat.eqb x y | _, _ => false end.
Definition none (a : option nat) : bool := match a with None => true | Some _ => false end.

(** ValueCandidate: candidates.go:11-14. *)
Definition value : Type := (string * option typ)%type.

(** ValueCandidates.Unique: candidates.go:26-37. *)
Fixpoint unique_from (seen : list string) (c : list value) : list value :=
  match c with
  | [] => []
  | v :: r =>
      if existsb (String.eqb (fst v)) seen then unique_from seen r
      else v :: unique_from (fst v :: seen) r
  end.
Definition unique (c : list value) : list value := unique_from [] c.

(** ValueCandidates.Filter: candidates.go:39-70. *)
Definition keep (t : option typ) (v : value) : bool :=
  match snd v, t with
  | None, _ | _, None => true
  | Some a, Some b =>
      if none (ty_msg a) && none (ty_enum a) && kind_eqb (ty_kind a) (ty_kind b) then true
      else if Nat.eqb (ty_ptr a) (ty_ptr b) then true
      else if is_number a && is_number b then true
      else if same (ty_msg a) (ty_msg b) then true
      else same (ty_enum a) (ty_enum b)
  end.
Definition filter_type (t : option typ) (c : list value) : list value := filter (keep t) c.

(** VariableDefinition: the name, and the type of its expression if there is one; for a
    call, the fields of the request of its method, and the names of the fields that the
    request is given, as they are written. *)
Record def : Type := {
  d_name : string;
  d_expr : option (option typ);
  d_request : option (list (string * typ));
  d_items : list string
}.
(** Message: package, name, fields; and the rule, if there is one: definitions, and the
    fields of the argument. *)
Record message : Type := {
  m_pkg : string;
  m_name : string;
  m_fields : list (string * typ);
  m_rule : option (list def * option (list (string * typ)))
}.
Definition defs_of (m : message) : list def := match m_rule m with Some (ds, _) => ds | None => [] end.

Definition starts_with (s p : string) : bool := String.prefix p s.

(** What one turn of the loop adds: candidates.go:306-318. *)
Definition variable_of (d : def) : list value :=
  if String.eqb (d_name d) "" || starts_with (d_name d) "_" then []
  else match d_expr d with
       | None => []
       | Some t => [(d_name d, t)]
       end.

(** candidatesVariableName: candidates.go:296-320.  Every turn of the loop looks at the
    definition with the number [idx], not at that of the turn. *)
Definition variable_candidates (m : message) (idx : Z) : list value :=
  match m_rule m with
  | None => []
  | Some (ds, _) =>
      if (Z.of_nat (List.length ds) <=? idx)%Z then []
      else flat_map (fun _ => match nth_error ds (Z.to_nat idx) with
                              | Some d => variable_of d
                              | None => []
                              end)
                    (seq 0 (Z.to_nat (idx + 1)))
  end.

(** candidatesMessageArguments: candidates.go:322-338. *)
Definition argument_candidates (m : message) : list value :=
  match m_rule m with
  | Some (_, Some fields) => map (fun f => ("$." ++ fst f, Some (snd f))) fields
  | _ => []
  end.

(** candidatesCELValue: candidates.go:289-294. *)
Definition value_candidates (m : message) (idx : Z) : list value :=
  (variable_candidates m idx ++ argument_candidates m)%list.

(** candidatesRequestField and requestFieldType: candidates.go:209-267. *)
Definition request_of (m : message) (idx : nat) : option (list (string * typ)) :=
  match nth_error (defs_of m) idx with
  | Some d => d_request d
  | None => None
  end.
Definition request_fields (m : message) (idx : nat) : list string :=
  match request_of m idx with
  | Some fs => map fst fs
  | None => []
  end.
Definition request_type (m : message) (idx ridx : nat) : option typ :=
  match request_of m idx with
  | Some fs => option_map snd (nth_error fs ridx)
  | None => None
  end.

(** candidatesMethodName: candidates.go:196-207. *)
Definition method_candidates (methods : list string) (m : message) : list string :=
  sort_by (fun s => s) (filter (fun n => negb (starts_with n (m_pkg m ++ "."))) methods).

(** strings.TrimPrefix. *)
Definition trim (p s : string) : string :=
  if starts_with s p then substring (String.length p) (String.length s - String.length p) s else s.

(** candidatesMessageName: candidates.go:269-287. *)
Definition message_candidates (messages : list string) (m : message) : list string :=
  sort_by (fun s => s)
    (map (trim (m_pkg m ++ "."))
       (filter (fun n => negb (String.eqb n (m_pkg m ++ "." ++ m_name m)) && negb (starts_with n "grpc.federation."))
               messages)).

(** The places: source/location.go:176-258. *)
Record request_place : Type := { rq_idx : nat; rq_field : bool; rq_by : bool }.
Record call_place : Type := { c_method : bool; c_request : option request_place }.
Record args_place : Type := { a_name : bool; a_by : bool; a_inline : bool }.
Record message_expr_place : Type := { me_name : bool; me_args : option args_place }.
Record def_place : Type := {
  p_idx : nat; p_name : bool; p_by : bool; p_map : bool;
  p_call : option call_place; p_message : option message_expr_place
}.
Inductive place : Type :=
| POption (d : option def_place)
| PField (name : string) (by_ : option bool)
| PElsewhere.

Definition names (c : list value) : list string := map fst c.

Section Candidates.
  (** cachedMethodMap and cachedMessageMap: the names. *)
  Variable methods messages : list string.

  (** candidatesRequest: candidates.go:161-170. *)
  Definition at_request (m : message) (idx : nat) (p : request_place) : list string :=
    if rq_field p then request_fields m idx
    else if rq_by p then
      names (filter_type (request_type m idx (rq_idx p)) (unique (value_candidates m (Z.of_nat idx))))
    else ["field"; "by"].

  (** candidatesCallExpr: candidates.go:149-159. *)
  Definition at_call (m : message) (idx : nat) (p : call_place) : list string :=
    if c_method p then method_candidates methods m
    else match c_request p with
         | Some r => at_request m idx r
         | None => ["method"; "request"; "timeout"; "retry"]
         end.

  (** candidatesMessageExprArguments: candidates.go:186-194. *)
  Definition at_args (m : message) (idx : nat) (p : args_place) : list string :=
    if a_name p then []
    else if a_by p || a_inline p then names (unique (value_candidates m (Z.of_nat idx)))
    else ["name"; "by"; "inline"].

  (** candidatesMessageExpr: candidates.go:172-180. *)
  Definition at_message_expr (m : message) (idx : nat) (p : message_expr_place) : list string :=
    if me_name p then message_candidates messages m
    else match me_args p with
         | Some a => at_args m idx a
         | None => ["name"; "args"]
         end.

  (** candidatesVariableDefinitions: candidates.go:133-147; candidatesMapExpr: 182-184. *)
  Definition at_def (m : message) (p : def_place) : list string :=
    if p_name p then []
    else if p_by p then names (unique (value_candidates m (Z.of_nat (p_idx p) - 1)))
    else if p_map p then []
    else match p_call p, p_message p with
         | Some c, _ => at_call m (p_idx p) c
         | None, Some e => at_message_expr m (p_idx p) e
         | None, None => ["name"; "by"; "map"; "call"; "message"; "validation"]
         end.

  (** candidatesFieldOption: candidates.go:117-131. *)
  Definition at_field (m : message) (name : string) (by_ : bool) : list string :=
    if by_ then
      match find (fun f => String.eqb (fst f) name) (m_fields m) with
      | None => []
      | Some f =>
          match m_rule m with
          | None => []
          | Some (ds, _) =>
              names (filter_type (Some (snd f)) (unique (value_candidates m (Z.of_nat (List.length ds) - 1))))
          end
      end
    else ["by"].

  (** candidatesMessage, candidatesMessageOption, candidatesField: candidates.go:91-115. *)
  Definition candidates (m : message) (p : place) : list string :=
    match p with
    | POption None => ["def"; "custom_resolver"; "alias"]
    | POption (Some d) => at_def m d
    | PField name (Some b) => at_field m name b
    | PField _ None => []
    | PElsewhere => []
    end.
End Candidates.

(** Candidates: candidates.go:72-89, for a place in the message [name] of the file [path];
    [files] are names and packages, [cached] is cachedMessageMap. *)
Fixpoint candidates_in (methods : list string) (cached : list (string * message))
         (files : list (string * string)) (path name : string) (p : place) : list string :=
  match files with
  | [] => []
  | (fname, pkg) :: r =>
      if has_suffix path fname then
        match find (fun e => String.eqb (fst e) (pkg ++ "." ++ name)) cached with
        | Some (_, m) => candidates methods (map fst cached) m p
        | None => candidates_in methods cached r path name p
        end
      else candidates_in methods cached r path name p
  end.

(** * The list that is shown *)

(** CompletionItem with its TextEdit: the place, an offset in the line, and the text. *)
Record item : Type := { i_label : string; i_data : nat; i_edit : option (nat * string) }.

Section Items.
  (** strconv.Unquote *)
  Variable unquote : string -> option string.

  (** completion.go:30-34 *)
  Definition current (raw : string) : string :=
    match unquote raw with Some s => s | None => raw end.

  (** completion.go:37-58; [end_col] is the column after the node, from 1. *)
  Fixpoint matching (cur : string) (end_col : nat) (n : nat) (c : list string) : list item :=
    match c with
    | [] => []
    | x :: r =>
        if starts_with x cur
        then {| i_label := x; i_data := n;
                i_edit := Some (end_col - 2,
                                substring (String.length cur) (String.length x - String.length cur) x) |}
             :: matching cur end_col (S n) r
        else matching cur end_col n r
    end.

  (** completion.go:59-67 *)
  Fixpoint plain_items (n : nat) (c : list string) : list item :=
    match c with
    | [] => []
    | x :: r => {| i_label := x; i_data := n; i_edit := None |} :: plain_items (S n) r
    end.

  (** completion.go:30-70 *)
  Definition items (raw : string) (end_col : nat) (c : list string) : list item :=
    match matching (current raw) end_col 0 c with
    | [] => plain_items 0 c
    | l => l
    end.
End Items.
