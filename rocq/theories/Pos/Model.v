(** * From a position in the editor to a location

    [File.FindLocationByPos] (/repo/source/file.go:114-936) tells the language
    server on what the cursor stands: completion, go to definition and the like
    begin with it.  The functions [find...ByPos] are modelled one by one.  The
    syntax of option values, the locations and the functions
    [getMessageListFromNode], [optionName], [matchOption] are those of Locate.

    Simplifications, for the whole file:
    - a location is a structure of optional parts in Go.  One that has several
      parts filled is the list of the chains through it, here; the structure the
      builders make is a list of one chain;
    - the context ([findContext], 114-151) is copied before it is handed to the
      search in an option of a message, a nested message or an enum, and shared in
      the others.  What a failed search leaves in a shared context is the name of
      the last field, enum value or method (328, 419, 863): it is an argument
      here, [last]; all other parts are filled just before a location is built;
    - extensions, groups and reserved ranges are left out: they are no case of the
      switches. *)

From Coq Require Import String List Arith Bool.
From Verif.Locate Require Import Model.
Import ListNotations.
Local Open Scope string_scope.
Local Open Scope list_scope.

(** ** The syntax tree *)

(** A declaration with its options and inner declarations in the order of the
    file.  The options of a field are those in brackets.  Map fields
    (ast.MapFieldNode) are marked. *)
Inductive tree :=
| Tree (k : dkind) (name : string) (id : nat) (ty : option nat) (items : list item)
with item :=
| IOpt (s : stmt)
| ISub (t : tree)
| IMap (t : tree).

Definition t_kind (t : tree) : dkind := match t with Tree k _ _ _ _ => k end.
Definition t_name (t : tree) : string := match t with Tree _ n _ _ _ => n end.
Definition t_id (t : tree) : nat := match t with Tree _ _ i _ _ => i end.
Definition t_ty (t : tree) : option nat := match t with Tree _ _ _ y _ => y end.
Definition t_items (t : tree) : list item := match t with Tree _ _ _ _ l => l end.

(** The declarations of a file; options of the file are no case of the switch. *)
Inductive top :=
| TopI (name : string) (id : nat)
| TopD (t : tree).

(** Line and column, and the start and end of each node. *)
Definition position := (nat * nat)%type.
Definition spans := nat -> (position * position)%type.

(** ** Loops *)

(** One turn of a loop: it goes on, or the function returns nil, or a location. *)
Inductive turn (A : Type) := Next | Stop | Hit (a : A).
Arguments Next {A}.
Arguments Stop {A}.
Arguments Hit {A} a.

Fixpoint each {X A : Type} (f : X -> turn A) (l : list X) : turn A :=
  match l with
  | [] => Next
  | x :: r => match f x with Next => each f r | o => o end
  end.

Fixpoint each_from {X A : Type} (f : nat -> X -> turn A) (n : nat) (l : list X) : turn A :=
  match l with
  | [] => Next
  | x :: r => match f n x with Next => each_from f (S n) r | o => o end
  end.

(** What the function returns, with [last] for the statements after the loop. *)
Definition ends {A : Type} (t : turn A) (last : option A) : option A :=
  match t with Next => last | Stop => None | Hit a => Some a end.

Definition found {A : Type} (o : option A) : turn A :=
  match o with Some a => Hit a | None => Next end.

Section Find.
Variable span : spans.
Variable pos : position.

(** [containsPos] (906-927). *)
Definition contains (i : nat) : bool :=
  let start := fst (span i) in
  let stop := snd (span i) in
  if Nat.ltb (fst pos) (fst start) then false
  else if Nat.eqb (fst start) (fst pos) && Nat.ltb (snd pos) (snd start) then false
  else if Nat.ltb (fst stop) (fst pos) then false
  else if Nat.eqb (fst stop) (fst pos) && Nat.ltb (snd stop) (snd pos) then false
  else true.

(** [value, ok := elem.Val.( *ast.StringLiteralNode)]; nil unless it is one. *)
Definition on_string {A : Type} (v : value) (a : A) : turn A :=
  match v with VStr i _ => if contains i then Hit a else Next | _ => Stop end.

(** The same for a message literal. *)
Definition on_literal {A : Type} (v : value) (f : nat -> elems -> option A) : turn A :=
  match v with VMsg i es => found (f i es) | _ => Stop end.

Definition on_node {A : Type} (i : nat) (a : A) : option A :=
  if contains i then Some a else None.

(** ** Options of messages *)

(** [findMessageArgumentByPos] (612-672). *)
Definition find_arguments (l : list lit) : option (nat * arg_part) :=
  ends (each_from (fun idx (x : lit) =>
          each (fun e : string * value =>
            let (f, v) := e in
            if String.eqb f "name" then on_string v (idx, AName)
            else if String.eqb f "by" then on_string v (idx, ABy)
            else if String.eqb f "inline" then on_string v (idx, AInline)
            else Next) (snd x)) 0 l)
       None.

(** [findMessageExprByPos] (584-610): on the literal, but on no part of it, the
    location is the one of the option. *)
Definition find_message_expr (idx i : nat) (es : elems) : option mopt_part :=
  ends (each (fun e : string * value =>
          let (f, v) := e in
          if String.eqb f "name" then on_string v (MODef idx (DMessage GName))
          else if String.eqb f "args" then
            match find_arguments (message_list v) with
            | Some (n, p) => Hit (MODef idx (DMessage (GArgs n p)))
            | None => Next
            end
          else Next) es)
       (on_node i MOHere).

(** [findMethodRequestByPos] (706-777). *)
Definition find_request (l : list lit) : option (nat * req_part) :=
  ends (each_from (fun idx (x : lit) =>
          match each (fun e : string * value =>
            let (f, v) := e in
            if String.eqb f "field" then on_string v (idx, QField)
            else if String.eqb f "by" then on_string v (idx, QBy)
            else if String.eqb f "if" then on_string v (idx, QIf)
            else Next) (snd x) with
          | Next => found (on_node (fst x) (idx, QHere))
          | o => o
          end) 0 l)
       None.

(** [findCallExprByPos] (674-704). *)
Definition find_call (idx i : nat) (es : elems) : option mopt_part :=
  ends (each (fun e : string * value =>
          let (f, v) := e in
          if String.eqb f "method" then on_string v (MODef idx (DCall CMethod))
          else if String.eqb f "request" then
            match find_request (message_list v) with
            | Some (n, q) => Hit (MODef idx (DCall (CRequest n q)))
            | None => Next
            end
          else Next) es)
       (on_node i (MODef idx (DCall CHere))).

(** [findDefByPos] (515-582). *)
Definition find_def (l : list lit) : option mopt_part :=
  ends (each_from (fun idx (x : lit) =>
          each (fun e : string * value =>
            let (f, v) := e in
            if String.eqb f "name" then on_string v (MODef idx DName)
            else if String.eqb f "if" then on_string v (MODef idx DIf)
            else if String.eqb f "by" then on_string v (MODef idx DBy)
            else if String.eqb f "call" then on_literal v (find_call idx)
            else if String.eqb f "message" then on_literal v (find_message_expr idx)
            else Next) (snd x)) 0 l)
       (match l with
        | [] => None
        | x :: _ => on_node (fst x) MOHere
        end).

(** [findMessageOptionByPos] (465-495); [None] is a location without an option. *)
Definition find_message_option (s : stmt) : option (option mopt_part) :=
  match o_val s with
  | VMsg i es =>
      ends (each (fun e : string * value =>
              let (f, v) := e in
              if String.eqb f "alias" then found (on_node (value_id v) (Some MOAlias))
              else if String.eqb f "def" then found (option_map Some (find_def (message_list v)))
              else Next) es)
           (on_node i (Some MOHere))
  | VStr i _ =>
      if has_suffix "alias" (option_name s) && contains i then Some (Some MOAlias)
      else on_node i None
  | v => on_node (value_id v) None
  end.

(** ** Fields *)

(** [findFieldOptionByPos] (437-463). *)
Definition find_field_option (s : stmt) : option fopt_part :=
  match o_val s with
  | VStr i _ => if has_suffix "by" (option_name s) then on_node i FOBy else None
  | VMsg _ es =>
      ends (each (fun e : string * value =>
              let (f, v) := e in
              if String.eqb f "by" then on_string v FOBy else Next) es)
           None
  | _ => None
  end.

Definition on_stmt {A : Type} (ext : string) (f : stmt -> option A) (x : item) : turn A :=
  match x with
  | IOpt s => if match_option (option_name s) ext then found (f s) else Next
  | _ => Next
  end.

(** [findFieldByPos] (416-435). *)
Definition find_field (t : tree) : option field_part :=
  match each (on_stmt field_option find_field_option) (t_items t) with
  | Hit o => Some (FOpt o)
  | _ => match t_ty t with Some i => on_node i FType | None => None end
  end.

(** [findOneofByPos] (401-414): a location, or the field the context is left with. *)
Fixpoint find_oneof (its : list item) (last : option string) : list msg_loc + option string :=
  match its with
  | [] => inr last
  | ISub (Tree KField name i y its') :: r =>
      match find_field (Tree KField name i y its') with
      | Some p => inl [LField name p]
      | None => find_oneof r (Some name)
      end
  | _ :: r => find_oneof r last
  end.

(** ** Enums *)

(** [findEnumOptionByPos] (297-325). *)
Definition find_enum_option (s : stmt) : option enum_loc :=
  match o_val s with
  | VMsg _ es =>
      ends (each (fun e : string * value =>
              let (f, v) := e in
              if String.eqb f "alias" then on_string v XOpt else Next) es)
           None
  | VStr i _ => if has_suffix "alias" (option_name s) then on_node i XOpt else None
  | _ => None
  end.

(** [findEnumValueOptionByPos] (342-399). *)
Definition find_enum_value_option (s : stmt) : option vopt_part :=
  match o_val s with
  | VMsg _ es =>
      ends (each (fun e : string * value =>
              let (f, v) := e in
              if String.eqb f "alias" then
                match v with
                | VStr i _ => found (on_node i VOAlias)
                | VArr _ l => each (fun w => match w with
                                             | VStr i _ => found (on_node i VOAlias)
                                             | _ => Next
                                             end) l
                | _ => Next
                end
              else if String.eqb f "default" then on_string v VODefault
              else Next) es)
           None
  | VStr i _ =>
      if has_suffix "alias" (option_name s) && contains i then Some VOAlias
      else if has_suffix "default" (option_name s) && contains i then Some VODefault
      else None
  | _ => None
  end.

(** [findEnumByPos] and [findEnumValueByPos] (277-295, 327-340). *)
Fixpoint find_enum (its : list item) (last : option string) : option (list enum_loc) :=
  match its with
  | [] => None
  | IOpt s :: r =>
      if match_option (option_name s) enum_option then
        match find_enum_option s with
        | Some x =>
            Some (match last with Some n => [XValue n UHere] | None => [] end ++ [x])
        | None => find_enum r last
        end
      else find_enum r last
  | ISub (Tree KEnumValue name _ _ its') :: r =>
      match ends (each (on_stmt enum_value_option find_enum_value_option) its') None with
      | Some o => Some [XValue name (UOpt o)]
      | None => find_enum r (Some name)
      end
  | _ :: r => find_enum r last
  end.

(** ** Messages *)

(** The part of [buildLocation] (153-199) for a field and an option of a message. *)
Definition field_left (last : option string) : list msg_loc :=
  match last with Some n => [LField n FHere] | None => [] end.

Definition option_location (last : option string) (o : option mopt_part) : list msg_loc :=
  match field_left last ++ match o with Some p => [LOpt p] | None => [] end with
  | [] => [LHere]
  | l => l
  end.

(** [findMessageByPos] (234-275). *)
Fixpoint find_message (t : tree) (last : option string) {struct t} : option (list msg_loc) :=
  match t with
  | Tree _ _ _ _ items =>
      (fix go (its : list item) (last : option string) {struct its} : option (list msg_loc) :=
         match its with
         | [] => None
         | IOpt s :: r =>
             if match_option (option_name s) message_option then
               match find_message_option s with
               | Some o => Some (option_location last o)
               | None => go r last
               end
             else go r last
         | ISub x :: r =>
             match t_kind x with
             | KField =>
                 match find_field x with
                 | Some p => Some [LField (t_name x) p]
                 | None => go r (Some (t_name x))
                 end
             | KMessage =>
                 match find_message x last with
                 | Some ls => Some (map (LNested (t_name x)) ls)
                 | None => go r last
                 end
             | KEnum =>
                 match find_enum (t_items x) None with
                 | Some xs => Some (field_left last ++ map (LEnum (t_name x)) xs)
                 | None => go r last
                 end
             | KOneof =>
                 match find_oneof (t_items x) last with
                 | inl ls => Some ls
                 | inr last' => go r last'
                 end
             | _ => go r last
             end
         | IMap _ :: r => go r last
         end) items last
  end.

(** ** Services *)

(** [findEnvVarByPos] (846-860). *)
Definition find_env_var (i : nat) (es : elems) : option svc_loc :=
  ends (each (fun e : string * value =>
          let (f, v) := e in
          if String.eqb f "name" then found (on_node (value_id v) ZHere) else Next) es)
       (on_node i ZHere).

(** [findEnvByPos] (822-844). *)
Definition find_env (i : nat) (es : elems) : option svc_loc :=
  ends (each (fun e : string * value =>
          let (f, v) := e in
          if String.eqb f "message" then found (on_node (value_id v) ZHere)
          else if String.eqb f "var" then on_literal v find_env_var
          else Next) es)
       (on_node i ZHere).

(** [findServiceOptionByPos] (799-820). *)
Definition find_service_option (s : stmt) : option svc_loc :=
  match o_val s with
  | VMsg i es =>
      ends (each (fun e : string * value =>
              let (f, v) := e in
              if String.eqb f "env" then on_literal v find_env else Next) es)
           (on_node i ZHere)
  | v => on_node (value_id v) ZHere
  end.

(** [findMethodOptionByPos] (878-904). *)
Definition find_method_option (s : stmt) : option mtd_part :=
  match o_val s with
  | VStr i _ => if has_suffix "timeout" (option_name s) then on_node i TOptTimeout else None
  | VMsg _ es =>
      ends (each (fun e : string * value =>
              let (f, v) := e in
              if String.eqb f "timeout" then on_string v TOptTimeout else Next) es)
           None
  | _ => None
  end.

(** [findServiceByPos] and [findMethodByPos] (779-797, 862-876). *)
Fixpoint find_service (its : list item) (last : option string) : option (list svc_loc) :=
  match its with
  | [] => None
  | IOpt s :: r =>
      if match_option (option_name s) service_option then
        match find_service_option s with
        | Some z => Some (match last with Some n => [ZMethod n THereM] | None => [z] end)
        | None => find_service r last
        end
      else find_service r last
  | ISub (Tree KRpc name _ _ its') :: r =>
      match ends (each (on_stmt method_option find_method_option) its') None with
      | Some m => Some [ZMethod name m]
      | None => find_service r (Some name)
      end
  | _ :: r => find_service r last
  end.

(** ** The file *)

(** [FindLocationByPos] and [findImportByPos] (202-222, 224-232). *)
Fixpoint find_location (ds : list top) : option (list loc) :=
  match ds with
  | [] => None
  | TopI name i :: r => if contains i then Some [TopImport name] else find_location r
  | TopD t :: r =>
      match t_kind t with
      | KMessage =>
          match find_message t None with
          | Some ls => Some (map (TopMessage (t_name t)) ls)
          | None => find_location r
          end
      | KService =>
          match find_service (t_items t) None with
          | Some zs => Some (map (TopService (t_name t)) zs)
          | None => find_location r
          end
      | _ => find_location r
      end
  end.

End Find.
