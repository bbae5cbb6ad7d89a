(** Which conversions are generated.
    Models: resolver/type_conversion.go, resolver/fqdn.go (Type.FQDN), resolver/message.go and resolver/field.go (TypeConversionDecls),
    generator/code_generator.go (CastFields, castFuncName calls in ToSlice, ToStruct, ToOneof, ToMap).
    Simplified: null types are left out (they need no conversion); sorting is left out. *)
From Coq Require Import String List Bool Arith.
From Verif.Cast Require Import Model.
From Verif.Conv Require Import Enum Model.
Import ListNotations.
Local Open Scope nat_scope.

(** The result of collecting: the declarations and the visited names; [NoFuel]: not finished; [Panic]: a nil pointer *)
Inductive dres := Done (d : list (ty * ty)) (vis : list string) | NoFuel | Panic.

Section Decls.
  Variable msgs : nat -> message.
  (** The full names of messages and enums *)
  Variable mname ename : nat -> string.
  (** resolver/message.go:114-119 IsEnumSelector *)
  Variable selector : nat -> bool.

  (** resolver/fqdn.go:66-88 Type.FQDN, for types that are not maps *)
  Definition fqdn1 (t : ty) : string :=
    ((if t_rep t then "repeated " else "") ++
     match t_member t with
     | Some n => n
     | None => match t_msg t, t_enum t with Some m, _ => mname m | None, Some e => ename e | None, None => ToString (t_kind t) end
     end)%string.
  Definition fqdn (t : ty) : string :=
    match t_member t, t_msg t with
    | None, Some m => if m_map (msgs m) then match entry (msgs m) with Some (k, v) => ("map<" ++ fqdn1 k ++ ", " ++ fqdn1 v ++ ">")%string | None => "" end
                      else fqdn1 t
    | _, _ => fqdn1 t
    end.
  (** type_conversion.go:9-11 TypeConversionDecl.FQDN *)
  Definition key (f t : ty) : string := (fqdn f ++ fqdn t)%string.

  Definition is_map_type (t : ty) : bool := match t_msg t with Some m => m_map (msgs m) | None => false end.
  Definition named (t : ty) (n : string) : option field := match t_msg t with Some m => find_field (msgs m) n | None => None end.

  (** type_conversion.go:117-141 requiredTypeConversion; the types in a map entry are not maps. [None]: the target has no message *)
  Definition required1 (f t : ty) : bool :=
    if is_message f then negb (onat_eqb (t_msg f) (t_msg t))
    else if is_enum f then negb (onat_eqb (t_enum f) (t_enum t))
    else negb (kind_eqb (t_kind f) (t_kind t)).
  Definition required (f t : ty) : bool :=
    if is_message f && is_map_type f then
      match named f "key", named f "value", named t "key", named t "value" with
      | Some fk, Some fv, Some tk, Some tv => required1 (f_type fk) (f_type tk) || required1 (f_type fv) (f_type tv)
      | _, _, _, _ => false
      end
    else required1 f t.

  (** type_conversion.go:83-95 enumSelectorTypeConversionDecls: the types at the leaves of a selector *)
  Definition selects (t : ty) : option nat := if is_message t then match t_msg t with Some m => if selector m then Some m else None | None => None end else None.
  Fixpoint leaves (fuel : nat) (m : nat) : option (list ty) :=
    match fuel with
    | 0 => None
    | S fuel =>
        if selector m then
          (fix go (l : list field) := match l with
                                      | [] => Some []
                                      | f :: l => match (match selects (f_type f) with Some m' => leaves fuel m' | None => Some [f_type f] end), go l with
                                                  | Some a, Some b => Some (a ++ b)
                                                  | _, _ => None
                                                  end
                                      end) (m_fields (msgs m))
        else Some []
    end.
  (** Enough for the selectors of the schema *)
  Variable depth : nat.
  Definition leaves_of (m : nat) : list ty := match leaves depth m with Some l => l | None => [] end.

  (** type_conversion.go:29-80, after the checks: whether the conversion itself is declared, and the conversions looked at next.
      [None]: nil pointer. *)
  Definition selected (f t : ty) : option nat := match t_msg f with Some m => if selector m && is_enum t then Some m else None | None => None end.
  Definition pair_at (f t : ty) (n : string) : list (ty * ty) := match named f n, named t n with Some a, Some b => [(f_type a, f_type b)] | _, _ => [] end.
  Definition expand (f t : ty) : option (bool * list (ty * ty)) :=
    if is_message f && is_map_type f && match t_msg t with Some _ => true | None => false end then
      Some (true, pair_at f t "key" ++ pair_at f t "value")
    else if t_rep f then
      match selected (elem f) (elem t) with
      | Some m => Some (false, map (fun x => (x, elem t)) (leaves_of m))
      | None => Some (true, [(elem f, elem t)])
      end
    else if t_oneof f then Some (true, [(strip f, strip t)])
    else if is_message f then
      match selected f t with
      | Some m => Some (false, map (fun x => (x, t)) (leaves_of m))
      | None => match t_msg f, t_msg t with
                | Some a, Some b => Some (true, flat_map (fun tf => match find_field (msgs a) (f_name tf) with Some ff => [(f_type ff, f_type tf)] | None => [] end) (m_fields (msgs b)))
                | _, _ => None
                end
      end
    else Some (true, []).

  Fixpoint run (rec : ty -> ty -> list string -> dres) (l : list (ty * ty)) (vis : list string) : dres :=
    match l with
    | [] => Done [] vis
    | (f, t) :: l => match rec f t vis with
                     | Done d vis => match run rec l vis with Done d' vis' => Done (d ++ d') vis' | r => r end
                     | r => r
                     end
    end.
  (** type_conversion.go:13-81 typeConversionDecls *)
  Fixpoint decls (fuel : nat) (f t : ty) (vis : list string) {struct fuel} : dres :=
    match fuel with
    | 0 => NoFuel
    | S fuel =>
        if negb (required f t) then Done [] vis
        else if existsb (String.eqb (key f t)) vis then Done [] vis
        else match expand f t with
             | None => Panic
             | Some (own, subs) =>
                 match run (decls fuel) subs (key f t :: vis) with
                 | Done d vis => Done ((if own then [(f, t)] else []) ++ d) vis
                 | r => r
                 end
             end
    end.
  (** message.go:464-523 Message.TypeConversionDecls: [roots] are the assignments in the message, in order. *)
  Definition message_decls (fuel : nat) (roots : list (ty * ty)) : dres := run (decls fuel) roots [].

  (** The Go names of messages, enums, members of oneofs and kinds: code_generator.go fullMessageName, fullEnumName, fullOneofName,
      toTypeText *)
  Variable gmname gename : nat -> string.
  Variable gmember : string -> string.
  Variable gkind : kind -> string.
  (** code_generator.go:3745-3766 castName, for types that are not maps *)
  Definition castName1 (t : ty) : string :=
    ((if t_rep t then "repeated_" else "") ++
     match t_member t with
     | Some n => gmember n
     | None => if is_message t then match t_msg t with Some m => gmname m | None => "" end
               else if is_enum t then match t_enum t with Some e => gename e | None => "" end
               else gkind (t_kind t)
     end)%string.
  Definition castName (t : ty) : string :=
    match t_member t, map_entry msgs t with
    | None, Some m => match entry m with Some (k, v) => ("map_" ++ castName1 k ++ "_" ++ castName1 v)%string | None => "" end
    | _, _ => castName1 t
    end.
  (** code_generator.go:3741-3743 castFuncName *)
  Definition castFuncName (p : ty * ty) : string := ("cast_" ++ castName (fst p) ++ "__to__" ++ castName (snd p))%string.

  (** code_generator.go:3586-3626 CastFields: the conversions of the custom responses and those of all messages; a later one
      replaces an earlier one with the same name. [None]: not finished or a nil pointer. *)
  Fixpoint all_decls (fuel : nat) (messages : list (list (ty * ty))) : option (list (ty * ty)) :=
    match messages with
    | [] => Some []
    | m :: l => match message_decls fuel m, all_decls fuel l with Done d _, Some r => Some (d ++ r) | _, _ => None end
    end.
  Fixpoint by_name (l : list (ty * ty)) : list (ty * ty) :=
    match l with
    | [] => []
    | p :: l => if existsb (fun q => String.eqb (castFuncName p) (castFuncName q)) l then by_name l else p :: by_name l
    end.
  Definition CastFields (fuel : nat) (responses : list (ty * ty)) (messages : list (list (ty * ty))) : option (list (ty * ty)) :=
    match all_decls fuel messages with Some d => Some (by_name (responses ++ d)) | None => None end.

  (** The conversions called by the conversion from [f] to [t]: ToSlice, ToMap, ToOneof and ToStruct, where a conversion is required *)
  Definition candidates (f t : ty) : list (ty * ty) :=
    if t_rep f then [(elem f, elem t)]
    else match map_entry msgs f, map_entry msgs t with
         | Some a, Some b => match entry a, entry b with Some (fk, fv), Some (tk, tv) => [(fk, tk); (fv, tv)] | _, _ => [] end
         | _, _ =>
             if t_oneof f then [(strip f, strip t)]
             else if is_message f then
               match t_msg f, t_msg t with
               | Some a, Some b => flat_map (fun tf => match toStructField msgs tf a with Some (_, ft) => [(ft, f_type tf)] | None => [] end) (m_fields (msgs b))
               | _, _ => []
               end
             else []
         end.
  Definition calls (f t : ty) : list (ty * ty) := filter (fun p => requiredCast msgs (fst p) (snd p)) (candidates f t).
End Decls.
