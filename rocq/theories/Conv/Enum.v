(** Enum aliases and the generated conversions between enums.
    Models: resolver/enum.go (Value), resolver/resolver.go (resolveEnumRules, resolveEnumValueRule, resolveEnumValueAlias,
    resolveEnumValueRuleByAutoAlias), generator/code_generator.go (ToEnum, toEnumFromDepServiceToService,
    toEnumFromServiceToDepService), generator/templates/cast.go.tmpl (castEnum).
    Simplified: enums are numbers, see [enums]; the enums named by an "alias" option are given resolved. Attributes are not
    modelled. *)
From Coq Require Import Ascii String List Bool Arith ZArith.
From Verif.Base Require Import Text.
Import ListNotations.
Local Open Scope string_scope.

(** federation.EnumValueRule *)
Record vopt := { vo_default : bool; vo_alias : list string }.
Record evalue := { v_name : string; v_num : Z; v_opt : option vopt }.
(** An enum: its fully qualified name, the package of its file, its values, and the "alias" of its option if it has one. *)
Record enum := { e_fqdn : string; e_pkg : string; e_values : list evalue; e_opt : option (list nat) }.

Section Enums.
  Variable enums : nat -> enum.

  (** resolver/enum.go:25-43 Value *)
  Definition named (e : enum) (name : string) : option evalue := find (fun v => String.eqb (v_name v) name) (e_values e).
  Definition Value (e : enum) (name : string) : option evalue :=
    if has_char "."%char name then
      let p := e_fqdn e ++ "." in
      if String.prefix p name then named e (substring (String.length p) (String.length name - String.length p) name) else None
    else named e name.

  (** resolver/types.go EnumValueRule. The alias lists of the entries always have one value. *)
  Record vrule := { vr_default : bool; vr_aliases : list (nat * list evalue) }.

  (** resolver.go:3245-3274 resolveEnumValueRuleByAutoAlias; [None]: an error is reported. *)
  Definition autoAlias (name : string) (aliases : list nat) : option (list (nat * list evalue)) :=
    let l := flat_map (fun a => match Value (enums a) name with Some v => [(a, [v])] | None => [] end) aliases in
    if Nat.eqb (length l) (length aliases) then Some l else None.
  (** resolver.go:3167-3211 resolveEnumValueAlias, for a name that is not empty *)
  Definition explicitAlias (pkg : string) (name : string) (aliases : list nat) : option (list (nat * list evalue)) :=
    let l := flat_map (fun a => match Value (enums a) name with
                                | Some v => [(a, [v])]
                                | None => match Value (enums a) (pkg ++ "." ++ name) with Some v => [(a, [v])] | None => [] end
                                end) aliases in
    if Nat.eqb (length l) 0 then None
    else if negb (has_char "."%char name) && negb (Nat.eqb (length l) (length aliases)) then None
    else Some l.
  Definition resolveEnumValueAlias (pkg vname name : string) (aliases : list nat) : option (list (nat * list evalue)) :=
    if String.eqb name "" then autoAlias vname aliases else explicitAlias pkg name aliases.

  (** The loop over the names of an "alias". *)
  Fixpoint aliasesOf (pkg vname : string) (names : list string) (aliases : list nat) : option (list (nat * list evalue)) :=
    match names with
    | [] => Some []
    | n :: names => match resolveEnumValueAlias pkg vname n aliases, aliasesOf pkg vname names aliases with
                    | Some a, Some b => Some (a ++ b)%list
                    | _, _ => None
                    end
    end.
  (** resolver.go:3130-3165 resolveEnumValueRule; [None]: an error is reported; [Some None]: no rule. *)
  Definition resolveEnumValueRule (e : enum) (v : evalue) : option (option vrule) :=
    match v_opt v, e_opt e with
    | None, None => Some None
    | None, Some aliases =>
        match autoAlias (v_name v) aliases with Some l => Some (Some {| vr_default := false; vr_aliases := l |}) | None => None end
    | Some o, opt =>
        match vo_alias o, opt with
        | _ :: _, None | _ :: _, Some [] => None
        | names, _ =>
            match (match opt with
                   | Some aliases => if vo_default o then Some []
                                     else match names with
                                          | [] => autoAlias (v_name v) aliases
                                          | _ => aliasesOf (e_pkg e) (v_name v) names aliases
                                          end
                   | None => Some []
                   end) with
            | Some l => Some (Some {| vr_default := vo_default o; vr_aliases := l |})
            | None => None
            end
        end
    end.
  (** resolver.go:1863-1871 resolveEnumRules *)
  Fixpoint resolve_values (e : enum) (l : list evalue) : option (list (evalue * option vrule)) :=
    match l with
    | [] => Some []
    | v :: l => match resolveEnumValueRule e v, resolve_values e l with Some r, Some rs => Some ((v, r) :: rs) | _, _ => None end
    end.
  Definition resolve_enum (e : enum) : option (list (evalue * option vrule)) := resolve_values e (e_values e).

  (** generator/code_generator.go:2057-2067 CastEnum: the cases of the switch and the default, as numbers: the Go constants
      of an enum are its numbers. *)
  Record cast_enum := { ce_cases : list (Z * Z); ce_default : Z }.

  (** code_generator.go:2121-2155 toEnumFromDepServiceToService: [rules] are those of the target. *)
  Definition depToService (rules : list (evalue * option vrule)) (dep : nat) : cast_enum :=
    {| ce_cases := flat_map (fun vr => match snd vr with
                                       | None => []
                                       | Some r => flat_map (fun al => if Nat.eqb (fst al) dep
                                                                       then map (fun w => (v_num w, v_num (fst vr))) (snd al) else []) (vr_aliases r)
                                       end) rules;
       ce_default := fold_left (fun d vr => match snd vr with
                                            | Some r => if vr_default r then v_num (fst vr) else d
                                            | None => d
                                            end) rules 0%Z |}.
  (** code_generator.go:2157-2191 toEnumFromServiceToDepService: [rules] are those of the source. [None]: generation fails. *)
  Fixpoint serviceToDep (rules : list (evalue * option vrule)) (dep : nat) : option (list (Z * Z)) :=
    match rules with
    | [] => Some []
    | (v, None) :: rules => serviceToDep rules dep
    | (v, Some r) :: rules =>
        if forallb (fun al => negb (Nat.eqb (fst al) dep) || Nat.eqb (length (snd al)) 1) (vr_aliases r) then
          if vr_default r then None
          else match serviceToDep rules dep with
               | Some l => Some (flat_map (fun al => if Nat.eqb (fst al) dep
                                                     then match snd al with w :: _ => [(v_num v, v_num w)] | [] => [] end else []) (vr_aliases r) ++ l)%list
               | None => None
               end
        else None
    end.
  (** code_generator.go:2093-2116, neither enum has aliases *)
  Definition sameNames (from : enum) (rules : list (evalue * option vrule)) : list (Z * Z) :=
    flat_map (fun vr => match snd vr with
                        | None => []
                        | Some _ => match Value from (v_name (fst vr)) with Some w => [(v_num w, v_num (fst vr))] | None => [] end
                        end) rules.

  Definition has_aliases (e : enum) : bool := match e_opt e with Some (_ :: _) => true | _ => false end.
  Definition rules (e : nat) : list (evalue * option vrule) := match resolve_enum (enums e) with Some l => l | None => [] end.
  (** code_generator.go:2085-2117 ToEnum *)
  Definition ToEnum (from to : nat) : option cast_enum :=
    if has_aliases (enums to) then Some (depToService (rules to) from)
    else if has_aliases (enums from) then
      match serviceToDep (rules from) to with Some l => Some {| ce_cases := l; ce_default := 0%Z |} | None => None end
    else Some {| ce_cases := sameNames (enums from) (rules to); ce_default := 0%Z |}.

  (** A Go switch with two equal constant cases does not compile. *)
  Fixpoint distinct (l : list Z) : bool := match l with [] => true | x :: l => negb (existsb (Z.eqb x) l) && distinct l end.
  Definition enum_compiles (c : cast_enum) : bool := distinct (map fst (ce_cases c)).
  (** cast.go.tmpl castEnum *)
  Definition castEnum (c : cast_enum) (x : Z) : Z :=
    match find (fun p => Z.eqb (fst p) x) (ce_cases c) with Some p => snd p | None => ce_default c end.
End Enums.
