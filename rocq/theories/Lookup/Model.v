(** Resolution of the names of messages, enums and methods.
    Models: resolver/resolver.go:192-226 (resolvePackageAndFileReference), 1009-1052 (resolveService), 1113-1141 (resolveMessageByName,
    resolveMessage), 1208-1236 (resolveEnumByName, resolveEnum), 2588-2633 (resolveCallExpr), 5162-5299 (splitMethodFullName,
    lookupMessage, lookupEnum, lookupEnumRecursive, lookupMessageRecursive, lookupService, lookupPackage, trimPackage);
    service.go:39-49 (Service.Method).
    Simplified: descriptors are identified by a number; what else is done when a message is resolved for the first time is left out, as
    it only makes further requests of the same kind. *)
From Coq Require Import String Ascii List Arith Bool.
From Verif.Base Require Import Text.
Import ListNotations.
Local Open Scope string_scope.

(** Descriptors: number, name, nested messages, enums *)
Inductive mdesc := MDesc (id : nat) (name : string) (nested : list mdesc) (enums : list (string * nat)).
Definition mname (m : mdesc) : string := match m with MDesc _ n _ _ => n end.
Definition mid (m : mdesc) : nat := match m with MDesc i _ _ _ => i end.
Definition mnested (m : mdesc) : list mdesc := match m with MDesc _ _ l _ => l end.
Definition menums (m : mdesc) : list (string * nat) := match m with MDesc _ _ _ l => l end.
(** a service: name, number, methods *)
Record fdesc := { package : string; messages : list mdesc; enums : list (string * nat); services : list (string * (nat * list string)) }.
Definition schema := list fdesc.

(** protoPackageNameToPackage, protoPackageNameToFileDefs *)
Definition has_package (s : schema) (p : string) : bool := existsb (fun f => package f =? p) s.
Definition files_of (s : schema) (p : string) : list fdesc := filter (fun f => package f =? p) s.

(** a loop that returns the first thing found *)
Section First.
  Context {A B : Type}.
  Variable f : A -> option B.
  Fixpoint first (l : list A) : option B := match l with [] => None | x :: l => match f x with Some y => Some y | None => first l end end.
End First.

(** resolver.go:5248-5260 *)
Fixpoint lookupMessageRecursive (name parent : string) (m : mdesc) : option nat :=
  match m with
  | MDesc id n nested _ =>
      let full := parent ++ "." ++ n in
      if full =? name then Some id else first (lookupMessageRecursive name full) nested
  end.
(** resolver.go:5181-5200 *)
Definition lookupMessage (s : schema) (pkg name : string) : option nat :=
  first (fun f => first (fun m => if mname m =? name then Some (mid m) else first (lookupMessageRecursive name (mname m)) (mnested m)) (messages f)) (files_of s pkg).

(** resolver.go:5231-5246 *)
Fixpoint lookupEnumRecursive (name parent : string) (m : mdesc) : option nat :=
  match m with
  | MDesc _ n nested es =>
      let prefix := parent ++ "." ++ n in
      match first (fun e : string * nat => if (prefix ++ "." ++ fst e) =? name then Some (snd e) else None) es with
      | Some id => Some id
      | None => first (lookupEnumRecursive name prefix) nested
      end
  end.
(** resolver.go:5202-5229 *)
Definition lookupEnum (s : schema) (pkg name : string) : option nat :=
  first (fun f =>
    match first (fun e : string * nat => if fst e =? name then Some (snd e) else None) (enums f) with
    | Some id => Some id
    | None => first (fun m =>
        match first (fun e : string * nat => if (mname m ++ "." ++ fst e) =? name then Some (snd e) else None) (menums m) with
        | Some id => Some id
        | None => first (lookupEnumRecursive name (mname m)) (mnested m)
        end) (messages f)
    end) (files_of s pkg).

(** resolver.go:5262-5275 *)
Definition lookupService (s : schema) (pkg name : string) : option (nat * list string) :=
  first (fun f => first (fun v : string * (nat * list string) => if fst v =? name then Some (snd v) else None) (services f)) (files_of s pkg).

(** resolver.go:5277-5291; [k] is lastIdx *)
Fixpoint longest_package (s : schema) (names : list string) (k : nat) : option string :=
  match k with
  | 0 => None
  | S k' => let p := join "." (firstn k names) in if has_package s p then Some p else longest_package s names k'
  end.
Definition lookupPackage (s : schema) (name : string) : option string :=
  let names := split "." (trim_prefix1 "." name) in
  if (length names <=? 1)%nat then None else longest_package s names (length names - 1).

(** strings.TrimPrefix *)
Fixpoint cut_prefix (p s : string) : option string :=
  match p, s with
  | EmptyString, _ => Some s
  | String a p', String b s' => if Ascii.eqb a b then cut_prefix p' s' else None
  | String _ _, EmptyString => None
  end.
Definition trim_prefix (p s : string) : string := match cut_prefix p s with Some r => r | None => s end.
(** resolver.go:5293-5299 *)
Definition trimPackage (pkg name : string) : string :=
  let name := trim_prefix1 "." name in
  if negb (has_char "." name) then name else trim_prefix (pkg ++ ".") name.

(** A map from names to what has been resolved *)
Definition cache (A : Type) := list (string * A).
Definition cached {A} (c : cache A) (k : string) : option A := option_map snd (find (fun e => fst e =? k) c).

(** resolveMessage, resolveEnum, resolveService: from the map, or looked up and added to the map; None is an error *)
Section Resolve.
  Context {A : Type}.
  Variable lookup : string -> string -> option A.
  Definition resolve_in (c : cache A) (pkg name : string) : cache A * option A :=
    let fqdn := pkg ++ "." ++ name in
    match cached c fqdn with
    | Some x => (c, Some x)
    | None => match lookup pkg name with
              | None => (c, None)
              | Some x => ((fqdn, x) :: c, Some x)
              end
    end.
  (** resolveMessageByName, resolveEnumByName, in a file of package [cur] *)
  Definition resolve_by_name (s : schema) (c : cache A) (cur name : string) : cache A * option A :=
    if has_char "." name then
      match lookupPackage s name with
      | None => resolve_in c cur name
      | Some pkg => resolve_in c pkg (trimPackage pkg name)
      end
    else resolve_in c cur name.
  (** the map after any requests *)
  Definition run (h : list (string * string)) : cache A := fold_left (fun c r => fst (resolve_in c (fst r) (snd r))) h [].
End Resolve.

(** resolver.go:5162-5179 *)
Definition splitMethodFullName (cur name : string) : option (string * string * string) :=
  match split "/" name with
  | [svc; m] =>
      if negb (has_char "." svc) then Some (cur, svc, m)
      else let names := split "." svc in
           if (length names <=? 1)%nat then None
           else Some (join "." (removelast names), last names "", m)
  | _ => None
  end.

(** resolver.go:2593-2633: the service's number and the method *)
Definition resolve_method (s : schema) (c : cache (nat * list string)) (cur name : string) : cache (nat * list string) * option (nat * string) :=
  match splitMethodFullName cur name with
  | None => (c, None)
  | Some (p, svc, m) =>
      if has_package s p then
        let (c, r) := resolve_in (lookupService s) c p svc in
        match r with
        | None => (c, None)
        | Some (id, ms) => (c, if existsb (String.eqb m) ms then Some (id, m) else None)
        end
      else (c, None)
  end.
