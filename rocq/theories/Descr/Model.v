(** The messages that describe arguments, environment variables and service variables to expressions.
    Models: resolver/resolver.go:1993-2011 (the type of an environment variable), 2031-2081 (resolveEnvType), 4925-4941 (envVarsToMessage),
    4999-5038 (messageToDescriptor), 5045-5061 (toMapEntryName); resolver/message.go:22-30 (NewMapType).
    Simplified: kinds are numbers, and so is the duration of an environment variable, which is a message outside of the one described; the fully qualified name of a message is given, that of the entry of a map with its type; names are ASCII,
    for a name that validateName accepts (resolver.go:1440-1460) cases.Title makes the first letter upper case and the others lower case;
    the rest of the file descriptor is left out. *)
From Coq Require Import Ascii String List Bool Arith.
Import ListNotations.
Local Open Scope string_scope.

(** unicode.ToUpper (resolver.go:5053) and ToLower (in cases.Title) on ASCII *)
Definition upper (c : ascii) : ascii := let n := nat_of_ascii c in if Nat.leb 97 n && Nat.leb n 122 then ascii_of_nat (n - 32) else c.
Definition lower (c : ascii) : ascii := let n := nat_of_ascii c in if Nat.leb 65 n && Nat.leb n 90 then ascii_of_nat (n + 32) else c.
(** a function on each letter, for cases.Title (resolver.go:2005) *)
Fixpoint map_string (f : ascii -> ascii) (s : string) : string := match s with EmptyString => EmptyString | String c r => String (f c) (map_string f r) end.

(** resolver.go:5045-5061 *)
Fixpoint camel (upper_next : bool) (s : string) : string :=
  match s with
  | EmptyString => EmptyString
  | String c r => if Ascii.eqb c "_" then camel true r
                  else if upper_next then String (upper c) (camel false r)
                  else String c (camel false r)
  end.
Definition to_map_entry_name (s : string) : string := camel true s ++ "Entry".

(** cases.Title(language.Und).String, as used in resolver.go:2005 *)
Definition title (s : string) : string := match s with EmptyString => EmptyString | String c r => String (upper c) (map_string lower r) end.

(** resolver.Type: of a kind; a message with its name (enums, which have a name and another kind, are left out); the entry of a map with its name, which may be empty, and its full name *)
Inductive ty := Plain (k : nat) (rep : bool) | Named (fqdn : string) (rep : bool) | Map (name fqdn : string) (key value : ty).
(** resolver.go:5008-5029: Type.Repeated, Type.Kind (message.go:14-20 for messages and maps) and the name of the type *)
Definition repeated (t : ty) : bool := match t with Plain _ r => r | Named _ r => r | Map _ _ _ _ => false end.
Definition message_kind : nat := 11.
Definition kind_of (t : ty) : nat := match t with Plain k _ => k | _ => message_kind end.
Definition type_name (t : ty) : string := match t with Named q _ => q | _ => "" end.

(** descriptorpb.FieldDescriptorProto and DescriptorProto, as filled in resolver.go:5000-5005, 5029-5035 *)
Record fdesc := { f_name : string; f_number : nat; f_kind : nat; f_type : string; f_repeated : bool }.
Inductive mdesc := MD (name : string) (map_entry : bool) (fields : list fdesc) (nested : list mdesc).
Definition d_name (d : mdesc) : string := match d with MD n _ _ _ => n end.
(** resolver.go:5016: append an entry if there is one *)
Definition opt {A} (o : option A) : list A := match o with Some x => [x] | None => [] end.

(** resolver.go:5006-5035: a field of the message with name [fqdn]; [e]: the descriptor of the map's entry *)
Definition field_desc (fqdn : string) (idx : nat) (name : string) (t : ty) (e : option mdesc) : fdesc :=
  {| f_name := name; f_number := idx + 1; f_kind := kind_of t;
     f_type := match e with Some d => fqdn ++ "." ++ d_name d | None => type_name t end;
     f_repeated := match e with Some _ => true | None => repeated t end |}.
(** resolver.go:5011-5016: the entry of the map that is the type of a field *)
Fixpoint entry_of (field : string) (t : ty) : option mdesc :=
  match t with
  | Map n fqdn k v =>
      let ek := entry_of "key" k in
      let ev := entry_of "value" v in
      Some (MD (if n =? "" then to_map_entry_name field else n) true [field_desc fqdn 0 "key" k ek; field_desc fqdn 1 "value" v ev] (opt ek ++ opt ev))
  | _ => None
  end.
(** resolver.go:5006-5036: the loop over the fields *)
Fixpoint fields_from (fqdn : string) (idx : nat) (fs : list (string * ty)) : list fdesc :=
  match fs with [] => [] | (n, t) :: fs => field_desc fqdn idx n t (entry_of n t) :: fields_from fqdn (S idx) fs end.
(** resolver.go:4999-5038 *)
Definition describe (fqdn name : string) (fs : list (string * ty)) : mdesc :=
  MD name false (fields_from fqdn 0 fs) (flat_map (fun f => opt (entry_of (fst f) (snd f))) fs).

(** federation.EnvType, as read in resolver.go:2031-2081 *)
Inductive env_type := EKind (k : nat) | ERepeated (t : env_type) | EMap (key value : env_type).
(** resolver.go:2031-2081 *)
Fixpoint resolve_env_type (t : env_type) (rep : bool) : ty :=
  match t with
  | EKind k => Plain k rep
  | ERepeated t => resolve_env_type t true
  | EMap k v => Map "" "." (resolve_env_type k false) (resolve_env_type v false)
  end.
(** resolver.go:2003-2011; [private]: the private package of the file *)
Definition env_var (private name : string) (t : env_type) : string * ty :=
  (name, match resolve_env_type t false with
         | Map _ _ k v => Map (title name ++ "Entry") (private ++ "." ++ title name ++ "Entry") k v
         | u => u
         end).
(** resolver.go:4925-4941 with 4466-4467 *)
Definition env_message (private service : string) (vars : list (string * env_type)) : mdesc :=
  describe (private ++ "." ++ service ++ "Env") (service ++ "Env") (map (fun v => env_var private (fst v) (snd v)) vars).
