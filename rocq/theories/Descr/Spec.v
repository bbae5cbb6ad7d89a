(** When protobuf accepts a message, from its own rules. The definitions do not use the functions of the model, but for its data. *)
From Coq Require Import Ascii String List Bool Arith.
From Verif.Descr Require Import Model.
Import ListNotations.
Local Open Scope string_scope.

Definition is_lower (c : ascii) : Prop := 97 <= nat_of_ascii c <= 122.
Definition is_upper (c : ascii) : Prop := 65 <= nat_of_ascii c <= 90.
Fixpoint chars (s : string) : list ascii := match s with EmptyString => [] | String c r => c :: chars r end.
(** The names that validateName accepts: a letter, then letters, digits and underscores. *)
Definition is_digit (c : ascii) : Prop := 48 <= nat_of_ascii c <= 57.
Definition valid_name (s : string) : Prop :=
  exists c r, s = String c r /\ (is_lower c \/ is_upper c) /\ forall d, In d (chars r) -> is_lower d \/ is_upper d \/ is_digit d \/ d = "_"%char.

(** The name of the entry of a map field, as protobuf has it: the parts between underscores, each with a capital, and "Entry". *)
Fixpoint parts (s : string) : list string :=
  match s with
  | EmptyString => [""]
  | String c r => if Ascii.eqb c "_" then "" :: parts r else match parts r with [] => [String c ""] | p :: l => String c p :: l end
  end.
Definition capital (c d : ascii) : Prop := (is_lower c /\ nat_of_ascii d = nat_of_ascii c - 32) \/ (~ is_lower c /\ d = c).
Inductive capitalised : string -> string -> Prop :=
| capitalised_empty : capitalised "" ""
| capitalised_letter c d r : capital c d -> capitalised (String c r) (String d r).
Definition implicit_name (field name : string) : Prop := exists l, Forall2 capitalised (parts field) l /\ name = String.concat "" l ++ "Entry".

(** The entry of a map: two fields, key and value, with one value each, and nothing in it. *)
Inductive entry_message : mdesc -> Prop :=
| entry_message_intro n k v : f_name k = "key" -> f_number k = 1 -> f_repeated k = false -> f_name v = "value" -> f_number v = 2 -> f_repeated v = false ->
    entry_message (MD n true [k; v] []).
(** A message in which all nested messages are entries of maps. *)
Inductive valid (fqdn : string) : mdesc -> Prop :=
| valid_intro n fs nested :
    NoDup (map f_name fs) -> NoDup (map f_number fs) -> NoDup (map d_name nested) ->
    (forall e, In e nested -> entry_message e /\ (exists f, In f fs /\ f_type f = fqdn ++ "." ++ d_name e) /\
       forall f, In f fs -> f_type f = fqdn ++ "." ++ d_name e -> f_repeated f = true /\ implicit_name (f_name f) (d_name e)) ->
    valid fqdn (MD n false fs nested).

(** Types of one value. *)
Definition single (t : ty) : Prop := (exists k, t = Plain k false) \/ (exists q, t = Named q false).
Definition map_fields (fs : list (string * ty)) : list (string * ty) := filter (fun f => match snd f with Map _ _ _ _ => true | _ => false end) fs.
(** The types of the fields are not messages in the message. *)
Definition outside (fqdn : string) (fs : list (string * ty)) : Prop := forall n q r s, In (n, Named q r) fs -> q <> fqdn ++ "." ++ s.
(** The message described is one with maps that have single keys and values. *)
Definition single_maps (fs : list (string * ty)) : Prop := forall n m q k v, In (n, Map m q k v) fs -> single k /\ single v.
(** The name of the entry of a map field: its own, or the one protobuf gives it. *)
Inductive labelled : string * ty -> string -> Prop :=
| labelled_given n m q k v : m <> "" -> labelled (n, Map m q k v) m
| labelled_implicit n q k v s : implicit_name n s -> labelled (n, Map "" q k v) s.
(** A field of the descriptor for a field of the message; [nested]: the messages in the descriptor. *)
Inductive field_for : string -> list mdesc -> string -> ty -> fdesc -> Prop :=
| field_plain fqdn nested n k r i : field_for fqdn nested n (Plain k r) {| f_name := n; f_number := i; f_kind := k; f_type := ""; f_repeated := r |}
| field_named fqdn nested n q r i : field_for fqdn nested n (Named q r) {| f_name := n; f_number := i; f_kind := 11; f_type := q; f_repeated := r |}
| field_map fqdn nested n m q k v i l fk fv inner :
    labelled (n, Map m q k v) l -> In (MD l true [fk; fv] inner) nested -> field_for q inner "key" k fk -> field_for q inner "value" v fv -> f_number fk = 1 -> f_number fv = 2 ->
    field_for fqdn nested n (Map m q k v) {| f_name := n; f_number := i; f_kind := 11; f_type := fqdn ++ "." ++ l; f_repeated := true |}.
Definition distinct_maps (fs : list (string * ty)) : Prop := forall f f' s, In f fs -> In f' fs -> labelled f s -> labelled f' s -> f = f'.

(** The environment variables that are maps; "repeated" is ignored before a map. *)
Inductive is_map : env_type -> env_type -> env_type -> Prop :=
| is_map_here k v : is_map (EMap k v) k v
| is_map_repeated t k v : is_map t k v -> is_map (ERepeated t) k v.
(** Only the first letter of a name is a capital, and there is no underscore. *)
Definition one_word (s : string) : Prop := exists c r, s = String c r /\ forall d, In d (chars r) -> d <> "_"%char /\ ~ is_upper d.
(** The type of an environment variable; [rep]: after "repeated". *)
Inductive env_shape : bool -> env_type -> ty -> Prop :=
| shape_kind rep k : env_shape rep (EKind k) (Plain k rep)
| shape_repeated rep t u : env_shape true t u -> env_shape rep (ERepeated t) u
| shape_map rep k v m q a b : env_shape false k a -> env_shape false v b -> env_shape rep (EMap k v) (Map m q a b).
