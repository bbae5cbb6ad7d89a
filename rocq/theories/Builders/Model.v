(** * The builders of source locations (source/location_builder.go)

    Every error the resolver reports carries a [source.Location]: a tree of
    parts with names (file, message, field, option, …).  The resolver never
    writes such a tree itself.  It carries a builder along and calls [With…]
    on it; every call makes a copy of the tree, adds one part, and returns a
    new builder that points to that part.

    A builder is a pointer to a tree and a function that finds the builder's
    part in a tree (from a location to a message, and so on).  The model keeps
    both: trees live in a heap, because one of those functions finds its part
    in an older tree and the next [With…] then writes there. *)

From Coq Require Import String List Arith Bool.
Import ListNotations.
Local Open Scope string_scope.
Local Open Scope list_scope.

(** A location: a text (the file name, the name of a message, an index) and
    the parts below.  source/location.go:4-341 has one struct per kind of
    part; here one type serves for all, and a part is found by the label
    "Struct.Field" of the field that holds it.  A boolean field that is set is
    a part without parts; one that is not set is absent.  An index is the text
    of the index. *)
Inductive tree : Type :=
| Node (text : string) (kids : list (string * tree)).

Definition text_of (t : tree) : string := match t with Node x _ => x end.
Definition kids_of (t : tree) : list (string * tree) :=
  match t with Node _ ks => ks end.

Definition path := list string.

(** Reading a field of a struct. *)
Fixpoint kid (l : string) (ks : list (string * tree)) : option tree :=
  match ks with
  | [] => None
  | (l', t) :: ks' => if String.eqb l l' then Some t else kid l ks'
  end.

(** Writing a field of a struct. *)
Fixpoint put_kid (l : string) (t : tree) (ks : list (string * tree))
  : list (string * tree) :=
  match ks with
  | [] => [(l, t)]
  | (l', t') :: ks' =>
      if String.eqb l l' then (l', t) :: ks' else (l', t') :: put_kid l t ks'
  end.

(** Following pointers from the root. *)
Fixpoint get (t : tree) (p : path) : option tree :=
  match p with
  | [] => Some t
  | l :: p' => match kid l (kids_of t) with
               | Some t' => get t' p'
               | None => None
               end
  end.

(** `parent.Field = &Part{…}`: nothing happens when the parent is missing
    (the callers have checked that it is there). *)
Fixpoint put (t : tree) (p : path) (l : string) (n : tree) : tree :=
  match p with
  | [] => Node (text_of t) (put_kid l n (kids_of t))
  | k :: p' => match kid k (kids_of t) with
               | Some t' => Node (text_of t) (put_kid k (put t' p' l n) (kids_of t))
               | None => t
               end
  end.

(** ** Clone *)

(** source/clone.go copies the structs field by field.  It leaves out
    Location.ImportName (3-15), Field.Type (241-249), RequestOption.If
    (373-382), RetryOption.If (384-392), GRPCErrorOption.IgnoreAndResponse
    (439-452) and GRPCErrorDetailOption.By (454-467). *)
Definition left_out : list string :=
  ["Location.ImportName"; "Field.Type"; "RequestOption.If"; "RetryOption.If";
   "GRPCErrorOption.IgnoreAndResponse"; "GRPCErrorDetailOption.By"].

Definition is_left_out (l : string) : bool := existsb (String.eqb l) left_out.

(** source/clone.go:3-497 — the Clone methods. *)
Fixpoint clone (t : tree) : tree :=
  match t with
  | Node x ks =>
      Node x
        ((fix go (ks : list (string * tree)) : list (string * tree) :=
            match ks with
            | [] => []
            | (l, t') :: ks' =>
                if is_left_out l then go ks' else (l, clone t') :: go ks'
            end) ks)
  end.

(** ** Builders *)

(** The trees in memory; a pointer is an index. *)
Definition heap := list tree.

Fixpoint set_nth (n : nat) (t : tree) (h : heap) : heap :=
  match h, n with
  | [], _ => []
  | _ :: h', 0 => t :: h'
  | x :: h', S n' => x :: set_nth n' t h'
  end.

(** The functions that find a builder's part.
    - [SRoot]: a [LocationBuilder], which has only the location itself;
    - [SSub s l]: `func(loc) { return b.part(loc).Field }`, the closures of
      most With… methods, e.g. location_builder.go:762-772;
    - [SLazy l x]: the closure of ToLazyMessageBuilder and ToLazyEnumBuilder,
      which puts a new part there at every call (location_builder.go:828-850);
    - [SOld r s]: the closure of EnvBuilder.WithVar calls `b.env(root)` with
      the `root` of the time of its creation and not `b.env(loc)`
      (location_builder.go:413-423). *)
Inductive sel : Type :=
| SRoot
| SSub (s : sel) (l : string)
| SLazy (l : string) (x : string)
| SOld (r : nat) (s : sel).

Record builder := { b_root : nat; b_sel : sel }.

(** Calling such a function with the tree at [r]: the new heap and the part, as
    a tree and a path in it; [None] is the nil pointer. *)
Fixpoint find (s : sel) (r : nat) (h : heap) : heap * option (nat * path) :=
  match s with
  | SRoot => (h, Some (r, []))
  | SSub s' l =>
      match find s' r h with
      | (h', Some (r', p)) =>
          match nth_error h' r' with
          | Some t => match get t (p ++ [l]) with
                      | Some _ => (h', Some (r', p ++ [l]))
                      | None => (h', None)
                      end
          | None => (h', None)
          end
      | (h', None) => (h', None)
      end
  | SLazy l x =>
      match nth_error h r with
      | Some t => (set_nth r (put t [] l (Node x [])) h, Some (r, [l]))
      | None => (h, None)
      end
  | SOld r' s' => find s' r' h
  end.

(** The common body of the With… methods: clone the tree, find the part in the
    clone, set one of its fields.  [None] is the panic of a write through a nil
    pointer.  The result is the new heap and the pointer to the clone. *)
Definition with_field (b : builder) (l x : string) (h : heap)
  : option (heap * nat) :=
  match nth_error h (b_root b) with
  | None => None
  | Some t =>
      let r := List.length h in
      match find (b_sel b) r (h ++ [clone t]) with
      | (h', Some (r', p)) =>
          match nth_error h' r' with
          | Some t' => Some (set_nth r' (put t' p l (Node x [])) h', r)
          | None => None
          end
      | (_, None) => None
      end
  end.

(** The With… methods that go to a new part, for example
    MessageBuilder.WithField (location_builder.go:786-796): a new builder for
    that part. *)
Definition enter (b : builder) (l x : string) (h : heap)
  : option (heap * builder) :=
  match with_field b l x h with
  | Some (h', r) => Some (h', {| b_root := r; b_sel := SSub (b_sel b) l |})
  | None => None
  end.

(** The With… methods that set a flag and stay, for example
    EnvBuilder.WithMessage (location_builder.go:403-411) or
    LocationBuilder.WithGoPackage (33-39). *)
Definition flag (b : builder) (l x : string) (h : heap)
  : option (heap * builder) :=
  match with_field b l x h with
  | Some (h', r) => Some (h', {| b_root := r; b_sel := b_sel b |})
  | None => None
  end.

(** EnvBuilder.WithVar (location_builder.go:413-423). *)
Definition enter_var (b : builder) (x : string) (h : heap)
  : option (heap * builder) :=
  match with_field b "Env.Var" x h with
  | Some (h', r) =>
      Some (h', {| b_root := r; b_sel := SSub (SOld r (b_sel b)) "Env.Var" |})
  | None => None
  end.

(** ToLazyMessageBuilder and ToLazyEnumBuilder (location_builder.go:826-850),
    with l = "Location.Message" and l = "Location.Enum". *)
Definition to_lazy (b : builder) (l x : string) (h : heap)
  : option (heap * builder) :=
  match nth_error h (b_root b) with
  | Some t => Some (h ++ [clone t],
                    {| b_root := List.length h; b_sel := SLazy l x |})
  | None => None
  end.

(** NewLocationBuilder (location_builder.go:7-11). *)
Definition new_builder (file : string) (h : heap) : heap * builder :=
  (h ++ [Node file []], {| b_root := List.length h; b_sel := SRoot |}).

(** The Location methods (e.g. location_builder.go:822-824): the pointer to the
    tree, so a later write to that tree shows. *)
Definition location (b : builder) (h : heap) : option tree :=
  nth_error h (b_root b).

(** ** A program that uses builders *)

Inductive op : Type :=
| ONew (file : string)
| OEnter (i : nat) (l x : string)
| OFlag (i : nat) (l x : string)
| OVar (i : nat) (x : string)
| OLazy (i : nat) (l x : string).

Record state := { st_heap : heap; st_builders : list builder }.

Definition start : state := {| st_heap := []; st_builders := [] |}.

Definition push (st : state) (r : option (heap * builder)) : option state :=
  match r with
  | Some (h, b) => Some {| st_heap := h; st_builders := st_builders st ++ [b] |}
  | None => None
  end.

(** One call; builders are numbered in the order of their creation.  A call on
    a number without a builder is not a program; it is skipped. *)
Definition step (st : state) (o : op) : option state :=
  match o with
  | ONew file => push st (Some (new_builder file (st_heap st)))
  | OEnter i l x =>
      match nth_error (st_builders st) i with
      | Some b => push st (enter b l x (st_heap st))
      | None => Some st
      end
  | OFlag i l x =>
      match nth_error (st_builders st) i with
      | Some b => push st (flag b l x (st_heap st))
      | None => Some st
      end
  | OVar i x =>
      match nth_error (st_builders st) i with
      | Some b => push st (enter_var b x (st_heap st))
      | None => Some st
      end
  | OLazy i l x =>
      match nth_error (st_builders st) i with
      | Some b => push st (to_lazy b l x (st_heap st))
      | None => Some st
      end
  end.

Fixpoint run (st : state) (ops : list op) : option state :=
  match ops with
  | [] => Some st
  | o :: ops' => match step st o with
                 | Some st' => run st' ops'
                 | None => None
                 end
  end.

(** What an error reported with builder [i] says at the path [q]. *)
Definition said (st : state) (i : nat) (q : path) : option string :=
  match nth_error (st_builders st) i with
  | Some b => match location b (st_heap st) with
              | Some t => match get t q with
                          | Some n => Some (text_of n)
                          | None => None
                          end
              | None => None
              end
  | None => None
  end.

(** ** The builders that resolveMessage makes *)

(** A message of a descriptor, as far as resolveMessage's builders depend on
    it: its name in the message around it, the messages and enums in it (with
    the name of the enum and the values whose option cannot be read), whether
    its own option cannot be read, its oneofs (with the same flag) and its
    fields. *)
Inductive mdef : Type :=
| M (name : string) (nested : list mdef) (enums : list (string * list string))
    (bad_option : bool) (oneofs : list (string * bool)) (fields : list string).

(** The locations of the errors it reports, as trees. *)
Definition report := list tree.

Definition say (b : builder) (h : heap) : report :=
  match location b h with Some t => [t] | None => [] end.

(** resolver/resolver.go:1243-1257 — the loop over the values of an enum. *)
Fixpoint resolve_values (b : builder) (vs : list string) (h : heap)
  : option (heap * report) :=
  match vs with
  | [] => Some (h, [])
  | v :: vs' =>
      match enter b "Enum.Value" v h with
      | Some (h1, b1) =>
          match resolve_values b vs' h1 with
          | Some (h2, r) => Some (h2, say b1 h1 ++ r)
          | None => None
          end
      | None => None
      end
  end.

(** resolver/resolver.go:1158-1165 — the loop over the enums; the builder is
    `builder.WithEnum(name)` with the name of the message. *)
Fixpoint resolve_enums (b : builder) (name : string)
    (es : list (string * list string)) (h : heap) : option (heap * report) :=
  match es with
  | [] => Some (h, [])
  | (_, vs) :: es' =>
      match enter b "Message.Enum" name h with
      | Some (h1, b1) =>
          match resolve_values b1 vs h1 with
          | Some (h2, r1) =>
              match resolve_enums b name es' h2 with
              | Some (h3, r2) => Some (h3, r1 ++ r2)
              | None => None
              end
          | None => None
          end
      | None => None
      end
  end.

(** resolver/resolver.go:1168-1176. *)
Definition resolve_option (b : builder) (bad : bool) (h : heap)
  : option (heap * report) :=
  if bad then
    match enter b "Message.Option" "" h with
    | Some (h1, b1) => Some (h1, say b1 h1)
    | None => None
    end
  else Some (h, []).

(** resolver/resolver.go:1180-1185 and 1190-1199 (resolveOneof). *)
Fixpoint resolve_oneofs (b : builder) (os : list (string * bool)) (h : heap)
  : option (heap * report) :=
  match os with
  | [] => Some (h, [])
  | (o, bad) :: os' =>
      match enter b "Message.Oneof" o h with
      | Some (h1, b1) =>
          match resolve_oneofs b os' h1 with
          | Some (h2, r) => Some (h2, (if bad then say b1 h1 else []) ++ r)
          | None => None
          end
      | None => None
      end
  end.

(** resolver/resolver.go:1186 and 3272-3285 (resolveFields): the builder of
    every field is made, `builder.WithField(name)`.  The errors of resolveField
    are left out, and so are the messages it goes on to: their builders start
    anew (resolver.go:3345, 3362). *)
Fixpoint resolve_fields (b : builder) (fs : list string) (h : heap)
  : option heap :=
  match fs with
  | [] => Some h
  | f :: fs' => match enter b "Message.Field" f h with
                | Some (h1, _) => resolve_fields b fs' h1
                | None => None
                end
  end.

(** resolver/resolver.go:1129-1189 (resolveMessage) of a message that has not
    been resolved before and whose name is [name].  The builder of a nested
    message is `builder.WithMessage(name)` with the name of the message around
    it (1151).  The caches are left out: every message is resolved once. *)
Fixpoint resolve_message (b : builder) (name : string) (m : mdef) (h : heap)
  : option (heap * report) :=
  match m with
  | M _ nested enums bad oneofs fields =>
      match
        (fix go (ms : list mdef) (h : heap) : option (heap * report) :=
           match ms with
           | [] => Some (h, [])
           | (M n _ _ _ _ _) as m' :: ms' =>
               match enter b "Message.NestedMessage" name h with
               | Some (h1, b1) =>
                   match resolve_message b1 (name ++ "." ++ n)%string m' h1 with
                   | Some (h2, r1) =>
                       match go ms' h2 with
                       | Some (h3, r2) => Some (h3, r1 ++ r2)
                       | None => None
                       end
                   | None => None
                   end
               | None => None
               end
           end) nested h
      with
      | None => None
      | Some (h1, r1) =>
          match resolve_enums b name enums h1 with
          | None => None
          | Some (h2, r2) =>
              match resolve_option b bad h2 with
              | None => None
              | Some (h3, r3) =>
                  match resolve_oneofs b oneofs h3 with
                  | None => None
                  | Some (h4, r4) =>
                      match resolve_fields b fields h4 with
                      | None => None
                      | Some h5 => Some (h5, r1 ++ r2 ++ r3 ++ r4)
                      end
                  end
              end
          end
      end
  end.
