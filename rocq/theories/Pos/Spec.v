(** * Where the cursor is

    Paths in options, and which statement sets an extension, are those of the
    specification of Locate.  Nothing here looks at the functions of the model. *)

From Coq Require Import String List Arith Bool.
From Verif.Locate Require Import Model Spec.
From Verif.Pos Require Import Model.
Import ListNotations.
Local Open Scope string_scope.
Local Open Scope list_scope.

(** ** Positions *)

Definition not_after (a b : position) : Prop := fst a < fst b \/ (fst a = fst b /\ snd a <= snd b).

(** The position is on the node: from its start to the place after its end. *)
Definition on (span : spans) (pos : position) (i : nat) : Prop :=
  not_after (fst (span i)) pos /\ not_after pos (snd (span i)).

(** ** The nodes a location names *)

(** A node at the end of a path in a value; the location of a repeated field,
    [Any], is that of each element of its list too. *)
Inductive place : value -> path -> nat -> Prop :=
| place_here v : place v [] (node v)
| place_one v f k w r i : In w (written f v) -> place w r i -> place v (One f k :: r) i
| place_nth v f n w r i : nth_error (flat_map messages (written f v)) n = Some w -> place w r i ->
    place v (Nth f n :: r) i
| place_any v f j l w : In (VArr j l) (written f v) -> In w l -> place v [One f Any] (node w).

(** The options of a declaration, and what they write in the extension together. *)
Definition options (t : tree) : list stmt :=
  flat_map (fun x => match x with IOpt s => [s] | _ => [] end) (t_items t).

Definition together (t : tree) (ext : string) : value :=
  VMsg 0 (flat_map contribution (filter (sets ext) (options t))).

(** A location of the option itself names its statements. *)
Definition option_place (t : tree) (ext : string) (p : path) (i : nat) : Prop :=
  match p with
  | [] => exists s, In s (options t) /\ sets ext s = true /\ i = o_id s
  | _ => place (together t ext) p i
  end.

Inductive field_of (t : tree) : tree -> Prop :=
| field_own x : In (ISub x) (t_items t) \/ In (IMap x) (t_items t) -> t_kind x = KField -> field_of t x
| field_oneof o x : In (ISub o) (t_items t) -> t_kind o = KOneof ->
    In (ISub x) (t_items o) -> t_kind x = KField -> field_of t x.

Definition field_place (t : tree) (p : field_part) (i : nat) : Prop :=
  match p with
  | FHere => i = t_id t
  | FType => t_ty t = Some i
  | FOpt o => option_place t "grpc.federation.field" (fopt_path o) i
  end.

Definition value_place (t : tree) (p : ev_part) (i : nat) : Prop :=
  match p with
  | UHere => i = t_id t
  | UOpt o => option_place t "grpc.federation.enum_value" (vopt_path o) i
  end.

Definition enum_place (t : tree) (x : enum_loc) (i : nat) : Prop :=
  match x with
  | XHere => i = t_id t
  | XOpt => option_place t "grpc.federation.enum" [One "alias" Any] i
  | XValue name p => exists v, In (ISub v) (t_items t) /\ t_kind v = KEnumValue /\ t_name v = name /\ value_place v p i
  end.

Inductive message_place : tree -> msg_loc -> nat -> Prop :=
| mp_here t : message_place t LHere (t_id t)
| mp_option t o i : option_place t "grpc.federation.message" (mopt_path o) i -> message_place t (LOpt o) i
| mp_field t x p i : field_of t x -> field_place x p i -> message_place t (LField (t_name x) p) i
| mp_nested t x l i : In (ISub x) (t_items t) -> t_kind x = KMessage -> message_place x l i ->
    message_place t (LNested (t_name x) l) i
| mp_enum t x e i : In (ISub x) (t_items t) -> t_kind x = KEnum -> enum_place x e i ->
    message_place t (LEnum (t_name x) e) i.

Definition service_place (t : tree) (z : svc_loc) (i : nat) : Prop :=
  match z with
  | ZHere => i = t_id t
  | ZOpt o => option_place t "grpc.federation.service" (sopt_path o) i
  | ZMethod name m => exists r, In (ISub r) (t_items t) /\ t_kind r = KRpc /\ t_name r = name /\
      match m with
      | THereM | TRequest | TResponse => i = t_id r
      | _ => option_place r "grpc.federation.method" (mtd_path m) i
      end
  end.

Definition location_place (ds : list top) (l : loc) (i : nat) : Prop :=
  match l with
  | TopImport name => In (TopI name i) ds
  | TopMessage name m => exists t, In (TopD t) ds /\ t_kind t = KMessage /\ t_name t = name /\ message_place t m i
  | TopEnum name x => exists t, In (TopD t) ds /\ t_kind t = KEnum /\ t_name t = name /\ enum_place t x i
  | TopService name z => exists t, In (TopD t) ds /\ t_kind t = KService /\ t_name t = name /\ service_place t z i
  | TopGoPackage | TopExport _ => False
  end.

(** ** Files as they are usually written *)

(** [d] is [t] or is declared in it. *)
Inductive declared : tree -> tree -> Prop :=
| declared_here t : declared t t
| declared_in t x d : In (ISub x) (t_items t) \/ In (IMap x) (t_items t) -> declared x d -> declared t d.

Definition in_file (ds : list top) (d : tree) : Prop := exists t, In (TopD t) ds /\ declared t d.

(** [u] is [v] or a value in it. *)
Inductive part : value -> value -> Prop :=
| part_here v : part v v
| part_field i es f w u : In (f, w) es -> part w u -> part (VMsg i es) u
| part_elem i l w u : In w l -> part w u -> part (VArr i l) u.

(** What is on a value is on the statement and on the declaration around it. *)
Definition well_nested (span : spans) (d : tree) : Prop :=
  forall s v pos, In s (options d) -> part (o_val s) v -> on span pos (node v) ->
    on span pos (o_id s) /\ on span pos (t_id d).

(** Options whose names begin with the name of the extension set it: as
    "(ext) = { ... }", or as "(ext).field = "text"" for one of the fields that are texts. *)
Definition usual (d : tree) : Prop :=
  forall s, In s (options d) ->
    starts (extension_of (t_kind d)) (String.concat "." (o_parts s)) = true ->
    sets (extension_of (t_kind d)) s = true /\
    match o_val s with
    | VMsg _ _ => tl (o_parts s) = []
    | VStr _ _ => exists f, tl (o_parts s) = [f] /\ In f ["alias"; "by"; "default"; "timeout"; "response"]
    | _ => True
    end.

(** Repeated fields are written as one list, "def: [{...}, {...}]". *)
Definition as_lists (d : tree) : Prop :=
  List.length (written "def" (together d (extension_of (t_kind d)))) <= 1 /\
  forall s v, In s (options d) -> part (o_val s) v ->
    List.length (written "request" v) <= 1 /\ List.length (written "args" v) <= 1.

(** Fields, enum values and methods come after options, nested messages and enums. *)
Definition member (x : item) : Prop :=
  match x with
  | ISub t => match t_kind t with KField | KOneof | KEnumValue | KRpc => True | _ => False end
  | _ => False
  end.
Definition heading (x : item) : Prop :=
  match x with
  | IOpt _ => True
  | ISub t => match t_kind t with KMessage | KEnum => True | _ => False end
  | IMap _ => False
  end.
Definition in_order (d : tree) : Prop :=
  forall a x b y c, t_items d = a ++ x :: b ++ y :: c -> member x -> ~ heading y.

(** ** The cursor on a text *)

Section Cursor.
Variable span : spans.
Variable pos : position.

(** The position is on nothing in the value. *)
Definition away (v : value) : Prop := forall u, part v u -> ~ on span pos (node u).

(** The position is on a text at the end of a path, and on nothing before it. *)
Inductive sits : value -> path -> Prop :=
| sits_text i t : on span pos i -> sits (VStr i t) []
| sits_one i a f w b k r : (forall e, In e a -> away (snd e)) -> sits w r ->
    sits (VMsg i (a ++ (f, w) :: b)) (One f k :: r)
| sits_single i a f w b r : (forall e, In e a -> away (snd e) /\ fst e <> f) -> is_msg w = true -> sits w r ->
    sits (VMsg i (a ++ (f, w) :: b)) (Nth f 0 :: r)
| sits_list i a f j c w d b r : (forall e, In e a -> away (snd e) /\ fst e <> f) ->
    (forall x, In x c -> away x /\ is_msg x = true) -> is_msg w = true -> sits w r ->
    sits (VMsg i (a ++ (f, VArr j (c ++ w :: d)) :: b)) (Nth f (List.length c) :: r).

(** The position is on no option and no type in the item. *)
Definition away_tree (t : tree) : Prop :=
  forall d, declared t d ->
    (forall s, In s (options d) -> away (o_val s)) /\ (forall i, t_ty d = Some i -> ~ on span pos i).
Definition away_item (x : item) : Prop :=
  match x with IOpt s => away (o_val s) | ISub t | IMap t => away_tree t end.

(** The texts of options in which the cursor is recognised. *)
Inductive texts : mopt_part -> Prop :=
| texts_alias : texts MOAlias
| texts_def n p : In p [DName; DIf; DBy; DCall CMethod; DMessage GName] -> texts (MODef n p)
| texts_request n m q : In q [QField; QBy; QIf] -> texts (MODef n (DCall (CRequest m q)))
| texts_args n m p : In p [AName; ABy; AInline] -> texts (MODef n (DMessage (GArgs m p))).

Inductive cursor : tree -> msg_loc -> Prop :=
| cursor_option t a s b o : t_items t = a ++ IOpt s :: b -> (forall x, In x a -> away_item x) ->
    as_block "grpc.federation.message" s -> texts o -> sits (o_val s) (mopt_path o) -> cursor t (LOpt o)
| cursor_field t a x b c s d : t_items t = a ++ ISub x :: b -> (forall y, In y a -> away_item y) ->
    t_kind x = KField -> t_items x = c ++ IOpt s :: d -> (forall y, In y c -> away_item y) ->
    as_block "grpc.federation.field" s -> sits (o_val s) [One "by" Str] ->
    cursor t (LField (t_name x) (FOpt FOBy))
| cursor_type t a x b i : t_items t = a ++ ISub x :: b -> (forall y, In y a -> away_item y) ->
    t_kind x = KField -> (forall s, In s (options x) -> away (o_val s)) ->
    t_ty x = Some i -> on span pos i -> cursor t (LField (t_name x) FType)
| cursor_nested t a x b l : t_items t = a ++ ISub x :: b -> (forall y, In y a -> away_item y) ->
    t_kind x = KMessage -> cursor x l -> cursor t (LNested (t_name x) l).

Definition away_top (x : top) : Prop :=
  match x with TopI _ i => ~ on span pos i | TopD t => away_tree t end.

End Cursor.

(** Texts are single literals, and calls and messages of definitions are literals. *)
Definition texts_in (names : list string) (v : value) : Prop :=
  forall f w, In f names -> In w (written f v) -> exists i t, w = VStr i t.
Definition literals_in (f : string) (ok : value -> Prop) (v : value) : Prop :=
  forall w, In w (written f v) -> is_msg w = true /\ ok w.
Definition lists_in (f : string) (ok : value -> Prop) (v : value) : Prop :=
  forall w, In w (flat_map messages (written f v)) -> ok w.

Definition plain_def (v : value) : Prop :=
  texts_in ["name"; "if"; "by"] v /\
  literals_in "call" (fun c => texts_in ["method"] c /\ lists_in "request" (texts_in ["field"; "by"; "if"]) c) v /\
  literals_in "message" (fun m => texts_in ["name"] m /\ lists_in "args" (texts_in ["name"; "by"; "inline"]) m) v.

Definition plain_options (d : tree) : Prop :=
  forall s, In s (options d) ->
    (t_kind d = KMessage -> lists_in "def" plain_def (o_val s)) /\
    (t_kind d = KField -> texts_in ["by"] (o_val s)).
