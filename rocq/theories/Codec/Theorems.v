(** * C40: a code generator plugin sees the schema the generator resolved *)

From Coq Require Import Ascii String List Arith Bool.
From Verif.Base Require Import Text.
From Verif.Codec Require Import Model Spec Proofs Visits Transfer Check.
Import ListNotations.
Local Open Scope string_scope.

(** ** The full statement *)

(** A schema as the resolver makes it: typed, rooted in its files, with nothing
    referred to by name only, and with the names protobuf keeps apart distinct. *)
Definition resolved (h : heap) (c : config) : Prop :=
  well_typed h /\ (forall a, In a (cf_roots c) -> load h "File" a <> None) /\
  all_listed h (cf_roots c) /\ well_named h (cf_roots c) /\
  distinctly_named proto_kind h (cf_roots c).

(** The plugin gets the settings of the request, and every path through the
    schema shows it what it shows the generator. *)
Definition C40_statement : Prop :=
  forall h c, resolved h c ->
  exists v, transfer h c = Ok v /\
    pl_proto_path v = cf_proto_path c /\ pl_out_dir v = cf_out_dir c /\
    pl_files v = cf_files c /\
    same_schema has_attribute (@look_exact) h (cf_roots c) v /\
    same_sharing h (cf_roots c) v.

(** ** What holds *)

(** If no two objects of a kind have the same names, the request can be encoded
    and decoded, every path through the schema shows the plugin what it shows the
    generator, and two paths meet in one object for the plugin exactly when they do
    for the generator.  Missing from the full statement: the settings, the fields
    in [dropped], the oneof field of a type, nil as opposed to empty definition sets
    and envs, and schemas in which variables of two messages have the same name. *)
Theorem C40_round_trip_partial :
  forall h c,
    well_typed h -> (forall a, In a (cf_roots c) -> load h "File" a <> None) ->
    all_listed h (cf_roots c) -> well_named h (cf_roots c) ->
    distinctly_named any_kind h (cf_roots c) ->
    exists v, transfer h c = Ok v /\
      same_schema kept (@look) h (cf_roots c) v /\ same_sharing h (cf_roots c) v.
Proof. exact trip. Qed.
Print Assumptions C40_round_trip_partial.

(** Encoding alone needs no names: every typed schema, however cyclic, is
    encoded. *)
Theorem C40_encoding_ends :
  forall h c,
    well_typed h -> (forall a, In a (cf_roots c) -> load h "File" a <> None) ->
    exists r, encode h c = Ok r.
Proof.
  intros h c T R. destruct (encoding_ends h c T R) as (t & E).
  unfold encode. rewrite E. eauto.
Qed.
Print Assumptions C40_encoding_ends.

(** The settings of the request never reach the plugin. *)
Theorem C40_settings_lost :
  forall h c v, transfer h c = Ok v ->
    pl_proto_path v = "" /\ pl_out_dir v = "" /\ pl_files v = [].
Proof.
  intros h c v H. unfold transfer, encode, decode in H.
  destruct (visits _ _ (enc_key h) _ _ _ _); [|discriminate..].
  cbn [rq_reference rq_file_ids rq_files] in H.
  destruct (visits _ _ (fun x => x) _ _ _ _); [|discriminate..].
  inversion H; subst. auto.
Qed.
Print Assumptions C40_settings_lost.

Theorem C40_kinds :
  forall s, In s type_kinds -> dec_kind (enc_kind s) = s.
Proof. exact kinds_back. Qed.
Print Assumptions C40_kinds.

(** ** Schemas *)

Definition zero (sh : shape) : value nat :=
  match sh with
  | SAtom => VAtom ""
  | SKind => VAtom "unknown"
  | SObj _ | SRec _ => VNil
  | SObjs _ | SRecs _ => VList []
  end.

(** A struct with the given fields, the others zero. *)
Definition struct (s : string) (set : fields nat) : fields nat :=
  (map (fun p => (fst p, match assoc (fst p) set with
                         | Some v => v | None => zero (snd p) end))
       (rows attributes s)
   ++ filter (fun p => negb (has_attribute s (fst p))) set)%list.

Definition rec (s : string) (set : fields nat) : value nat := VRec s (struct s set).
Definition obj (k : string) (a : nat) (set : fields nat) := ((k, a), struct k set).

Definition cel (e : string) : value nat :=
  rec "CELValue" [("Expr", VAtom e);
                  ("Out", rec "Type" [("Kind", VAtom "string")])].

Definition a_file (messages : list nat) :=
  obj "File" 0
    [("Name", VAtom "a.proto");
     ("GoPackage", rec "GoPackage" [("Name", VAtom "a")]);
     ("Package", rec "Package" [("Name", VAtom "p"); ("Files", VList [VObj "File" 0])]);
     ("Messages", VList (map (VObj "Message") messages))].

Definition a_set (d : nat) : value nat :=
  rec "VariableDefinitionSet"
    [("Graph", VObj "MessageDependencyGraph" d);
     ("Defs", VList [VObj "VariableDefinition" d]);
     ("Groups", VList [VObj "VariableDefinitionGroup" d])].

(** A message with one variable, bound by an expression. *)
Definition a_message (a : nat) (name var : string) (e : value nat) : heap :=
  [obj "Message" a
     [("Name", VAtom name); ("FQDN", VAtom ("p." ++ name)); ("File", VObj "File" 0);
      ("Fields", VList [VObj "Field" a]);
      ("Rule", rec "MessageRule" [("DefSet", a_set a)])];
   obj "Field" a
     [("Name", VAtom "x"); ("Message", VObj "Message" a);
      ("Type", rec "Type" [("Kind", VAtom "string")]);
      ("Rule", rec "FieldRule" [("Value", rec "Value" [("CEL", cel var)])])];
   obj "MessageDependencyGraph" a
     [("Roots", VList [rec "MessageDependencyGraphNode"
                         [("BaseMessage", VObj "Message" a);
                          ("VariableDefinition", VObj "VariableDefinition" a)]])];
   obj "VariableDefinition" a
     [("Name", VAtom var); ("Used", VAtom "true");
      ("Expr", rec "VariableExpr" [("Type", rec "Type" [("Kind", VAtom "string")]);
                                   ("By", e)])];
   obj "VariableDefinitionGroup" a
     [("Sequential", rec "SequentialVariableDefinitionGroup"
                       [("End", VObj "VariableDefinition" a)]);
      ("Flat", VList [VObj "VariableDefinition" a])]].

Definition settings : config :=
  {| cf_type := "create"; cf_proto_path := "proto"; cf_out_dir := "out";
     cf_files := ["a.go"]; cf_roots := [0] |}.

(** Two messages with one variable each. *)
Definition schema (x y : string) : heap :=
  (a_file [1; 2] :: a_message 1 "A" x (cel "1") ++ a_message 2 "B" y (cel "2"))%list.

Lemma hypotheses : forall kinds h,
  well_typedb h = true -> roots_ok h [0] = true -> all_listedb h [0] = true ->
  well_namedb h = true -> distinctly_namedb kinds h = true ->
  well_typed h /\ (forall a, In a [0] -> load h "File" a <> None) /\
  all_listed h [0] /\ well_named h [0] /\ distinctly_named kinds h [0].
Proof.
  intros kinds h T R A W D. apply well_typedb_ok in T. assert (R' := roots_ok_ok h [0] R).
  split; [exact T|]. split; [exact R'|]. split; [now apply all_listedb_ok|].
  split; [now apply well_namedb_ok|now apply distinctly_namedb_ok].
Qed.

(** The round trip applies to a cyclic schema with two messages whose variables
    have different names. *)
Example C40_round_trip_sample :
  let h := schema "x" "y" in
  well_typed h /\ (forall a, In a (cf_roots settings) -> load h "File" a <> None) /\
  all_listed h (cf_roots settings) /\ well_named h (cf_roots settings) /\
  distinctly_named any_kind h (cf_roots settings).
Proof. apply hypotheses; vm_compute; reflexivity. Qed.

(** The expression of the variable of the second message, as the plugin reads it. *)
Definition second_expression : list step :=
  [Elem 0; Attr "Messages"; Elem 1; Attr "Rule"; Attr "DefSet"; Attr "Defs"; Elem 0;
   Attr "Expr"; Attr "By"; Attr "Expr"].

Definition seen (h : heap) (p : list step) : option sight :=
  match transfer h settings with
  | Ok v => option_map look (follow has_attribute (plugin_graph v) p (files_of (pl_roots v)))
  | _ => None
  end.

Example C40_expression_sample : seen (schema "x" "y") second_expression = Some (Text "2").
Proof. vm_compute. reflexivity. Qed.

(** ** What does not hold *)

(** Variables are identified by their bare names: with a variable [x] in both
    messages the plugin sees the first one's expression in the second message. *)
Theorem C40_same_variable_refuted :
  ~ (forall h c, resolved h c ->
     exists v, transfer h c = Ok v /\ same_schema kept (@look) h (cf_roots c) v).
Proof.
  intros S. destruct (S (schema "x" "x") settings) as (v & E & H).
  { apply hypotheses; vm_compute; reflexivity. }
  specialize (H second_expression).
  assert (X : seen (schema "x" "x") second_expression = Some (Text "1"))
    by (vm_compute; reflexivity).
  assert (Y : option_map look (follow kept (load (schema "x" "x")) second_expression
                (files_of (cf_roots settings))) = Some (Text "2"))
    by (vm_compute; reflexivity).
  rewrite Y in H. symmetry in H.
  assert (Z : match transfer (schema "x" "x") settings with
              | Ok v => option_map look (follow kept (plugin_graph v) second_expression
                          (files_of (pl_roots v)))
              | _ => None end = Some (Text "1")) by (vm_compute; reflexivity).
  rewrite E in Z. rewrite Z in H. discriminate H.
Qed.
Print Assumptions C40_same_variable_refuted.

Theorem C40_refuted : ~ C40_statement.
Proof.
  intros S. destruct (S (schema "x" "y") settings) as (v & E & P & _).
  { apply hypotheses; vm_compute; reflexivity. }
  destruct (C40_settings_lost _ _ _ E) as (Q & _). rewrite P in Q. discriminate Q.
Qed.
Print Assumptions C40_refuted.

(** Even when all names differ: *)
Definition distinct (h : heap) (c : config) : Prop :=
  resolved h c /\ distinctly_named any_kind h (cf_roots c).

Lemma distinct_of : forall h,
  well_typedb h = true -> roots_ok h [0] = true -> all_listedb h [0] = true ->
  well_namedb h = true -> distinctly_namedb any_kind h = true -> distinct h settings.
Proof.
  intros h T R A W D. destruct (hypotheses any_kind h T R A W D) as (h1 & h2 & h3 & h4 & h5).
  split; [|exact h5]. split; [exact h1|]. split; [exact h2|]. split; [exact h3|].
  split; [exact h4|]. intros k a b _. now apply h5.
Qed.

Ltac differ_at h p E H :=
  specialize (H p);
  match type of H with
  | option_map (?lk _) (follow ?u (load h) p ?f) = _ =>
      let s := eval vm_compute in (option_map (lk nat) (follow u (load h) p f)) in
      let w := eval vm_compute in
        (match transfer h settings with
         | Ok v => option_map (lk string) (follow u (plugin_graph v) p (files_of (pl_roots v)))
         | _ => None end) in
      assert (Y : option_map (lk nat) (follow u (load h) p f) = s)
        by (vm_compute; reflexivity);
      assert (Z : match transfer h settings with
         | Ok v => option_map (lk string) (follow u (plugin_graph v) p (files_of (pl_roots v)))
         | _ => None end = w) by (vm_compute; reflexivity);
      rewrite E in Z; rewrite Y, Z in H; discriminate H
  end.

(** A service method and a call of it with an error rule. *)
Definition calling : heap :=
  a_file [1] ::
  [obj "Message" 1
     [("Name", VAtom "A"); ("FQDN", VAtom "p.A"); ("File", VObj "File" 0);
      ("Rule", rec "MessageRule" [("DefSet", a_set 1)])];
   obj "MessageDependencyGraph" 1
     [("Roots", VList [rec "MessageDependencyGraphNode"
                         [("BaseMessage", VObj "Message" 1);
                          ("VariableDefinition", VObj "VariableDefinition" 1)]])];
   obj "VariableDefinition" 1
     [("Name", VAtom "x");
      ("Expr", rec "VariableExpr"
         [("Call", rec "CallExpr"
             [("Errors", VList [rec "GRPCError" [("Code", VAtom "NOT_FOUND")]])])])];
   obj "VariableDefinitionGroup" 1
     [("Sequential", rec "SequentialVariableDefinitionGroup"
                       [("End", VObj "VariableDefinition" 1)]);
      ("Flat", VList [VObj "VariableDefinition" 1])]].

(** The error rules of a call do not arrive. *)
Theorem C40_error_rules_refuted :
  ~ (forall h c, distinct h c ->
     exists v, transfer h c = Ok v /\ same_schema has_attribute (@look) h (cf_roots c) v).
Proof.
  intros S. destruct (S calling settings) as (v & E & H).
  { apply distinct_of; vm_compute; reflexivity. }
  differ_at calling [Elem 0; Attr "Messages"; Elem 0; Attr "Rule"; Attr "DefSet";
    Attr "Defs"; Elem 0; Attr "Expr"; Attr "Call"; Attr "Errors"] E H.
Qed.
Print Assumptions C40_error_rules_refuted.

(** A message whose only field, of a message type, is the member of a oneof. *)
Definition choosing : heap :=
  a_file [1] ::
  [obj "Message" 1
     [("Name", VAtom "A"); ("FQDN", VAtom "p.A"); ("File", VObj "File" 0);
      ("Fields", VList [VObj "Field" 1]); ("Oneofs", VList [VObj "Oneof" 1])];
   obj "Field" 1
     [("Name", VAtom "x"); ("Message", VObj "Message" 1); ("Oneof", VObj "Oneof" 1);
      ("Type", rec "Type" [("Kind", VAtom "message"); ("Message", VObj "Message" 1);
                           ("OneofField", VObj "Field" 1)])];
   obj "Oneof" 1
     [("Name", VAtom "o"); ("Message", VObj "Message" 1);
      ("Fields", VList [VObj "Field" 1])]].

(** The type of such a field forgets that it is the member of a oneof. *)
Theorem C40_oneof_field_refuted :
  ~ (forall h c, distinct h c ->
     exists v, transfer h c = Ok v /\ same_schema written (@look) h (cf_roots c) v).
Proof.
  intros S. destruct (S choosing settings) as (v & E & H).
  { apply distinct_of; vm_compute; reflexivity. }
  differ_at choosing [Elem 0; Attr "Messages"; Elem 0; Attr "Fields"; Elem 0;
    Attr "Type"; Attr "OneofField"] E H.
Qed.
Print Assumptions C40_oneof_field_refuted.

(** A message rule without definitions arrives with an empty set of them. *)
Definition empty_rule : heap :=
  [a_file [1];
   obj "Message" 1
     [("Name", VAtom "A"); ("FQDN", VAtom "p.A"); ("File", VObj "File" 0);
      ("Rule", rec "MessageRule" [("CustomResolver", VAtom "true")])]].

Theorem C40_presence_refuted :
  ~ (forall h c, distinct h c ->
     exists v, transfer h c = Ok v /\ same_schema kept (@look_exact) h (cf_roots c) v).
Proof.
  intros S. destruct (S empty_rule settings) as (v & E & H).
  { apply distinct_of; vm_compute; reflexivity. }
  differ_at empty_rule [Elem 0; Attr "Messages"; Elem 0; Attr "Rule"; Attr "DefSet"] E H.
Qed.
Print Assumptions C40_presence_refuted.

(** An enum with an alias that no listed file declares. *)
Definition dangling : heap :=
  [obj "File" 0
     [("Name", VAtom "a.proto");
      ("Package", rec "Package" [("Name", VAtom "p"); ("Files", VList [VObj "File" 0])]);
      ("Enums", VList [VObj "Enum" 1])];
   obj "Enum" 1
     [("Name", VAtom "E"); ("FQDN", VAtom "p.E"); ("File", VObj "File" 0);
      ("Rule", rec "EnumRule" [("Aliases", VList [VObj "Enum" 2])])];
   obj "Enum" 2 [("Name", VAtom "E"); ("FQDN", VAtom "q.E")]].

(** An enum that is referred to by name only makes the plugin fail. *)
Theorem C40_name_only_refuted :
  ~ (forall h c, well_typed h -> (forall a, In a (cf_roots c) -> load h "File" a <> None) ->
     well_named h (cf_roots c) -> distinctly_named any_kind h (cf_roots c) ->
     exists v, transfer h c = Ok v).
Proof.
  intros S. assert (T : well_typed dangling) by (apply well_typedb_ok; vm_compute; reflexivity).
  assert (R : forall a, In a (cf_roots settings) -> load dangling "File" a <> None)
    by (apply roots_ok_ok; vm_compute; reflexivity).
  destruct (S dangling settings T R) as (v & E).
  - apply well_namedb_ok; auto.
  - apply distinctly_namedb_ok; auto.
  - assert (X : transfer dangling settings = Missing "Enum" "q.E") by (vm_compute; reflexivity).
    rewrite E in X. discriminate X.
Qed.
Print Assumptions C40_name_only_refuted.

(** Graphs are identified by joined names, which can be cut in two ways. *)
Definition ambiguous : heap :=
  (a_file [1; 2] :: a_message 1 "B_c" "d" (cel "1") ++ a_message 2 "B" "c_d" (cel "2"))%list.

Example C40_graph_id_sample :
  id_of ambiguous "MessageDependencyGraph" 1 = id_of ambiguous "MessageDependencyGraph" 2.
Proof. vm_compute. reflexivity. Qed.
