(** * C74: errors point to the place they are about *)

From Coq Require Import String List Arith Bool.
From Verif.Locate Require Import Model Spec Proofs.
Import ListNotations.
Local Open Scope string_scope.
Local Open Scope list_scope.

(** The full property: if the place a location names is in the file, this place
    is what the user is shown. *)
Definition C74_statement : Prop :=
  forall f l t, node_at f l = Some t -> node_info f l = Found (target_node t).

(** A file with a message, whose option is a block with two definitions: a call
    with a request and an error, and a message with an argument. *)
Definition definitions (by_value : value) : value :=
  VMsg 10 [("def", VArr 11
    [VMsg 12 [("name", VStr 13 "a");
              ("call", VMsg 14 [("method", VStr 15 "pkg.S/M");
                                ("request", VArr 16 [VMsg 17 [("field", VStr 18 "id");
                                                              ("by", VStr 19 "$.id")];
                                                     VMsg 20 [("field", VStr 21 "n");
                                                              ("by", by_value)]]);
                                ("error", VMsg 23 [("if", VStr 24 "true");
                                                   ("code", VIdent 25);
                                                   ("def", VMsg 26 [("name", VStr 27 "x");
                                                                    ("by", VStr 28 "1")])])])];
     VMsg 30 [("message", VMsg 31 [("name", VStr 32 "B");
                                   ("args", VMsg 33 [("name", VStr 34 "k"); ("by", VStr 35 "1")]);
                                   ("args", VMsg 36 [("inline", VStr 37 "a")])])]])].

Definition a_file (by_value : value) : file :=
  File [("b.proto", 1)] []
    [Decl KMessage "A" 2 None [Stmt ["grpc.federation.message"] 3 (definitions by_value)]
       [Decl KField "id" 4 (Some 5) [Stmt ["grpc.federation.field"] 6 (VMsg 7 [("by", VStr 8 "a")])] []];
     Decl KService "S" 40 None []
       [Decl KRpc "M" 41 None [Stmt ["grpc.federation.method"; "timeout"] 42 (VStr 43 "1s")] []]].

Definition request_by : loc := TopMessage "A" (LOpt (MODef 0 (DCall (CRequest 1 QBy)))).

(** ** What is shown is the place *)

(** In a file where every option of grpc-federation is written once as a block,
    every location that is looked up at all and whose place is not a
    concatenation of strings is found: in a definition, a call, an error, a
    detail at any depth; in a field, an enum, an enum value, a nested message,
    a service, a method. *)
Theorem C74_partial :
  forall f l t,
    no_lookalikes f -> blocks f -> looked_up l = true ->
    node_at f l = Some t -> plain t = true ->
    node_info f l = Found (target_node t).
Proof. exact file_found. Qed.
Print Assumptions C74_partial.

(** The file without its service meets the conditions. *)
Definition b_file (by_value : value) : file :=
  File (f_imports (a_file by_value)) [] (firstn 1 (f_decls (a_file by_value))).

Lemma b_file_conditions : forall v, no_lookalikes (b_file v) /\ blocks (b_file v).
Proof.
  intro v.
  assert (D : forall d, inside d (f_decls (b_file v)) ->
    (exists s, d_kind d = KMessage /\ d_opts d = [s] /\ as_block "grpc.federation.message" s)
    \/ (exists s, d_kind d = KField /\ d_opts d = [s] /\ as_block "grpc.federation.field" s)).
  { intros d I. cbn in I. inversion I as [x ds J E1 E2|x e ds J I2 E1 E2]; subst.
    - destruct J as [<-|[]]. left. eexists. split; [reflexivity|]. split; [reflexivity|].
      split; [left; reflexivity|]. eexists. eexists. reflexivity.
    - destruct J as [<-|[]]. cbn in I2. inversion I2 as [x ds J E1 E2|x e ds J I3 E1 E2]; subst.
      + destruct J as [<-|[]]. right. eexists. split; [reflexivity|]. split; [reflexivity|].
        split; [left; reflexivity|]. eexists. eexists. reflexivity.
      + destruct J as [<-|[]]. cbn in I3. inversion I3 as [x ds J E1 E2|x e ds J I4 E1 E2]; destruct J. }
  split.
  - intros d s I S E. destruct (D d I) as [(s' & K & O & [P _])|(s' & K & O & [P _])];
      rewrite O in S; destruct S as [<-|[]]; rewrite K; unfold sets;
      destruct P as [-> | ->]; reflexivity.
  - intros d I. right. destruct (D d I) as [(s & K & O & B)|(s & K & O & B)];
      exists s; rewrite K, O; cbn [filter]; (split; [|exact B]);
      destruct B as [P _]; unfold sets; destruct P as [-> | ->]; reflexivity.
Qed.

Example C74_partial_case :
  no_lookalikes (b_file (VStr 22 "1")) /\ blocks (b_file (VStr 22 "1"))
  /\ looked_up request_by = true
  /\ node_at (b_file (VStr 22 "1")) request_by = Some (In_value (VStr 22 "1"))
  /\ node_info (b_file (VStr 22 "1")) request_by = Found 22
  /\ node_info (b_file (VStr 22 "1"))
       (TopMessage "A" (LOpt (MODef 0 (DCall (CError 0 (EDef 0 DBy)))))) = Found 28
  /\ node_info (b_file (VStr 22 "1"))
       (TopMessage "A" (LOpt (MODef 1 (DMessage (GArgs 1 AInline))))) = Found 37
  /\ node_info (b_file (VStr 22 "1")) (TopMessage "A" (LField "id" (FOpt FOBy))) = Found 8.
Proof.
  split; [apply b_file_conditions|]. split; [apply b_file_conditions|]. repeat split; reflexivity.
Qed.

(** ** What is shown is never elsewhere *)

(** Whatever the location and whatever the values in the options, what is shown
    is the place or something around it: a node on the way to the place. *)
Theorem C74_enclosing :
  forall f l id,
    no_lookalikes f -> blocks f -> no_detail_message l = true ->
    match l with TopMessage _ _ | TopEnum _ _ | TopService _ _ => true | _ => false end = true ->
    node_info f l = Found id -> In id (way f l).
Proof. exact file_way. Qed.
Print Assumptions C74_enclosing.

Example C74_enclosing_case :
  node_info (a_file (VStr 22 "1"))
    (TopMessage "A" (LOpt (MODef 1 (DMessage (GArgs 0 AName))))) = Found 33
  /\ way (a_file (VStr 22 "1")) (TopMessage "A" (LOpt (MODef 1 (DMessage (GArgs 0 AName)))))
     = [2; 3; 10; 30; 31; 33; 34].
Proof. split; reflexivity. Qed.

(** ** What is not shown *)

(** A string written as two literals has no position: nothing is shown for an
    error in it, wherever it is in a definition. *)
Theorem C74_lost :
  forall f name i p t,
    no_lookalikes f -> blocks f -> def_ok p = true -> def_strict p = true ->
    node_at f (TopMessage name (LOpt (MODef i p))) = Some t -> plain t = false ->
    node_info f (TopMessage name (LOpt (MODef i p))) = Nil.
Proof. exact def_lost. Qed.
Print Assumptions C74_lost.

Example C74_lost_case :
  no_lookalikes (b_file (VCat 22 "1 + 2")) /\ blocks (b_file (VCat 22 "1 + 2"))
  /\ node_at (b_file (VCat 22 "1 + 2")) request_by = Some (In_value (VCat 22 "1 + 2"))
  /\ def_ok (DCall (CRequest 1 QBy)) = true /\ def_strict (DCall (CRequest 1 QBy)) = true
  /\ node_info (b_file (VCat 22 "1 + 2")) request_by = Nil.
Proof.
  split; [apply b_file_conditions|]. split; [apply b_file_conditions|]. repeat split; reflexivity.
Qed.

Theorem C74_refuted : ~ C74_statement.
Proof.
  intro H. specialize (H (a_file (VCat 22 "1 + 2")) request_by _ eq_refl).
  vm_compute in H. discriminate H.
Qed.
Print Assumptions C74_refuted.

(** The locations of a method, of its request and of its response have no
    position in any file that has the method. *)
Theorem C74_method_lost :
  forall f svc mtd m s,
    (m = THereM \/ m = TRequest \/ m = TResponse) ->
    named KService svc (f_decls f) = Some s ->
    node_at f (TopService svc (ZMethod mtd m)) <> None ->
    node_info f (TopService svc (ZMethod mtd m)) = Nil.
Proof.
  intros f svc mtd m s M N H. cbn [node_at node_info] in *.
  destruct (named_find _ _ _ _ N) as (F & _ & _). rewrite F. rewrite N in H. cbn [bind at_service] in H.
  cbn [by_service]. destruct (named KRpc mtd (d_body s)) as [r|] eqn:R; [|contradiction H; reflexivity].
  destruct (named_find _ _ _ _ R) as (FR & _ & _). rewrite FR.
  destruct M as [-> | [-> | ->]]; reflexivity.
Qed.
Print Assumptions C74_method_lost.

Example C74_method_lost_case :
  node_at (a_file (VStr 22 "1")) (TopService "S" (ZMethod "M" TRequest)) = Some (Whole 41)
  /\ node_info (a_file (VStr 22 "1")) (TopService "S" (ZMethod "M" TRequest)) = Nil.
Proof. split; reflexivity. Qed.

(** Only the first statement of an option is read: what later statements say does
    not change any result.  So a definition of a second statement
    "option (grpc.federation.message).def = {...}" is never found. *)
Theorem C74_first_only :
  forall k name id ty s rest rest' body o,
    sets "grpc.federation.message" s = true ->
    by_message (Decl k name id ty (s :: rest) body) (LOpt o)
    = by_message (Decl k name id ty (s :: rest') body) (LOpt o).
Proof.
  intros k name id ty s rest rest' body o S. cbn [by_message d_opts]. unfold option_stmt.
  cbn [find]. change message_option with (extension_of KMessage) in *.
  rewrite (sets_match _ _ (ext_undotted KMessage) S). reflexivity.
Qed.
Print Assumptions C74_first_only.

(** Both statements are legal and are put together by the compiler; the place is
    in the second, the first is shown. *)
Definition two_statements : file :=
  File [] [] [Decl KMessage "A" 2 None
    [Stmt ["grpc.federation.message"; "def"] 3 (VMsg 4 [("name", VStr 5 "a"); ("by", VStr 6 "1")]);
     Stmt ["grpc.federation.message"; "def"] 7 (VMsg 8 [("name", VStr 9 "b"); ("by", VStr 10 "2")])] []].

Example C74_first_only_case :
  node_at two_statements (TopMessage "A" (LOpt (MODef 1 DBy))) = Some (In_value (VStr 10 "2"))
  /\ node_info two_statements (TopMessage "A" (LOpt (MODef 1 DBy))) = Found 3
  /\ node_at two_statements (TopMessage "A" (LOpt (MODef 0 DBy))) = Some (In_value (VStr 6 "1"))
  /\ node_info two_statements (TopMessage "A" (LOpt (MODef 0 DBy))) = Found 3.
Proof. repeat split; reflexivity. Qed.

(** Definitions of a oneof field: those of the first element "def" are found, the
    others have no position, although "def {..} def {..}" is how they are
    usually written. *)
Theorem C74_oneof_definitions :
  forall here es v rest i w,
    written "def" (VMsg here es) = v :: rest ->
    follow (VMsg here es) (Nth "def" i) = Some w ->
    by_field_oneof here es (ODef i DHere)
    = if Nat.ltb i (List.length (messages v)) then Found (node w) else Nil.
Proof.
  intros here es v rest i w W H. cbn [by_field_oneof follow] in *.
  rewrite (first_written "def" here es), W. rewrite W in H. cbn [hd_error flat_map] in *.
  rewrite message_list_messages.
  destruct (Nat.ltb i (List.length (messages v))) eqn:L.
  - apply Nat.ltb_lt in L. rewrite nth_error_app1 in H by exact L.
    destruct (nth_lit _ _ _ (messages_are v) H) as (j & es' & -> & E). rewrite E. reflexivity.
  - apply Nat.ltb_ge in L.
    replace (nth_error (flat_map lit_of (messages v)) i) with (@None lit); [reflexivity|].
    symmetry. apply nth_error_None.
    assert (X : forall l, List.length (flat_map lit_of l) <= List.length l).
    { induction l as [|x l IH]; [constructor|]. cbn [flat_map List.length]. rewrite app_length.
      destruct x; cbn [lit_of List.length Nat.add]; auto using le_n_S. }
    exact (Nat.le_trans _ _ _ (X _) L).
Qed.
Print Assumptions C74_oneof_definitions.

Example C74_oneof_definitions_case :
  by_field_oneof 0 [("def", VMsg 1 [("name", VStr 2 "a")]); ("def", VMsg 3 [("name", VStr 4 "b")])]
    (ODef 0 DHere) = Found 1
  /\ by_field_oneof 0 [("def", VMsg 1 [("name", VStr 2 "a")]); ("def", VMsg 3 [("name", VStr 4 "b")])]
    (ODef 1 DHere) = Nil.
Proof. split; reflexivity. Qed.

(** The name and the arguments of the message of an error detail: the whole
    message is shown instead (a message expression has the fields "name" and
    "args" only). *)
Theorem C74_detail_message :
  forall here es idx i es' g,
    follow (VMsg here es) (Nth "message" idx) = Some (VMsg i es') ->
    (forall e, In e es' -> fst e = "name" \/ fst e = "args") ->
    by_detail here es (TMessage idx g) = Found i.
Proof.
  intros here es idx i es' g H F. cbn [by_detail].
  destruct (item_found _ _ _ _ _ H) as (j & es2 & E & R). injection E as <- <-. rewrite R.
  unfold on_msg. replace (first es' "message") with (@None value); [reflexivity|].
  symmetry. clear -F. induction es' as [|[f v] es' IH]; [reflexivity|]. cbn [first].
  destruct (F (f, v) (or_introl eq_refl)) as [E|E]; cbn in E; subst f;
    (cbn; apply IH; intros e I; apply F; right; exact I).
Qed.
Print Assumptions C74_detail_message.

Example C74_detail_message_case :
  by_detail 0 [("message", VMsg 1 [("name", VStr 2 "M"); ("args", VMsg 3 [("by", VStr 4 "x")])])]
    (TMessage 0 (GArgs 0 ABy)) = Found 1.
Proof. reflexivity. Qed.

(** ** Shorthand statements *)

(** "option (grpc.federation.method).timeout = "..."" and the like: the string is
    found when the statement is the first. *)
Theorem C74_shorthand :
  forall d s rest i text,
    o_val s = VStr i text -> d_opts d = s :: rest ->
    (d_kind d = KMessage -> o_parts s = ["grpc.federation.message"; "alias"] ->
       by_message d (LOpt MOAlias) = Found i)
    /\ (d_kind d = KField -> o_parts s = ["grpc.federation.field"; "by"] ->
       by_field d (FOpt FOBy) = Found i)
    /\ (d_kind d = KRpc -> o_parts s = ["grpc.federation.method"; "timeout"] ->
       by_method d TOptTimeout = Found i)
    /\ (d_kind d = KRpc -> o_parts s = ["grpc.federation.method"; "response"] ->
       by_method d TOptResponse = Found i).
Proof.
  intros d s rest i text V O.
  repeat split; intros _ P; cbn [by_message by_field by_method]; rewrite O; unfold option_stmt;
    cbn [find]; unfold match_option, option_name; rewrite P;
    match goal with |- context [if ?c then _ else _] => let x := eval vm_compute in c in change c with x end;
    cbn [by_message_option];
    unfold by_message_option, by_field_option, by_method_option, option_name; rewrite V, P;
    match goal with |- context [has_suffix ?a ?b] =>
      let x := eval vm_compute in (has_suffix a b) in change (has_suffix a b) with x end;
    reflexivity.
Qed.
Print Assumptions C74_shorthand.

Example C74_shorthand_case :
  node_info (a_file (VStr 22 "1")) (TopService "S" (ZMethod "M" TOptTimeout)) = Found 43.
Proof. reflexivity. Qed.

(** ** Imports *)

(** The import of a file by a statement is found. *)
Theorem C74_import :
  forall f name id,
    In (name, id) (f_imports f) -> NoDup (map fst (f_imports f)) ->
    node_info f (TopImport name) = Found id.
Proof.
  intros f name id I N. cbn [node_info].
  replace (find (fun i => String.eqb (fst i) name) (f_imports f)) with (Some (name, id)); [reflexivity|].
  induction (f_imports f) as [|[n j] l IH]; [destruct I|].
  cbn [find fst]. destruct (String.eqb n name) eqn:E.
  - apply String.eqb_eq in E. subst n. destruct I as [I|I]; [injection I as ->; reflexivity|].
    inversion N as [|x y NI ND]; subst. exfalso. apply NI. apply (in_map fst) in I. exact I.
  - destruct I as [I|I].
    + injection I as -> _. rewrite String.eqb_refl in E. discriminate E.
    + inversion N; subst. apply IH; assumption.
Qed.
Print Assumptions C74_import.

(** An import of the file option is found when the imports are written as one
    array or as a statement of their own. *)
Theorem C74_import_option :
  forall f name s id,
    (forall i, ~ In (name, i) (f_imports f)) ->
    f_opts f = [s] ->
    ((o_parts s = ["grpc.federation.file"]
      /\ exists a b es pre post v,
           written "import" (VMsg a es) = [VArr b (pre ++ v :: post)] /\ o_val s = VMsg a es
           /\ (v = VStr id name \/ v = VCat id name)
           /\ forall w i, In w pre -> w <> VStr i name /\ w <> VCat i name)
     \/ (o_parts s = ["grpc.federation.file"; "import"]
         /\ (o_val s = VStr id name \/ o_val s = VCat id name))) ->
    node_info f (TopImport name) = Found id.
Proof.
  intros f name s id N O H. cbn [node_info].
  replace (find (fun i => String.eqb (fst i) name) (f_imports f)) with (@None (string * nat)).
  - rewrite O. cbn [flat_map]. rewrite app_nil_r.
    assert (T : forall v, (v = VStr id name \/ v = VCat id name) -> has_text name v = true /\ value_id v = id).
    { intros v [-> | ->]; unfold has_text; cbn [text_of]; rewrite String.eqb_refl; split; reflexivity. }
    destruct H as [(P & a & b & es & pre & post & v & W & V & VV & PRE)|(P & V)].
    + unfold import_values, match_option, option_name. rewrite P.
      change (negb _) with false. change (has_suffix _ _) with false. cbn iota. rewrite V.
      rewrite (first_written "import" a es), W. cbn [hd_error].
      destruct (T v VV) as [TV IV].
      replace (find (has_text name) (pre ++ v :: post)) with (Some v); [rewrite IV; reflexivity|].
      symmetry. clear W. induction pre as [|w pre IH].
      * cbn [app find]. rewrite TV. reflexivity.
      * cbn [app find]. replace (has_text name w) with false.
        { apply IH. intros x i I. apply PRE. right. exact I. }
        symmetry. unfold has_text. destruct w as [i t|i t| | |]; try reflexivity; cbn [text_of];
          destruct (String.eqb t name) eqn:E; try reflexivity; apply String.eqb_eq in E; subst t;
          destruct (PRE _ i (or_introl eq_refl)) as [A B]; [contradiction A|contradiction B]; reflexivity.
    + unfold import_values, match_option, option_name. rewrite P.
      change (negb _) with false. change (has_suffix _ _) with true. cbn iota.
      destruct (T _ V) as [TV IV]. cbn [find]. rewrite TV, IV. reflexivity.
  - symmetry. clear -N. induction (f_imports f) as [|[n j] l IH]; [reflexivity|]. cbn [find fst].
    destruct (String.eqb n name) eqn:E.
    + apply String.eqb_eq in E. subst n. destruct (N j). left. reflexivity.
    + apply IH. intros i I. apply (N i). right. exact I.
Qed.
Print Assumptions C74_import_option.

(** It has no position when it is written without brackets. *)
Example C74_import_option_case :
  let opt v := [Stmt ["grpc.federation.file"] 1 (VMsg 2 [("import", v)])] in
  node_info (File [] (opt (VArr 3 [VStr 4 "a.proto"; VStr 5 "b.proto"])) []) (TopImport "a.proto") = Found 4
  /\ node_info (File [] (opt (VArr 3 [VStr 4 "a.proto"; VStr 5 "b.proto"])) []) (TopImport "b.proto") = Found 5
  /\ node_info (File [] [Stmt ["grpc.federation.file"; "import"] 1 (VStr 2 "b.proto")] [])
       (TopImport "b.proto") = Found 2
  /\ node_info (File [] (opt (VStr 3 "b.proto")) []) (TopImport "b.proto") = Nil.
Proof. repeat split; reflexivity. Qed.

(** The value of the go_package option is found. *)
Theorem C74_go_package :
  forall f pre s post,
    f_opts f = pre ++ s :: post -> o_parts s = ["go_package"] ->
    (forall x, In x pre -> starts "go_package" (String.concat "." (o_parts x)) = false) ->
    node_info f TopGoPackage = Found (node (o_val s)).
Proof.
  intros f pre s post O P PRE. cbn [node_info]. rewrite O. clear O. unfold option_stmt.
  induction pre as [|x pre IH].
  - cbn [app find]. unfold match_option, option_name. rewrite P.
    replace (String.prefix "go_package" (trim_dot (String.concat "." ["go_package"]))) with true
      by reflexivity.
    cbn iota. rewrite value_id_node. reflexivity.
  - cbn [app find]. replace (match_option (option_name x) "go_package") with false.
    { apply IH. intros y I. apply PRE. right. exact I. }
    symmetry. destruct (match_option (option_name x) "go_package") eqn:M; [|reflexivity].
    apply match_starts in M. rewrite (PRE x (or_introl eq_refl)) in M. discriminate M.
Qed.
Print Assumptions C74_go_package.

Example C74_go_package_case :
  node_info (File [] [Stmt ["java_multiple_files"] 1 (VIdent 2); Stmt ["go_package"] 3 (VStr 4 "x/y;z")] [])
    TopGoPackage = Found 4.
Proof. reflexivity. Qed.

(** ** No panic *)

(** Looking up a location does not stop the process, except for the name of a
    validation. *)
Theorem C74_no_panic :
  forall f l, names_validation l = false -> node_info f l <> Panic.
Proof. exact file_safe. Qed.
Print Assumptions C74_no_panic.

(** It does for the name of a validation when the error is written first. *)
Example C74_panics :
  let v := VMsg 1 [("def", VMsg 2 [("validation",
             VMsg 3 [("error", VMsg 4 [("code", VIdent 5)]); ("name", VStr 6 "v")])])] in
  node_info (File [] [] [Decl KMessage "A" 7 None [Stmt ["grpc.federation.message"] 8 v] []])
    (TopMessage "A" (LOpt (MODef 0 DValName))) = Panic.
Proof. reflexivity. Qed.
