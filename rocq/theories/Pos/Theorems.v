(** * C82: on what the cursor stands

    The language server asks [FindLocationByPos] for the location at a position;
    go to definition, completion and the rest begin with the answer. *)

From Coq Require Import Ascii String List Arith Bool Lia.
From Verif.Locate Require Import Model Spec Proofs.
From Verif.Pos Require Import Model Spec Proofs.
Import ListNotations.
Local Open Scope string_scope.
Local Open Scope list_scope.

(** The full property, first half: whatever the answer is, it is one location, and
    the cursor is on a node this location names. *)
Definition C82_sound_statement : Prop :=
  forall span pos ds ls, (forall d, in_file ds d -> well_nested span d) ->
    find_location span pos ds = Some ls ->
    exists l i, ls = [l] /\ location_place ds l i /\ on span pos i.

(** It holds in files as they are usually written: options begin with the name of
    the extension and set it as a block or a text, repeated fields are lists, and
    options, nested messages and enums come before the fields, values and methods. *)
Theorem C82_sound_partial : forall span pos ds ls,
  (forall d, in_file ds d -> well_nested span d /\ usual d /\ as_lists d /\ in_order d) ->
  find_location span pos ds = Some ls ->
  exists l i, ls = [l] /\ location_place ds l i /\ on span pos i.
Proof. intros span pos ds ls T H. exact (find_location_sound span pos ds T ls H). Qed.
Print Assumptions C82_sound_partial.

(** The second half: a text of the option of a message under the cursor is the answer. *)
Definition C82_complete_statement : Prop :=
  forall span pos a t b c s d o, (forall x, In x a -> away_top span pos x) ->
    t_kind t = KMessage -> t_items t = c ++ IOpt s :: d -> (forall x, In x c -> away_item span pos x) ->
    as_block "grpc.federation.message" s -> sits span pos (o_val s) (mopt_path o) ->
    exists ls, find_location span pos (a ++ TopD t :: b) = Some ls /\ In (TopMessage (t_name t) (LOpt o)) ls.

(** It holds for the names, conditions, expressions, methods, requests and arguments
    of definitions, and the option "by" and the type of a field, in nested messages
    too, when texts are single literals. *)
Theorem C82_complete_partial : forall span pos a t b l,
  (forall x, In x a -> away_top span pos x) -> t_kind t = KMessage -> cursor span pos t l ->
  (forall d, declared t d -> plain_options d) ->
  exists ls, find_location span pos (a ++ TopD t :: b) = Some ls /\ In (TopMessage (t_name t) l) ls.
Proof. intros span pos a t b l A K C P. exact (find_location_at span pos a t b l A K C P). Qed.
Print Assumptions C82_complete_partial.

(** Both together: the answer is that location and nothing else. *)
Theorem C82_exact_partial : forall span pos a t b l,
  (forall d, in_file (a ++ TopD t :: b) d -> well_nested span d /\ usual d /\ as_lists d /\ in_order d) ->
  (forall x, In x a -> away_top span pos x) -> t_kind t = KMessage -> cursor span pos t l ->
  (forall d, declared t d -> plain_options d) ->
  find_location span pos (a ++ TopD t :: b) = Some [TopMessage (t_name t) l].
Proof.
  intros span pos a t b l T A K C P.
  destruct (C82_complete_partial span pos a t b l A K C P) as (ls & F & I).
  destruct (C82_sound_partial span pos _ ls T F) as (m & i & -> & _ & _).
  destruct I as [->|[]]. exact F.
Qed.
Print Assumptions C82_exact_partial.

(** Away from every import, type and option of a file there is no answer. *)
Theorem C82_nothing_elsewhere : forall span pos ds,
  (forall x, In x ds -> away_top span pos x) -> find_location span pos ds = None.
Proof.
  intros span pos ds. induction ds as [|x r IH]; intro A; [reflexivity|].
  specialize (IH (fun y I => A y (or_intror I))). pose proof (A x (or_introl eq_refl)) as Ax.
  destruct x as [n i|t]; cbn [find_location].
  - destruct (contains span pos i) eqn:C; [|exact IH]. exfalso. apply Ax, contains_on, C.
  - apply away_under in Ax. destruct (t_kind t); try exact IH.
    + destruct (find_message span pos t None) as [ls|] eqn:F; [|exact IH].
      exfalso. apply Ax. eapply find_message_under. exact F.
    + destruct (find_service span pos (t_items t) None) as [ls|] eqn:F; [|exact IH].
      exfalso. apply Ax. eapply find_service_under; [|exact F]. auto.
Qed.
Print Assumptions C82_nothing_elsewhere.

(** An import under the cursor is the answer. *)
Theorem C82_import : forall span pos a n i b,
  (forall x, In x a -> away_top span pos x) -> on span pos i ->
  find_location span pos (a ++ TopI n i :: b) = Some [TopImport n].
Proof.
  intros span pos a n i b A O. induction a as [|x a IH].
  - cbn. rewrite (proj2 (contains_on span pos i) O). reflexivity.
  - specialize (IH (fun y I => A y (or_intror I))). pose proof (A x (or_introl eq_refl)) as Ax.
    destruct x as [m j|t]; cbn [app find_location].
    + destruct (contains span pos j) eqn:C; [|exact IH]. exfalso. apply Ax, contains_on, C.
    + apply away_under in Ax. destruct (t_kind t); try exact IH.
      * destruct (find_message span pos t None) as [ls|] eqn:F; [|exact IH].
        exfalso. apply Ax. eapply find_message_under. exact F.
      * destruct (find_service span pos (t_items t) None) as [ls|] eqn:F; [|exact IH].
        exfalso. apply Ax. eapply find_service_under; [|exact F]. auto.
Qed.
Print Assumptions C82_import.

(** ** Where the full property fails *)

(** An option written after a field: the answer has a location of the field too. *)
Theorem C82_option_after_field : forall span pos n id y f s b o,
  t_kind f = KField -> away_tree span pos f ->
  as_block "grpc.federation.message" s -> texts o -> sits span pos (o_val s) (mopt_path o) ->
  lists_in "def" plain_def (o_val s) ->
  find_location span pos [TopD (Tree KMessage n id y (ISub f :: IOpt s :: b))]
  = Some [TopMessage n (LField (t_name f) FHere); TopMessage n (LOpt o)].
Proof.
  intros span pos n id y f s b o K A B X S L. cbn [find_location t_kind].
  rewrite find_message_scan. cbn [t_items scan]. rewrite K.
  destruct (find_field span pos f) as [p|] eqn:F.
  - exfalso. apply (away_under span pos f A). eapply find_field_under. exact F.
  - change message_option with (extension_of KMessage). rewrite (block_match KMessage s B).
    destruct B as [_ (i & es & V)]. rewrite V in S, L.
    rewrite (find_message_option_at span pos s i es o V X L S). reflexivity.
Qed.
Print Assumptions C82_option_after_field.

(** Definitions written one by one, "def {..} def {..}": each is the first. *)
Theorem C82_separate_definitions : forall span pos n id y s i a w b e x rest,
  as_block "grpc.federation.message" s ->
  o_val s = VMsg i (a ++ ("def", VMsg w (("name", VStr e x) :: rest)) :: b) ->
  (forall x, In x a -> away span pos (snd x)) -> on span pos e ->
  find_location span pos [TopD (Tree KMessage n id y [IOpt s])] = Some [TopMessage n (LOpt (MODef 0 DName))].
Proof.
  intros span pos n id y s i a w b e x rest B V A O. cbn [find_location t_kind].
  rewrite find_message_scan. cbn [t_items scan].
  change message_option with (extension_of KMessage). rewrite (block_match KMessage s B).
  unfold find_message_option. rewrite V.
  rewrite each_app with (a := Some (MODef 0 DName)); [reflexivity| |].
  - intros (f & v) J. apply A in J. cbn [snd] in J. apply away_touches in J.
    destruct (String.eqb_spec f "alias") as [->|_]; [|destruct (String.eqb_spec f "def") as [->|_]; [|reflexivity]].
    + unfold on_node. destruct (contains span pos (value_id v)) eqn:C; [|reflexivity].
      exfalso. apply J, touches_node. apply contains_on in C. exact C.
    + destruct (find_def span pos (message_list v)) as [r|] eqn:E; [|reflexivity].
      exfalso. apply J. eapply find_def_touches. exact E.
  - unfold find_def. cbn -[contains]. rewrite (proj2 (contains_on span pos e) O). reflexivity.
Qed.
Print Assumptions C82_separate_definitions.

(** A name written as several literals, "a" "b", ends the search in the definitions
    of the list: on all of them the answer is the option. *)
Theorem C82_split_text : forall span pos n id y s i j k c x es r,
  as_block "grpc.federation.message" s ->
  o_val s = VMsg i [("def", VArr j (VMsg k (("name", VCat c x) :: es) :: r))] -> on span pos i ->
  find_location span pos [TopD (Tree KMessage n id y [IOpt s])] = Some [TopMessage n (LOpt MOHere)].
Proof.
  intros span pos n id y s i j k c x es r B V O. cbn [find_location t_kind].
  rewrite find_message_scan. cbn [t_items scan].
  change message_option with (extension_of KMessage). rewrite (block_match KMessage s B).
  unfold find_message_option. rewrite V. cbn -[contains]. unfold on_node.
  rewrite (proj2 (contains_on span pos i) O). reflexivity.
Qed.
Print Assumptions C82_split_text.

(** In enums that are not in a message nothing is found. *)
Theorem C82_top_enums : forall span pos ds,
  (forall x, In x ds -> exists t, x = TopD t /\ t_kind t = KEnum) -> find_location span pos ds = None.
Proof.
  intros span pos ds. induction ds as [|x r IH]; intro A; [reflexivity|].
  destruct (A x (or_introl eq_refl)) as (t & -> & K). cbn. rewrite K. apply IH. intros z I. apply A. right. exact I.
Qed.
Print Assumptions C82_top_enums.

(** In map fields of a message nothing is found. *)
Theorem C82_map_fields : forall span pos n id y its,
  (forall x, In x its -> exists t, x = IMap t) -> find_location span pos [TopD (Tree KMessage n id y its)] = None.
Proof.
  intros span pos n id y its A. cbn [find_location t_kind]. rewrite find_message_scan. cbn [t_items].
  assert (G : forall last, scan span pos (find_message span pos) its last = None).
  { induction its as [|x r IH]; intro last; [reflexivity|]. destruct (A x (or_introl eq_refl)) as (t & ->). cbn [scan].
    apply IH. intros z I. apply A. right. exact I. }
  rewrite G. reflexivity.
Qed.
Print Assumptions C82_map_fields.

(** An option of a service after a method: the answer is the method. *)
Theorem C82_service_option : forall span pos n id y m s i es b,
  t_kind m = KRpc -> away_tree span pos m -> as_block "grpc.federation.service" s ->
  o_val s = VMsg i es -> (forall e, In e es -> fst e = "env" -> is_msg (snd e) = true) -> on span pos i ->
  find_location span pos [TopD (Tree KService n id y (ISub m :: IOpt s :: b))]
  = Some [TopService n (ZMethod (t_name m) THereM)].
Proof.
  intros span pos n id y m s i es b K A B V E O. cbn [find_location t_kind t_items find_service].
  destruct m as [k mn mi my mits]. cbn in K. subst k.
  destruct (ends (each (on_stmt method_option (find_method_option span pos)) mits) None) as [o|] eqn:F.
  - exfalso. apply (away_under span pos _ A). apply ends_some in F. destruct F as [F|[_ F]]; [|discriminate F].
    eapply (stmts_under span pos _ _ _ (Tree KRpc mn mi my mits)); [apply find_method_option_touches|exact F].
  - change service_option with (extension_of KService). rewrite (block_match KService s B).
    destruct (find_service_option span pos s) as [z|] eqn:G; [reflexivity|].
    exfalso. unfold find_service_option in G. rewrite V in G. clear V B F.
    induction es as [|(f & v) r IH]; cbn [each] in G.
    + cbn -[contains] in G. unfold on_node in G. rewrite (proj2 (contains_on span pos i) O) in G. discriminate G.
    + destruct (String.eqb_spec f "env") as [->|_].
      * pose proof (E _ (or_introl eq_refl) eq_refl) as M. cbn in M.
        destruct v as [j x|j x|j|j es'|j l]; try discriminate M. cbn [on_literal] in G.
        destruct (find_env span pos j es'); [discriminate G|]. apply IH; [|exact G].
        intros e I. apply E. right. exact I.
      * apply IH; [|exact G]. intros e I. apply E. right. exact I.
Qed.
Print Assumptions C82_service_option.

(** A message with a field and then an option:
<<
    message M {
      string f = 1;
      option (grpc.federation.message).alias = "x";
    }
>> *)
Definition leaking : tree :=
  Tree KMessage "M" 0 None
    [ISub (Tree KField "f" 1 (Some 2) []);
     IOpt {| o_id := 3; o_parts := ["grpc.federation.message"; "alias"]; o_val := VStr 4 "x" |}].
Definition leaking_span (i : nat) : position * position :=
  match i with 0 => ((1, 1), (4, 2)) | 1 => ((2, 3), (2, 16)) | 2 => ((2, 3), (2, 9)) | 3 => ((3, 3), (3, 47)) | _ => ((3, 43), (3, 46)) end.

Theorem C82_sound_refuted : ~ C82_sound_statement.
Proof.
  intro H. destruct (H leaking_span (3, 44) [TopD leaking] [TopMessage "M" (LField "f" FHere); TopMessage "M" (LOpt MOAlias)])
    as (l & i & E & _); [|reflexivity|discriminate E].
  intros d (t & I & D) s v pos J P O. destruct I as [I|[]]. injection I as <-.
  inversion D as [|t' x d' I' D']; subst.
  - destruct J as [<-|[]]. cbn in P. inversion P; subst. cbn in O. destruct O as [O1 O2].
    unfold not_after in *. cbn in *. unfold on, not_after. cbn. lia.
  - destruct I' as [[I'|[I'|[]]]|[I'|[I'|[]]]]; try discriminate I'. injection I' as <-.
    inversion D' as [|t' x d' I'' D'']; subst; [destruct J|]. destruct I'' as [[]|[]].
Qed.
Print Assumptions C82_sound_refuted.

(** The expression of a map: the answer is the option. *)
Definition mapping : stmt :=
  {| o_id := 1; o_parts := ["grpc.federation.message"];
     o_val := VMsg 2 [("def", VMsg 3 [("map", VMsg 4 [("by", VStr 5 "x")])])] |}.

Theorem C82_complete_refuted : ~ C82_complete_statement.
Proof.
  intro H.
  destruct (H (fun _ => ((1, 1), (4, 2))) (2, 5) [] (Tree KMessage "M" 0 None [IOpt mapping]) [] [] mapping []
              (MODef 0 (DMap PBy))) as (ls & E & I).
  - intros x [].
  - reflexivity.
  - reflexivity.
  - intros x [].
  - split; [left; reflexivity|]. eexists. eexists. reflexivity.
  - apply (sits_single _ _ 2 [] "def" _ []); [intros e []|reflexivity|].
    apply (sits_one _ _ 3 [] "map" _ []); [intros e []|].
    apply (sits_one _ _ 4 [] "by" _ []); [intros e []|].
    constructor. unfold on, not_after. cbn. lia.
  - vm_compute in E. injection E as <-. destruct I as [I|[]]. discriminate I.
Qed.
Print Assumptions C82_complete_refuted.

(** ** A file that meets the hypotheses *)

(**
<<
    import "a.proto";
    message M {
      option (grpc.federation.message) = {
        def: [
          { name: "a" },
          { name: "b" call { method: "s/M" } }
        ]
      };
      string f = 1 [(grpc.federation.field) = { by: "a" }];
    }
>> *)
Definition sample_option : stmt :=
  {| o_id := 1; o_parts := ["grpc.federation.message"];
     o_val := VMsg 2 [("def", VArr 3 [VMsg 4 [("name", VStr 5 "a")];
                                      VMsg 6 [("name", VStr 7 "b"); ("call", VMsg 8 [("method", VStr 9 "s/M")])]])] |}.
Definition sample_by : stmt :=
  {| o_id := 12; o_parts := ["grpc.federation.field"]; o_val := VMsg 13 [("by", VStr 14 "a")] |}.
Definition sample_field : tree := Tree KField "f" 10 (Some 11) [IOpt sample_by].
Definition sample : tree := Tree KMessage "M" 0 None [IOpt sample_option; ISub sample_field].
Definition sample_span (i : nat) : position * position :=
  match i with
  | 0 => ((2, 1), (10, 2)) | 1 => ((3, 3), (8, 5)) | 2 => ((3, 38), (8, 4)) | 3 => ((4, 10), (7, 6))
  | 4 => ((5, 7), (5, 20)) | 5 => ((5, 15), (5, 18))
  | 6 => ((6, 7), (6, 43)) | 7 => ((6, 15), (6, 18)) | 8 => ((6, 24), (6, 41)) | 9 => ((6, 34), (6, 39))
  | 10 => ((9, 3), (9, 56)) | 11 => ((9, 3), (9, 9)) | 12 => ((9, 17), (9, 54)) | 13 => ((9, 43), (9, 54))
  | 14 => ((9, 49), (9, 52))
  | _ => ((1, 1), (1, 18))
  end.

Ltac parts P :=
  let v := fresh in let i := fresh in let es := fresh in let f := fresh in let w := fresh in let u := fresh in
  let I := fresh in let Q := fresh in
  inversion P as [v|i es f w u I Q|i es w u I Q]; clear P; subst; cbn [In] in *;
  repeat match goal with
  | H : False |- _ => destruct H
  | H : _ \/ _ |- _ => destruct H as [H|H]
  | H : (_, _) = (_, _) |- _ => injection H; clear H; intros; subst
  end; subst;
  try (match goal with H : part _ _ |- _ => parts H end).

Lemma sample_declared : forall d, declared sample d -> d = sample \/ d = sample_field.
Proof.
  intros d D. inversion D as [|t x d' I D']; subst; [left; reflexivity|right].
  destruct I as [[I|[I|[]]]|[I|[I|[]]]]; try discriminate I. injection I as <-.
  inversion D' as [|t' x' d' I' D'']; subst; [reflexivity|].
  destruct I' as [[I'|[]]|[I'|[]]]; discriminate I'.
Qed.

Lemma no_two : forall (A : Type) (p q : A) a x b y c, [p; q] = a ++ x :: b ++ y :: c -> x = p /\ y = q.
Proof.
  intros A p q a x b y c E. destruct a as [|a0 [|a1 a]]; cbn in E.
  - injection E as -> E. destruct b as [|b0 b]; cbn in E; injection E as -> E; [auto|].
    destruct b; discriminate E.
  - injection E as -> -> E. destruct b; discriminate E.
  - injection E as -> -> E. destruct a; discriminate E.
Qed.

Ltac inside := unfold on, not_after in *; cbn in *; lia.

Lemma sample_tidy : forall d, declared sample d -> well_nested sample_span d /\ usual d /\ as_lists d /\ in_order d.
Proof.
  intros d D. apply sample_declared in D. destruct D as [-> | ->].
  - split; [|split; [|split]].
    + intros s v pos [<-|[]] P O. cbn in P. parts P; split; inside.
    + intros s [<-|[]] _. split; reflexivity.
    + split; [cbn; lia|]. intros s v [<-|[]] P. cbn in P. parts P; cbn; lia.
    + intros a x b y c E M. apply no_two in E. destruct E as [-> ->]. destruct M.
  - split; [|split; [|split]].
    + intros s v pos [<-|[]] P O. cbn in P. parts P; split; inside.
    + intros s [<-|[]] _. split; reflexivity.
    + split; [cbn; lia|]. intros s v [<-|[]] P. cbn in P. parts P; cbn; lia.
    + intros a x b y c E M. destruct a as [|a0 [|a1 a]]; cbn in E; [injection E as <- E; destruct M|discriminate E|discriminate E].
Qed.

Lemma sample_plain : forall d, declared sample d -> plain_options d.
Proof.
  intros d D. apply sample_declared in D. destruct D as [-> | ->]; intros s [<-|[]]; split; intro K; try discriminate K.
  - intros w [<-|[<-|[]]]; (split; [|split]).
    + intros f w I J. destruct I as [<-|[<-|[<-|[]]]]; cbn in J; try (destruct J; fail); destruct J as [<-|[]]; eauto.
    + intros w [].
    + intros w [].
    + intros f w I J. destruct I as [<-|[<-|[<-|[]]]]; cbn in J; try (destruct J; fail); destruct J as [<-|[]]; eauto.
    + intros w [<-|[]]. split; [reflexivity|]. split; [|intros z []].
      intros f w [<-|[]] [<-|[]]. cbn; eauto.
    + intros w [].
  - intros f w [<-|[]] [<-|[]]. cbn; eauto.
Qed.

(** The cursor on "s/M" of the second definition. *)
Example C82_sample_cursor : cursor sample_span (6, 36) sample (LOpt (MODef 1 (DCall CMethod))).
Proof.
  apply (cursor_option _ _ sample [] sample_option [ISub sample_field]).
  - reflexivity.
  - intros x [].
  - split; [left; reflexivity|]. eexists. eexists. reflexivity.
  - constructor. cbn. auto 6.
  - apply (sits_list _ _ 2 [] "def" 3 [VMsg 4 [("name", VStr 5 "a")]] _ [] []).
    + intros e [].
    + intros x [<-|[]]. split; [|reflexivity]. intros u P O. parts P; inside.
    + reflexivity.
    + apply (sits_one _ _ 6 [("name", VStr 7 "b")] "call" _ []).
      * intros e [<-|[]] u P O. cbn in P. parts P; inside.
      * apply (sits_one _ _ 8 [] "method" _ []); [intros e []|]. constructor. inside.
Qed.

Example C82_exact_sample :
  find_location sample_span (6, 36) [TopI "a.proto" 15; TopD sample]
  = Some [TopMessage "M" (LOpt (MODef 1 (DCall CMethod)))].
Proof.
  apply (C82_exact_partial sample_span (6, 36) [TopI "a.proto" 15] sample [] _).
  - intros d (t & I & D). destruct I as [I|[I|[]]]; [discriminate I|]. injection I as <-. apply sample_tidy, D.
  - intros x [<-|[]]. cbn. inside.
  - reflexivity.
  - exact C82_sample_cursor.
  - apply sample_plain.
Qed.

Example C82_sample_by : find_location sample_span (9, 50) [TopI "a.proto" 15; TopD sample]
  = Some [TopMessage "M" (LField "f" (FOpt FOBy))].
Proof. reflexivity. Qed.

Example C82_sample_nothing : find_location sample_span (11, 1) [TopI "a.proto" 15; TopD sample] = None.
Proof.
  apply C82_nothing_elsewhere. intros x [<-|[<-|[]]]; cbn; [inside|].
  intros d D. apply sample_declared in D. destruct D as [-> | ->]; split.
  - intros s [<-|[]] u P O. cbn in P. parts P; inside.
  - intros i E. discriminate E.
  - intros s [<-|[]] u P O. cbn in P. parts P; inside.
  - intros i E. injection E as <-. inside.
Qed.
