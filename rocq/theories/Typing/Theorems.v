(** C76: the options of an accepted message are well typed.

    "Every expression of an accepted message is checked with the variables that
    are visible where it stands, and has the type its place asks for: a condition
    is a bool, a text of an error is a string, a map goes over a list, and so
    on.  A message whose expressions are well typed is accepted." *)

From Coq Require Import String List Bool.
From Verif.Typing Require Import Model Spec Proofs.
Import ListNotations.
Local Open Scope list_scope.
Local Open Scope string_scope.

(** A checker for the examples: some texts have a type of their own, and the name
    of a visible variable has the type of the variable. *)
Definition example_chk (G : env) (e : string) : option celty :=
  match look [("true", CBool); ("'x'", CString); ("1", CInt); ("[1]", CList CInt);
              ("[true]", CList CBool); ("['x']", CList CString);
              ("[[1]]", CList (CList CInt)); ("{'a': [1]}", CMap CString (CList CInt));
              ("Kind.A", CEnum "Kind"); ("post", CObj "Post")] e with
  | Some t => Some t
  | None => look G e
  end.
Definition example_alias (a b : string) : bool := String.eqb a "Kind" && String.eqb b "Sort".

(** A message with every kind of expression: a list, a map over it, a call with a
    retry and a handler with definitions and a detail, an enum and a oneof. *)
Definition example_handler : gerr :=
  GErr (DCons (VDef "ys" None (XBy "xs")) (DCons (VDef "zs" None (XMap "y" "ys" (BBy "y"))) DNil))
       "true" (Some "post") (Some "'x'")
       (TCons (Det DNil "true" ["error"] (DCons (VDef "_m" None (XMsg [Some "zs"] "Info")) DNil)
                   ["'x'"; "'x'"]) TNil).
Definition example_message : message := {|
  m_defs :=
    DCons (VDef "xs" None (XBy "[1]"))
    (DCons (VDef "ms" (Some "true") (XMap "x" "xs" (BMsg [Some "x"] "Item")))
    (DCons (VDef "res" None
       (XCall [{| a_by := Some "xs"; a_if := Some "true" |}] (Some "true")
              (GCons example_handler GNil) "Post"))
    (DCons (VDef "sort" None (XEnum "Sort" "Kind.A")) DNil)));
  m_fields := [RValue "res"; ROneof {| o_if := Some "true"; o_defs := DCons (VDef "k" None (XBy "sort")) DNil;
                                        o_by := Some "k" |}]
|}.

(** The full property. *)
Definition C76_statement : Prop :=
  forall chk alias G m,
    distinct_message m ->
    (check_message chk alias G m = [] <-> message_well_typed chk (expected alias) G m).

(** What is accepted, exactly: the rules of [implemented]. *)
Theorem C76_exact : forall chk alias G m,
  check_message chk alias G m = [] <-> message_well_typed chk (implemented alias) G m.
Proof. exact message_exact. Qed.
Print Assumptions C76_exact.

Example C76_exact_example :
  check_message example_chk example_alias [] example_message = [] /\
  distinct_message example_message /\
  check_message example_chk (fun _ _ => false) [] example_message = [EAlias "Kind.A"] /\
  check_message example_chk example_alias []
    {| m_defs := DCons (VDef "a" (Some "1") (XBy "b")) DNil; m_fields := [RValue "a"] |}
  = [EBool "1"; ECheck "b"; ECheck "a"].
Proof.
  split; [reflexivity |]. split; [| split; reflexivity].
  split.
  - cbn. repeat split; try discriminate; intuition discriminate.
  - intros o [H | [H | []]]; [discriminate H |]. injection H as <-. cbn.
    repeat split; try discriminate; intuition discriminate.
Qed.

(** Everything accepted is checked in its scope: the rules of what a user expects,
    with each place asking for the innermost element of the type only.  Missing for
    the full statement: lists. *)
Theorem C76_sound_partial : forall chk alias G m,
  distinct_message m ->
  check_message chk alias G m = [] ->
  message_well_typed chk (lenient alias) G m.
Proof.
  intros chk alias G m D H. apply sound_message; [exact D |]. apply message_exact, H.
Qed.
Print Assumptions C76_sound_partial.

Example C76_sound_partial_example :
  message_well_typed example_chk (lenient example_alias) [] example_message.
Proof. apply C76_sound_partial; [apply C76_exact_example | reflexivity]. Qed.

(** A message that is well typed in the sense of a user and stays away from nested
    lists and from maps over outer variables is accepted; its well-typedness is the
    one a user expects. *)
Theorem C76_complete_partial : forall chk alias G m,
  message_well_typed chk (careful alias) G m ->
  check_message chk alias G m = [] /\
  message_well_typed chk (expected alias) G m.
Proof.
  intros chk alias G m H. split.
  - apply message_exact. revert H. apply simple_message; [apply careful_implemented |].
    intros G0 L src t [_ X]. exact X.
  - revert H. apply simple_message; [apply careful_expected |].
    intros G0 L src t [X _]. exact X.
Qed.
Print Assumptions C76_complete_partial.

Ltac well :=
  match goal with
  | |- _ /\ _ => split
  | |- True => exact I
  | |- exists _, _ => eexists
  | |- typed _ _ _ _ => eexists
  | |- _ = _ => reflexivity
  | |- _ <> _ => discriminate
  | |- all _ _ => let a := fresh in let i := fresh in
                  intros a i; cbn in i; repeat (destruct i as [<- | i]); [.. | contradiction]
  | |- arg_ok _ _ _ _ => cbn
  | |- rule_ok _ _ _ _ => cbn
  | |- message_ok _ _ _ _ => unfold message_ok
  | |- supported _ => cbn
  | |- fits_any _ _ => cbn
  | |- if_given _ _ => cbn
  end.

Example C76_complete_partial_example :
  message_well_typed example_chk (careful example_alias) []
    {| m_defs :=
         DCons (VDef "xs" None (XBy "[1]"))
         (DCons (VDef "ms" (Some "true") (XMap "x" "xs" (BMsg [Some "x"] "Item"))) DNil);
       m_fields := [RValue "ms"] |}.
Proof.
  cbn. repeat well.
Qed.

(** Counterexamples.  A list of bools is accepted as a condition and a list of
    strings as a text ... *)
Definition list_condition : message :=
  {| m_defs := DCons (VDef "a" (Some "[true]") (XBy "1")) DNil; m_fields := [] |}.
Definition list_text : message :=
  {| m_defs := DCons (VDef "a" None (XValid (GErr DNil "true" None (Some "['x']") TNil))) DNil;
     m_fields := [] |}.
(** ... a variable that is a list of lists is used as a list of numbers ... *)
Definition nested_list : message :=
  {| m_defs :=
       DCons (VDef "xs" None (XBy "[[1]]"))
       (DCons (VDef "ys" None (XMap "x" "xs" (BBy "x"))) DNil);
     m_fields := [] |}.
(** ... and a map in a handler over a visible variable of the message is refused. *)
Definition outer_source : message :=
  {| m_defs :=
       DCons (VDef "xs" None (XBy "[1]"))
       (DCons (VDef "res" None
          (XCall [] None
             (GCons (GErr (DCons (VDef "ys" None (XMap "x" "xs" (BBy "x"))) DNil)
                          "true" None None TNil) GNil) "Post")) DNil);
     m_fields := [] |}.

Theorem C76_refuted :
  ~ C76_statement /\
  (check_message example_chk example_alias [] list_condition = [] /\
   ~ message_well_typed example_chk (expected example_alias) [] list_condition) /\
  (check_message example_chk example_alias [] list_text = [] /\
   ~ message_well_typed example_chk (expected example_alias) [] list_text) /\
  (check_message example_chk example_alias [] outer_source = [EIterUndef "xs"; ECheck "x"] /\
   message_well_typed example_chk (expected example_alias) [] outer_source).
Proof.
  assert (A : check_message example_chk example_alias [] list_condition = [] /\
              ~ message_well_typed example_chk (expected example_alias) [] list_condition).
  { split; [reflexivity |]. cbn. intros [[t [E F]] _]. cbn in E. injection E as <-. discriminate F. }
  split.
  { intro S. destruct A as [A1 A2]. apply A2. apply S; [| exact A1].
    split; [| intros o []]. cbn. repeat split; try discriminate; auto. }
  split; [exact A |]. split.
  - split; [reflexivity |]. cbn. intros [_ [t [[[_ [_ [[u [E F]] _]]] _] _]]].
    cbn in E. injection E as <-. discriminate F.
  - split; [reflexivity |]. cbn. repeat well.
Qed.
Print Assumptions C76_refuted.

(** A type survives the way through the resolver exactly if it is a list of a type
    without lists, or such a type itself. *)
Theorem C76_lists_of_lists : forall t u,
  from_cel t = Some u -> (to_cel u = t <-> one_list t).
Proof.
  intros t u H. destruct (from_cel_some _ _ H) as [_ I]. rewrite (image_flat _ _ I).
  apply flat_one_list.
Qed.
Print Assumptions C76_lists_of_lists.

Example C76_lists_of_lists_example :
  from_cel (CList (CObj "Post")) = Some (Ty (KMsg "Post") true) /\
  one_list (CList (CObj "Post")) /\
  ~ one_list (CList (CList CInt)) /\
  ~ one_list (CMap CString (CList CInt)) /\
  option_map to_cel (from_cel (CList (CList CInt))) = Some (CList CInt) /\
  option_map to_cel (from_cel (CMap CString (CList CInt))) = Some (CMap CString CInt).
Proof.
  split; [reflexivity |]. split; [exact I |]. split; [intros [] |].
  split; [intros [_ []] | split; reflexivity].
Qed.

(** So the variable "ys" below, whose values are lists of lists, has the type of a
    list of numbers. *)
Theorem C76_nested_list :
  check_defs example_chk example_alias [] [] (m_defs nested_list)
  = ([], [("ys", CList CInt); ("xs", CList CInt)]) /\
  (forall K, defs_ok example_chk (expected example_alias) [] [] (m_defs nested_list) K <->
             K [("ys", CList (CList CInt)); ("xs", CList (CList CInt))]).
Proof.
  split; [reflexivity |]. intro K. cbn. split.
  - intros [_ [t [[u [E ->]] [_ [t' [[_ [_ [a [b [Ea [[Eb _] ->]]]]]] H]]]]]].
    cbn in E. injection E as <-. cbn in Ea. injection Ea as <-. cbn in Eb. injection Eb as <-. exact H.
  - intro H. repeat well. exact H.
Qed.
Print Assumptions C76_nested_list.

(** The first definition of a list, e.g. of a handler, of a detail or of a oneof,
    cannot be a map, whatever is visible. *)
Theorem C76_first_map : forall chk alias G n c iter src b r,
  fst (check_defs chk alias G [] (DCons (VDef n c (XMap iter src b)) r)) <> [].
Proof.
  intros chk alias G n c iter src b r H.
  assert (X : defs_ok chk (implemented alias) G [] (DCons (VDef n c (XMap iter src b)) r) (fun _ => True)).
  { change (@nil (string * option celty)) with (seen []).
    apply (defs_exact chk alias). split; [exact H | exact I]. }
  cbn in X. destruct X as [_ [t [[_ [_ [u [v [E _]]]]] _]]]. discriminate E.
Qed.
Print Assumptions C76_first_map.
