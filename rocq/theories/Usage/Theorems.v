(** C83: the warnings about the imports of a file. *)
From Coq Require Import String List Bool.
From Verif.Lookup Require Import Model.
From Verif.Usage Require Import Model Spec Proofs.
Import ListNotations.
Local Open Scope string_scope.
Local Open Scope list_scope.

(** The full statement: an import of grpc.federation.file.import is reported as unused exactly when the options of grpc federation name nothing
    of its package, wherever they could; any other import is reported as used only for grpc federation exactly when these options name its
    package and nothing else in the file does. *)
Definition C83_statement : Prop := forall s f, separate s -> plain_file s f -> right_warnings s anywhere anywhere f (validate_import s f).

(** What holds instead: the warnings are right as far as the places are concerned that are reached without passing one of the named
    spots, and exactly these. *)
Theorem C83_warnings_partial : forall s f, separate s -> plain_file s f -> right_warnings s direct direct f (validate_import s f).
Proof. intros s f S P. exact (warnings_exact s S f P). Qed.
Print Assumptions C83_warnings_partial.

(** A file that uses none of these spots gets exactly the right warnings. *)
Theorem C83_ordinary_partial : forall s f, separate s -> plain_file s f ->
  (forall p, used_in (federation_place f) (package_of s) anywhere p -> used_in (federation_place f) (package_of s) direct p) ->
  (forall p, used_in (proto_place f) (package_of s) anywhere p -> used_in (proto_place f) (package_of s) direct p) ->
  right_warnings s anywhere anywhere f (validate_import s f).
Proof.
  intros s f S P HF HP name pkg I U. destruct (C83_warnings_partial s f S P name pkg I U) as [A B].
  assert (EF : forall p, used_in (federation_place f) (package_of s) anywhere p <-> used_in (federation_place f) (package_of s) direct p).
  { intros p. split; [apply HF|]. intros [w [w' [x [a [b _]]]]]. exists w, w', x. repeat split; assumption. }
  assert (EP : forall p, used_in (proto_place f) (package_of s) anywhere p <-> used_in (proto_place f) (package_of s) direct p).
  { intros p. split; [apply HP|]. intros [w [w' [x [a [b _]]]]]. exists w, w', x. repeat split; assumption. }
  rewrite A, B, EF, EP. split; reflexivity.
Qed.
Print Assumptions C83_ordinary_partial.

(** An import that the file does not need is always reported. *)
Theorem C83_unused_reported_partial : forall s f name pkg, separate s -> plain_file s f ->
  In (name, pkg) (imports f) -> (forall q, In (name, q) (imports f) -> q = pkg) -> In name (fed_imports f) ->
  ~ used_in (federation_place f) (package_of s) anywhere pkg -> In (Unused name) (validate_import s f).
Proof.
  intros s f name pkg S P I U L N. apply (proj1 (C83_warnings_partial s f S P name pkg I U)). split; [exact L|].
  intros [w [w' [x [A [B _]]]]]. apply N. exists w, w', x. repeat split; assumption.
Qed.
Print Assumptions C83_unused_reported_partial.

(** An import that is said to be used only for grpc federation is used there. *)
Theorem C83_only_federation_used_partial : forall s f name pkg, separate s -> plain_file s f ->
  In (name, pkg) (imports f) -> (forall q, In (name, q) (imports f) -> q = pkg) -> In (OnlyFederation name) (validate_import s f) ->
  used_in (federation_place f) (package_of s) anywhere pkg.
Proof.
  intros s f name pkg S P I U W. apply (proj2 (C83_warnings_partial s f S P name pkg I U)) in W. destruct W as [_ [_ [w [w' [x [A [B _]]]]]]].
  exists w, w', x. repeat split; assumption.
Qed.
Print Assumptions C83_only_federation_used_partial.

(** An import that is used only beyond the named spots is reported as unused, although removing it breaks the file. *)
Theorem C83_hidden_use : forall s f name pkg, separate s -> plain_file s f ->
  In (name, pkg) (imports f) -> (forall q, In (name, q) (imports f) -> q = pkg) -> In name (fed_imports f) ->
  used_in (federation_place f) (package_of s) anywhere pkg ->
  (forall w w' x, federation_place f w x -> mentions (package_of s) pkg w' x -> exists sp, In sp (w ++ w')) ->
  In (Unused name) (validate_import s f).
Proof.
  intros s f name pkg S P I U L _ H. apply (proj1 (C83_warnings_partial s f S P name pkg I U)). split; [exact L|].
  intros [w [w' [x [A [B C]]]]]. destruct (H w w' x A B) as [sp D]. unfold direct in C. rewrite C in D. destruct D.
Qed.
Print Assumptions C83_hidden_use.

(** Imports of the same package that are both listed, or both not, are reported together. *)
Theorem C83_same_package : forall s f a b pkg, (forall q n, In (n, q) (imports f) -> n = a \/ n = b -> q = pkg) ->
  In (a, pkg) (imports f) -> In (b, pkg) (imports f) -> (In a (fed_imports f) <-> In b (fed_imports f)) ->
  (In (Unused a) (validate_import s f) <-> In (Unused b) (validate_import s f)) /\
  (In (OnlyFederation a) (validate_import s f) <-> In (OnlyFederation b) (validate_import s f)).
Proof.
  intros s f a b pkg U A B E.
  destruct (warnings_packages s f a pkg A (fun q I => U q a I (or_introl eq_refl))) as [A1 A2].
  destruct (warnings_packages s f b pkg B (fun q I => U q b I (or_intror eq_refl))) as [B1 B2].
  rewrite A1, A2, B1, B2, E. split; reflexivity.
Qed.
Print Assumptions C83_same_package.

(** Every warning is about an import, in the order of the imports, and none gets more than one. *)
Definition about (w : warning) : string := match w with Unused n => n | OnlyFederation n => n end.
Theorem C83_order : forall s f, exists keep, map about (validate_import s f) = map fst (filter keep (imports f)).
Proof.
  intros s f. exists (fun i => negb (Nat.eqb (List.length (import_warning s f i)) 0)). unfold validate_import. induction (imports f) as [|[n q] l IH]; [reflexivity|].
  cbn [flat_map filter]. rewrite map_app, IH. unfold import_warning.
  destruct (has (fed_imports f) n), (has (file_packages s f) q), (has (proto_file f) q); reflexivity.
Qed.
Print Assumptions C83_order.

(** * Counterexamples *)
Local Ltac places := repeat (cbn in *; match goal with
  | H : False |- _ => destruct H
  | H : _ \/ False |- _ => destruct H as [H|H]; [|destruct H]
  | H : Some _ = Some _ |- _ => injection H as H
  | H : Some _ = None |- _ => discriminate H
  | H : None = Some _ |- _ => discriminate H
  | H : ?a = ?b |- _ => first [is_var a; subst a | is_var b; subst b]
  | H : federation_place _ _ _ |- _ => inversion H; clear H
  | H : message_place _ _ _ |- _ => inversion H; clear H
  | H : field_place _ _ _ |- _ => inversion H; clear H
  | H : def_place _ _ _ |- _ => inversion H; clear H
  | H : vexpr_place _ _ _ |- _ => inversion H; clear H
  | H : map_place _ _ _ |- _ => inversion H; clear H
  | H : arg_place _ _ _ |- _ => inversion H; clear H
  end).
Definition pkg (n : string) : fdesc := {| package := n; Lookup.Model.messages := []; Lookup.Model.enums := []; Lookup.Model.services := [] |}.
(** three packages; the file under test is of the last *)
Definition project : schema := [pkg "q"; pkg "my.org"; pkg "app"].
Lemma project_separate : separate project.
Proof.
  intros p [d [[<-|[<-|[<-|[]]]] <-]]; cbn; (split; [discriminate|]); (split; [intros r E; discriminate E|]);
    intros q r [d' [[<-|[<-|[<-|[]]]] <-]]; cbn; intros E; discriminate E.
Qed.
(** something of package q, made in an expression *)
Definition q_value : expr := StructE "q.M" [].
Definition blank : file := {| file_options := []; imports := [("q.proto", "q")]; fed_imports := ["q.proto"]; services := []; messages := []; enums := []; plugins := [] |}.
Definition with_defs (ds : list def) : file :=
  {| file_options := []; imports := [("q.proto", "q")]; fed_imports := ["q.proto"]; services := [];
     messages := [Message [] (Some {| m_aliases := []; m_defs := ds |}) [] [] []]; enums := []; plugins := [] |}.
Definition with_def (c : option expr) (v : vexpr) : file := with_defs [Def c v].
Definition with_oneof (o : oneof) : file :=
  {| file_options := []; imports := [("q.proto", "q")]; fed_imports := ["q.proto"]; services := [];
     messages := [Message [] None [{| f_options := []; f_type := TScalar; f_rule := Some {| r_aliases := []; r_value := None; r_oneof := Some o |} |}] [] []];
     enums := []; plugins := [] |}.
Definition with_service (v : service) : file :=
  {| file_options := []; imports := [("q.proto", "q")]; fed_imports := ["q.proto"]; services := [v]; messages := []; enums := []; plugins := [] |}.
(** the alias of a message of package q, and its other use at a place of the definitions *)
Definition with_alias (file_opts msg_opts enum_opts : list string) : file :=
  {| file_options := file_opts; imports := [("q.proto", "q")]; fed_imports := []; services := [];
     messages := [Message msg_opts (Some {| m_aliases := ["q"]; m_defs := [] |}) [] [] []];
     enums := [{| e_options := enum_opts; e_aliases := [] |}]; plugins := [] |}.
(** a file for every spot, whose only use of q, in the options of grpc federation or in the definitions, is beyond it *)
Definition hiding (sp : spot) : file :=
  match sp with
  | DefinitionIf => with_def (Some q_value) (XBy Lit)
  | ArgumentIf => with_def None (XMessage "app" [{| a_cel := Some Lit; a_if := Some q_value; a_type := TScalar |}])
  | RetryIf => with_def None (XCall "app" "app" [] (Some q_value) [])
  | EnumBy => with_def None (XEnum "app" q_value)
  | MapEnum => with_def None (XMap (MEnum "q" Lit))
  | ErrorDef => with_def None (XValidation (GErr [Def None (XBy q_value)] [Lit] []))
  | OneofIf => with_oneof {| o_if := Some q_value; o_defs := []; o_by := Some Lit |}
  | OneofDef => with_oneof {| o_if := None; o_defs := [Def None (XMessage "q" [])]; o_by := Some Lit |}
  | NestedEnum => {| file_options := []; imports := [("q.proto", "q")]; fed_imports := ["q.proto"]; services := [];
       messages := [Message [] None [] [{| e_options := []; e_aliases := ["q"] |}] []]; enums := []; plugins := [] |}
  | ServiceVariable => with_service {| s_options := []; s_methods := []; s_env_message := None; s_env := []; s_vars := [Def None (XBy q_value)] |}
  | EnvMessage => with_service {| s_options := []; s_methods := []; s_env_message := Some "q"; s_env := [TScalar]; s_vars := [] |}
  | MethodResponse => with_service {| s_options := []; s_methods := [{| d_options := []; d_request := "app"; d_response := "app"; d_rule_response := Some "q" |}];
       s_env_message := None; s_env := []; s_vars := [] |}
  | PluginFunction => {| file_options := []; imports := [("q.proto", "q")]; fed_imports := ["q.proto"]; services := []; messages := []; enums := []; plugins := [TMsg "q"] |}
  | FileOption => with_alias ["q"] [] []
  | MessageOption => with_alias [] ["q"] []
  | EnumOption => with_alias [] [] ["q"]
  | InComprehension => with_def None (XBy (Compr [Ident "xs"; ListE []; Lit; CallE Lit [Ident "@result"; ListE [q_value]]; Ident "@result"]))
  | SelectedFrom => with_def None (XBy (Select q_value "name"))
  end.

(** Each of the spots matters: there is a file whose use of a package beyond it leads to a wrong warning. *)
Theorem C83_every_spot_hides : forall sp, exists f w w' x, In sp (w ++ w') /\ mentions (package_of project) "q" w' x /\
  ((federation_place f w x /\ validate_import project f = [Unused "q.proto"]) \/
   (proto_place f w x /\ validate_import project f = [OnlyFederation "q.proto"])).
Proof.
  assert (K : package_of project "q") by (exists (pkg "q"); split; [left|]; reflexivity).
  assert (R : refers "q" "q.M") by (right; exists "M"; left; reflexivity).
  assert (V : mentions (package_of project) "q" [] (Cel q_value)) by (econstructor; [exact K | apply occurs_struct | exact R]).
  assert (MD : forall d ds w x, In d ds -> def_place d w x -> federation_place (with_defs ds) w x).
  { intros d ds w x I P. eapply place_in_message; [left; reflexivity|]. eapply place_def; [exact I | exact P]. }
  assert (D1 : forall c v w x, vexpr_place v w x -> federation_place (with_def c v) w x).
  { intros c v w x P. eapply MD; [left; reflexivity|]. apply place_def_value, P. }
  intros sp. exists (hiding sp). destruct sp; cbn [hiding].
  - exists [DefinitionIf], [], (Cel q_value). split; [left; reflexivity|]. split; [exact V|]. left. split; [|reflexivity].
    eapply MD; [left; reflexivity|]. constructor.
  - exists [ArgumentIf], [], (Cel q_value). split; [left; reflexivity|]. split; [exact V|]. left. split; [|reflexivity].
    apply D1. eapply place_message_arg; [left; reflexivity|]. apply place_arg_if. reflexivity.
  - exists [RetryIf], [], (Cel q_value). split; [left; reflexivity|]. split; [exact V|]. left. split; [|reflexivity]. apply D1. constructor.
  - exists [EnumBy], [], (Cel q_value). split; [left; reflexivity|]. split; [exact V|]. left. split; [|reflexivity]. apply D1. constructor.
  - exists [MapEnum], [], (Ref "q"). split; [left; reflexivity|]. split; [constructor|]. left. split; [|reflexivity]. apply D1. constructor. constructor.
  - exists [ErrorDef], [], (Cel q_value). split; [left; reflexivity|]. split; [exact V|]. left. split; [|reflexivity].
    apply D1. constructor. eapply place_err_def; [left; reflexivity|]. constructor. constructor.
  - exists [OneofIf], [], (Cel q_value). split; [left; reflexivity|]. split; [exact V|]. left. split; [|reflexivity].
    eapply place_in_message; [left; reflexivity|]. eapply place_field; [left; reflexivity|]. eapply place_oneof_if; reflexivity.
  - exists [OneofDef], [], (Ref "q"). split; [left; reflexivity|]. split; [constructor|]. left. split; [|reflexivity].
    eapply place_in_message; [left; reflexivity|]. eapply place_field; [left; reflexivity|]. eapply place_oneof_def; [reflexivity | reflexivity | left; reflexivity|].
    constructor. constructor.
  - exists [NestedEnum], [], (Ref "q"). split; [left; reflexivity|]. split; [constructor|]. left. split; [|reflexivity].
    eapply place_in_message; [left; reflexivity|]. eapply place_nested_enum; [left; reflexivity | left; reflexivity].
  - exists [ServiceVariable], [], (Cel q_value). split; [left; reflexivity|]. split; [exact V|]. left. split; [|reflexivity].
    eapply place_variable; [left; reflexivity | left; reflexivity|]. constructor. constructor.
  - exists [EnvMessage], [], (Ref "q"). split; [left; reflexivity|]. split; [constructor|]. left. split; [|reflexivity].
    eapply place_env_message; [left; reflexivity | reflexivity].
  - exists [MethodResponse], [], (Ref "q"). split; [left; reflexivity|]. split; [constructor|]. left. split; [|reflexivity].
    eapply place_method_response; [left; reflexivity | left; reflexivity | reflexivity].
  - exists [PluginFunction], [], (Ty (TMsg "q")). split; [left; reflexivity|]. split; [constructor; constructor|]. left. split; [|reflexivity].
    apply place_plugin. left. reflexivity.
  - exists [FileOption], [], (Ref "q"). split; [left; reflexivity|]. split; [constructor|]. right. split; [|reflexivity]. apply place_file_option. left. reflexivity.
  - exists [MessageOption], [], (Ref "q"). split; [left; reflexivity|]. split; [constructor|]. right. split; [|reflexivity].
    eapply place_in_proto_message; [left; reflexivity|]. constructor. left. reflexivity.
  - exists [EnumOption], [], (Ref "q"). split; [left; reflexivity|]. split; [constructor|]. right. split; [|reflexivity].
    eapply place_enum_option; [left; reflexivity | left; reflexivity].
  - eexists [], [InComprehension], (Cel _). split; [left; reflexivity|]. split; [|left; split; [apply D1; constructor | reflexivity]].
    econstructor; [exact K | | exact R]. eapply occurs_part; [right; right; right; left; reflexivity|].
    eapply occurs_arg; [right; left; reflexivity|]. eapply occurs_elem; [left; reflexivity|]. apply occurs_struct.
  - eexists [], [SelectedFrom], (Cel _). split; [left; reflexivity|]. split; [|left; split; [apply D1; constructor | reflexivity]].
    econstructor; [exact K | | exact R]. apply occurs_select; [|apply occurs_struct]. intros m D. inversion D.
Qed.
Print Assumptions C83_every_spot_hides.

(** So the full statement is false. *)
Theorem C83_refuted : ~ C83_statement.
Proof.
  intros H. assert (P : plain_file project (hiding NestedEnum)).
  { intros w e A. clear H. unfold hiding in A. places. }
  destruct (H project (hiding NestedEnum) project_separate P "q.proto" "q" (or_introl eq_refl)) as [A _].
  { intros q [E|[]]. injection E as <-. reflexivity. }
  destruct (proj1 A (or_introl eq_refl)) as [_ N]. apply N. exists [NestedEnum], [], (Ref "q"). split; [|split; [constructor | exact I]].
  eapply place_in_message; [left; reflexivity|]. eapply place_nested_enum; [left; reflexivity | left; reflexivity].
Qed.
Print Assumptions C83_refuted.

(** Without the condition on the fields of values that are no names, an import that is used nowhere can go without a warning: the field q of
    what a function returns is taken for the package q. *)
Definition C83_unused_statement : Prop := forall s f name p, separate s ->
  In (name, p) (imports f) -> (forall q, In (name, q) (imports f) -> q = p) -> In name (fed_imports f) ->
  ~ used_in (federation_place f) (package_of s) anywhere p -> In (Unused name) (validate_import s f).
Theorem C83_unused_reported_refuted : ~ C83_unused_statement.
Proof.
  intros H. specialize (H project (with_def None (XBy (Select (CallE Lit [Ident "x"]) "q"))) "q.proto" "q" project_separate (or_introl eq_refl)).
  assert (W : validate_import project (with_def None (XBy (Select (CallE Lit [Ident "x"]) "q"))) = []) by reflexivity. rewrite W in H. apply H.
  - intros q [E|[]]. injection E as <-. reflexivity.
  - left. reflexivity.
  - clear H W. intros [w [w' [x [A [M _]]]]]. unfold with_def, with_defs in A.
    assert (E : x = Cel (Select (CallE Lit [Ident "x"]) "q")) by (clear M; places; reflexivity). subst x. inversion M as [| |? ? n _ O R]; subst. clear M A.
    inversion O as [? ? D|? ? ? ? _ O'| | | | | | |]; subst; [inversion D as [|? ? ? D']; inversion D'|].
    inversion O' as [? ? D| |? ? ? ? O''|? ? ? ? ? I O''| | | | |]; subst; [inversion D | inversion O'' as [? ? D| | | | | | | |]; inversion D|].
    destruct I as [<-|[]]. inversion O'' as [? ? D| | | | | | | |]; subst. inversion D; subst. destruct R as [E|[r [E|E]]]; discriminate E.
Qed.
Print Assumptions C83_unused_reported_refuted.

(** Without the condition on the packages, a package is passed over for another whose name it starts with: the call my.org.f() counts for
    the package my. *)
Definition C83_nested_statement : Prop := forall s f, plain_file s f -> right_warnings s direct direct f (validate_import s f).
Theorem C83_nested_packages_refuted : ~ C83_nested_statement.
Proof.
  intros H. set (s := [pkg "my"; pkg "my.org"; pkg "app"]).
  set (f := {| file_options := []; imports := [("org.proto", "my.org")]; fed_imports := ["org.proto"]; services := [];
     messages := [Message [] (Some {| m_aliases := []; m_defs := [Def None (XBy (CallE (Select (Ident "my") "org") []))] |}) [] [] []]; enums := []; plugins := [] |}).
  assert (Pe : plain (package_of s) (CallE (Select (Ident "my") "org") [])).
  { constructor; [|intros e []]. eapply plain_dotted. constructor. constructor. discriminate. }
  assert (P : plain_file s f).
  { intros w e A. clear H. subst f. places. exact Pe. }
  destruct (H s f P "org.proto" "my.org" (or_introl eq_refl)) as [A _].
  { intros q [E|[]]. injection E as <-. reflexivity. }
  destruct (proj1 A (or_introl eq_refl)) as [_ N]. apply N. eexists [], [], (Cel _). split; [|split; [|reflexivity]].
  - eapply place_in_message; [left; reflexivity|]. eapply place_def; [left; reflexivity|]. constructor. constructor.
  - econstructor; [exists (pkg "my.org"); split; [right; left|]; reflexivity | apply occurs_target; constructor; constructor; constructor; discriminate | left; reflexivity].
Qed.
Print Assumptions C83_nested_packages_refuted.

(** * Examples *)
(** A file with four imports: q is named in an expression only, my.org in the type of a field too, the third is listed and not used. *)
Definition sample : file :=
  {| file_options := []; imports := [("q.proto", "q"); ("org.proto", "my.org"); ("idle.proto", "idle"); ("fed.proto", "q")]; fed_imports := ["idle.proto"; "fed.proto"];
     services := [];
     messages := [Message [] (Some {| m_aliases := []; m_defs := [Def None (XCall "my.org" "my.org" [{| a_cel := Some (Select (Ident "$") "id"); a_if := None; a_type := TScalar |}] None [])] |})
       [{| f_options := []; f_type := TMsg "my.org"; f_rule := Some {| r_aliases := []; r_value := Some (ListE [StructE "q.M" [Ident "res"]]); r_oneof := None |} |}] [] []];
     enums := []; plugins := [] |}.
Example sample_plain : plain_file project sample.
Proof.
  intros w e A. unfold sample in A. places.
  - eapply plain_dotted. constructor. constructor. discriminate.
  - constructor. intros e [<-|[]]. constructor. intros e [<-|[]]. eapply plain_dotted. constructor. discriminate.
Qed.
Example sample_warnings : validate_import project sample = [OnlyFederation "q.proto"; Unused "idle.proto"].
Proof. reflexivity. Qed.
Example hidden_case : plain_file project (hiding MapEnum) /\ In ("q.proto", "q") (imports (hiding MapEnum)) /\ In "q.proto" (fed_imports (hiding MapEnum)) /\
  forall w w' x, federation_place (hiding MapEnum) w x -> mentions (package_of project) "q" w' x -> exists sp, In sp (w ++ w').
Proof.
  assert (H : forall w x, federation_place (hiding MapEnum) w x -> (w = [MapEnum] /\ x = Ref "q") \/ (w = [MapEnum; EnumBy] /\ x = Cel Lit)).
  { intros w x A. unfold hiding, with_def, with_defs in A. places; auto. }
  split; [|split; [left; reflexivity | split; [left; reflexivity|]]].
  - intros w e A. destruct (H _ _ A) as [[_ E]|[_ E]]; [discriminate E|]. injection E as ->. constructor.
  - intros w w' x A _. destruct (H _ _ A) as [[-> _]|[-> _]]; exists MapEnum; left; reflexivity.
Qed.
