(** * Where generated files are written (C63, C64) *)

From Coq Require Import Ascii String List Bool Arith Lia Permutation.
From Verif.Base Require Import Text TextProofs.
From Verif.Paths Require Import Model Spec Proofs.
From Verif.Enums Require Model Outputs.
Import ListNotations.
Local Open Scope string_scope.

(** ** C63: a generated file is written where its proto file says *)

Theorem C63_placed : forall c f dirs base, goes_to c f dirs -> proto_base f base ->
  OutputPath c f = Some (written (dirs ++ [generated_name base])).
Proof.
  intros c f dirs base G B. destruct (OutputDir_spec c f dirs G) as [d [E [A [D _]]]]. unfold OutputPath. rewrite E.
  rewrite (FileName_spec f base B), (Join_dir d _ dirs A D (generated_proper f base B)). reflexivity.
Qed.
Print Assumptions C63_placed.

(** Without a Go package there is no place, unless it is not asked for. *)
Theorem C63_no_package : forall c f, p_gopkg f = None -> (OutputPath c f = None <-> c_mode c <> SourceRelativeMode).
Proof.
  intros c f E. unfold OutputPath, OutputDir. rewrite E. destruct (c_mode c); split; try reflexivity; try discriminate. intros H. congruence.
Qed.
Print Assumptions C63_no_package.

(** The files the stand-alone generator writes, for the result of Resolve. *)
Definition pfile_of (gopkgs : string -> option string) (s : Outputs.source) : pfile :=
  {| p_name := Outputs.sname s; p_gopkg := gopkgs (Outputs.sname s) |}.

(** Every file the stand-alone generator makes for the proto file at [entry] is written where its own proto file says. *)
Definition C63_statement : Prop := forall c gopkgs registered files e entry dirs_e s dirs base,
  Permutation registered files -> In e files ->
  goes_to c (pfile_of gopkgs e) dirs_e -> goes_to c {| p_name := entry; p_gopkg := gopkgs (Outputs.sname e) |} dirs_e ->
  In s (Outputs.generated_files registered files) ->
  goes_to c (pfile_of gopkgs s) dirs -> proto_base (pfile_of gopkgs s) base ->
  standalone_path c entry (pfile_of gopkgs s) = Some (written (dirs ++ [generated_name base])).

(** Where it does write it: the directory is that of the proto file being generated. *)
Theorem C63_standalone_exact : forall c entry gopkg f dirs_e dirs base, c_mode c = SourceRelativeMode ->
  goes_to c {| p_name := entry; p_gopkg := gopkg |} dirs_e -> goes_to c f dirs -> proto_base f base ->
  standalone_path c entry f = Some (written (dirs_e ++ [generated_name base])) /\
  (standalone_path c entry f = OutputPath c f <-> dirs_e = dirs).
Proof.
  intros c entry gopkg f dirs_e dirs base M Ge Gf B. rewrite (C63_placed c f dirs base Gf B).
  destruct (OutputDir_spec _ _ _ Ge) as [d [E [A [D F]]]]. cbn [p_name p_gopkg] in E.
  assert (X : standalone_path c entry f = Some (written (dirs_e ++ [generated_name base]))).
  { unfold standalone_path. replace (OutputDir c entry (p_gopkg f)) with (Some d) by (rewrite <- E; unfold OutputDir; rewrite M; reflexivity).
    rewrite (FileName_spec f base B), (Join_dir d _ dirs_e A D (generated_proper f base B)). reflexivity. }
  split; [exact X | ]. rewrite X. split; [ | intros ->; reflexivity]. intros Y. injection Y as Y. unfold written in Y. change (String.concat "/") with (join "/") in Y.
  destruct (OutputDir_spec _ _ _ Gf) as [_ [_ [_ [_ Ff]]]]. pose proof (generated_proper f base B) as P.
  apply (f_equal elems) in Y. rewrite !elems_join in Y by (apply Forall_app; split; [assumption | constructor; [exact P | constructor]]).
  apply app_inj_tail in Y. apply Y.
Qed.
Print Assumptions C63_standalone_exact.

(** In the other two modes the path given for the entry does not matter. *)
Theorem C63_standalone_modes : forall c entry f dirs base, c_mode c <> SourceRelativeMode -> goes_to c f dirs -> proto_base f base ->
  standalone_path c entry f = Some (written (dirs ++ [generated_name base])).
Proof.
  intros c entry f dirs base M G B. rewrite <- (C63_placed c f dirs base G B).
  unfold standalone_path, OutputPath, OutputDir. destruct (c_mode c); [reflexivity | reflexivity | congruence].
Qed.
Print Assumptions C63_standalone_modes.

(** A service in one directory that imports a plugin in another. *)
Definition b_proto : Model.file := Model.File "b/b.proto" [] [] [{| Model.pname := "p"; Model.pid := 0 |}] [].
Definition b_source : Outputs.source := {| Outputs.tree := b_proto; Outputs.package := "b"; Outputs.service_rule := false |}.
Definition a_source : Outputs.source :=
  {| Outputs.tree := Model.File "a/a.proto" [] [] [] [b_proto]; Outputs.package := "a"; Outputs.service_rule := true |}.
Definition source_relative : config := {| c_mode := SourceRelativeMode; c_prefix := ""; c_filepath := ""; c_imports := ["proto"] |}.

Lemma not_absolute : forall s, is_abs s = false -> ~ absolute s.
Proof. intros s. apply is_abs_not. Qed.

Lemma walk_lit : forall s, is_abs s = false -> forall l, elems s = l -> hd "" l <> ".." -> leads false s l.
Proof.
  intros s A l E H. destruct (not_leads s A) as [L | [k X]]; [rewrite E in L; exact L | ]. rewrite X in E. subst l. cbn in H. congruence.
Qed.

Lemma proto_leads : forall ns, leads false "proto" ns -> ns = ["proto"].
Proof. intros ns L. apply leads_elems in L. destruct L as [_ [L _]]. rewrite <- L. reflexivity. Qed.

Lemma alone_goes : forall g d n, is_abs (d ++ "/" ++ n) = false -> elems (d ++ "/" ++ n) = [d; n] -> d <> ".." -> d <> "proto" ->
  has_char slash n = false -> goes_to source_relative {| p_name := d ++ "/" ++ n; p_gopkg := g |} [d].
Proof.
  intros g d n A E U P S. apply (To_source_alone _ _ [d] n); [reflexivity | reflexivity | apply walk_lit; [exact A | exact E | exact U] | | ].
  - split; [apply has_char_not; exact S | right; exists d; reflexivity].
  - intros p [<- | []] [root [rest [L X]]]. apply proto_leads in L. subst root. cbn in X. injection X as X _. congruence.
Qed.

Lemma entry_goes : forall g, goes_to source_relative {| p_name := "proto/a/a.proto"; p_gopkg := g |} ["a"].
Proof.
  intros g. apply (To_source _ _ false [] "proto" [] ["proto"] ["a"] "a.proto"); try reflexivity.
  - apply walk_lit; [reflexivity | reflexivity | discriminate].
  - apply walk_lit; [reflexivity | reflexivity | discriminate].
  - intros p [].
  - intros t H. discriminate H.
Qed.

Theorem C63_refuted : ~ C63_statement.
Proof.
  intros H.
  assert (X := H source_relative (fun _ => None) [b_source; a_source] [b_source; a_source] a_source "proto/a/a.proto" ["a"] b_source ["b"] "b"
    (Permutation_refl _) (or_intror (or_introl eq_refl))
    (alone_goes None "a" "a.proto" eq_refl eq_refl ltac:(discriminate) ltac:(discriminate) eq_refl) (entry_goes _)
    (or_introl eq_refl) (alone_goes None "b" "b.proto" eq_refl eq_refl ltac:(discriminate) ltac:(discriminate) eq_refl)).
  assert (B : proto_base (pfile_of (fun _ => None) b_source) "b").
  { split; [apply has_char_not; reflexivity | right; exists "b"; reflexivity]. }
  specialize (X B). vm_compute in X. discriminate X.
Qed.
Print Assumptions C63_refuted.

(** The path it is written to, and the one the protoc plugin answers. *)
Example C63_example :
  Outputs.generated_files [b_source; a_source] [b_source; a_source] = [b_source; a_source] /\
  standalone_paths source_relative "proto/a/a.proto" (map (pfile_of (fun _ => None)) [b_source; a_source]) =
    Some ["a/b_grpc_federation.pb.go"; "a/a_grpc_federation.pb.go"] /\
  protoc_paths source_relative (map (pfile_of (fun _ => None)) [b_source; a_source]) =
    Some ["b/b_grpc_federation.pb.go"; "a/a_grpc_federation.pb.go"].
Proof. vm_compute. repeat split. Qed.

(** With a module prefix, only Go packages below it have a place: the others should be refused. *)
Definition C63_module_statement : Prop := forall c name i d, c_mode c = ModulePrefixMode -> c_prefix c <> "" ->
  OutputDir c name (Some i) = Some d -> (i = c_prefix c /\ d = "") \/ i = c_prefix c ++ "/" ++ d.

Definition module_config : config := {| c_mode := ModulePrefixMode; c_prefix := "example.com/foo"; c_filepath := ""; c_imports := [] |}.

Theorem C63_module_refuted : ~ C63_module_statement.
Proof.
  intros H. destruct (H module_config "" "example.com/foobar/x" "bar/x" eq_refl ltac:(discriminate) eq_refl) as [[E _] | E]; vm_compute in E; discriminate E.
Qed.
Print Assumptions C63_module_refuted.

(** It holds exactly for those: any other import path gets some directory all the same. *)
Theorem C63_module_exact : forall c name i, c_mode c = ModulePrefixMode ->
  exists d, OutputDir c name (Some i) = Some d /\
  (((i = c_prefix c /\ d = "") \/ i = c_prefix c ++ "/" ++ d) <-> (i = c_prefix c \/ exists r, i = c_prefix c ++ "/" ++ r)).
Proof.
  intros c name i M. unfold OutputDir. rewrite M. eexists. split; [reflexivity | ]. split.
  - intros [[E _] | E]; [left; exact E | right; eexists; exact E].
  - intros [E | [r E]].
    + left. split; [exact E | ]. unfold TrimPrefix at 2. rewrite (proj2 (cut_spec (c_prefix c) i "")); [reflexivity | ]. rewrite app_empty. exact E.
    + right. unfold TrimPrefix at 2. rewrite (proj2 (cut_spec (c_prefix c) i ("/" ++ r)) E).
      unfold TrimPrefix. rewrite (proj2 (cut_spec "/" ("/" ++ r) r) eq_refl). exact E.
Qed.
Print Assumptions C63_module_exact.

Example C63_module_example :
  OutputDir module_config "" (Some "example.com/foo/x") = Some "x" /\ OutputDir module_config "" (Some "example.com/foobar/x") = Some "bar/x" /\
  OutputDir module_config "" (Some "other.org/y") = Some "other.org/y".
Proof. vm_compute. repeat split. Qed.

Example C63_module_goes : goes_to module_config {| p_name := "a/Post.proto"; p_gopkg := Some "example.com/foo/x/../y" |} ["y"] /\
  OutputPath module_config {| p_name := "a/Post.proto"; p_gopkg := Some "example.com/foo/x/../y" |} = Some "y/post_grpc_federation.pb.go".
Proof.
  split; [ | vm_compute; reflexivity]. apply (To_module _ _ "example.com/foo/x/../y" "x/../y"); [reflexivity | reflexivity | reflexivity | ].
  apply walk_lit; [reflexivity | reflexivity | discriminate].
Qed.

(** ** C64: no generated file overwrites another *)

Definition C64_statement : Prop := forall c files paths, NoDup (map p_name files) ->
  (forall f, In f files -> exists dirs base, goes_to c f dirs /\ proto_base f base) ->
  protoc_paths c files = Some paths -> NoDup paths.

(** Two files share a path exactly if they go to the same directory and their names differ in case at most. *)
Theorem C64_exact : forall c f g df dg bf bg, goes_to c f df -> goes_to c g dg -> proto_base f bf -> proto_base g bg ->
  (OutputPath c f = OutputPath c g <-> df = dg /\ lower_case bf = lower_case bg).
Proof.
  intros c f g df dg bf bg Gf Gg Bf Bg. rewrite (C63_placed _ _ _ _ Gf Bf), (C63_placed _ _ _ _ Gg Bg).
  destruct (OutputDir_spec _ _ _ Gf) as [_ [_ [_ [_ Pf]]]]. destruct (OutputDir_spec _ _ _ Gg) as [_ [_ [_ [_ Pg]]]].
  pose proof (generated_proper f bf Bf) as Nf. pose proof (generated_proper g bg Bg) as Ng.
  unfold written. change (String.concat "/") with (join "/"). split.
  - intros E. injection E as E. apply (f_equal elems) in E.
    rewrite !elems_join in E by (apply Forall_app; split; [assumption | constructor; [assumption | constructor]]).
    apply app_inj_tail in E. destruct E as [E1 E2]. split; [exact E1 | exact (app_same_suffix _ _ _ E2)].
  - intros [-> E]. unfold generated_name. rewrite E. reflexivity.
Qed.
Print Assumptions C64_exact.

Definition import_mode : config := {| c_mode := ImportMode; c_prefix := ""; c_filepath := ""; c_imports := [] |}.
Definition in_pkg (n : string) : pfile := {| p_name := n; p_gopkg := Some "example.com/x" |}.

Lemma in_pkg_goes : forall n, goes_to import_mode (in_pkg n) ["example.com"; "x"].
Proof.
  intros n. apply (To_import _ _ "example.com/x"); [reflexivity | reflexivity | ]. apply walk_lit; [reflexivity | reflexivity | discriminate].
Qed.

Theorem C64_refuted : ~ C64_statement.
Proof.
  intros H.
  assert (X : NoDup ["example.com/x/user_grpc_federation.pb.go"; "example.com/x/user_grpc_federation.pb.go"]).
  { apply (H import_mode [in_pkg "a/User.proto"; in_pkg "a/user.proto"]).
    - cbn. constructor; [cbn; intros [E | []]; discriminate E | constructor; [intros [] | constructor]].
    - intros f [<- | [<- | []]]; eexists; [exists "User" | exists "user"]; (split; [apply in_pkg_goes | ]);
        (split; [apply has_char_not; reflexivity | right; exists "a"; reflexivity]).
    - vm_compute. reflexivity. }
  inversion X as [ | ? ? N _]; subst. apply N. left. reflexivity.
Qed.
Print Assumptions C64_refuted.

Lemma all_some_map : forall (A B : Type) (f : A -> option B) l r, all_some (map f l) = Some r -> Forall2 (fun x y => f x = Some y) l r.
Proof.
  induction l as [ | x l IH]; intros r E; cbn in E; [injection E as <-; constructor | ].
  destruct (f x) as [y | ] eqn:F; [ | discriminate E]. destruct (all_some (map f l)) as [ys | ]; [ | discriminate E].
  injection E as <-. constructor; [exact F | apply IH; reflexivity].
Qed.

(** With distinct directories, or names that differ in more than case, no file is overwritten. *)
Theorem C64_partial : forall c files where_ base paths,
  (forall f, In f files -> goes_to c f (where_ f) /\ proto_base f (base f)) ->
  NoDup (map (fun f => (where_ f, lower_case (base f))) files) ->
  protoc_paths c files = Some paths -> NoDup paths.
Proof.
  intros c files w b paths H N E. apply all_some_map in E. induction E as [ | f y fs ys F2 E IH]; [constructor | ].
  cbn [map] in N. inversion N as [ | ? ? N1 N2]; subst. constructor; [ | apply IH; [intros g I; apply H; right; exact I | exact N2]].
  intros I. apply N1. apply in_map_iff.
  assert (X : exists g, In g fs /\ OutputPath c g = Some y).
  { clear - E I. induction E as [ | g z gs zs G E IH]; [destruct I | ]. destruct I as [-> | I]; [exists g; split; [left; reflexivity | exact G] | ].
    destruct (IH I) as [k [J K]]. exists k. split; [right; exact J | exact K]. }
  destruct X as [g [J G]]. exists g. split; [ | exact J]. destruct (H f (or_introl eq_refl)) as [Gf Bf]. destruct (H g (or_intror J)) as [Gg Bg].
  destruct (proj1 (C64_exact c g f _ _ _ _ Gg Gf Bg Bf)) as [-> ->]; [congruence | reflexivity].
Qed.
Print Assumptions C64_partial.

(** Every path is recognised as that of a generated file. *)
Lemma HasSuffix_app : forall a s, HasSuffix (a ++ s) s = true.
Proof.
  induction a as [ | c a IH]; intros s; cbn [append].
  - destruct s; cbn [HasSuffix]; rewrite String.eqb_refl; reflexivity.
  - cbn [HasSuffix]. rewrite IH, orb_true_r. reflexivity.
Qed.

Theorem C64_recognised : forall c f base path, proto_base f base -> OutputPath c f = Some path -> IsGRPCFederationGeneratedFile path = true.
Proof.
  intros c f base path B E. unfold OutputPath in E. destruct (OutputDir c (p_name f) (p_gopkg f)) as [d | ]; [ | discriminate E]. injection E as <-.
  rewrite (FileName_spec f base B), Join_spec by exact (generated_proper f base B). unfold IsGRPCFederationGeneratedFile, render.
  assert (X : forall l, exists t, join "/" (l ++ [generated_name base])%list = t ++ generated_suffix).
  { intros [ | x l]; [exists (lower_case base); reflexivity | ]. rewrite join_snoc by discriminate. unfold generated_name.
    exists (join "/" (x :: l) ++ "/" ++ lower_case base). rewrite !app_assoc_s. reflexivity. }
  destruct (X (elems d)) as [t T]. destruct (is_abs d).
  - rewrite T, <- app_assoc_s. apply HasSuffix_app.
  - destruct (elems d ++ [generated_name base])%list eqn:Y; [destruct (elems d); discriminate Y | ]. rewrite T. apply HasSuffix_app.
Qed.
Print Assumptions C64_recognised.

Example C64_example :
  protoc_paths import_mode [in_pkg "a/user.proto"; in_pkg "b/post.proto"] =
    Some ["example.com/x/user_grpc_federation.pb.go"; "example.com/x/post_grpc_federation.pb.go"] /\
  protoc_paths import_mode [in_pkg "a/user.proto"; in_pkg "b/user.proto"] =
    Some ["example.com/x/user_grpc_federation.pb.go"; "example.com/x/user_grpc_federation.pb.go"] /\
  (* the file protoc-gen-go makes of one proto file is the one generated for another *)
  other_path ".pb.go" import_mode "user_grpc_federation.proto" (in_pkg "user_grpc_federation.proto") = OutputPath import_mode (in_pkg "user.proto").
Proof. vm_compute. repeat split. Qed.
