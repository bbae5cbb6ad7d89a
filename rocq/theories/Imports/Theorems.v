From Coq Require Import String List Arith Bool.
From Verif.Imports Require Import Model Spec Proofs.
Import ListNotations.
Local Open Scope string_scope.

(** C30: the names declared by the imports of a generated file are distinct, and every package name written in the file is one of them
    and stands for the package meant. *)
Definition C30_statement : Prop := forall f cur refs al, well_formed (map rpkg refs) -> aliasMap f cur (pkgMap refs) = Some al ->
  NoDup (map fst (scope f (pkgMap refs) al)) /\
  forall r a, In r refs -> qualifier cur al r = Some a -> In (a, gpath (rpkg r)) (scope f (pkgMap refs) al).

(** C30: a name is chosen for every package. *)
Theorem C30_always_chosen : forall f cur pkgs, exists al, aliasMap f cur pkgs = Some al.
Proof. intros f cur pkgs. destruct (aliasMap f cur pkgs) eqn:E; [eauto|]. destruct (aliasMap_total f cur pkgs E). Qed.
Print Assumptions C30_always_chosen.

(** C30: no package is imported twice. *)
Theorem C30_imported_once : forall f cur pkgs al, well_formed pkgs -> aliasMap f cur pkgs = Some al -> NoDup (map snd (scope f pkgs al)).
Proof. intros f cur pkgs al WF RUN. exact (paths_once f cur pkgs al WF RUN). Qed.
Print Assumptions C30_imported_once.

(** C30, part: names are distinct if no package has a name the generator uses itself, at most two packages have the same name, and no
    name is another one followed by digits. Missing: other packages. *)
Theorem C30_names_are_distinct_partial : forall f cur pkgs al, well_formed pkgs -> aliasMap f cur pkgs = Some al ->
  (forall p n path, In p pkgs -> In (n, path) reserved -> gname p = n -> gpath p = path) ->
  (forall p q s, In p pkgs -> In q pkgs -> digits s -> gname p <> gname q ++ s) ->
  (forall p q r, In p pkgs -> In q pkgs -> In r pkgs -> gname p = gname q -> gname q = gname r ->
     gpath p = gpath q \/ gpath q = gpath r \/ gpath p = gpath r) ->
  NoDup (map fst (scope f pkgs al)).
Proof. intros f cur pkgs al WF RUN NR ND TWO. exact (names_once f cur pkgs al WF RUN NR ND TWO). Qed.
Print Assumptions C30_names_are_distinct_partial.

(** C30, part: a package's name in the text of a type stands for the package if its import path has only one proto file, or its name
    is unique. Missing: other packages, and names in other places. *)
Theorem C30_names_resolve_partial : forall f cur pkgs al, well_formed pkgs -> aliasMap f cur pkgs = Some al ->
  (forall p n path, In p pkgs -> In (n, path) reserved -> gname p = n -> gpath p = path) ->
  (forall p q, In p pkgs -> In q pkgs -> gpath p = gpath q -> p = q \/ (forall r, In r pkgs -> gname r = gname p -> gpath r = gpath p)) ->
  forall p, In p pkgs -> gpath p <> cur -> In (getAlias al p, gpath p) (scope f pkgs al).
Proof. intros f cur pkgs al WF RUN NR ONE p. exact (resolves f cur pkgs al WF RUN NR ONE p). Qed.
Print Assumptions C30_names_resolve_partial.

(** Together: C30 holds if names are unique, not used by the generator and without digits in common, and all packages occur in types. *)
Theorem C30_unique_names_partial : forall f cur refs al, well_formed (map rpkg refs) -> aliasMap f cur (pkgMap refs) = Some al ->
  (forall r n path, In r refs -> In (n, path) reserved -> gname (rpkg r) = n -> gpath (rpkg r) = path) ->
  (forall r t, In r refs -> In t refs -> gname (rpkg r) = gname (rpkg t) -> gpath (rpkg r) = gpath (rpkg t)) ->
  (forall r t s, In r refs -> In t refs -> digits s -> gname (rpkg r) <> gname (rpkg t) ++ s) ->
  (forall r, In r refs -> rkind r <> TypeRef -> gpath (rpkg r) <> cur /\ exists t, In t refs /\ rkind t = TypeRef /\ rpkg t = rpkg r) ->
  NoDup (map fst (scope f (pkgMap refs) al)) /\
  forall r a, In r refs -> qualifier cur al r = Some a -> In (a, gpath (rpkg r)) (scope f (pkgMap refs) al).
Proof.
  intros f cur refs al WF RUN NR UN ND TY.
  assert (SUB : forall p, In p (pkgMap refs) -> exists r, In r refs /\ rpkg r = p).
  { intros p I. apply in_pkgMap in I. destruct I as [r [I [_ E]]]. eauto. }
  assert (SUB' : forall p, In p (pkgMap refs) -> In p (map rpkg refs)).
  { intros p I. destruct (SUB p I) as [r [Ir <-]]. apply in_map. exact Ir. }
  assert (WF' : well_formed (pkgMap refs)).
  { destruct WF as [W1 W2 W3 W4 W5 W6]. constructor.
    - intros p q Ip Iq. apply W1; auto.
    - intros p q Ip Iq. apply W2; auto.
    - intros p Ip. apply W3; auto.
    - intros p Ip. apply W4; auto.
    - intros p i Ip. apply W5; auto.
    - intros p n Ip. apply W6; auto. }
  assert (NR' : forall p n path, In p (pkgMap refs) -> In (n, path) reserved -> gname p = n -> gpath p = path).
  { intros p n path I. destruct (SUB p I) as [r [Ir <-]]. apply NR. exact Ir. }
  assert (UN' : forall p q, In p (pkgMap refs) -> In q (pkgMap refs) -> gname p = gname q -> gpath p = gpath q).
  { intros p q I J. destruct (SUB p I) as [r [Ir <-]], (SUB q J) as [t [It <-]]. apply UN; assumption. }
  split.
  - apply (C30_names_are_distinct_partial f cur); auto. intros p q s I J. destruct (SUB p I) as [r [Ir <-]], (SUB q J) as [t [It <-]]. apply ND; assumption.
  - intros r a Ir Q.
    assert (K : In (rpkg r) (pkgMap refs) /\ gpath (rpkg r) <> cur /\ a = getAlias al (rpkg r)).
    { unfold qualifier in Q. destruct (rkind r) eqn:Ek.
      - destruct (String.eqb_spec (gpath (rpkg r)) cur); [discriminate|]. injection Q as <-. split; [apply in_pkgMap; eauto|auto].
      - destruct (TY r Ir) as [Nc [t [It [Kt Et]]]]; [congruence|]. destruct (String.eqb_spec (gpath (rpkg r)) cur); [discriminate|]. injection Q as <-.
        split; [apply in_pkgMap; eauto|auto].
      - destruct (TY r Ir) as [Nc [t [It [Kt Et]]]]; [congruence|]. injection Q as <-. split; [apply in_pkgMap; eauto|auto]. }
    destruct K as (I & Nc & ->). apply (C30_names_resolve_partial f cur); auto.
Qed.
Print Assumptions C30_unique_names_partial.

(** C30 is false in each of the other cases. *)
Definition services : flags := {| has_services := true; has_plugins := false; has_attrs := false |}.
Definition pkg (i : nat) (n p : string) : gopkg := {| gid := i; gname := n; gpath := p |}.
Definition types (l : list gopkg) : list ref := map (fun p => {| rkind := TypeRef; rpkg := p |}) l.
Ltac each H := cbn in H; repeat (destruct H as [H|H]; [|]); [..|destruct H].
Ltac wf := constructor; cbn;
  [ intros p q Hp Hq; each Hp; each Hq; subst p q; cbn; (reflexivity || discriminate)
  | intros p q Hp Hq; each Hp; each Hq; subst p q; cbn; (reflexivity || discriminate)
  | intros p Hp; each Hp; subst p; discriminate
  | intros p Hp; each Hp; subst p; reflexivity
  | intros p i Hp Hi; each Hp; subst p; each Hi; subst i; discriminate
  | intros p n Hp Hn; each Hp; subst p; vm_compute in Hn; each Hn; (discriminate Hn || (injection Hn as <-; reflexivity)) ].
Lemma dup_refutes refs : well_formed (map rpkg refs) ->
  option_map (fun al => nodupb (map fst (scope services (pkgMap refs) al))) (aliasMap services "example.com/me" (pkgMap refs)) = Some false ->
  ~ C30_statement.
Proof.
  intros WF E H. destruct (aliasMap services "example.com/me" (pkgMap refs)) as [al|] eqn:RUN; [|discriminate]. cbn [option_map] in E.
  destruct (H _ _ _ _ WF RUN) as [N _]. rewrite (proj2 (nodupb_iff _) N) in E. discriminate.
Qed.
(** the name written at [r], and the paths it may stand for *)
Definition meaning (refs : list ref) (r : ref) : option (string * list string) :=
  match aliasMap services "example.com/me" (pkgMap refs) with
  | None => None
  | Some al => match qualifier "example.com/me" al r with
               | None => None
               | Some a => Some (a, map snd (filter (fun np => fst np =? a) (scope services (pkgMap refs) al)))
               end
  end.
Lemma wrong_refutes refs r a ps : well_formed (map rpkg refs) -> In r refs -> meaning refs r = Some (a, ps) -> ~ In (gpath (rpkg r)) ps -> ~ C30_statement.
Proof.
  unfold meaning. intros WF Ir E N H. destruct (aliasMap services "example.com/me" (pkgMap refs)) as [al|] eqn:RUN; [|discriminate].
  destruct (H _ _ _ _ WF RUN) as [_ R]. destruct (qualifier "example.com/me" al r) as [b|] eqn:Q; [|discriminate]. remember (map snd _) as L eqn:EL in E. injection E as -> <-. subst L.
  apply N. specialize (R r a Ir Q). apply (in_map snd (filter _ _) (a, gpath (rpkg r))). apply filter_In. split; [exact R|]. cbn. apply String.eqb_refl.
Qed.

(** Three packages with the same name: the second and the third are both post1. *)
Theorem C30_three_packages_refuted : ~ C30_statement.
Proof. apply (dup_refutes (types [pkg 1 "post" "a/post"; pkg 2 "post" "b/post"; pkg 3 "post" "c/post"])); [wf|vm_compute; reflexivity]. Qed.
Print Assumptions C30_three_packages_refuted.
(** A package named like the name made up for another one. *)
Theorem C30_numbered_package_refuted : ~ C30_statement.
Proof. apply (dup_refutes (types [pkg 1 "post" "a/post"; pkg 2 "post" "b/post"; pkg 3 "post1" "c/post1"])); [wf|vm_compute; reflexivity]. Qed.
Print Assumptions C30_numbered_package_refuted.
(** A package named like one the generator imports. *)
Theorem C30_own_names_refuted : ~ C30_statement.
Proof. apply (dup_refutes (types [pkg 1 "trace" "example.com/trace"])); [wf|vm_compute; reflexivity]. Qed.
Print Assumptions C30_own_names_refuted.
(** Two packages of the same name, the second with two proto files: names from one of the files are looked up in the first package. *)
Theorem C30_two_files_refuted : ~ C30_statement.
Proof.
  apply (wrong_refutes (types [pkg 1 "post" "a/post"; pkg 2 "post" "b/post"; pkg 3 "post" "b/post"])
           {| rkind := TypeRef; rpkg := pkg 3 "post" "b/post" |} "post" ["a/post"]); [wf|cbn; auto|vm_compute; reflexivity|].
  cbn. intuition discriminate.
Qed.
Print Assumptions C30_two_files_refuted.
(** A service in a package of its own: the package is not imported. *)
Theorem C30_client_refuted : ~ C30_statement.
Proof.
  apply (wrong_refutes [{| rkind := CallRef; rpkg := pkg 1 "post" "a/post" |}] {| rkind := CallRef; rpkg := pkg 1 "post" "a/post" |} "post" []);
    [wf|cbn; auto|vm_compute; reflexivity|]. cbn. tauto.
Qed.
Print Assumptions C30_client_refuted.
(** A call to a service of the file's own package. *)
Theorem C30_own_service_refuted : ~ C30_statement.
Proof.
  apply (wrong_refutes [{| rkind := TypeRef; rpkg := pkg 1 "me" "example.com/me" |}; {| rkind := CallRef; rpkg := pkg 1 "me" "example.com/me" |}]
           {| rkind := CallRef; rpkg := pkg 1 "me" "example.com/me" |} "me" []);
    [wf|cbn; auto|vm_compute; reflexivity|]. cbn. tauto.
Qed.
Print Assumptions C30_own_service_refuted.

(** Not vacuous: two packages with the same name, one of them imported as post1, and a package the generator knows. *)
Definition sample : list gopkg :=
  [pkg 4 "post" "b/post"; pkg 3 "user" "a/user"; pkg 1 "post" "a/post"; pkg 2 "durationpb" "google.golang.org/protobuf/types/known/durationpb"].
Example C30_sample :
  well_formed sample /\
  option_map (fun al => (imports al, map (getAlias al) sample)) (aliasMap services "example.com/me" sample)
  = Some ([{| ipath := "a/post"; ialias := "post" |}; {| ipath := "a/user"; ialias := "user" |}; {| ipath := "b/post"; ialias := "post1" |}],
          ["post1"; "user"; "post"; "durationpb"]).
Proof. split; [wf|vm_compute; reflexivity]. Qed.
Lemma digit_suffix_ends s t : digits t -> ends_in_digit (s ++ t) = true.
Proof. apply ends_in_digit_app. Qed.
Example C30_sample_hypotheses :
  (forall p n path, In p sample -> In (n, path) reserved -> gname p = n -> gpath p = path) /\
  (forall p q s, In p sample -> In q sample -> digits s -> gname p <> gname q ++ s) /\
  (forall p q r, In p sample -> In q sample -> In r sample -> gname p = gname q -> gname q = gname r ->
     gpath p = gpath q \/ gpath q = gpath r \/ gpath p = gpath r) /\
  (forall p q, In p sample -> In q sample -> gpath p = gpath q -> p = q \/ (forall r, In r sample -> gname r = gname p -> gpath r = gpath p)).
Proof.
  split; [|split; [|split]].
  - intros p n path Hp Hn E. each Hp; subst p; subst n; vm_compute in Hn; each Hn; (discriminate Hn || (injection Hn as <-; reflexivity)).
  - intros p q s Hp Hq Ds E. assert (X : ends_in_digit (gname p) = true) by (rewrite E; apply digit_suffix_ends; exact Ds).
    each Hp; subst p; vm_compute in X; discriminate.
  - intros p q r Hp Hq Hr E1 E2. each Hp; each Hq; each Hr; subst p q r; cbn in *; try discriminate; auto.
  - intros p q Hp Hq E. each Hp; each Hq; subst p q; cbn in *; try discriminate; auto.
Qed.
