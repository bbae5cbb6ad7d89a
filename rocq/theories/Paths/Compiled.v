(** * The name under which a file is compiled (C65) *)

From Coq Require Import Ascii String List Bool Arith Lia.
From Verif.Base Require Import Text TextProofs.
From Verif.Paths Require Import Model Spec Proofs.
Import ListNotations.
Local Open Scope string_scope.

(** ** Specification *)

(** In the working directory [cwd], the path [s] leads to [place]. *)
Definition at_place (cwd : list string) (s : string) (place : list string) : Prop :=
  (absolute s /\ walk [] s = place) \/ (~ absolute s /\ walk cwd s = place).

(** The absolute path of a place. *)
Definition absolute_path (place : list string) : string := "/" ++ written place.

(** A working directory: one that some absolute path leads to. *)
Definition directory (cwd : list string) : Prop := exists s, absolute s /\ walk [] s = cwd.

(** A proto file below an import path is compiled under the name by which other files import it:
    its path below one of the import paths. *)
Definition C65_statement : Prop := forall cwd imports path i root rest, directory cwd ->
  In i imports -> at_place cwd i root -> at_place cwd path (root ++ rest) -> rest <> [] ->
  exists r j root' rest', RelativePathFromImportPaths (absolute_path cwd) imports path = Some r /\
    In j imports /\ at_place cwd j root' /\ (root ++ rest = root' ++ rest')%list /\ r = written rest'.

(** ** Proofs *)

Lemma walk_app : forall d a b, walk d (a ++ "/" ++ b) = walk (walk d a) b.
Proof. intros d a b. unfold walk. change (a ++ "/" ++ b) with (a ++ String "/"%char b). rewrite split_app_gen, fold_left_app. reflexivity. Qed.

Lemma proper_root : forall s p, absolute s -> walk [] s = p -> Forall proper p.
Proof. intros s p A W. destruct (leads_elems true s p (conj A W)) as [_ [_ P]]. exact P. Qed.

Lemma walk_join : forall d ns, Forall proper ns -> walk d (join "/" ns) = (d ++ ns)%list.
Proof.
  intros d ns F. destruct ns as [ | n ns]; [cbn; rewrite app_nil_r; reflexivity | ].
  unfold walk. change "/"%char with slash. rewrite split_join; [ | discriminate | apply proper_no_slash; exact F].
  set (l := n :: ns) in *. clearbody l. clear n ns. revert d. induction l as [ | n l IH]; intros d; [cbn; rewrite app_nil_r; reflexivity | ].
  inversion F as [ | ? ? [A [B [C _]]] F']; subst. cbn [fold_left]. rewrite IH by exact F'. unfold go.
  apply String.eqb_neq in A. apply String.eqb_neq in B. apply String.eqb_neq in C. rewrite A, B, C. cbn. rewrite <- app_assoc. reflexivity.
Qed.

Lemma absolute_leads : forall p, Forall proper p -> leads true (absolute_path p) p.
Proof.
  intros p F. split; [eexists; reflexivity | ]. unfold absolute_path, written. change (String.concat "/") with (join "/").
  change ("/" ++ join "/" p) with ("" ++ "/" ++ join "/" p). rewrite walk_app, walk_join by exact F. reflexivity.
Qed.

Lemma Clean_root : forall s p, is_abs s = true -> walk [] s = p -> Clean s = absolute_path p.
Proof. intros s p A W. unfold Clean. rewrite A, (elems_root s A), W. unfold absolute_path, written. change (String.concat "/") with (join "/"). reflexivity. Qed.

Lemma made_abs_spec : forall cwd s p, directory cwd -> at_place cwd s p -> (absolute s -> s = absolute_path p) ->
  made_abs (absolute_path cwd) s = absolute_path p /\ Forall proper p.
Proof.
  intros cwd s p [z [Az Wz]] [[A W] | [A W]] H.
  - unfold made_abs. rewrite (proj2 (is_abs_spec s) A). split; [exact (H A) | exact (proper_root s p A W)].
  - unfold made_abs, Abs. rewrite (proj2 (is_abs_not s) A).
    pose proof (proper_root z cwd Az Wz) as Pc. destruct (absolute_leads cwd Pc) as [Ac Wc]. apply is_abs_spec in Ac.
    unfold Join. cbn [filter]. replace (String.eqb (absolute_path cwd) "") with false by reflexivity. cbn [negb].
    destruct (String.eqb s "") eqn:S.
    + apply String.eqb_eq in S. subst s. cbn [negb join]. cbn in W. subst p. split; [ | exact Pc]. apply Clean_root; assumption.
    + cbn [negb join].
      assert (X : walk [] (absolute_path cwd ++ "/" ++ s) = p) by (rewrite walk_app, Wc; exact W).
      assert (Y : is_abs (absolute_path cwd ++ "/" ++ s) = true) by reflexivity.
      split; [apply Clean_root; assumption | ]. apply (proper_root _ _ (proj1 (is_abs_spec _) Y) X).
Qed.

Lemma join_app : forall a b, a <> [] -> b <> [] -> join "/" (a ++ b)%list = join "/" a ++ "/" ++ join "/" b.
Proof.
  induction a as [ | x [ | y a] IH]; intros b N M; [congruence | destruct b; [congruence | reflexivity] | ].
  specialize (IH b ltac:(discriminate) M). cbn [app] in *. cbn [join] in *. rewrite IH, !app_assoc_s. reflexivity.
Qed.

Lemma absolute_prefix : forall root rest, rest <> [] -> HasPrefix (absolute_path (root ++ rest)) (absolute_path root) = true.
Proof.
  intros root rest N. apply HasPrefix_spec. unfold absolute_path, written. change (String.concat "/") with (join "/"). destruct root as [ | x root].
  - exists (join "/" rest). reflexivity.
  - rewrite join_app by (assumption || discriminate). eexists. rewrite app_assoc_s. reflexivity.
Qed.

(** ** Theorems *)

(** It holds if absolute paths are spelled without "." and "..", and no import path before the first one the file is in
    is a prefix of the path of the file as text. *)
Theorem C65_partial : forall cwd pre i post path root rest, directory cwd ->
  at_place cwd i root -> at_place cwd path (root ++ rest) -> rest <> [] ->
  (absolute i -> i = absolute_path root) -> (absolute path -> path = absolute_path (root ++ rest)) ->
  (forall j, In j pre -> exists p, at_place cwd j p /\ (absolute j -> j = absolute_path p) /\
     forall t, absolute_path (root ++ rest) <> absolute_path p ++ t) ->
  RelativePathFromImportPaths (absolute_path cwd) (pre ++ i :: post) path = Some (written rest).
Proof.
  intros cwd pre i post path root rest D Pi Pp N Ci Cp H. unfold RelativePathFromImportPaths.
  replace (match (pre ++ i :: post)%list with [] => Some path | _ :: _ => _ end) with
    (match first_import (map (made_abs (absolute_path cwd)) (pre ++ i :: post)) (made_abs (absolute_path cwd) path) with Some r => r | None => Some path end)
    by (destruct pre; reflexivity).
  destruct (made_abs_spec _ _ _ D Pp Cp) as [Ep Fp]. destruct (made_abs_spec _ _ _ D Pi Ci) as [Ei Fi]. rewrite Ep.
  assert (X : first_import (map (made_abs (absolute_path cwd)) (pre ++ i :: post)) (absolute_path (root ++ rest)) = Some (Some (written rest))).
  { clear Pp Cp Ep. revert H. induction pre as [ | j pre IH]; intros H; cbn [app map first_import].
    - rewrite Ei, absolute_prefix by exact N. f_equal.
      rewrite (Rel_below true _ _ root rest (absolute_leads root Fi) (absolute_leads _ Fp) N). reflexivity.
    - destruct (H j (or_introl eq_refl)) as [p [Pj [Cj T]]]. destruct (made_abs_spec _ _ _ D Pj Cj) as [Ej _]. rewrite Ej.
      destruct (HasPrefix (absolute_path (root ++ rest)) (absolute_path p)) eqn:E.
      + exfalso. apply HasPrefix_spec in E. destruct E as [t E]. exact (T t E).
      + apply IH. intros k K. apply H. right. exact K. }
  rewrite X. reflexivity.
Qed.
Print Assumptions C65_partial.

(** A file outside the import paths is compiled under the path that was given. *)
Theorem C65_outside : forall cwd imports path place, directory cwd -> at_place cwd path place -> (absolute path -> path = absolute_path place) ->
  (forall j, In j imports -> exists p, at_place cwd j p /\ (absolute j -> j = absolute_path p) /\
     forall t, absolute_path place <> absolute_path p ++ t) ->
  RelativePathFromImportPaths (absolute_path cwd) imports path = Some path.
Proof.
  intros cwd imports path place D P C H. unfold RelativePathFromImportPaths. destruct (made_abs_spec _ _ _ D P C) as [E _]. rewrite E.
  assert (X : first_import (map (made_abs (absolute_path cwd)) imports) (absolute_path place) = None).
  { induction imports as [ | j l IH]; [reflexivity | ]. cbn [map first_import].
    destruct (H j (or_introl eq_refl)) as [p [Pj [Cj T]]]. destruct (made_abs_spec _ _ _ D Pj Cj) as [Ej _]. rewrite Ej.
    destruct (HasPrefix (absolute_path place) (absolute_path p)) eqn:Q.
    - exfalso. apply HasPrefix_spec in Q. destruct Q as [t Q]. exact (T t Q).
    - apply IH. intros k K. apply H. right. exact K. }
  rewrite X. destruct imports; reflexivity.
Qed.
Print Assumptions C65_outside.

(** Two import paths side by side, the name of one a prefix of the name of the other. *)
Theorem C65_refuted : ~ C65_statement.
Proof.
  intros H.
  destruct (H ["w"] ["proto"; "proto2"] "proto2/a.proto" "proto2" ["w"; "proto2"] ["a.proto"]) as [r [j [root [rest [E [J [P [X Y]]]]]]]].
  - exists "/w". split; [exists "w"; reflexivity | reflexivity].
  - right. left. reflexivity.
  - right. split; [apply is_abs_not; reflexivity | reflexivity].
  - right. split; [apply is_abs_not; reflexivity | reflexivity].
  - discriminate.
  - vm_compute in E. injection E as E. subst r.
    assert (W : root = ["w"; "proto"] \/ root = ["w"; "proto2"]).
    { destruct J as [<- | [<- | []]]; destruct P as [[A _] | [_ P]]; try (apply is_abs_spec in A; discriminate A); rewrite <- P; [left | right]; reflexivity. }
    destruct W as [-> | ->]; cbn in X.
    + discriminate X.
    + injection X as X. rewrite <- X in Y. discriminate Y.
Qed.
Print Assumptions C65_refuted.

Example C65_example :
  RelativePathFromImportPaths "/w" ["proto"; "proto2"] "proto2/a.proto" = Some "../proto2/a.proto" /\
  RelativePathFromImportPaths "/w" ["proto2"; "proto"] "proto2/a.proto" = Some "a.proto" /\
  RelativePathFromImportPaths "/w" ["lib"; "./proto/"] "proto/x/a.proto" = Some "x/a.proto" /\
  (* an absolute import path that is not cleaned is not found *)
  RelativePathFromImportPaths "/w" ["/w/lib/../proto"] "proto/x/a.proto" = Some "proto/x/a.proto".
Proof. vm_compute. repeat split. Qed.

(** The hypotheses of the partial theorem are met. *)
Example C65_partial_example :
  RelativePathFromImportPaths (absolute_path ["w"]) ["lib"; "./proto/"] "proto/x/a.proto" = Some (written ["x"; "a.proto"]).
Proof.
  apply (C65_partial ["w"] ["lib"] "./proto/" [] "proto/x/a.proto" ["w"; "proto"] ["x"; "a.proto"]).
  - exists "/w". split; [exists "w"; reflexivity | reflexivity].
  - right. split; [apply is_abs_not; reflexivity | reflexivity].
  - right. split; [apply is_abs_not; reflexivity | reflexivity].
  - discriminate.
  - intros A. apply is_abs_spec in A. discriminate A.
  - intros A. apply is_abs_spec in A. discriminate A.
  - intros j [<- | []]. exists ["w"; "lib"]. split; [right; split; [apply is_abs_not; reflexivity | reflexivity] | split].
    + intros A. apply is_abs_spec in A. discriminate A.
    + intros t E. cbn in E. discriminate E.
Qed.
