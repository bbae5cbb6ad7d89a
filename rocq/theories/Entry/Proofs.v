From Coq Require Import String List Bool ZArith Permutation.
From Verif.Args Require Import Model.
From Verif.Entry Require Import Model Spec.
Import ListNotations.
Local Open Scope string_scope.

Lemma kind_same_iff : forall a b, kind_same a b = true <-> a = b.
Proof.
  intros [n| |n| |n] [k| |k| |k]; cbn; try rewrite Nat.eqb_eq; split; intros H; try reflexivity; try discriminate H; try congruence.
Qed.
Lemma type_same_iff : forall a b, type_same a b = true <-> same_type a b.
Proof. intros. unfold type_same, same_type. rewrite andb_true_iff, kind_same_iff, eqb_true_iff. reflexivity. Qed.
Lemma assignable_iff : forall args f, assignable args f = true <-> has_field args f.
Proof.
  intros args f. unfold assignable, has_field. rewrite existsb_exists. split.
  - intros [[n t] [I H]]. apply andb_true_iff in H. destruct H as [A B]. cbn in *. apply String.eqb_eq in A. subst n. exists t. split; [exact I | apply type_same_iff, B].
  - intros [t [I H]]. exists (fst f, t). split; [exact I|]. cbn. rewrite String.eqb_refl. apply type_same_iff, H.
Qed.

Lemma federation_resolves : forall m, resolves m (federation_response m).
Proof.
  intros m. unfold resolves, federation_response. destruct (m_rule m) as [[t [c|]]|].
  - left. exists {| r_timeout := t; r_response := Some c |}. auto.
  - right. split; [intros r E; injection E as <-; reflexivity | reflexivity].
  - right. split; [intros r E; discriminate E | reflexivity].
Qed.
Lemma resolves_fun : forall m a b, resolves m a -> resolves m b -> a = b.
Proof.
  intros m a b [[r [A B]]|[A B]] [[r' [A' B']]|[A' B']].
  - congruence.
  - rewrite (A' _ A) in B. discriminate B.
  - rewrite (A _ A') in B'. discriminate B'.
  - congruence.
Qed.
Lemma federation_is : forall m res, resolves m res <-> federation_response m = res.
Proof. intros. split; [intros H; eapply resolves_fun; [apply federation_resolves | exact H] | intros <-; apply federation_resolves]. Qed.
Lemma limited_iff : forall m d, limited m d <-> timeout m = Some d.
Proof.
  intros m d. unfold limited, timeout. destruct (m_rule m) as [r|]; split; intros H.
  - destruct H as [r' [E T]]. injection E as <-. exact T.
  - eauto.
  - destruct H as [r' [E T]]. discriminate E.
  - discriminate H.
Qed.
Lemma replaced_iff : forall m, replaced m <-> exists c, custom m = Some c.
Proof.
  intros m. unfold replaced, custom. destruct (m_rule m) as [r|]; split.
  - intros [r' [c [E T]]]. injection E as <-. eauto.
  - intros [c E]. eauto.
  - intros [r' [c [E T]]]. discriminate E.
  - intros [c E]. discriminate E.
Qed.
Lemma custom_federation : forall m c, custom m = Some c -> federation_response m = c.
Proof. intros m c. unfold custom, federation_response. destruct (m_rule m) as [[t [x|]]|]; cbn; congruence. Qed.
Lemma plain_federation : forall m, custom m = None -> federation_response m = response m.
Proof. intros m. unfold custom, federation_response. destruct (m_rule m) as [[t [x|]]|]; cbn; congruence. Qed.

(** * Arguments *)
Lemma lookup_request_some : forall order res q, lookup_request order res = Some q -> exists m, In m order /\ resolves m res /\ request m = q.
Proof.
  intros order res q H. unfold lookup_request in H. destruct (find _ order) as [m|] eqn:E; [|discriminate H]. injection H as <-.
  apply find_some in E. destruct E as [I E]. apply Nat.eqb_eq in E. exists m. split; [exact I|]. split; [apply federation_is, E | reflexivity].
Qed.
Lemma lookup_request_found : forall order m, In m order -> exists q, lookup_request order (federation_response m) = Some q.
Proof.
  intros order m I. unfold lookup_request. destruct (find _ order) as [x|] eqn:E; [eexists; reflexivity|].
  exfalso. apply (find_none _ _ E) in I. rewrite Nat.eqb_refl in I. discriminate I.
Qed.
Lemma lookup_request_agreed : forall order m, In m order ->
  (forall m' res, In m' order -> resolves m res -> resolves m' res -> request m' = request m) -> lookup_request order (federation_response m) = Some (request m).
Proof.
  intros order m I A. destruct (lookup_request_found order m I) as [q E]. rewrite E. destruct (lookup_request_some _ _ _ E) as [m' [I' [R <-]]].
  f_equal. eapply A; [exact I' | apply federation_resolves | exact R].
Qed.

Section Server.
  Variable F : nat -> list field.
  Variable inner : nat -> option (list field).

  Lemma compiles_iff : forall order m, compiles F inner order m = true <->
    (forall f, In f (F (request m)) -> has_field (arg_fields F inner order (federation_response m)) f) /\ returned m = response m.
  Proof.
    intros order m. unfold compiles. rewrite andb_true_iff, forallb_forall, Nat.eqb_eq. split.
    - intros [A B]. split; [|exact B]. intros f I. apply assignable_iff, A, I.
    - intros [A B]. split; [|exact B]. intros f I. apply assignable_iff, A, I.
  Qed.
  Lemma returned_iff : forall m, returned m = response m <-> (forall d res, limited m d -> resolves m res -> res = response m).
  Proof.
    intros m. unfold returned. destruct (timeout m) as [d|] eqn:T.
    - split; [intros E d' res _ R; apply federation_is in R; congruence | intros H; apply (H d); [apply limited_iff, T | apply federation_resolves]].
    - split; [intros _ d res L; apply limited_iff in L; congruence | reflexivity].
  Qed.
  Lemma literal_own : forall V (zero : type -> V) order m req, arg_fields F inner order (federation_response m) = F (request m) ->
    literal F inner V zero order m req = own_fields (F (request m)) req.
  Proof.
    intros V zero order m req E. unfold literal, own_fields. rewrite E. apply map_ext_in. intros a I.
    replace (existsb (fun f => fst f =? fst a) (F (request m))) with true; [reflexivity|]. symmetry. apply existsb_exists. exists a. split; [exact I | apply String.eqb_refl].
  Qed.
  Lemma serve_answers : forall V R E (zero : type -> V) resolve cast timed order m req, (forall d, limited m d -> ~ replaced m) ->
    answers V R E resolve cast timed m (literal F inner V zero order m req) (serve F inner V R E zero resolve cast timed order m req).
  Proof.
    intros V R E zero resolve cast timed order m req X. unfold serve. set (args := literal F inner V zero order m req). clearbody args.
    assert (Fin : forall r, outcome V R E resolve cast timed m args r -> answers V R E resolve cast timed m args (finish R E r)).
    { intros [v|e] O; cbn; constructor; exact O. }
    destruct (timeout m) as [d|] eqn:T.
    - assert (L : limited m d) by (apply limited_iff, T). specialize (X d L). apply Fin.
      replace (federation_response m) with (response m).
      + apply outcome_limited; assumption.
      + symmetry. apply plain_federation. destruct (custom m) as [c|] eqn:C; [|reflexivity]. exfalso. apply X. apply replaced_iff. eauto.
    - assert (L : forall d, ~ limited m d) by (intros d L; apply limited_iff in L; congruence). destruct (custom m) as [c|] eqn:C.
      + assert (P : replaced m) by (apply replaced_iff; eauto). pose proof (custom_federation _ _ C) as Ec. pose proof (federation_resolves m) as Rm. rewrite Ec in *.
        destruct (resolve c args) as [v|e] eqn:Q; apply Fin; [eapply outcome_cast | eapply outcome_failed]; eassumption.
      + rewrite (plain_federation _ C). apply Fin, outcome_plain; [exact L|]. intros P. apply replaced_iff in P. destruct P as [c P]. congruence.
  Qed.
End Server.

(** * Rules *)
Lemma is_different_like : forall t t', ty_null t = false -> (is_different t t' = false <-> like t t').
Proof.
  intros [k r n] [k' r' n'] N. cbn in N. subst n. unfold is_different, like, is_number. cbn [ty_kind ty_null ty_repeated andb].
  destruct k, k'; cbn; split; intros H; try reflexivity; try discriminate H.
  all: try (left; do 2 eexists; split; reflexivity).
  all: try (right; left; split; [reflexivity | eexists; reflexivity]).
  all: try (right; right; left; do 2 eexists; split; reflexivity).
  all: try (right; right; right; reflexivity).
  all: try (destruct H as [[x [y [A B]]]|[[A [y B]]|[[x [y [A B]]]|A]]]; discriminate).
  - right. right. right. apply negb_false_iff, Nat.eqb_eq in H. congruence.
  - destruct H as [[x [y [A B]]]|[[A [y B]]|[[x [y [A B]]]|A]]]; try discriminate. injection A as ->. rewrite Nat.eqb_refl. reflexivity.
Qed.
Lemma field_of_In : forall fs n t, NoDup (map fst fs) -> (field_of fs n = Some t <-> In (n, t) fs).
Proof.
  intros fs n t ND. unfold field_of. split.
  - destruct (find _ fs) as [[k u]|] eqn:E; [|discriminate]. cbn. intros H. injection H as <-. apply find_some in E. destruct E as [I E]. cbn in E.
    apply String.eqb_eq in E. subst k. exact I.
  - induction fs as [|[k u] fs IH]; intros I; [destruct I|]. cbn. inversion ND as [|? ? NI ND']; subst. destruct (String.eqb_spec k n) as [->|Ne].
    + destruct I as [I|I]; [injection I as <-; reflexivity|]. elim NI. apply in_map_iff. exists (n, t). auto.
    + destruct I as [I|I]; [injection I as <- <-; congruence|]. apply (IH ND' I).
Qed.
Lemma lacking_nil : forall alias org, NoDup (map fst alias) -> (forall f, In f alias -> ty_null (snd f) = false) ->
  (lacking alias org = [] <-> forall f, In f org -> exists t, In (fst f, t) alias /\ like t (snd f)).
Proof.
  intros alias org ND NN. unfold lacking. split.
  - intros H f I. assert (C : (match field_of alias (fst f) with None => true | Some t => is_different t (snd f) end) = false).
    { destruct (match field_of alias (fst f) with None => true | Some t => is_different t (snd f) end) eqn:C; [|reflexivity]. exfalso.
      apply map_eq_nil in H. assert (J : In f (filter (fun f => match field_of alias (fst f) with None => true | Some t => is_different t (snd f) end) org)) by (apply filter_In; auto).
      rewrite H in J. destruct J. }
    destruct (field_of alias (fst f)) as [t|] eqn:E; [|discriminate C]. apply (field_of_In _ _ _ ND) in E. exists t. split; [exact E|].
    apply is_different_like; [apply (NN _ E) | exact C].
  - intros H. induction org as [|f org IH]; [reflexivity|]. cbn [filter]. destruct (H f (or_introl eq_refl)) as [t [I L]].
    rewrite (proj2 (field_of_In _ _ _ ND) I). apply is_different_like in L; [|apply (NN _ I)]. rewrite L. apply IH. intros g J. apply H. right. exact J.
Qed.
Lemma rule_exact : forall parse by_name F res d, proper F -> (snd (resolve_rule parse by_name F res (Some d)) = [] <-> good_rule parse by_name F res d).
Proof.
  intros parse by_name F res d P. unfold resolve_rule, good_rule. destruct (String.eqb_spec (d_timeout d) "") as [T|T], (String.eqb_spec (d_response d) "") as [Q|Q].
  - cbn. split; [intros _; split; left; assumption | reflexivity].
  - destruct (by_name (d_response d)) as [m|] eqn:B; cbn.
    + destruct (P m) as [ND NN]. pose proof (lacking_nil (F m) (F res) ND NN) as L. destruct (lacking (F m) (F res)) as [|x l] eqn:E.
      * split; [|reflexivity]. intros _. split; [left; exact T|]. right. exists m. split; [reflexivity|]. apply L. reflexivity.
      * split; [intros H; discriminate H|]. intros [_ [H|[m' [H K]]]]; [contradiction|]. injection H as <-. apply L in K. discriminate K.
    + split; [intros H; discriminate H|]. intros [_ [H|[m' [H K]]]]; [contradiction | discriminate H].
  - destruct (parse (d_timeout d)) as [z|] eqn:Z; cbn.
    + split; [|reflexivity]. intros _. split; [right; eauto | left; exact Q].
    + split; [intros H; discriminate H|]. intros [[H|[z' H]] _]; [contradiction | discriminate H].
  - destruct (parse (d_timeout d)) as [z|] eqn:Z; destruct (by_name (d_response d)) as [m|] eqn:B; cbn.
    + destruct (P m) as [ND NN]. pose proof (lacking_nil (F m) (F res) ND NN) as L. destruct (lacking (F m) (F res)) as [|x l] eqn:E.
      * split; [|reflexivity]. intros _. split; [right; eauto|]. right. exists m. split; [reflexivity|]. apply L. reflexivity.
      * split; [intros H; discriminate H|]. intros [_ [H|[m' [H K]]]]; [contradiction|]. injection H as <-. apply L in K. discriminate K.
    + split; [intros H; discriminate H|]. intros [_ [H|[m' [H K]]]]; [contradiction | discriminate H].
    + split; [intros H; discriminate H|]. intros [[H|[z' H]] _]; [contradiction | discriminate H].
    + split; [intros H; discriminate H|]. intros [[H|[z' H]] _]; [contradiction | discriminate H].
Qed.
