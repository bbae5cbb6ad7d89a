(** C86: the messages that describe variables to expressions. *)
From Coq Require Import Ascii String List Bool Arith Lia.
From Verif.Descr Require Import Model Spec Proofs.
Import ListNotations.
Local Open Scope string_scope.

(** The full statement: the environment variables of a service with valid and different names make a message that protobuf accepts. *)
Definition C86_statement : Prop := forall private service vars, (forall v, In v vars -> valid_name (fst v)) -> NoDup (map fst vars) ->
  valid (private ++ "." ++ service ++ "Env") (env_message private service vars).

(** When it is: exactly if each variable that is a map has single keys and values and a name that is one word in lower case but for its first
    letter, and no two of them get the same name for their entries. *)
Theorem C86_env_exact : forall private service vars, (forall v, In v vars -> valid_name (fst v)) -> NoDup (map fst vars) ->
  (valid (private ++ "." ++ service ++ "Env") (env_message private service vars) <->
   (forall n t k v, In (n, t) vars -> is_map t k v -> (exists a, k = EKind a) /\ (exists b, v = EKind b) /\ one_word n) /\
   (forall n n' t t' k v k' v' s, In (n, t) vars -> In (n', t') vars -> is_map t k v -> is_map t' k' v' -> implicit_name n s -> implicit_name n' s -> n = n')).
Proof.
  intros p svc vars V ND. unfold env_message. rewrite describe_valid; [|apply env_outside]. set (fs := map (fun v => env_var p (fst v) (snd v)) vars).
  assert (NF : NoDup (map fst fs)) by (unfold fs; rewrite env_names; exact ND). rewrite (distinct_labels fs NF). split.
  - intros [_ [D R]]. assert (W : forall n t k v, In (n, t) vars -> is_map t k v -> (exists a, k = EKind a) /\ (exists b, v = EKind b) /\ one_word n).
    { intros n t k v I M. assert (J : In (n, Map (title n ++ "Entry") (p ++ "." ++ title n ++ "Entry") (resolve_env_type k false) (resolve_env_type v false)) fs)
        by (apply env_In; exists t, k, v; auto 8).
      specialize (R _ J). unfold right_map in R. cbn [fst snd] in R. destruct R as [Sk [Sv P]]. split; [apply resolve_single, Sk|]. split; [apply resolve_single, Sv|].
      apply env_name_right; [apply (V _ I) | exact P]. }
    split; [exact W|]. intros n n' t t' k v k' v' s I I' M M' P P'.
    assert (J : In (n, Map (title n ++ "Entry") (p ++ "." ++ title n ++ "Entry") (resolve_env_type k false) (resolve_env_type v false)) fs)
      by (apply env_In; exists t, k, v; auto 8).
    assert (J' : In (n', Map (title n' ++ "Entry") (p ++ "." ++ title n' ++ "Entry") (resolve_env_type k' false) (resolve_env_type v' false)) fs)
      by (apply env_In; exists t', k', v'; auto 8).
    assert (T : forall x u a b, In (x, u) vars -> is_map u a b -> implicit_name x s -> title x ++ "Entry" = s).
    { intros x u a b Ix Mx Px. destruct (W x u a b Ix Mx) as [_ [_ O]]. apply env_name_right in O; [|apply (V _ Ix)]. destruct O as [O|O]; [elim (title_nonempty _ O)|].
      apply entry_name in O. apply entry_name in Px. congruence. }
    assert (Q : (n, Map (title n ++ "Entry") (p ++ "." ++ title n ++ "Entry") (resolve_env_type k false) (resolve_env_type v false)) =
                (n', Map (title n' ++ "Entry") (p ++ "." ++ title n' ++ "Entry") (resolve_env_type k' false) (resolve_env_type v' false))).
    { apply (D _ _ s J J').
      - rewrite <- (T n t k v I M P). constructor. apply title_nonempty.
      - rewrite <- (T n' t' k' v' I' M' P'). constructor. apply title_nonempty. }
    injection Q as Q _. exact Q.
  - intros [W U]. split; [exact NF|]. split.
    + intros f f' s J J' L L'. destruct (labelled_map _ _ L) as [n [m [q [a [b ->]]]]], (labelled_map _ _ L') as [n' [m' [q' [a' [b' ->]]]]].
      pose proof (proj1 (env_In _ _ _ _ _ _ _) J) as [t [k [v [I [M [-> [-> [-> ->]]]]]]]]. pose proof (proj1 (env_In _ _ _ _ _ _ _) J') as [t' [k' [v' [I' [M' [-> [-> [-> ->]]]]]]]].
      apply labelled_iff in L. apply labelled_iff in L'. cbn in L, L'.
      assert (T : forall x u c d, In (x, u) vars -> is_map u c d -> implicit_name x (title x ++ "Entry")).
      { intros x u c d Ix Mx. destruct (W x u c d Ix Mx) as [_ [_ O]]. apply env_name_right in O; [|apply (V _ Ix)]. destruct O as [O|O]; [elim (title_nonempty _ O) | exact O]. }
      destruct (String.eqb_spec (title n ++ "Entry") "") as [Z|_]; [elim (title_nonempty _ Z)|]. destruct (String.eqb_spec (title n' ++ "Entry") "") as [Z|_]; [elim (title_nonempty _ Z)|].
      assert (E : n = n').
      { apply (U n n' t t' k v k' v' s I I' M M'); [rewrite L; apply (T n t k v I M) | rewrite L'; apply (T n' t' k' v' I' M')]. }
      subst n'. apply (NoDup_map_inj _ _ fst fs NF); [exact J | exact J' | reflexivity].
    + intros [n u] J. unfold right_map. cbn [fst snd]. destruct u as [? ?|? ?|m q a b]; try exact Logic.I. apply env_In in J. destruct J as [t [k [v [I [M [-> [_ [-> ->]]]]]]]].
      destruct (W n t k v I M) as [A [B O]]. split; [apply resolve_single, A|]. split; [apply resolve_single, B|]. apply env_name_right; [apply (V _ I) | exact O].
Qed.
Print Assumptions C86_env_exact.

(** For any message whose fields have types from outside of it: exactly if its fields have different names, its maps have single keys and values, no name or the
    right one, and no two of them the same. *)
Theorem C86_message_exact : forall fq name fs, outside fq fs ->
  (valid fq (describe fq name fs) <-> NoDup (map fst fs) /\ distinct_maps fs /\
   forall n m q k v, In (n, Map m q k v) fs -> single k /\ single v /\ (m = "" \/ implicit_name n m)).
Proof.
  intros fq name fs O. rewrite (describe_valid fq name fs O). split.
  - intros [A [B C]]. split; [exact A|]. split; [apply (distinct_labels fs A), B|]. intros n m q k v I. apply (C _ I).
  - intros [A [B C]]. split; [exact A|]. split; [apply (distinct_labels fs A), B|]. intros [n [? ?|? ?|m q k v]] I; try exact Logic.I. apply (C _ _ _ _ _ I).
Qed.
Print Assumptions C86_message_exact.

(** The descriptor has the fields of the message, in the same order and numbered from 1. *)
Theorem C86_fields : forall fq name fs, exists ds nested, describe fq name fs = MD name false ds nested /\ List.length ds = List.length fs /\
  forall i n t, nth_error fs i = Some (n, t) -> exists d, nth_error ds i = Some d /\ f_number d = S i /\ field_for fq nested n t d.
Proof.
  intros fq name fs. unfold describe. eexists. eexists. split; [reflexivity|]. split.
  - rewrite <- (map_length f_name), fields_names, map_length. reflexivity.
  - intros i n t E. exists (field_desc fq i n t (entry_of n t)). split; [apply (nth_fields fq fs 0), E|]. split; [cbn; lia|].
    apply field_described. intros e H. apply nested_In. exists n, t. split; [apply (nth_error_In _ _ E) | exact H].
Qed.
Print Assumptions C86_fields.

(** The name computed for the entry of a map is the one protobuf asks for. *)
Theorem C86_entry_name : forall s n, implicit_name s n <-> n = to_map_entry_name s.
Proof. exact entry_name. Qed.
Print Assumptions C86_entry_name.
(** That of an environment variable is the right one exactly for names of one word. *)
Theorem C86_env_name : forall n, valid_name n -> (implicit_name n (title n ++ "Entry") <-> one_word n).
Proof. intros n V. rewrite <- (env_name_right n V). split; [auto | intros [H|H]; [elim (title_nonempty _ H) | exact H]]. Qed.
Print Assumptions C86_env_name.

(** The message of the environment variables has a field for each, of the type that is written in the option. *)
Theorem C86_env_fields : forall private service vars, exists ds nested, env_message private service vars = MD (service ++ "Env") false ds nested /\
  List.length ds = List.length vars /\
  forall i n t, nth_error vars i = Some (n, t) -> exists d u, nth_error ds i = Some d /\ f_number d = S i /\ env_shape false t u /\
    field_for (private ++ "." ++ service ++ "Env") nested n u d.
Proof.
  intros p svc vars. destruct (C86_fields (p ++ "." ++ svc ++ "Env") (svc ++ "Env") (map (fun v => env_var p (fst v) (snd v)) vars)) as [ds [nested [E [L F]]]].
  exists ds, nested. split; [exact E|]. split; [rewrite L, map_length; reflexivity|]. intros i n t N.
  destruct (F i n (snd (env_var p n t))) as [d [D [M H]]].
  - rewrite nth_error_map, N. reflexivity.
  - exists d, (snd (env_var p n t)). split; [exact D|]. split; [exact M|]. split; [apply env_var_shape | exact H].
Qed.
Print Assumptions C86_env_fields.

(** The type of an environment variable: "repeated" has no effect on a map, nor a second time. *)
Theorem C86_env_types : (forall k rep, resolve_env_type (EKind k) rep = Plain k rep) /\ (forall k rep, resolve_env_type (ERepeated (EKind k)) rep = Plain k true) /\
  (forall t rep, resolve_env_type (ERepeated (ERepeated t)) rep = resolve_env_type (ERepeated t) rep) /\
  (forall private n k v, env_var private n (ERepeated (EMap k v)) = env_var private n (EMap k v)).
Proof. repeat split. Qed.
Print Assumptions C86_env_types.

(** * Counterexamples *)
Ltac word := match goal with |- valid_name (String ?c ?r) => exists c, r; split; [reflexivity|]; split; [unfold is_lower, is_upper; cbn; lia |
  let d := fresh in let I := fresh in intros d I; cbn in I; repeat (destruct I as [I|I]; [subst d; unfold is_lower, is_upper, is_digit; cbn; first [right; right; right; reflexivity | lia]|]); destruct I] end.
Definition flags : list (string * env_type) := [("feature_flags", EMap (EKind 9) (EKind 8))].
Theorem C86_refuted : ~ C86_statement.
Proof.
  intros H. assert (V : forall v, In v flags -> valid_name (fst v)) by (intros v [<-|[]]; cbn [fst]; word).
  assert (ND : NoDup (map fst flags)) by (constructor; [intros [] | constructor]).
  specialize (H "p" "S" flags V ND). apply C86_env_exact in H; [|exact V | exact ND]. destruct H as [H _].
  destruct (H "feature_flags" _ _ _ (or_introl eq_refl) (is_map_here _ _)) as [_ [_ [c [r [E O]]]]]. injection E as <- <-.
  destruct (O "_"%char) as [N _]; [cbn; auto 10 | congruence].
Qed.
Print Assumptions C86_refuted.
(** Even for names in one word: a map of lists. *)
Definition C86_words_statement : Prop := forall private service vars, (forall v, In v vars -> valid_name (fst v) /\ one_word (fst v)) -> NoDup (map fst vars) ->
  valid (private ++ "." ++ service ++ "Env") (env_message private service vars).
Theorem C86_words_refuted : ~ C86_words_statement.
Proof.
  intros H. set (vars := [("hosts", EMap (EKind 9) (ERepeated (EKind 9)))]).
  assert (V : forall v, In v vars -> valid_name (fst v) /\ one_word (fst v)).
  { intros v [<-|[]]. cbn [fst]. split; [word|]. exists "h"%char, "osts". split; [reflexivity|]. intros d I. cbn in I.
    repeat (destruct I as [I|I]; [subst d; split; [discriminate | unfold is_upper; cbn; lia]|]). destruct I. }
  assert (ND : NoDup (map fst vars)) by (constructor; [intros [] | constructor]).
  specialize (H "p" "S" vars V ND). apply C86_env_exact in H; [|intros v I; apply (V v I) | exact ND]. destruct H as [H _].
  destruct (H "hosts" _ _ _ (or_introl eq_refl) (is_map_here _ _)) as [_ [[b E] _]]. discriminate E.
Qed.
Print Assumptions C86_words_refuted.

(** * Examples *)
Definition good : list (string * env_type) := [("flags", EMap (EKind 9) (EKind 8)); ("max_size", EKind 3); ("names", ERepeated (EKind 9)); ("Limits", EMap (EKind 9) (EKind 3))].
Example good_case : valid "p.SEnv" (env_message "p" "S" good).
Proof.
  apply (C86_env_exact "p" "S" good).
  - intros v I. cbn in I. repeat (destruct I as [<-|I]; [cbn [fst]; word|]). destruct I.
  - repeat (constructor; [cbn; intuition discriminate|]). constructor.
  - assert (W : forall n t k v, In (n, t) good -> is_map t k v -> (n = "flags" \/ n = "Limits") /\ (exists a, k = EKind a) /\ (exists b, v = EKind b)).
    { intros n t k v I M. cbn in I. destruct I as [E|[E|[E|[E|[]]]]]; injection E as <- <-; inversion M; subst;
        try (match goal with X : is_map (EKind _) _ _ |- _ => inversion X end); (split; [auto | split; eexists; reflexivity]). }
    split.
    + intros n t k v I M. destruct (W n t k v I M) as [N [A B]]. split; [exact A|]. split; [exact B|].
      destruct N as [->| ->]; eexists; eexists; (split; [reflexivity|]); intros d J; cbn in J; repeat (destruct J as [J|J]; [subst d; split; [discriminate | unfold is_upper; cbn; lia]|]); destruct J.
    + intros n n' t t' k v k' v' s I I' M M' P P'. destruct (W _ _ _ _ I M) as [N _], (W _ _ _ _ I' M') as [N' _]. apply entry_name in P. apply entry_name in P'.
      destruct N as [->| ->], N' as [->| ->]; try reflexivity; subst s; discriminate P'.
Qed.
Example names_case : to_map_entry_name "feature_flags" = "FeatureFlagsEntry" /\ title "feature_flags" ++ "Entry" = "Feature_flagsEntry" /\ title "maxSize" = "Maxsize".
Proof. repeat split. Qed.
(** a_b and aB give one name to their entries *)
Example clash_case : ~ valid "p.A" (describe "p.A" "A" [("a_b", Map "" "." (Plain 9 false) (Plain 9 false)); ("aB", Map "" "." (Plain 9 false) (Plain 9 false))]).
Proof.
  intros H. apply C86_message_exact in H.
  - destruct H as [_ [D _]]. specialize (D _ _ "ABEntry" (or_introl eq_refl) (or_intror (or_introl eq_refl))).
    assert (X : ("a_b", Map "" "." (Plain 9 false) (Plain 9 false)) = ("aB", Map "" "." (Plain 9 false) (Plain 9 false))) by (apply D; apply labelled_implicit, entry_name; reflexivity).
    discriminate X.
  - intros n q r s I. cbn in I. destruct I as [E|[E|[]]]; discriminate E.
Qed.
