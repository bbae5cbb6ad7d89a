(** * Theorems about the variables of shared messages (C37) *)

From Coq Require Import String List Bool Arith Lia Permutation.
From Verif.Shared Require Import Model Spec Proofs.
Import ListNotations.
Local Open Scope string_scope.

(** ** The comparison of types *)

(** Without recursive messages, the comparison ends and decides whether two types
    are alike. *)
Theorem C37_comparison_decides : forall F l r, well_formed F ->
  exists N, forall fuel, N <= fuel ->
    exists b, same_type F fuel l r = Some b /\ (b = true <-> alike F l r).
Proof.
  intros F l r [ND [rank R]]. exists (S (measure rank l)). intros fuel L.
  apply (same_type_spec F rank ND R). lia.
Qed.
Print Assumptions C37_comparison_decides.

(** Alike is an equivalence, so that it does not matter which service's declaration
    the others are compared with. *)
Theorem C37_alike_equivalence : forall F, well_formed F ->
  (forall t, alike F t t) /\
  (forall a b, alike F a b -> alike F b a) /\
  (forall a b c, alike F a b -> alike F b c -> alike F a c).
Proof.
  intros F [ND [rank R]]. split; [apply (alike_refl F rank ND R) | ].
  split; [apply alike_sym | apply alike_trans].
Qed.
Print Assumptions C37_alike_equivalence.

(** The comparison of two values of a recursive message never ends: the compiler
    overflows its stack on two services that declare the same variable of such a
    type and share a message. *)
Definition rec_type (m : nat) : type :=
  {| ty_kind := KMessage; ty_repeated := false; ty_message := Some m; ty_enum := None |}.

Definition rec_fields : fields := fun _ => [("next", rec_type 0)].

Theorem C37_recursive_types_refuted : ~ (forall F l r, exists fuel b, same_type F fuel l r = Some b).
Proof.
  intros H. destruct (H rec_fields (rec_type 0) (rec_type 0)) as [fuel [b E]].
  assert (X : forall n, same_type rec_fields n (rec_type 0) (rec_type 0) = None).
  { clear. induction n as [ | n IH]; [reflexivity | ]. cbn in *. rewrite IH. reflexivity. }
  rewrite X in E. discriminate E.
Qed.
Print Assumptions C37_recursive_types_refuted.

Theorem C37_recursive_variables_refuted :
  ~ (forall F order svcs m, some_order order -> (forall s, In s svcs -> distinct_names s) ->
       (forall k, NoDup (map fst (F k))) ->
       exists fuel, shared F order fuel svcs m <> None).
Proof.
  intros H.
  set (v := Some [("a", rec_type 0)]).
  set (s1 := {| sv_name := "S1"; sv_uses := fun _ => true; sv_vars := v |}).
  set (s2 := {| sv_name := "S2"; sv_uses := fun _ => true; sv_vars := v |}).
  destruct (H rec_fields (fun l => l) [s1; s2] 7) as [fuel E].
  - intros l. apply Permutation_refl.
  - intros s [<- | [<- | []]] l E; injection E as <-; repeat constructor; intros [].
  - intros k. repeat constructor. intros [].
  - apply E.
    assert (X : forall n, same_type rec_fields n (rec_type 0) (rec_type 0) = None).
    { clear. induction n as [ | n IH]; [reflexivity | ]. cbn in *. rewrite IH. reflexivity. }
    unfold shared. cbn. rewrite X. reflexivity.
Qed.
Print Assumptions C37_recursive_variables_refuted.

(** ** The variables a message sees *)

(** Whatever the order in which the services and the names are visited: the message
    sees exactly the names declared by all services using it, each once, with a type
    one of them declares; and there is an error for exactly those names that two of
    these services declare with types that are not alike, listing the services. *)
Theorem C37_shared_variables_partial : forall F svcs m,
  well_formed F -> (forall s, In s svcs -> distinct_names s) ->
  exists N, forall fuel order, N <= fuel -> some_order order ->
    exists vs es, shared F order fuel svcs m = Some (vs, es) /\
      NoDup (map fst vs) /\
      (forall n, In n (map fst vs) <-> common svcs m n) /\
      (forall n t, In (n, t) vs ->
         exists s, In s svcs /\ sv_uses s m = true /\ declares s n t) /\
      (forall n, In n (map fst es) <->
         common svcs m n /\
         exists s s' t t', In s svcs /\ In s' svcs /\
           sv_uses s m = true /\ sv_uses s' m = true /\
           declares s n t /\ declares s' n t' /\ ~ alike F t t') /\
      (forall n l, In (n, l) es ->
         forall k, In k l <-> exists s, In s svcs /\ sv_uses s m = true /\ sv_name s = k).
Proof.
  intros F svcs m [ND [rank R]] D.
  destruct (bounded_exists rank (users svcs m)) as [N HN]. exists N.
  intros fuel order L O.
  assert (U : forall s, In s (users svcs m) <-> In s svcs /\ sv_uses s m = true).
  { intros s. apply filter_In. }
  assert (DL : forall s n t, In s (users svcs m) ->
             (lookup n (vars_of s) = Some t <-> declares s n t)).
  { intros s n t I. apply declares_lookup, D, U, I. }
  assert (NDn : NoDup (order (names svcs m))).
  { apply (Permutation_NoDup (Permutation_sym (O _))). apply NoDup_nodup. }
  assert (Nm : forall n s t, In s (users svcs m) -> lookup n (vars_of s) = Some t ->
             In n (order (names svcs m))).
  { intros n s t I E. apply (Permutation_in _ (Permutation_sym (O _))). apply nodup_In.
    apply in_flat_map. exists s. split; [exact I | ]. apply lookup_in in E.
    apply (in_map fst) in E. exact E. }
  unfold shared. destruct (users svcs m) as [ | s0 us] eqn:EU.
  - (* no service uses the message *)
    assert (E : names svcs m = []) by (unfold names; rewrite EU; reflexivity).
    assert (E' : order (names svcs m) = []).
    { rewrite E. apply Permutation_nil, Permutation_sym, O. }
    rewrite E'. exists [], []. split; [reflexivity | ]. split; [constructor | ].
    assert (NoC : forall n, ~ common svcs m n).
    { intros n [[s [I S]] _]. destruct (proj2 (U s) (conj I S)). }
    split; [intros n; cbn; split; [intros [] | apply NoC] | ].
    split; [intros n t [] | ]. split; [ | intros n l []].
    intros n; cbn; split; [intros [] | intros [C _]; exact (NoC n C)].
  - assert (NE : s0 :: us <> []) by discriminate.
    destruct (build_spec F rank ND R fuel (s0 :: us) (order (names svcs m)) (HN fuel L) NDn NE)
      as [vs [es [E [V1 [V2 [V3 V4]]]]]].
    exists vs, es. split; [exact E | ]. split; [exact V1 | ].
    assert (C : forall n, In n (map fst vs) <-> common svcs m n).
    { intros n. rewrite V2. split.
      - intros [_ A]. split; [exists s0; apply U; left; reflexivity | ].
        intros s I S. assert (I' : In s (s0 :: us)) by (apply U; split; assumption).
        specialize (A s I'). destruct (lookup n (vars_of s)) as [t | ] eqn:Et; [ | congruence].
        exists t. apply DL; assumption.
      - intros [_ A].
        assert (A' : forall s, In s (s0 :: us) -> exists t, lookup n (vars_of s) = Some t).
        { intros s I. apply U in I as I'. destruct I' as [I1 I2].
          destruct (A s I1 I2) as [t Ht]. exists t. apply DL; assumption. }
        split.
        + destruct (A' s0 (or_introl eq_refl)) as [t Ht].
          apply (Nm n s0 t (or_introl eq_refl) Ht).
        + intros s I. destruct (A' s I) as [t ->]. discriminate. }
    split; [exact C | ]. split; [ | split].
    + intros n t I. destruct (V3 n t I) as [s [Is Ls]]. exists s.
      apply U in Is as Is'. destruct Is' as [I1 I2]. split; [exact I1 | ].
      split; [exact I2 | apply DL; assumption].
    + intros n. rewrite V4, <- C, V2. split.
      * intros [A [B [s [s' [t [t' [I1 [I2 [L1 [L2 X]]]]]]]]]].
        split; [split; assumption | ]. exists s, s', t, t'.
        apply DL in L1; [ | exact I1]. apply DL in L2; [ | exact I2].
        apply U in I1. apply U in I2. tauto.
      * intros [[A B] [s [s' [t [t' [I1 [I2 [U1 [U2 [L1 [L2 X]]]]]]]]]]].
        split; [exact A | ]. split; [exact B | ]. exists s, s', t, t'.
        assert (J1 : In s (s0 :: us)) by (apply U; split; assumption).
        assert (J2 : In s' (s0 :: us)) by (apply U; split; assumption).
        apply DL in L1; [ | exact J1]. apply DL in L2; [ | exact J2]. tauto.
    + intros n l I. rewrite (build_services F fuel _ _ vs es E n l I). intros k.
      rewrite in_map_iff. split.
      * intros [s [Es Is]]. exists s. apply U in Is. tauto.
      * intros [s [A [B Ck]]]. exists s. split; [exact Ck | apply U; split; assumption].
Qed.
Print Assumptions C37_shared_variables_partial.

(** Without an error, the type a variable has in the message is alike to the type
    every service using the message declares. *)
Theorem C37_accepted_types_partial : forall F svcs m,
  well_formed F -> (forall s, In s svcs -> distinct_names s) ->
  exists N, forall fuel order, N <= fuel -> some_order order ->
    exists vs es, shared F order fuel svcs m = Some (vs, es) /\
      (es = [] -> forall n t s t', In (n, t) vs -> In s svcs -> sv_uses s m = true ->
         declares s n t' -> alike F t t').
Proof.
  intros F svcs m W D. destruct (C37_shared_variables_partial F svcs m W D) as [N H].
  exists (N). intros fuel order L O.
  destruct (H fuel order L O) as [vs [es [E [_ [V2 [V3 [V4 _]]]]]]].
  exists vs, es. split; [exact E | ]. intros -> n t s t' I Is Us Ds.
  destruct (V3 n t I) as [s0 [I0 [U0 D0]]].
  destruct (C37_comparison_decides F t t' W) as [M HM].
  destruct (HM M (Nat.le_refl _)) as [b [_ Hb]]. destruct b; [apply Hb; reflexivity | ].
  exfalso. assert (X : In n (map fst (@nil (string * list string)))); [ | destruct X].
  apply V4. split; [apply V2; apply (in_map fst) in I; exact I | ].
  exists s0, s, t, t'. repeat (split; [assumption | ]).
  intros A. apply Hb in A. discriminate A.
Qed.
Print Assumptions C37_accepted_types_partial.

(** The outcome does not depend on the iteration order of Go's maps: two runs over
    the same services in any two orders give the same names and the same errors. *)
Theorem C37_order_independent : forall F svcs svcs' m,
  well_formed F -> (forall s, In s svcs -> distinct_names s) -> Permutation svcs svcs' ->
  exists N, forall fuel order order', N <= fuel -> some_order order -> some_order order' ->
    exists vs es vs' es', shared F order fuel svcs m = Some (vs, es) /\
      shared F order' fuel svcs' m = Some (vs', es') /\
      Permutation (map fst vs) (map fst vs') /\
      (forall n, In n (map fst es) <-> In n (map fst es')).
Proof.
  intros F svcs svcs' m W D P.
  assert (D' : forall s, In s svcs' -> distinct_names s).
  { intros s I. apply D. apply (Permutation_in _ (Permutation_sym P)), I. }
  destruct (C37_shared_variables_partial F svcs m W D) as [N1 H1].
  destruct (C37_shared_variables_partial F svcs' m W D') as [N2 H2].
  assert (Q : forall s, In s svcs <-> In s svcs').
  { intros s. split; apply Permutation_in; [exact P | apply Permutation_sym, P]. }
  assert (QC : forall n, common svcs m n <-> common svcs' m n).
  { intros n. unfold common. split; intros [[s [A B]] C];
      (split; [exists s; split; [apply Q, A | exact B] | intros x X; apply C, Q, X]). }
  exists (N1 + N2). intros fuel o o' L O O'.
  destruct (H1 fuel o ltac:(lia) O) as [vs [es [E [A1 [A2 [_ [A4 _]]]]]]].
  destruct (H2 fuel o' ltac:(lia) O') as [vs' [es' [E' [B1 [B2 [_ [B4 _]]]]]]].
  exists vs, es, vs', es'. split; [exact E | ]. split; [exact E' | ]. split.
  - apply NoDup_Permutation; [exact A1 | exact B1 | ]. intros n. rewrite A2, B2. apply QC.
  - intros n. rewrite A4, B4, QC. split; intros [C [s [s' [t [t' [X [Y Z]]]]]]];
      (split; [exact C | exists s, s', t, t'; split; [apply Q, X | split; [apply Q, Y | exact Z]]]).
Qed.
Print Assumptions C37_order_independent.

(** ** What is missing: the types are not identical *)

(** The claim in full: without an error, every service that uses the message declares
    the variable with the type it has in the message. *)
Definition C37_statement : Prop := forall F svcs m,
  well_formed F -> (forall s, In s svcs -> distinct_names s) ->
  forall fuel order vs, some_order order -> shared F order fuel svcs m = Some (vs, []) ->
  forall n t s t', In (n, t) vs -> In s svcs -> sv_uses s m = true ->
    declares s n t' -> t = t'.

Definition enum_type (e : nat) : type :=
  {| ty_kind := KEnum; ty_repeated := false; ty_message := None; ty_enum := Some e |}.

Definition enum_service (name : string) (e : nat) : service :=
  {| sv_name := name; sv_uses := fun _ => true; sv_vars := Some [("status", enum_type e)] |}.

Lemma enum_service_ok : forall name e, distinct_names (enum_service name e).
Proof. intros name e l E. injection E as <-. repeat constructor. intros []. Qed.

Lemma no_fields_ok : well_formed (fun _ => []).
Proof. split; [intros m; constructor | exists (fun _ => 0); intros m n t m' []]. Qed.

(** Two services that declare a variable with different enums are accepted; which of
    the enums the message sees depends on the order. *)
Theorem C37_refuted : ~ C37_statement.
Proof.
  intros H.
  assert (X : enum_type 1 = enum_type 2); [ | discriminate X].
  apply (H (fun _ => []) [enum_service "S1" 1; enum_service "S2" 2] 0 no_fields_ok)
    with (fuel := 1) (order := fun l => l) (vs := [("status", enum_type 1)])
         (n := "status") (s := enum_service "S2" 2).
  - intros s [<- | [<- | []]]; apply enum_service_ok.
  - intros l. apply Permutation_refl.
  - reflexivity.
  - left. reflexivity.
  - right. left. reflexivity.
  - reflexivity.
  - exists [("status", enum_type 2)]. split; [reflexivity | left; reflexivity].
Qed.
Print Assumptions C37_refuted.

Theorem C37_type_depends_on_order_refuted :
  ~ (forall F svcs svcs' m order fuel vs vs', well_formed F ->
       (forall s, In s svcs -> distinct_names s) -> Permutation svcs svcs' -> some_order order ->
       shared F order fuel svcs m = Some (vs, []) ->
       shared F order fuel svcs' m = Some (vs', []) -> vs = vs').
Proof.
  intros H.
  assert (X : [("status", enum_type 1)] = [("status", enum_type 2)]); [ | discriminate X].
  apply (H (fun _ => []) [enum_service "S1" 1; enum_service "S2" 2]
           [enum_service "S2" 2; enum_service "S1" 1] 0 (fun l => l) 1).
  - exact no_fields_ok.
  - intros s [<- | [<- | []]]; apply enum_service_ok.
  - apply perm_swap.
  - intros l. apply Permutation_refl.
  - reflexivity.
  - reflexivity.
Qed.
Print Assumptions C37_type_depends_on_order_refuted.

(** ** A case *)

Definition str : type :=
  {| ty_kind := KScalar 9; ty_repeated := false; ty_message := None; ty_enum := None |}.
Definition num : type :=
  {| ty_kind := KScalar 5; ty_repeated := false; ty_message := None; ty_enum := None |}.
Definition sample_fields : fields :=
  fun m => match m with 0 => [("a", str); ("b", num)] | 1 => [("b", num); ("a", str)] | _ => [] end.

Definition sample : list service :=
  [ {| sv_name := "A"; sv_uses := fun m => Nat.ltb m 5;
       sv_vars := Some [("x", str); ("y", num); ("z", rec_type 0)] |};
    {| sv_name := "B"; sv_uses := fun m => Nat.eqb m 3;
       sv_vars := Some [("z", rec_type 1); ("y", str)] |};
    {| sv_name := "C"; sv_uses := fun m => Nat.eqb m 9; sv_vars := None |} ].

Example sample_meets_hypotheses :
  well_formed sample_fields /\ (forall s, In s sample -> distinct_names s).
Proof.
  split.
  - split.
    + intros [ | [ | m]]; cbn; repeat constructor; cbn; intuition discriminate.
    + exists (fun _ => 0). intros [ | [ | m]] n t m' I E; cbn in I.
      * destruct I as [I | [I | []]]; injection I as <- <-; discriminate E.
      * destruct I as [I | [I | []]]; injection I as <- <-; discriminate E.
      * destruct I.
  - intros s [<- | [<- | [<- | []]]] l E; try discriminate E; injection E as <-;
      repeat constructor; cbn; intuition discriminate.
Qed.

(** [x] is not common; [z] has types that are alike; [y] is an error. *)
Example sample_result : shared sample_fields (fun l => l) 5 sample 3 =
  Some ([("z", rec_type 0); ("y", num)], [("y", ["A"; "B"])]) /\
  shared sample_fields (fun l => l) 5 sample 4 =
  Some ([("x", str); ("y", num); ("z", rec_type 0)], []) /\
  shared sample_fields (fun l => l) 5 sample 9 = Some ([], []).
Proof. vm_compute. repeat split. Qed.
