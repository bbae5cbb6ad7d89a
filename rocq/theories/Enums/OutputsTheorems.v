(** * The files that are generated (C61) *)

From Coq Require Import Ascii String List Bool ZArith Permutation.
From Verif.Enums Require Import Model Spec Proofs Theorems Outputs.
Import ListNotations.
Local Open Scope string_scope.

(** ** Specification *)

(** The files of one run: a name belongs to one of them, and imports are among them. *)
Definition one_run (files : list source) : Prop :=
  NoDup (map sname files) /\
  (forall s g, In s files -> reaches (tree s) g -> exists t, In t files /\ tree t = g).

Definition has_plugins (s : source) : Prop := exists p, has_plugin (tree s) p.

(** [s] shares the package with a file that has a service or a plugin, and there is a service. *)
Definition wanted (files : list source) (s : source) : Prop :=
  In s files /\ (exists t, In t files /\ service_rule t = true) /\
  exists t, In t files /\ package t = package s /\ (service_rule t = true \/ has_plugins t).

(** The variables a generated file uses are declared in a generated file. *)
Definition C61_statement : Prop := forall order registered files, (forall m, Permutation (order m) m) ->
  Permutation registered files -> one_run files ->
  forall s n, In s (generated_files registered files) -> In n (used_maps order s) ->
  exists t, In t (generated_files registered files) /\ In n (declared_maps t).

(** ** Proofs *)

Lemma plugin_rule_spec : forall s, plugin_rule s = true <-> has_plugins s.
Proof.
  intros s. unfold plugin_rule, has_plugins. destruct (tree s) as [n es ms [ | p ps] im]; cbn.
  - split; [discriminate | intros [p []]].
  - split; [intros _; exists p; left; reflexivity | reflexivity].
Qed.

Lemma known_spec : forall s l, known s l = true <-> In (sname s) (map sname l).
Proof.
  intros s l. unfold known. rewrite existsb_exists, in_map_iff. split.
  - intros [t [I E]]. exists t. split; [apply String.eqb_eq; exact E | exact I].
  - intros [t [E I]]. exists t. split; [exact I | apply String.eqb_eq; exact E].
Qed.

Lemma nodup_snoc : forall (A : Type) (l : list A) x, NoDup l -> ~ In x l -> NoDup (l ++ [x]).
Proof.
  intros A l x N I. induction l as [ | y l IH]; cbn; [constructor; [intros [] | constructor] | ].
  inversion N as [ | ? ? N1 N2]; subst. constructor.
  - rewrite in_app_iff. intros [J | [J | []]]; [exact (N1 J) | apply I; left; symmetry; exact J].
  - apply IH; [exact N2 | intros J; apply I; right; exact J].
Qed.

Lemma name_inj : forall (files : list source), NoDup (map sname files) ->
  forall s t, In s files -> In t files -> sname s = sname t -> s = t.
Proof.
  induction files as [ | f files IH]; intros N s t I J E; [destruct I | ]. cbn in N. inversion N as [ | ? ? N1 N2]; subst.
  destruct I as [<- | I], J as [<- | J]; [reflexivity | | | exact (IH N2 s t I J E)].
  - exfalso. apply N1. rewrite E. apply in_map. exact J.
  - exfalso. apply N1. rewrite <- E. apply in_map. exact I.
Qed.

Section Run.
  Variable files : list source.
  Hypothesis Names : NoDup (map sname files).

  Lemma add_new_spec : forall l acc, (forall s, In s l -> In s files) -> (forall s, In s acc -> In s files) -> NoDup (map sname acc) ->
    NoDup (map sname (add_new l acc)) /\ (forall s, In s (add_new l acc) <-> In s acc \/ In s l).
  Proof.
    induction l as [ | x l IH]; intros acc Hl Ha N; cbn [add_new].
    - split; [exact N | ]. intros s. split; [left; assumption | intros [H | []]; exact H].
    - destruct (known x acc) eqn:K.
      + destruct (IH acc (fun s I => Hl s (or_intror I)) Ha N) as [N' M]. split; [exact N' | ]. intros s. rewrite M. split.
        * intros [H | H]; [left; exact H | right; right; exact H].
        * intros [H | [<- | H]]; [left; exact H | | right; exact H]. left.
          apply known_spec, in_map_iff in K. destruct K as [t [E I]].
          rewrite <- (name_inj files Names t x (Ha t I) (Hl x (or_introl eq_refl)) E). exact I.
      + assert (NK : ~ In (sname x) (map sname acc)) by (rewrite <- known_spec; congruence).
        destruct (IH (acc ++ [x])%list) as [N' M].
        * intros s I. apply Hl. right. exact I.
        * intros s I. apply in_app_iff in I. destruct I as [I | [<- | []]]; [exact (Ha s I) | apply Hl; left; reflexivity].
        * rewrite map_app. apply nodup_snoc; assumption.
        * split; [exact N' | ]. intros s. rewrite M, in_app_iff. cbn. tauto.
  Qed.

  Variable registered : list source.
  Hypothesis Reg : Permutation registered files.

  Lemma same_package_spec : forall s t, In s files ->
    (In t (same_package registered s) \/ t = s <-> In t files /\ package t = package s).
  Proof using Names Reg.
    intros s t Is. unfold same_package. rewrite filter_In, andb_true_iff, negb_true_iff, String.eqb_eq, String.eqb_neq. split.
    - intros [[I [E _]] | ->]; [split; [exact (Permutation_in _ Reg I) | exact E] | split; [exact Is | reflexivity]].
    - intros [I E]. destruct (String.string_dec (sname t) (sname s)) as [X | X].
      + right. exact (name_inj files Names t s I Is X).
      + left. split; [exact (Permutation_in _ (Permutation_sym Reg) I) | split; assumption].
  Qed.

  (** What has been collected is whole packages. *)
  Definition whole (acc : list source) : Prop :=
    forall s t, In s acc -> In t files -> package t = package s -> In t acc.

  Lemma collect_spec : forall l acc, (forall s, In s l -> In s files) -> (forall s, In s acc -> In s files) -> NoDup (map sname acc) -> whole acc ->
    NoDup (map sname (collect registered l acc)) /\
    (forall s, In s (collect registered l acc) <-> In s acc \/ (In s files /\ exists t, In t l /\ package t = package s)).
  Proof using Names Reg.
    induction l as [ | x l IH]; intros acc Hl Ha N W; cbn [collect].
    - split; [exact N | ]. intros s. split; [left; assumption | intros [H | [_ [t [[] _]]]]; exact H].
    - pose proof (Hl x (or_introl eq_refl)) as Ix. destruct (known x acc) eqn:K.
      + apply known_spec, in_map_iff in K. destruct K as [t [E I]]. rewrite (name_inj files Names t x (Ha t I) Ix E) in I.
        destruct (IH acc (fun s J => Hl s (or_intror J)) Ha N W) as [N' M]. split; [exact N' | ]. intros s. rewrite M. split.
        * intros [H | [H [u [J P]]]]; [left; exact H | right; split; [exact H | exists u; split; [right; exact J | exact P]]].
        * intros [H | [H [u [[<- | J] P]]]]; [left; exact H | left; exact (W x s I H (eq_sym P)) | right; split; [exact H | exists u; split; assumption]].
      + assert (NK : ~ In (sname x) (map sname acc)) by (rewrite <- known_spec; congruence).
        destruct (add_new_spec (same_package registered x) (acc ++ [x])%list) as [N1 M1].
        { intros s I. apply (same_package_spec x s Ix). left. exact I. }
        { intros s I. apply in_app_iff in I. destruct I as [I | [<- | []]]; [exact (Ha s I) | exact Ix]. }
        { rewrite map_app. apply nodup_snoc; assumption. }
        assert (M2 : forall s, In s (add_new (same_package registered x) (acc ++ [x])%list) <-> In s acc \/ (In s files /\ package s = package x)).
        { intros s. rewrite M1, in_app_iff. rewrite <- (same_package_spec x s Ix). cbn. split.
          - intros [[H | [H | []]] | H]; [left; exact H | right; right; symmetry; exact H | right; left; exact H].
          - intros [H | [H | H]]; [left; left; exact H | right; exact H | left; right; left; symmetry; exact H]. }
        destruct (IH (add_new (same_package registered x) (acc ++ [x])%list)) as [N' M].
        * intros s I. apply Hl. right. exact I.
        * intros s I. apply M2 in I. destruct I as [I | [I _]]; [exact (Ha s I) | exact I].
        * exact N1.
        * intros s t I J P. apply M2. apply M2 in I. destruct I as [I | [I E]]; [left; exact (W s t I J P) | right; split; [exact J | congruence]].
        * split; [exact N' | ]. intros s. rewrite M, M2. split.
          -- intros [[H | [H E]] | [H [u [J P]]]]; [left; exact H | right; split; [exact H | exists x; split; [left; reflexivity | symmetry; exact E]]
               | right; split; [exact H | exists u; split; [right; exact J | exact P]]].
          -- intros [H | [H [u [[<- | J] P]]]]; [left; left; exact H | left; right; split; [exact H | symmetry; exact P] | right; split; [exact H | exists u; split; assumption]].
  Qed.
End Run.

(** The files generated are those of the packages with a service or a plugin, each once; and
    none if there is no service at all. *)
Theorem C61_files_exactly : forall registered files, NoDup (map sname files) -> Permutation registered files ->
  NoDup (map sname (generated_files registered files)) /\
  forall s, In s (generated_files registered files) <-> wanted files s.
Proof.
  intros registered files N Reg. unfold generated_files, wanted. destruct (existsb service_rule files) eqn:Sv.
  - apply existsb_exists in Sv. destruct (collect_spec files N registered Reg (roots files) []) as [N' M].
    + intros s I. apply filter_In in I. exact (proj1 I).
    + intros s [].
    + constructor.
    + intros s t [].
    + split; [exact N' | ]. intros s. rewrite M. split.
      * intros [[] | [I [t [J P]]]]. apply filter_In in J. destruct J as [J R]. split; [exact I | ]. split; [exact Sv | ].
        exists t. split; [exact J | split; [exact P | ]]. apply orb_true_iff in R. destruct R as [R | R]; [left; exact R | right; apply plugin_rule_spec; exact R].
      * intros [I [_ [t [J [P R]]]]]. right. split; [exact I | ]. exists t. split; [ | exact P]. apply filter_In. split; [exact J | ].
        apply orb_true_iff. destruct R as [R | R]; [left; exact R | right; apply plugin_rule_spec; exact R].
  - split; [constructor | ]. intros s. split; [intros [] | ]. intros [_ [[t [I S]] _]].
    assert (X : existsb service_rule files = true) by (apply existsb_exists; exists t; split; assumption). congruence.
Qed.
Print Assumptions C61_files_exactly.

Lemma declares_own : forall n es ms ps im e, declares (File n es ms ps im) e -> In e (own_enums es ms).
Proof.
  intros n es ms ps im e H. unfold own_enums. apply in_app_iff. inversion H as [? ? ? ? ? ? I | ? ? ? ? ? m ? I J]; subst; [left; exact I | right].
  apply in_flat_map. exists m. split; [exact I | ]. clear H I. induction J as [es' nested e I | es' nested m e I J IH]; cbn; apply in_app_iff; [left; exact I | right].
  apply in_flat_map. exists m. split; assumption.
Qed.

(** What a generated file uses is declared, if every file with such enums shares its package with
    a service or a plugin. *)
Theorem C61_maps_partial : forall order registered files, (forall m, Permutation (order m) m) ->
  Permutation registered files -> one_run files ->
  (forall t e, In t files -> declares (tree t) e -> has_attributes e = true ->
     exists u, In u files /\ package u = package t /\ (service_rule u = true \/ has_plugins u)) ->
  forall s n, In s (generated_files registered files) -> In n (used_maps order s) ->
  exists t, In t (generated_files registered files) /\ In n (declared_maps t).
Proof.
  intros order registered files Ho Reg [N Cl] Pk s n I U. destruct (C61_files_exactly registered files N Reg) as [_ M].
  unfold used_maps in U. destruct (service_rule s) eqn:Sv; [ | destruct U]. apply M in I. destruct I as [I [Ex _]].
  apply in_map_iff in U. destruct U as [e [E U]]. apply filter_In in U. destruct U as [U A]. apply andb_true_iff in A. destruct A as [A _].
  apply andb_true_iff in A. destruct A as [A _].
  assert (One : one_file_per_name [tree s]).
  { intros f f' g g' [<- | []] [<- | []] R R' X. destruct (Cl s g I R) as [t [J <-]]. destruct (Cl s g' I R') as [t' [J' <-]].
    rewrite (name_inj files N t t' J J' X). reflexivity. }
  pose proof (C58_enums order [tree s] Ho One) as F. cbn [resolved] in F. destruct (all_enums order (tree s) []) as [l c'].
  inversion F as [ | ? ? ? ? [_ [B _]] _]; subst. destruct (B e U) as [g [R D]]. destruct (Cl s g I R) as [t [J <-]].
  exists t. split; [apply M; split; [exact J | split; [exact Ex | exact (Pk t e J D A)]] | ].
  unfold declared_maps. destruct (tree t) as [nm es ms ps im]. apply in_map. apply filter_In. split; [exact (declares_own _ _ _ _ _ _ D) | exact A].
Qed.
Print Assumptions C61_maps_partial.

(** An enum with attributes in a file of another package, with neither: its file is not
    generated, and the service uses a variable that does not exist. *)
Definition kinds : enum := {| fqdn := "other.Kind"; id := 0; values := [ {| vname := "K"; number := 0%Z; rule := Some [("label", "k")] |} ] |}.
Definition other : file := File "other.proto" [kinds] [] [] [].
Definition two_files : list source :=
  [ {| tree := other; package := "other"; service_rule := false |};
    {| tree := File "svc.proto" [] [] [] [other]; package := "svc"; service_rule := true |} ].

Lemma two_files_run : one_run two_files.
Proof.
  split; [cbn; repeat constructor; cbn; intuition discriminate | ]. intros s g I R. cbn in I.
  assert (O : forall h, reaches other h -> h = other) by (intros h X; inversion X as [ | ? ? ? ? ? ? ? Y]; subst; [reflexivity | destruct Y]).
  destruct I as [<- | [<- | []]]; cbn [tree] in R.
  - rewrite (O g R). exists {| tree := other; package := "other"; service_rule := false |}. split; [left; reflexivity | reflexivity].
  - inversion R as [ | ? ? ? ? ? ? ? Y Z]; subst.
    + eexists. split; [right; left; reflexivity | reflexivity].
    + destruct Y as [<- | []]. rewrite (O g Z). eexists. split; [left; reflexivity | reflexivity].
Qed.

Theorem C61_refuted : ~ C61_statement.
Proof.
  intros H. destruct (H (fun m => m) two_files two_files (fun m => Permutation_refl m) (Permutation_refl _) two_files_run
    {| tree := File "svc.proto" [] [] [] [other]; package := "svc"; service_rule := true |} "other.Kind") as [t [I D]].
  - left. reflexivity.
  - left. reflexivity.
  - cbn in I. destruct I as [<- | []]. destruct D.
Qed.
Print Assumptions C61_refuted.

(** Example: with a plugin in the package of the enum its file is generated. *)
Definition with_plugin : list source :=
  ({| tree := File "plugin.proto" [] [] [{| pname := "p"; pid := 0 |}] []; package := "other"; service_rule := false |} :: two_files)%list.
Example C61_example : map sname (generated_files (rev with_plugin) with_plugin) = ["plugin.proto"; "other.proto"; "svc.proto"] /\
  one_run with_plugin /\
  (forall t e, In t with_plugin -> declares (tree t) e -> has_attributes e = true ->
     exists u, In u with_plugin /\ package u = package t /\ (service_rule u = true \/ has_plugins u)).
Proof.
  split; [reflexivity | ]. split; [split | ].
  - cbn. repeat constructor; cbn; intuition discriminate.
  - intros s g [<- | I] R.
    + cbn [tree] in R. inversion R as [ | ? ? ? ? ? ? ? Y]; subst; [eexists; split; [left; reflexivity | reflexivity] | destruct Y].
    + destruct (proj2 two_files_run s g I R) as [t [J E]]. exists t. split; [right; exact J | exact E].
  - intros t e I _ _. cbn in I. destruct I as [<- | [<- | [<- | []]]].
    + eexists. split; [left; reflexivity | split; [reflexivity | right; eexists; left; reflexivity]].
    + eexists. split; [left; reflexivity | split; [reflexivity | right; eexists; left; reflexivity]].
    + eexists. split; [right; right; left; reflexivity | split; [reflexivity | left; reflexivity]].
Qed.
