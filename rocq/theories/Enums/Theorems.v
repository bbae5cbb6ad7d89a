(** * The enums and plugins of a file (C58), and the accessors of enums (C59) *)

From Coq Require Import Ascii String List Bool Arith ZArith Lia Sorted Permutation.
From Verif.Base Require Import Sort SortProofs.
From Verif.Enums Require Import Model Spec Proofs.
Import ListNotations.
Local Open Scope string_scope.

(** ** C58 *)

(** Whatever files are asked for their enums, in whatever order, with the shared cache: each
    gets the enums declared in it and in the files it imports, each full name once, in
    ascending order. *)
Theorem C58_enums : forall order fs, (forall m, Permutation (order m) m) -> one_file_per_name fs ->
  Forall2 (fun f l => ascending fqdn l /\ (forall e, In e l -> available f e) /\
                      (forall e, available f e -> In (fqdn e) (map fqdn l))) fs (resolved order fs []).
Proof.
  intros order fs Ho One. apply (resolved_good order Ho (fun g => exists f, In f fs /\ reaches f g)).
  - intros f g [h [I R]] S. exists h. split; [exact I | exact (reaches_trans h f g R S)].
  - intros f g [h [I R]] [h' [I' R']] E. exact (One h h' f g I I' R R' E).
  - intros f I. exists f. split; [exact I | constructor].
  - intros g l _ C. discriminate C.
Qed.
Print Assumptions C58_enums.

(** If no two enums have one name, exactly the enums available. *)
Theorem C58_enums_exactly : forall order f, (forall m, Permutation (order m) m) -> one_file_per_name [f] ->
  (forall e e', available f e -> available f e' -> fqdn e = fqdn e' -> e = e') ->
  forall e, In e (fst (all_enums order f [])) <-> available f e.
Proof.
  intros order f Ho One Uniq e. pose proof (C58_enums order [f] Ho One) as F. cbn [resolved] in F.
  destruct (all_enums order f []) as [l c']. cbn [fst]. inversion F as [ | ? ? ? ? [A [B C]] _]; subst. split; [apply B | ].
  intros Av. specialize (C e Av). apply in_map_iff in C. destruct C as [e' [E I]]. rewrite <- (Uniq e' e (B e' I) Av E). exact I.
Qed.
Print Assumptions C58_enums_exactly.

(** The order in which maps are iterated over does not matter. *)
Theorem C58_order_independent : forall o1 o2 p1 p2, (forall m, Permutation (o1 m) m) -> (forall m, Permutation (o2 m) m) ->
  (forall m, Permutation (p1 m) m) -> (forall m, Permutation (p2 m) m) ->
  forall f c, all_enums o1 f c = all_enums o2 f c /\ all_plugins p1 f = all_plugins p2 f.
Proof. intros o1 o2 p1 p2 H1 H2 H3 H4 f c. split; [apply all_enums_order; assumption | apply all_plugins_order; assumption]. Qed.
Print Assumptions C58_order_independent.

Theorem C58_plugins : forall order f, (forall m, Permutation (order m) m) ->
  ascending pname (all_plugins order f) /\ (forall p, In p (all_plugins order f) -> plugin_available f p) /\
  (forall p, plugin_available f p -> In (pname p) (map pname (all_plugins order f))).
Proof. intros order f Ho. exact (all_plugins_good order Ho f). Qed.
Print Assumptions C58_plugins.

Theorem C58_plugins_exactly : forall order f, (forall m, Permutation (order m) m) ->
  (forall p p', plugin_available f p -> plugin_available f p' -> pname p = pname p' -> p = p') ->
  forall p, In p (all_plugins order f) <-> plugin_available f p.
Proof.
  intros order f Ho Uniq p. destruct (all_plugins_good order Ho f) as [A [B C]]. split; [apply B | ].
  intros Av. specialize (C p Av). apply in_map_iff in C. destruct C as [p' [E I]]. rewrite <- (Uniq p' p (B p' I) Av E). exact I.
Qed.
Print Assumptions C58_plugins_exactly.

(** Of two plugins with one name the file's own is not preferred: that of an import is taken. *)
Theorem C58_own_plugin_refuted : exists order f p, (forall m, Permutation (order m) m) /\ has_plugin f p /\ ~ In p (all_plugins order f).
Proof.
  exists (fun m => m), (File "a" [] [] [{| pname := "shop"; pid := 1 |}] [File "b" [] [] [{| pname := "shop"; pid := 2 |}] []]), {| pname := "shop"; pid := 1 |}.
  split; [intros m; apply Permutation_refl | ]. split; [left; reflexivity | ]. cbn. intros [E | []]. discriminate E.
Qed.
Print Assumptions C58_own_plugin_refuted.

(** Example: a diamond of imports, with a nested enum. *)
Definition mk (n : string) (i : nat) : enum := {| fqdn := n; values := []; id := i |}.
Definition base_file : file := File "base.proto" [mk "b.Z" 0; mk "b.A" 1] [] [] [].
Definition left_file : file := File "left.proto" [] [Message [mk "l.M.E" 2] [Message [mk "l.M.N.E" 3] []]] [] [base_file].
Definition right_file : file := File "right.proto" [mk "r.E" 4] [] [] [base_file].
Definition top_file : file := File "top.proto" [mk "t.E" 5] [] [] [left_file; right_file].

Example C58_diamond :
  map (map fqdn) (resolved (fun m => rev m) [right_file; top_file] []) =
  [["b.A"; "b.Z"; "r.E"]; ["b.A"; "b.Z"; "l.M.E"; "l.M.N.E"; "r.E"; "t.E"]].
Proof. vm_compute. reflexivity. Qed.

Lemma diamond_reaches : forall f g, In f [right_file; top_file] -> reaches f g -> In g [base_file; left_file; right_file; top_file].
Proof.
  assert (B : forall g, reaches base_file g -> g = base_file).
  { intros g R. inversion R as [ | ? ? ? ? ? h ? I S]; subst; [reflexivity | destruct I]. }
  assert (L : forall g, reaches left_file g -> g = left_file \/ g = base_file).
  { intros g R. inversion R as [ | ? ? ? ? ? h ? I S]; subst; [left; reflexivity | ]. destruct I as [<- | []]. right. apply B. exact S. }
  assert (Rr : forall g, reaches right_file g -> g = right_file \/ g = base_file).
  { intros g R. inversion R as [ | ? ? ? ? ? h ? I S]; subst; [left; reflexivity | ]. destruct I as [<- | []]. right. apply B. exact S. }
  intros f g [<- | [<- | []]] R.
  - destruct (Rr g R) as [-> | ->]; cbn; tauto.
  - inversion R as [ | ? ? ? ? ? h ? I S]; subst; [cbn; tauto | ]. destruct I as [<- | [<- | []]].
    + destruct (L g S) as [-> | ->]; cbn; tauto.
    + destruct (Rr g S) as [-> | ->]; cbn; tauto.
Qed.

Example C58_diamond_meets : one_file_per_name [right_file; top_file].
Proof.
  intros f f' g g' I I' R R'. pose proof (diamond_reaches f g I R) as J. pose proof (diamond_reaches f' g' I' R') as J'.
  destruct J as [<- | [<- | [<- | [<- | []]]]], J' as [<- | [<- | [<- | [<- | []]]]]; cbn; intros E; first [reflexivity | discriminate E].
Qed.

(** ** C59 *)

(** The full statement: an accessor the generator accepts in an expression of a message, whose
    file is [mf], exists in the service, whose file is [sf]. *)
Definition C59_statement : Prop := forall order mf sf a, (forall m, Permutation (order m) m) ->
  one_file_per_name [sf] -> reaches sf mf ->
  (forall e e', available sf e -> available sf e' -> fqdn e = fqdn e' -> e = e') ->
  In a (generator_accessors order mf) -> In a (service_accessors order sf).

(** The namespaces that are left out. *)
Definition standard (n : string) : Prop := (exists r, n = "google." ++ r) \/ (exists r, n = "grpc.federation." ++ r).

Definition with_attribute (e : enum) : Prop := exists v a r, In v (values e) /\ rule v = Some (a :: r).

Lemma sub_one_file : forall sf mf, one_file_per_name [sf] -> reaches sf mf -> one_file_per_name [mf].
Proof.
  intros sf mf One R f f' g g' [<- | []] [<- | []] Rg Rg' E.
  exact (One sf sf g g' (or_introl eq_refl) (or_introl eq_refl) (reaches_trans _ _ _ R Rg) (reaches_trans _ _ _ R Rg') E).
Qed.

(** What holds, exactly. *)
Theorem C59_accessors_exact : forall order mf sf n k, (forall m, Permutation (order m) m) ->
  one_file_per_name [sf] -> reaches sf mf ->
  (forall e e', available sf e -> available sf e' -> fqdn e = fqdn e' -> e = e') ->
  In (n, k) (generator_accessors order mf) ->
  (In (n, k) (service_accessors order sf) <->
   (n = "google.rpc.Code" /\ k <> Attr) \/
   (~ standard n /\ (k = Attr -> exists e, available mf e /\ fqdn e = n /\ with_attribute e))).
Proof.
  intros order mf sf n k Ho One R Uniq G.
  assert (UniqM : forall e e', available mf e -> available mf e' -> fqdn e = fqdn e' -> e = e').
  { intros e e' [g [Rg D]] [g' [Rg' D']]. apply Uniq; [exists g | exists g']; (split; [eapply reaches_trans; eassumption | assumption]). }
  pose proof (C58_enums_exactly order mf Ho (sub_one_file sf mf One R) UniqM) as EM.
  pose proof (C58_enums_exactly order sf Ho One Uniq) as ES.
  unfold generator_accessors in G. apply in_flat_map in G. destruct G as [e [Ie Ge]]. apply EM in Ie.
  assert (En : fqdn e = n) by (cbn in Ge; destruct Ge as [X | [X | [X | [X | []]]]]; congruence).
  assert (As : available sf e) by (destruct Ie as [g [Rg D]]; exists g; split; [eapply reaches_trans; eassumption | exact D]).
  unfold service_accessors. rewrite in_app_iff, in_flat_map. split.
  - intros [I | [e' [Ie' I]]].
    + left. destruct I as [X | [X | [X | []]]]; injection X as <- <-; split; congruence.
    + right. apply ES in Ie'. destruct (has_prefix "google." (fqdn e')) eqn:P1; [destruct I | ].
      destruct (has_prefix "grpc.federation." (fqdn e')) eqn:P2; [destruct I | ].
      assert (En' : fqdn e' = n).
      { apply in_app_or in I. destruct I as [I | I].
        - destruct I as [X | [X | [X | []]]]; congruence.
        - destruct (has_attributes e'); [destruct I as [X | []]; congruence | destruct I]. }
      split.
      * intros [X | X]; rewrite <- En', <- has_prefix_spec in X; congruence.
      * intros ->. exists e. split; [exact Ie | ]. split; [exact En | ].
        rewrite (Uniq e e' As Ie') by congruence.
        apply has_attributes_spec. apply in_app_or in I. destruct I as [I | I].
        -- destruct I as [X | [X | [X | []]]]; discriminate X.
        -- destruct (has_attributes e'); [reflexivity | destruct I].
  - intros [[-> NA] | [NS HA]].
    + left. destruct k; [left | right; left | right; right; left | exfalso; apply NA]; reflexivity.
    + right. exists e. split; [apply ES; exact As | ].
      destruct (has_prefix "google." (fqdn e)) eqn:P1.
      { exfalso. apply NS. left. apply has_prefix_spec. congruence. }
      destruct (has_prefix "grpc.federation." (fqdn e)) eqn:P2.
      { exfalso. apply NS. right. apply has_prefix_spec. congruence. }
      apply in_or_app. rewrite En. destruct k; [left; left | left; right; left | left; right; right; left | right]; try reflexivity.
      destruct (HA eq_refl) as [e' [Ie' [E' W]]].
      rewrite (UniqM e e' Ie Ie') by congruence. apply has_attributes_spec in W. rewrite W. left. reflexivity.
Qed.
Print Assumptions C59_accessors_exact.

(** An enum without attributes: the accessor of attributes is accepted, and missing in the
    service. *)
Theorem C59_attr_refuted : ~ C59_statement.
Proof.
  intros H. specialize (H (fun m => m) top_file top_file ("t.E", Attr) (fun m => Permutation_refl m)).
  assert (One : one_file_per_name [top_file]).
  { intros f f' g g' [<- | []] [<- | []]. apply C58_diamond_meets; right; left; reflexivity. }
  assert (Uniq : forall e e', available top_file e -> available top_file e' -> fqdn e = fqdn e' -> e = e').
  { assert (X : forall e, available top_file e -> In e [mk "b.Z" 0; mk "b.A" 1; mk "l.M.E" 2; mk "l.M.N.E" 3; mk "r.E" 4; mk "t.E" 5]).
    { intros e [g [R D]]. pose proof (diamond_reaches top_file g (or_intror (or_introl eq_refl)) R) as J.
      destruct J as [<- | [<- | [<- | [<- | []]]]];
        [unfold base_file in D | unfold left_file in D | unfold right_file in D | unfold top_file in D]; apply own_enums_in in D; cbn in D; cbn; tauto. }
    intros e e' A A'. apply X in A. apply X in A'. cbn in A, A'.
    repeat (destruct A as [<- | A]; [repeat (destruct A' as [<- | A']; [cbn; intros E; first [reflexivity | discriminate E] | ]); destruct A' | ]). destruct A. }
  specialize (H One (reaches_self _) Uniq). assert (I : In ("t.E", Attr) (generator_accessors (fun m => m) top_file)) by (vm_compute; tauto).
  specialize (H I). revert H. vm_compute. intros H. repeat destruct H as [H | H]; try discriminate H. exact H.
Qed.
Print Assumptions C59_attr_refuted.

(** Enums of Google's packages: [google.type.DayOfWeek.name(1)] is accepted, and missing. *)
Definition day_file : file := File "google/type/dayofweek.proto" [mk "google.type.DayOfWeek" 0] [] [] [].
Example C59_google :
  In ("google.type.DayOfWeek", Name) (generator_accessors (fun m => m) day_file) /\
  ~ In ("google.type.DayOfWeek", Name) (service_accessors (fun m => m) day_file).
Proof. split; vm_compute; [tauto | ]. intros H. repeat destruct H as [H | H]; try discriminate H. exact H. Qed.

(** The accessor of names of the other enums is there. *)
Example C59_present : In ("r.E", Name) (service_accessors (fun m => m) top_file).
Proof. vm_compute. tauto. Qed.
