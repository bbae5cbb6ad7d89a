(** * What the generator accepts and what the service compiles (C57) *)

From Coq Require Import Ascii String List Bool Arith Lia.
From Verif.Base Require Import Text TextProofs.
From Verif.Bind Require Import Model Spec Proofs AcceptedProofs Theorems.
Import ListNotations.
Local Open Scope string_scope.

(** The full statement: an expression the generator has accepted, for a message of the package
    [c], compiles in the service, of the package [c'], and calls the same functions. *)
Definition C57_statement : Prop := forall plugins fs c c' e r,
  means (resolver_env plugins fs c) anything e r -> compile (resolver_env plugins fs c) e = Some r ->
  exists r', compile (service_env plugins fs c') e = Some r' /\ same_calls r r'.

(** It holds if the names of the plugins' functions are apart from others, names stand for the
    same functions in both packages, and no function of a plugin is called by its bare name. *)
Theorem C57_accepted_partial : forall plugins fs c c' e r,
  separate plugins fs -> names_agree (resolver_env plugins fs c) (service_env plugins fs c') ->
  (forall f n, bare_call f e -> stands_for (resolver_env plugins fs c) f n -> ~ In (Func n) plugins) ->
  means (resolver_env plugins fs c) anything e r -> compile (resolver_env plugins fs c) e = Some r ->
  exists r', compile (service_env plugins fs c') e = Some r' /\ same_calls r r'.
Proof.
  intros plugins fs c c' e r Sep Agree Bare M C.
  destruct (carried plugins fs c c' e Sep Agree Bare r (only_reach _ e r M C)) as [r' [M' S']].
  exists r'. split; [apply compiles; exact M' | exact S'].
Qed.
Print Assumptions C57_accepted_partial.

(** Names stand for the same if the message and the service are in one package. *)
Theorem C57_one_package : forall plugins fs c, names_agree (resolver_env plugins fs c) (service_env plugins fs c).
Proof. exact same_package. Qed.
Print Assumptions C57_one_package.

(** Without any plugin everything accepted compiles, in one package. *)
Theorem C57_no_plugins : forall fs c e r,
  means (resolver_env [] fs c) anything e r -> compile (resolver_env [] fs c) e = Some r ->
  exists r', compile (service_env [] fs c) e = Some r' /\ same_calls r r'.
Proof.
  intros fs c e r M C. apply C57_accepted_partial with (c := c); [ | apply same_package | | exact M | exact C].
  - intros b f I. destruct I.
  - intros f n _ _ I. destruct I.
Qed.
Print Assumptions C57_no_plugins.

(** ** Each of the conditions is needed *)

Lemma price_stands : forall plugins fs c, stands_for (resolver_env (Func "shop.price" :: plugins) fs c) "price" "shop.price" ->
  means (resolver_env (Func "shop.price" :: plugins) fs c) anything (Call "price" [Const 0]) (FuncT true "shop.price" [ConstT 0]).
Proof.
  intros plugins fs c H. apply means_call; [reflexivity | exact H | | repeat constructor].
  cbn [function functions resolver_env]. apply in_or_app. right. left. reflexivity.
Qed.

(** The function of a plugin, called by its bare name in its own package: accepted, and
    refused when the service runs. *)
Theorem C57_bare_name_refuted : exists plugins fs c e r,
  separate plugins fs /\ means (resolver_env plugins fs c) anything e r /\
  compile (resolver_env plugins fs c) e = Some r /\ compile (service_env plugins fs c) e = None.
Proof.
  exists [Func "shop.price"], [], ["shop"], (Call "price" [Const 0]), (FuncT true "shop.price" [ConstT 0]). split; [ | split; [ | split]].
  - intros b f [<- | []] N.
    assert (F : f = "shop.price" \/ f = "price").
    { destruct (has_char "." f) eqn:H.
      - destruct N as [N | [p N]]; [left; symmetry; exact N | exfalso].
        assert (X : 2 < List.length (split "." "shop.price")).
        { rewrite N. change ("." ++ f) with (String "." f). rewrite split_app_gen, app_length.
          assert (A : 0 < List.length (split "." p)) by (destruct (split "." p) eqn:Z; [destruct (split_nonempty _ _ Z) | cbn; lia]).
          assert (B : 1 < List.length (split "." f)); [ | lia].
          destruct (split "." f) as [ | a [ | b l]] eqn:Z; [destruct (split_nonempty _ _ Z) | | cbn; lia].
          exfalso. pose proof (join_split "." f) as J. rewrite Z in J. cbn in J. subst a.
          assert (NS : has_char "." f = false) by (pose proof (split_parts_no_sep "." f) as SP; rewrite Z in SP; inversion SP; assumption). congruence. }
        vm_compute in X. lia.
      - right. symmetry. apply (short_named (Func "shop.price") f H) in N. vm_compute in N. exact N. }
    destruct F as [-> | ->]; (split; [ | split]).
    + rewrite <- memb_in. vm_compute. discriminate.
    + intros n [].
    + intros n _. rewrite <- !bound_methods_in, <- !memb_in. split; vm_compute; discriminate.
    + rewrite <- memb_in. vm_compute. discriminate.
    + intros n [].
    + intros n _. rewrite <- !bound_methods_in, <- !memb_in. split; vm_compute; discriminate.
  - apply price_stands. apply lookup_stands_for. vm_compute. reflexivity.
  - vm_compute. reflexivity.
  - vm_compute. reflexivity.
Qed.
Print Assumptions C57_bare_name_refuted.

Theorem C57_refuted : ~ C57_statement.
Proof.
  intros H. destruct C57_bare_name_refuted as [plugins [fs [c [e [r [_ [M [C N]]]]]]]].
  destruct (H plugins fs c c e r M C) as [r' [X _]]. congruence.
Qed.
Print Assumptions C57_refuted.

(** A plugin with a function [shop.sub]: the method [sub] of times is accepted, and refused
    when the service runs. *)
Lemma now_sub_accepted : means (resolver_env [Func "shop.sub"] [] ["example"]) anything now_sub now_sub_meant.
Proof.
  apply means_method; [reflexivity | | | apply library_in; vm_compute; reflexivity | exact I | | repeat constructor].
  - intros X. cbn in X. repeat destruct X as [X | X]; try discriminate X. exact X.
  - intros q n D. inversion D.
  - apply (means_function _ _ _ "now" [] "grpc.federation.time").
    + reflexivity.
    + intros H. cbn in H. repeat destruct H as [H | H]; try discriminate H. exact H.
    + change "grpc.federation.time" with (("grpc" ++ "." ++ "federation") ++ "." ++ "time").
      apply dotted_select; [reflexivity | ]. apply dotted_select; [reflexivity | ]. apply dotted_ident; [discriminate | reflexivity].
    + apply lookup_stands_for. vm_compute. reflexivity.
    + apply library_in. vm_compute. reflexivity.
    + exact I.
    + constructor.
Qed.

Theorem C57_shadowed_method_refuted : exists plugins fs c e r,
  means (resolver_env plugins fs c) anything e r /\ (forall f, ~ bare_call f e) /\
  compile (resolver_env plugins fs c) e = Some r /\ compile (service_env plugins fs c) e = None.
Proof.
  exists [Func "shop.sub"], [], ["example"], now_sub, now_sub_meant. split; [exact now_sub_accepted | ].
  split; [ | split; vm_compute; reflexivity].
  intros f B. inversion B as [ | | | | ? ? ? B1 | ? ? ? e I B1]; subst.
  - inversion B1 as [ | | | | ? ? ? B2 | ? ? ? e I B2]; subst; [ | destruct I].
    inversion B2 as [ | ? ? B3 | | | | ]; subst. inversion B3 as [ | ? ? B4 | | | | ]; subst. inversion B4.
  - destruct I as [<- | []]. inversion B1.
Qed.
Print Assumptions C57_shadowed_method_refuted.

(** A message in one package that is used by a service in another: the same expression calls
    the function of another plugin. *)
Definition two_plugins : list binding := [Func "org.a.util.rate"; Func "org.b.util.rate"].
Definition rate : expr := Member (Ident "util") "rate" [Const 0].

Theorem C57_other_package_refuted : exists plugins fs c c' e r r',
  means (resolver_env plugins fs c) anything e r /\
  compile (resolver_env plugins fs c) e = Some r /\
  compile (service_env plugins fs c') e = Some r' /\ ~ same_calls r r'.
Proof.
  exists two_plugins, [], ["org"; "a"], ["org"; "b"], rate, (FuncT true "org.a.util.rate" [ConstT 0]), (FuncT false "org.b.util.rate" [ConstT 0]).
  split; [ | split; [vm_compute; reflexivity | split; [vm_compute; reflexivity | ]]].
  - apply (means_function _ _ _ "rate" [Const 0] "util").
    + reflexivity.
    + intros X. cbn in X. repeat destruct X as [X | X]; try discriminate X. exact X.
    + apply dotted_ident; [discriminate | reflexivity].
    + apply lookup_stands_for. vm_compute. reflexivity.
    + cbn [function functions resolver_env]. left. reflexivity.
    + exact I.
    + repeat constructor.
  - intros S. inversion S.
Qed.
Print Assumptions C57_other_package_refuted.

(** The other way round: a function of a plugin whose last name the library has bound is never
    accepted, although the service would compile it. *)
Theorem C57_library_name_refused : exists plugins fs c e r,
  means (resolver_env plugins fs c) anything e r /\ compile (resolver_env plugins fs c) e = None /\
  compile (service_env plugins fs c) e = Some (FuncT false "shop.parse" [ConstT 0]).
Proof.
  exists [Func "shop.parse"], [], ["example"], (Member (Ident "shop") "parse" [Const 0]), (FuncT true "shop.parse" [ConstT 0]).
  split; [ | split; vm_compute; reflexivity].
  apply (means_function _ _ _ "parse" [Const 0] "shop").
  + reflexivity.
  + intros X. cbn in X. repeat destruct X as [X | X]; try discriminate X. exact X.
  + apply dotted_ident; [discriminate | reflexivity].
  + apply lookup_stands_for. vm_compute. reflexivity.
  + cbn [function functions resolver_env]. left. reflexivity.
  + exact I.
  + repeat constructor.
Qed.
Print Assumptions C57_library_name_refused.

(** ** Example: [shop.price(0)] meets the conditions *)
Example C57_price_example :
  let e := Member (Ident "shop") "price" [Const 0] in
  (forall f, ~ bare_call f e) /\
  compile (resolver_env [Func "shop.price"] [] ["example"]) e = Some (FuncT true "shop.price" [ConstT 0]) /\
  compile (service_env [Func "shop.price"] [] ["example"]) e = Some (FuncT false "shop.price" [ConstT 0]).
Proof.
  split; [ | split; vm_compute; reflexivity]. intros f B. inversion B as [ | | | | ? ? ? B1 | ? ? ? e I B1]; subst.
  - inversion B1.
  - destruct I as [<- | []]. inversion B1.
Qed.
