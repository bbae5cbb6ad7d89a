(** C81: what the error handler of a service is told. *)

From Coq Require Import String List Bool Arith Lia Sorted.
From Verif.Base Require Import Sort SortProofs.
From Verif.Ident Require Import Model.
From Verif.Deps Require Import Model Spec Proofs Theorems.
From Verif.Consts Require Import Model Spec Proofs.
Import ListNotations.
Local Open Scope string_scope.

(** The full property: when a call of a message of the service fails, the error handler is told the path of the called method.
    (In the generated file: the constant it names is declared, and has that value.) *)
Definition C81_statement : Prop :=
  forall s table sv, acyclic s ->
  exists n l, dependent_methods s table n sv = Done l /\
    forall k, called s sv k -> handled table l k = Some (path (table k)).

(** The list is computed whatever the schema, as long as no message is made from itself. *)
Theorem C81_total : forall s table sv, acyclic s -> exists n l, dependent_methods s table n sv = Done l.
Proof.
  intros s table sv [rank Hr].
  assert (B : exists n, forall mt, In mt (sv_methods sv) -> rank (federation_response mt) < n).
  { induction (sv_methods sv) as [ | mt r [n IH]]; [exists 0; intros mt [] | ].
    exists (S (rank (federation_response mt) + n)). intros mt' [<- | H]; [lia | ]. specialize (IH _ H). lia. }
  destruct B as [n B]. exists n.
  destruct (gather_total _ _ (fun mt => dependent s n (federation_response mt)) (sv_methods sv)) as [ks E].
  - intros mt H. apply (dependent_total s rank Hr). apply B, H.
  - unfold dependent_methods. rewrite E. eexists. reflexivity.
Qed.
Print Assumptions C81_total.

(** What holds: the handler is told the path if error rules hold no calls and those of calls make no messages, the service has no
    variables with messages, the names of the called methods are public Go names and no two of them are spelled alike.  Missing
    from the full property: the other schemas (refuted below). *)
Theorem C81_handled_partial : forall s table n sv l k,
  dependent_methods s table n sv = Done l ->
  plain_rules s -> sv_vars sv = [] -> told_apart table (called s sv) -> public_names table (called s sv) ->
  called s sv k -> handled table l k = Some (path (table k)).
Proof.
  intros s table n sv l k H P V T U C.
  pose proof (plain_called s sv k P V C) as Cp.
  assert (I : In (cn_name (constant_of table k)) (map cn_name l)).
  { apply (listed_names _ _ _ _ _ _ H). exists k. split; [exact Cp | reflexivity]. }
  apply in_map_iff in I. destruct I as [c [E I]].
  destruct (listed_in _ _ _ _ _ _ H I) as [k' [Cp' Ec]]. subst c.
  assert (Q : table k' = table k) by (apply T; [apply plainly_called, Cp' | exact C | exact E]).
  rewrite (constant_same table k' k Q) in I.
  unfold handled. change (handled_name table k) with (go_name (rm_service (table k)) ++ "_" ++ public (rm_name (table k))).
  rewrite (U k C). change (go_name (rm_service (table k)) ++ "_" ++ rm_name (table k)) with (cn_name (constant_of table k)).
  rewrite (find_constant l _ (listed_nodup _ _ _ _ _ H) I). reflexivity.
Qed.
Print Assumptions C81_handled_partial.

(** Exactly which methods have a constant, in every schema: those called by a definition of a message option or of a oneof rule, in
    a message reached from the responses by definitions other than calls. *)
Theorem C81_declared_exact : forall s table n sv l,
  dependent_methods s table n sv = Done l ->
  forall name, In name (map cn_name l) <-> exists k, called_plainly s sv k /\ name = spelled (table k).
Proof. intros s table n sv l H name. exact (listed_names _ _ _ _ _ _ H). Qed.
Print Assumptions C81_declared_exact.

(** No constant is declared for a method the service does not call, and each has the path of the method it is named after. *)
Theorem C81_no_other_constant : forall s table n sv l c,
  dependent_methods s table n sv = Done l -> In c l ->
  exists k, called s sv k /\ cn_name c = spelled (table k) /\ cn_value c = path (table k).
Proof.
  intros s table n sv l c H I. destruct (listed_in _ _ _ _ _ _ H I) as [k [C ->]].
  exists k. split; [apply plainly_called, C | split; reflexivity].
Qed.
Print Assumptions C81_no_other_constant.

(** So the handler is never told anything but the path of a method the service calls that is spelled like the name it asks for. *)
Theorem C81_told_only_calls : forall s table n sv l k v,
  dependent_methods s table n sv = Done l -> handled table l k = Some v ->
  exists k', called s sv k' /\ v = path (table k') /\
    spelled (table k') = go_name (rm_service (table k)) ++ "_" ++ public (rm_name (table k)).
Proof.
  intros s table n sv l k v H E. unfold handled in E.
  destruct (find _ l) as [c | ] eqn:F; [ | discriminate E]. cbn in E. injection E as <-.
  apply find_some in F. destruct F as [I N]. apply String.eqb_eq in N.
  destruct (C81_no_other_constant _ _ _ _ _ _ H I) as [k' [C [Nc Vc]]].
  exists k'. split; [exact C | split; [exact Vc | ]]. rewrite <- Nc. exact N.
Qed.
Print Assumptions C81_told_only_calls.

(** No two constants have one name, and they come in the order of their names, whatever the order of the map. *)
Theorem C81_constants_distinct_in_order : forall s table n sv l,
  dependent_methods s table n sv = Done l ->
  NoDup (map cn_name l) /\ StronglySorted (fun a b => str_leb (cn_name a) (cn_name b) = true) l.
Proof.
  intros s table n sv l H. split; [eapply listed_nodup; exact H | ].
  unfold dependent_methods in H. destruct (gather _ (sv_methods sv)); try discriminate H. injection H as <-.
  apply sort_by_sorted.
Qed.
Print Assumptions C81_constants_distinct_in_order.

(** ** Refutations *)

(** Schemas with response 0 and messages 1, 2, ... *)
Definition made_of (ms : list (list def)) : schema :=
  {| sc_messages := map (fun ds => {| ms_rule := true; ms_custom := false; ms_defs := ds; ms_fields := [] |}) ms;
     sc_services := [] |}.
Definition answers (vars : list nat) : service :=
  {| sv_methods := [{| mt_request := 9; mt_response := 0; mt_custom := None |}]; sv_vars := vars |}.

Lemma not_told : forall s table sv k v,
  called s sv k -> (forall n l, dependent_methods s table n sv = Done l -> handled table l k = v) ->
  v <> Some (path (table k)) ->
  ~ (exists n l, dependent_methods s table n sv = Done l /\
       forall k, called s sv k -> handled table l k = Some (path (table k))).
Proof. intros s table sv k v C H N [n [l [E A]]]. apply N. rewrite <- (H n l E). apply A, C. Qed.

Lemma called_own : forall ms vars a k errs m, (m = 0 \/ In m vars) ->
  ms_rule (msg (made_of ms) m) = true -> In (Def a (XCall k errs)) (ms_defs (msg (made_of ms) m)) ->
  called (made_of ms) (answers vars) k.
Proof.
  intros ms vars a k errs m S R I. exists m, (Def a (XCall k errs)). split; [ | split].
  - exists m. split; [ | constructor]. destruct S as [-> | S]; [left | right; exact S].
    exists {| mt_request := 9; mt_response := 0; mt_custom := None |}. split; [left; reflexivity | reflexivity].
  - exists (Def a (XCall k errs)). split; [apply defines_own; assumption | constructor].
  - exists errs. reflexivity.
Qed.

(** A method named get_post: the constant is declared as …_get_post and used as …_GetPost, so the generated file does not compile
    (code_generator.go:1597 against 3081). *)
Definition lower_table (k : nat) : remote := {| rm_service := "blog.Posts"; rm_name := "get_post" |}.
Theorem C81_lower_case_refuted :
  ~ (forall s table sv, acyclic s -> plain_rules s -> sv_vars sv = [] -> told_apart table (called s sv) ->
     exists n l, dependent_methods s table n sv = Done l /\
       forall k, called s sv k -> handled table l k = Some (path (table k))).
Proof.
  intros H. pose (s := made_of [[Def 0 (XCall 0 [])]]).
  assert (D : forall m d, defines s m d -> m = 0 /\ d = Def 0 (XCall 0 [])).
  { intros m d Hd. inversion Hd as [x R I | f x R If Rf I]; subst; destruct m as [ | [ | m]]; cbn in *; try contradiction.
    destruct I as [<- | []]. split; reflexivity. }
  assert (W : forall m d, has_definition s m d -> d = Def 0 (XCall 0 [])).
  { intros m d [d0 [Hd Hw]]. destruct (D _ _ Hd) as [_ ->].
    inversion Hw as [x E1 E2 | x e d1 x' Hr Hb W1 E1 E2]; subst; [reflexivity | ].
    inversion Hr as [a svc errs e' I E1 E2 | ]; subst. destruct I. }
  refine (not_told s lower_table (answers []) 0 None _ _ _ (H s lower_table (answers []) _ _ eq_refl _)).
  - apply called_own with (a := 0) (errs := []) (m := 0); [left; reflexivity | reflexivity | left; reflexivity].
  - intros n l E. destruct n as [ | n]; [discriminate E | ]. injection E as <-. vm_compute. reflexivity.
  - discriminate.
  - exists (fun _ => 0). intros m d m' Hd C. rewrite (W _ _ Hd) in C. destruct C as [C | C]; discriminate C.
  - intros m d e d1 d' Hd Hr Hb Hw. destruct (D _ _ Hd) as [_ ->].
    inversion Hr as [a svc errs e' I E1 E2 | ]; subst. destruct I.
  - intros k k' _ _ _. reflexivity.
Qed.
Print Assumptions C81_lower_case_refuted.

(** Methods of services foo.bar.Baz and foo.Bar_Baz: both constants are …_Foo_Bar_Baz_Get, one replaces the other in the map
    (code_generator.go:1570), and errors of one method are reported as errors of the other. *)
Definition twin_table (k : nat) : remote :=
  match k with
  | O => {| rm_service := "foo.bar.Baz"; rm_name := "Get" |}
  | _ => {| rm_service := "foo.Bar_Baz"; rm_name := "Get" |}
  end.
Theorem C81_same_name_refuted :
  ~ (forall s table sv, acyclic s -> plain_rules s -> sv_vars sv = [] -> public_names table (called s sv) ->
     exists n l, dependent_methods s table n sv = Done l /\
       forall k, called s sv k -> handled table l k = Some (path (table k))).
Proof.
  intros H. pose (s := made_of [[Def 0 (XCall 0 []); Def 1 (XCall 1 [])]]).
  assert (D : forall m d, defines s m d -> m = 0 /\ exists a k, d = Def a (XCall k [])).
  { intros m d Hd. inversion Hd as [x R I | f x R If Rf I]; subst; destruct m as [ | [ | m]]; cbn in *; try contradiction.
    split; [reflexivity | ]. destruct I as [<- | [<- | []]]; eexists; eexists; reflexivity. }
  assert (W : forall m d, has_definition s m d -> exists a k, d = Def a (XCall k [])).
  { intros m d [d0 [Hd Hw]]. destruct (D _ _ Hd) as [_ [a [k ->]]].
    inversion Hw as [x E1 E2 | x e d1 x' Hr Hb W1 E1 E2]; subst; [eexists; eexists; reflexivity | ].
    inversion Hr as [a' svc errs e' I E1 E2 | ]; subst. destruct I. }
  refine (not_told s twin_table (answers []) 0 (Some "/foo.Bar_Baz/Get") _ _ _ (H s twin_table (answers []) _ _ eq_refl _)).
  - apply called_own with (a := 0) (errs := []) (m := 0); [left; reflexivity | reflexivity | left; reflexivity].
  - intros n l E. destruct n as [ | n]; [discriminate E | ]. injection E as <-. vm_compute. reflexivity.
  - discriminate.
  - exists (fun _ => 0). intros m d m' Hd C. destruct (W _ _ Hd) as [a [k ->]]. destruct C as [C | C]; discriminate C.
  - intros m d e d1 d' Hd Hr Hb Hw. destruct (D _ _ Hd) as [_ [a [k ->]]].
    inversion Hr as [a' svc errs e' I E1 E2 | ]; subst. destruct I.
  - intros [ | k] _; reflexivity.
Qed.
Print Assumptions C81_same_name_refuted.

(** A call among the definitions of the error rule of another call: no constant is declared for it
    (code_generator.go:1595-1602), so the generated file does not compile. *)
Definition two_table (k : nat) : remote :=
  match k with
  | O => {| rm_service := "blog.Posts"; rm_name := "Get" |}
  | _ => {| rm_service := "blog.Users"; rm_name := "Get" |}
  end.
Lemma two_table_apart : forall ks : nat -> Prop, (forall k, ks k -> k < 2) -> told_apart two_table ks.
Proof.
  intros ks B k k' K K' E. pose proof (B k K). pose proof (B k' K').
  destruct k as [ | [ | k]], k' as [ | [ | k']]; try lia; try reflexivity; vm_compute in E; discriminate E.
Qed.
Theorem C81_error_rule_refuted :
  ~ (forall s table sv, acyclic s -> shallow s -> sv_vars sv = [] -> public_names table (called s sv) ->
     exists n l, dependent_methods s table n sv = Done l /\
       forall k, called s sv k -> handled table l k = Some (path (table k))).
Proof.
  intros H. pose (s := made_of [[Def 0 (XCall 0 [Err [Def 1 (XCall 1 [])] []])]]).
  refine (not_told s two_table (answers []) 1 None _ _ _ (H s two_table (answers []) _ _ eq_refl _)).
  - exists 0, (Def 1 (XCall 1 [])). split; [ | split].
    + exists 0. split; [left | constructor].
      exists {| mt_request := 9; mt_response := 0; mt_custom := None |}. split; [left; reflexivity | reflexivity].
    + exists (Def 0 (XCall 0 [Err [Def 1 (XCall 1 [])] []])). split; [apply defines_own; [reflexivity | left; reflexivity] | ].
      eapply within_rule; [constructor; left; reflexivity | constructor; left; reflexivity | constructor].
    + exists []. reflexivity.
  - intros n l E. destruct n as [ | n]; [discriminate E | ]. injection E as <-. vm_compute. reflexivity.
  - discriminate.
  - apply (acyclic_b_spec s (fun _ => 0)). reflexivity.
  - apply shallow_b_spec. reflexivity.
  - intros [ | k] _; reflexivity.
Qed.
Print Assumptions C81_error_rule_refuted.

(** A call in the message of a service variable: no constant is declared for it (code_generator.go:1568 goes through the methods
    only). *)
Theorem C81_service_variable_refuted :
  ~ (forall s table sv, acyclic s -> plain_rules s -> told_apart table (called s sv) -> public_names table (called s sv) ->
     exists n l, dependent_methods s table n sv = Done l /\
       forall k, called s sv k -> handled table l k = Some (path (table k))).
Proof.
  intros H. pose (s := made_of [[Def 0 (XCall 0 [])]; [Def 1 (XCall 1 [])]]).
  assert (D : forall m d, defines s m d -> exists a k, k < 2 /\ d = Def a (XCall k [])).
  { intros m d Hd. inversion Hd as [x R I | f x R If Rf I]; subst; destruct m as [ | [ | [ | m]]]; cbn in *; try contradiction;
      destruct I as [<- | []]; eexists; eexists; (split; [ | reflexivity]); lia. }
  assert (W : forall m d, has_definition s m d -> exists a k, k < 2 /\ d = Def a (XCall k [])).
  { intros m d [d0 [Hd Hw]]. destruct (D _ _ Hd) as [a [k [B ->]]].
    inversion Hw as [x E1 E2 | x e d1 x' Hr Hb W1 E1 E2]; subst; [exists a, k; split; [exact B | reflexivity] | ].
    inversion Hr as [a' svc errs e' I E1 E2 | ]; subst. destruct I. }
  refine (not_told s two_table (answers [1]) 1 None _ _ _ (H s two_table (answers [1]) _ _ _ _)).
  - apply called_own with (a := 1) (errs := []) (m := 1); [right; left; reflexivity | reflexivity | left; reflexivity].
  - intros n l E. destruct n as [ | n]; [discriminate E | ]. injection E as <-. vm_compute. reflexivity.
  - discriminate.
  - exists (fun _ => 0). intros m d m' Hd C. destruct (W _ _ Hd) as [a [k [_ ->]]]. destruct C as [C | C]; discriminate C.
  - intros m d e d1 d' Hd Hr Hb Hw. destruct (D _ _ Hd) as [a [k [_ ->]]].
    inversion Hr as [a' svc errs e' I E1 E2 | ]; subst. destruct I.
  - apply two_table_apart. intros k [m [d [_ [Hd [errs X]]]]]. destruct (W _ _ Hd) as [a [k' [B ->]]].
    cbn in X. injection X as <- _. exact B.
  - intros [ | k] _; reflexivity.
Qed.
Print Assumptions C81_service_variable_refuted.

Theorem C81_statement_refuted : ~ C81_statement.
Proof. intros H. apply C81_lower_case_refuted. intros s table sv A _ _ _. apply H, A. Qed.
Print Assumptions C81_statement_refuted.

(** ** A case of the positive theorems

    The response makes message 1 in a validation's error rule and message 2 in a oneof rule, and calls method 1; message 1 calls
    method 0, and message 2 method 1. *)
Definition good : schema :=
  {| sc_messages :=
       [ {| ms_rule := true; ms_custom := false;
            ms_defs := [Def 0 (XCall 1 []); Def 1 (XValidation (Err [Def 2 (XMessage 1)] []))];
            ms_fields := [{| fd_rule := true; fd_custom := false; fd_defs := [Def 3 (XMap 2)] |}] |};
         {| ms_rule := true; ms_custom := false; ms_defs := [Def 4 (XCall 0 [])]; ms_fields := [] |};
         {| ms_rule := true; ms_custom := false; ms_defs := [Def 5 (XCall 1 [])]; ms_fields := [] |} ];
     sc_services := [] |}.

Example good_list : dependent_methods good two_table 2 (answers []) =
  Done [{| cn_name := "Blog_Posts_Get"; cn_value := "/blog.Posts/Get" |}; {| cn_name := "Blog_Users_Get"; cn_value := "/blog.Users/Get" |}].
Proof. vm_compute. reflexivity. Qed.

Lemma good_definition : forall m d, has_definition good m d ->
  In d [Def 0 (XCall 1 []); Def 1 (XValidation (Err [Def 2 (XMessage 1)] [])); Def 2 (XMessage 1); Def 3 (XMap 2); Def 4 (XCall 0 []); Def 5 (XCall 1 [])].
Proof.
  intros m d Hd.
  assert (I : In d (all_defs (msg good m))) by (apply has_all_defs; [apply shallow_b_spec; reflexivity | exact Hd]).
  apply all_of_in in I. cbn in I. cbn.
  repeat (destruct I as [I | I]; [injection I; intros <- _; auto 10 | ]). destruct I.
Qed.

Example good_hypotheses :
  acyclic good /\ plain_rules good /\ told_apart two_table (called good (answers [])) /\
  public_names two_table (called good (answers [])).
Proof.
  split; [apply (acyclic_b_spec good (fun m => match m with O => 1 | _ => 0 end)); reflexivity | ].
  split; [ | split].
  - intros m d e d1 d' Hd Hr Hb Hw.
    assert (I : has_definition good m d) by (exists d; split; [exact Hd | constructor]).
    apply good_definition in I. cbn in I.
    destruct I as [<- | [<- | [<- | [<- | [<- | [<- | []]]]]]]; inversion Hr as [a svc errs e' I E1 E2 | ]; subst; try destruct I.
    inversion Hb as [defs details x Ix E1 E2 | defs details ds ms x Ix]; subst; [ | destruct Ix].
    destruct Ix as [<- | []]. inversion Hw as [x E1 E2 | x e2 d2 x' Hr' Hb' W1 E1 E2]; subst; [ | inversion Hr'].
    split; [intros k [errs X]; discriminate X | intros [k [errs X]]; discriminate X].
  - apply two_table_apart. intros k [m [d [_ [Hd [errs X]]]]]. apply good_definition in Hd. cbn in Hd.
    destruct Hd as [<- | [<- | [<- | [<- | [<- | [<- | []]]]]]]; cbn in X; try discriminate X; injection X as <-; lia.
  - intros [ | k] _; reflexivity.
Qed.

Example good_called : called good (answers []) 0.
Proof.
  exists 1, (Def 4 (XCall 0 [])). split; [ | split].
  - exists 0. split; [left; eexists; split; [left; reflexivity | reflexivity] | ].
    eapply made_step with (d := Def 2 (XMessage 1)); [ | left; reflexivity | constructor].
    exists (Def 1 (XValidation (Err [Def 2 (XMessage 1)] []))). split; [apply defines_own; [reflexivity | right; left; reflexivity] | ].
    eapply within_rule; [constructor | constructor; left; reflexivity | constructor].
  - exists (Def 4 (XCall 0 [])). split; [apply defines_own; [reflexivity | left; reflexivity] | constructor].
  - exists []. reflexivity.
Qed.
