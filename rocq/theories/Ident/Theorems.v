(** * C42: Go identifiers of distinct names *)

From Coq Require Import Ascii String List Bool Arith Lia.
From Verif.Base Require Import Text TextProofs.
From Verif.Names Require Import Model.
From Verif.Options Require Proofs.
From Verif.Ident Require Import Model Spec Proofs.
Import ListNotations.
Local Open Scope string_scope.

(** ** The full statement, for qualified names *)

Definition C42_statement : Prop := forall a b, go_name a = go_name b -> a = b.

(** Finding: two styles of one name have one identifier. *)
Theorem C42_refuted : ~ C42_statement.
Proof. intros H. specialize (H "org.foo_bar" "org.fooBar" ltac:(vm_compute; reflexivity)). discriminate H. Qed.
Print Assumptions C42_refuted.

(** Also for names that follow the style guide of proto: the package foo.bar may have a
    message Baz, and the package foo a message Bar with a message Baz in it. *)
Definition C42_style_statement : Prop := forall p t p' t', type_name p t -> type_name p' t' ->
  go_name (qualified (p ++ t)%list) = go_name (qualified (p' ++ t')%list) -> p = p' /\ t = t'.

Lemma word_letters : forall c w, is_lower c = true -> all is_lower w -> word (String c w).
Proof. intros c w Hc H. exists c, w, "". rewrite app_nil_s. repeat split; assumption. Qed.

Ltac one_word := split; [discriminate | constructor; [apply word_letters; repeat split | constructor]].

Theorem C42_style_refuted : ~ C42_style_statement.
Proof.
  intros H. destruct (H ["foo"; "bar"] ["Baz"] ["foo"] ["Bar"; "Baz"]) as [X _]; [ | | vm_compute; reflexivity | discriminate X].
  - split; [discriminate | ]. split.
    + constructor; [exists ["foo"]; split; [one_word | reflexivity] | ].
      constructor; [exists ["bar"]; split; [one_word | reflexivity] | constructor].
    + constructor; [exists ["baz"]; split; [one_word | reflexivity] | constructor].
  - split; [discriminate | ]. split.
    + constructor; [exists ["foo"]; split; [one_word | reflexivity] | constructor].
    + constructor; [exists ["bar"]; split; [one_word | reflexivity] | ].
      constructor; [exists ["baz"]; split; [one_word | reflexivity] | constructor].
Qed.
Print Assumptions C42_style_refuted.

(** ** What is true *)

(** Names in snake_case have identifiers of their own, and so have names in
    PascalCase; words are letters with digits after them. *)
Theorem C42_names_partial : forall a b, (snake a /\ snake b) \/ (pascal a /\ pascal b) ->
  public a = public b -> a = b.
Proof.
  intros a b [[Ha Hb] | [Ha Hb]] E.
  - apply (same_snake a b Ha Hb). apply public_same_words; [left; exact Ha | left; exact Hb | exact E].
  - apply (same_pascal a b Ha Hb). apply public_same_words; [right; exact Ha | right; exact Hb | exact E].
Qed.
Print Assumptions C42_names_partial.

Example C42_names_sample :
  snake "user_id2" /\ public "user_id2" = "UserId2" /\ pascal "UserId2" /\ public "UserId2" = "UserId2" /\
  (* digits before letters, which the theorem leaves out, are ambiguous *)
  public "v1_beta" = "V1Beta" /\ public "v1beta" = "V1Beta" /\ public "foo_1" = "Foo_1".
Proof.
  assert (W : words ["user"; "id2"]).
  { split; [discriminate | ]. constructor; [apply word_letters; repeat split | ].
    constructor; [ | constructor]. exists "i"%char, "d", "2". repeat split. }
  split; [exists ["user"; "id2"]; split; [exact W | reflexivity] | ]. split; [reflexivity | ].
  split; [exists ["user"; "id2"]; split; [exact W | reflexivity] | ]. repeat split.
Qed.

(** Qualified names of such parts have the same identifier exactly if they have as many
    parts and these are of the same words. *)
Theorem C42_qualified : forall ps ps', conventional ps -> conventional ps' ->
  (go_name (qualified ps) = go_name (qualified ps') <-> Forall2 same_words ps ps').
Proof. intros ps ps' C C'. apply go_name_same; assumption. Qed.
Print Assumptions C42_qualified.

(** So the names of services, messages and enums of the style guide do not collide if
    their packages have as many parts. *)
Theorem C42_types_partial : forall p t p' t', type_name p t -> type_name p' t' ->
  List.length p = List.length p' ->
  go_name (qualified (p ++ t)%list) = go_name (qualified (p' ++ t')%list) -> p = p' /\ t = t'.
Proof.
  intros p t p' t' T T' L E. pose proof (type_conventional p t T) as C. pose proof (type_conventional p' t' T') as C'.
  apply (go_name_same _ _ C C') in E. destruct (forall2_app_split _ _ _ _ _ _ L E) as [Ep Et].
  destruct T as [_ [Fp Ft]], T' as [_ [Fp' Ft']]. split.
  - apply (forall2_eq snake p p' same_snake Fp Fp' Ep).
  - apply (forall2_eq pascal t t' same_pascal Ft Ft' Et).
Qed.
Print Assumptions C42_types_partial.

Example C42_types_sample :
  type_name ["org"; "user_api"] ["User"; "Kind"] /\
  go_name (qualified ["org"; "user_api"; "User"; "Kind"]) = "Org_UserApi_User_Kind".
Proof.
  split; [ | reflexivity]. split; [discriminate | ]. split.
  - constructor; [exists ["org"]; split; [one_word | reflexivity] | ].
    constructor; [exists ["user"; "api"] | constructor]. split; [ | reflexivity].
    split; [discriminate | ]. constructor; [apply word_letters; repeat split | ].
    constructor; [apply word_letters; repeat split | constructor].
  - constructor; [exists ["user"]; split; [one_word | reflexivity] | ].
    constructor; [exists ["kind"]; split; [one_word | reflexivity] | constructor].
Qed.

(** ** Conversion functions *)

(** Two conversions between types with conventional names have the same function
    exactly if what they convert from and to are alike: the same repetition, the same Go
    types of scalars, and names of the same words. *)
Theorem C42_conversions : forall f t f' t', usual f -> usual t -> usual f' -> usual t' ->
  (cast_func f t = cast_func f' t' <-> alike f f' /\ alike t t').
Proof.
  intros f t f' t' Uf Ut Uf' Ut'. split.
  - apply cast_func_inj; assumption.
  - intros [A B]. unfold cast_func. rewrite !cast_name_parts by assumption.
    rewrite (alike_parts f f' Uf Uf' A), (alike_parts t t' Ut Ut' B). reflexivity.
Qed.
Print Assumptions C42_conversions.

Lemma sample_conventional : conventional ["org"; "User"].
Proof.
  split; [discriminate | ]. constructor; [left; exists ["org"]; split; [one_word | reflexivity] | ].
  constructor; [right; exists ["user"]; split; [one_word | reflexivity] | constructor].
Qed.

Example C42_conversions_sample :
  let user := Message true "org.User" in
  let by_id := Map (Scalar false Int64) (Message false "org.User") in
  usual user /\ usual by_id /\
  cast_func user by_id = "cast_repeated_Org_User__to__map_int64_Org_User" /\
  cast_func (Oneof false "org.User" true) (Scalar false Sint32) = "cast_Org_User___to__int32".
Proof.
  cbv zeta. split; [ | split; [ | split; reflexivity]].
  - apply (usual_named _ true ["org"; "User"] false); [apply (named_message true ["org"; "User"]) | apply sample_conventional].
  - apply usual_map. apply (usual_named _ false ["org"; "User"] false);
      [apply (named_message false ["org"; "User"]) | apply sample_conventional].
Qed.

(** Conversions of two different pairs of types may be one function, also in the style
    guide's names: then only one of them is generated. *)
Definition C42_conversions_statement : Prop := forall f t f' t', usual f -> usual t -> usual f' -> usual t' ->
  cast_func f t = cast_func f' t' -> fqdn f = fqdn f' /\ fqdn t = fqdn t'.

Theorem C42_conversions_refuted : ~ C42_conversions_statement.
Proof.
  intros H. assert (U : forall n m, conventional [n; m; "Baz"] -> usual (Message false (qualified [n; m; "Baz"]))).
  { intros n m C. apply (usual_named _ false [n; m; "Baz"] false); [apply named_message | exact C]. }
  assert (C1 : conventional ["foo"; "bar"; "Baz"]).
  { split; [discriminate | ]. constructor; [left; exists ["foo"]; split; [one_word | reflexivity] | ].
    constructor; [left; exists ["bar"]; split; [one_word | reflexivity] | ].
    constructor; [right; exists ["baz"]; split; [one_word | reflexivity] | constructor]. }
  assert (C2 : conventional ["foo"; "Bar"; "Baz"]).
  { split; [discriminate | ]. constructor; [left; exists ["foo"]; split; [one_word | reflexivity] | ].
    constructor; [right; exists ["bar"]; split; [one_word | reflexivity] | ].
    constructor; [right; exists ["baz"]; split; [one_word | reflexivity] | constructor]. }
  destruct (H _ _ _ _ (U _ _ C1) (usual_scalar false Str) (U _ _ C2) (usual_scalar false Str) ltac:(vm_compute; reflexivity)) as [X _].
  discriminate X.
Qed.
Print Assumptions C42_conversions_refuted.

(** ** Oneof fields *)

(** The Go type of a field of a oneof never has the name of a message or enum in the
    same message. *)
Theorem C42_oneof_fields : forall m f nested n, conventional m -> (snake f \/ pascal f) -> In n nested ->
  (snake n \/ pascal n) -> oneof_name (qualified m) f nested <> go_name (qualified (m ++ [n])%list).
Proof. intros m f nested n C Hf I Hn. apply oneof_not_nested; assumption. Qed.
Print Assumptions C42_oneof_fields.

Example C42_oneof_sample :
  oneof_name "org.User" "foo_bar" ["FooBar"] = "Org_User_FooBar_" /\ go_name "org.User.FooBar" = "Org_User_FooBar".
Proof. split; reflexivity. Qed.

(** ** Resolvers *)

(** Two resolvers have the same name exactly if the message, with the field if it is
    that of a field, is of the same words. *)
Theorem C42_resolvers : forall m f m' f', conventional m -> conventional m' ->
  (forall x, f = Some x -> snake x \/ pascal x) -> (forall x, f' = Some x -> snake x \/ pascal x) ->
  (resolver_name (qualified m) f = resolver_name (qualified m') f' <->
   Forall2 same_words (m ++ opt_list f)%list (m' ++ opt_list f')%list).
Proof.
  intros m f m' f' C C' H H'. rewrite !resolver_parts by assumption.
  rewrite <- (go_name_same _ _ (opt_conventional m f C H) (opt_conventional m' f' C' H')). split.
  - intros E. apply (app_cancel_s "Resolve_"). exact E.
  - intros ->. reflexivity.
Qed.
Print Assumptions C42_resolvers.

(** Finding: the resolver of a field has the name of the resolver of a message that is
    in its message and is called like the field. *)
Definition C42_resolvers_statement : Prop := forall m f m' f',
  resolver_name (qualified m) f = resolver_name (qualified m') f' -> m = m' /\ f = f'.

Theorem C42_resolvers_refuted : ~ C42_resolvers_statement.
Proof.
  intros H. destruct (H ["org"; "User"] (Some "kind") ["org"; "User"; "Kind"] None ltac:(vm_compute; reflexivity)) as [X _]. discriminate X.
Qed.
Print Assumptions C42_resolvers_refuted.

(** The resolvers of the fields of a message, and those of the messages of packages of
    as many parts, are distinct. *)
Theorem C42_field_resolvers_partial : forall m f f', conventional m -> snake f -> snake f' ->
  resolver_name (qualified m) (Some f) = resolver_name (qualified m) (Some f') -> f = f'.
Proof.
  intros m f f' C Hf Hf' E.
  apply C42_resolvers in E; [ | exact C | exact C | intros x X; injection X as <-; left; exact Hf
                                | intros x X; injection X as <-; left; exact Hf'].
  destruct (forall2_app_split _ _ _ _ _ _ eq_refl E) as [_ E2]. inversion E2 as [ | ? ? ? ? S _]; subst.
  apply same_snake; assumption.
Qed.
Print Assumptions C42_field_resolvers_partial.

(** ** Variables *)

(** The variables of a message are fields of a struct.  If each name is in snake_case
    and does not begin with the word x, or is an underscore and then a name in
    snake_case, as the names are that are made up for definitions without one, then the
    fields are distinct. *)
Definition variable_name (s : string) : Prop :=
  (exists ws w, words (w :: ws) /\ w <> "x" /\ s = snake_of (w :: ws)) \/
  (exists ws, words ws /\ s = "_" ++ snake_of ws).

Theorem C42_variables_partial : forall names, Forall variable_name names -> NoDup (declared names).
Proof.
  intros names F. unfold declared. apply nodup_map_inj; [ | apply distinct_nodup].
  intros a b Ia Ib E. apply distinct_in in Ia, Ib. rewrite Forall_forall in F.
  destruct (F a (proj1 Ia)) as [[ws [w [W [X ->]]]] | [ws [W ->]]];
    destruct (F b (proj1 Ib)) as [[ws' [w' [W' [X' ->]]]] | [ws' [W' ->]]].
  - rewrite (public_spells _ _ W (or_introl eq_refl)), (public_spells _ _ W' (or_introl eq_refl)) in E.
    apply pascal_inj in E; [rewrite E; reflexivity | apply W | apply W'].
  - rewrite (public_spells _ _ W (or_introl eq_refl)), (public_auto _ W') in E.
    apply pascal_inj in E; [injection E as -> _; congruence | apply W | constructor; [apply word_x | apply W']].
  - rewrite (public_spells _ _ W' (or_introl eq_refl)), (public_auto _ W) in E.
    apply pascal_inj in E; [injection E as <- _; congruence | constructor; [apply word_x | apply W] | apply W'].
  - rewrite (public_auto _ W), (public_auto _ W') in E.
    apply pascal_inj in E; [injection E as ->; reflexivity | constructor; [apply word_x | apply W] | constructor; [apply word_x | apply W']].
Qed.
Print Assumptions C42_variables_partial.

(** The names made up for definitions are of that form. *)
Lemma word_def : forall n, word ("def" ++ dec n).
Proof. intros n. exists "d"%char, "ef", (dec n). repeat split. apply dec_digits. Qed.

Theorem C42_auto_names : forall i j, variable_name (auto_def i) /\ variable_name (auto_error_def i j) /\
  variable_name (auto_oneof_def i).
Proof.
  intros i j. split; [ | split]; right.
  - exists ["def" ++ dec i]. split; [ | reflexivity]. split; [discriminate | ].
    constructor; [apply word_def | constructor].
  - exists ["def" ++ dec i; "def" ++ dec j]. split; [ | ].
    + split; [discriminate | ]. constructor; [apply word_def | constructor; [apply word_def | constructor]].
    + unfold auto_error_def, snake_of. cbn [join]. rewrite app_assoc_s. reflexivity.
  - exists ["oneof"; "def" ++ dec i]. split; [ | reflexivity]. split; [discriminate | ].
    constructor; [apply word_letters; repeat split | constructor; [apply word_def | constructor]].
Qed.
Print Assumptions C42_auto_names.

(** Finding: names that the compiler accepts and keeps apart are one field. *)
Definition C42_variables_statement : Prop := forall names,
  Forall (fun n => validateName n = true) names -> NoDup (declared names).

Theorem C42_variables_refuted : ~ C42_variables_statement.
Proof.
  intros H. specialize (H ["foo_bar"; "fooBar"]). assert (D : NoDup (declared ["foo_bar"; "fooBar"])).
  { apply H. constructor; [vm_compute; reflexivity | constructor; [vm_compute; reflexivity | constructor]]. }
  change (declared ["foo_bar"; "fooBar"]) with ["FooBar"; "FooBar"] in D.
  inversion D as [ | ? ? N _]; subst. apply N. left. reflexivity.
Qed.
Print Assumptions C42_variables_refuted.

Example C42_variables_sample : declared ["user"; "_def0"; "user"; "user_id"] = ["User"; "XDef0"; "UserId"] /\
  public "x_def0" = "XDef0".
Proof. split; reflexivity. Qed.

(** ** Functions of plugins *)

(** The Go methods of a plugin are distinct, with overloads numbered, if no name ends in
    a digit and functions of different names do not have full names of the same words. *)
Theorem C42_plugin_methods_partial : forall fs,
  (forall f, In f fs -> exists m n, called f m n /\ conventional m /\ ends_in_letter n) ->
  (forall f g m n m' n', In f fs -> In g fs -> called f m n -> called g m' n' ->
    Forall2 same_words (m ++ [n])%list (m' ++ [n'])%list -> f_name f = f_name g) ->
  NoDup (func_go_names [] fs).
Proof. intros fs U A. apply (func_names_nodup fs U A fs [] (incl_refl _)). Qed.
Print Assumptions C42_plugin_methods_partial.

Definition parse_int : func :=
  {| f_receiver := None; f_name := "regexp.parse"; f_args := [Scalar false Str]; f_return := Some (Scalar false Int64) |}.
Definition parse_bool : func :=
  {| f_receiver := None; f_name := "regexp.parse"; f_args := [Scalar false Str]; f_return := Some (Scalar false Bool) |}.

Example C42_plugin_methods_sample :
  func_go_names [] [parse_int; parse_bool] = ["Regexp_Parse"; "Regexp_Parse2"] /\
  (forall f, In f [parse_int; parse_bool] -> exists m n, called f m n /\ conventional m /\ ends_in_letter n).
Proof.
  split; [reflexivity | ]. intros f I. exists ["regexp"], "parse". split; [ | split].
  - destruct I as [<- | [<- | []]]; apply (called_global ["regexp"] "parse").
  - split; [discriminate | ]. constructor; [left; exists ["regexp"]; split; [one_word | reflexivity] | constructor].
  - exists [], "parse". split; [one_word | ]. split; [repeat split | reflexivity].
Qed.

(** Finding: a name with a digit at its end is that of an overload. *)
Definition C42_plugin_methods_statement : Prop := forall fs,
  NoDup (map (fun f => (f_receiver f, f_name f, f_args f)) fs) -> NoDup (func_go_names [] fs).

Theorem C42_plugin_methods_refuted : ~ C42_plugin_methods_statement.
Proof.
  intros H.
  specialize (H [ {| f_receiver := None; f_name := "p.f2"; f_args := []; f_return := None |};
                  {| f_receiver := None; f_name := "p.f"; f_args := []; f_return := None |};
                  {| f_receiver := None; f_name := "p.f"; f_args := [Scalar false Str]; f_return := None |} ]).
  cbn in H. assert (N : NoDup ["P_F2"; "P_F"; "P_F2"]).
  { apply H. constructor; [intros [X | [X | []]]; discriminate X | ].
    constructor; [intros [X | []]; discriminate X | constructor; [intros [] | constructor]]. }
  inversion N as [ | ? ? Z _]; subst. apply Z. right. left. reflexivity.
Qed.
Print Assumptions C42_plugin_methods_refuted.

(** ** Identifiers of functions of plugins *)

Definition no_underscores (o n : string) (args : list typ) (ret : option typ) : Prop :=
  Forall (fun s => has_char "_" s = false) (o :: n :: map fqdn (args ++ match ret with Some t => [t] | None => [] end)%list).

(** Without underscores in the names, two functions have the same identifier exactly if
    the parts of the names of their signatures are the same in a row. *)
Theorem C42_function_ids : forall o n args ret o' n' args' ret',
  no_underscores o n args ret -> no_underscores o' n' args' ret' ->
  (func_id o n args ret = func_id o' n' args' ret' <-> signature o n args ret = signature o' n' args' ret').
Proof.
  intros o n args ret o' n' args' ret' F F'. rewrite !id_signature.
  destruct (signature_plain o n args ret F) as [A B]. destruct (signature_plain o' n' args' ret' F') as [A' B'].
  split; [ | intros ->; reflexivity]. intros E.
  rewrite <- (Options.Proofs.split_join_plain "_" _ B A), <- (Options.Proofs.split_join_plain "_" _ B' A'), E. reflexivity.
Qed.
Print Assumptions C42_function_ids.

(** So functions of one package or receiver, between scalars and lists of scalars, whose
    names have no underscore, are told apart. *)
Theorem C42_scalar_function_ids_partial : forall o n args ret n' args' ret',
  has_char "_" o = false ->
  has_char "_" n = false -> has_char "." n = false -> has_char "_" n' = false -> has_char "." n' = false ->
  (forall t, In t (ret :: args) -> exists b k, t = Scalar b k) ->
  (forall t, In t (ret' :: args') -> exists b k, t = Scalar b k) ->
  func_id o n args (Some ret) = func_id o n' args' (Some ret') -> n = n' /\ args = args' /\ ret = ret'.
Proof.
  intros o n args ret n' args' ret' Ho Nu Nd Nu' Nd' S S' E.
  assert (P : forall n args ret, has_char "_" n = false -> has_char "." n = false ->
    (forall t, In t (ret :: args) -> exists b k, t = Scalar b k) ->
    no_underscores o n args (Some ret) /\
    signature o n args (Some ret) = (split "." o ++ n :: map fqdn (args ++ [ret]))%list).
  { clear - Ho. intros n args ret Nu Nd S.
    assert (G : forall t, In t (args ++ [ret])%list -> exists b k, t = Scalar b k).
    { intros t I. apply S. apply in_app_iff in I. destruct I as [I | [I | []]]; [right; exact I | left; exact I]. }
    split.
    - constructor; [exact Ho | ]. constructor; [exact Nu | ]. apply Forall_forall. intros x I. apply in_map_iff in I.
      destruct I as [t [<- I]]. destruct (G t I) as [b [k ->]]. apply fqdn_scalar_plain.
    - unfold signature. cbn [flat_map]. f_equal. rewrite (split_no_sep "." n Nd). cbn [app]. f_equal.
      induction (args ++ [ret])%list as [ | t l IH]; [reflexivity | ]. cbn [map flat_map].
      rewrite IH by (intros u I; apply G; right; exact I).
      destruct (G t (or_introl eq_refl)) as [b [k ->]].
      rewrite (split_no_sep "." _ (proj1 (fqdn_scalar_plain b k))). reflexivity. }
  destruct (P n args ret Nu Nd S) as [F Q]. destruct (P n' args' ret' Nu' Nd' S') as [F' Q'].
  apply (C42_function_ids _ _ _ _ _ _ _ _ F F') in E. rewrite Q, Q' in E. apply app_inv_head in E.
  injection E as -> E. split; [reflexivity | ].
  assert (I : forall l l', (forall t, In t l -> exists b k, t = Scalar b k) -> (forall t, In t l' -> exists b k, t = Scalar b k) ->
    map fqdn l = map fqdn l' -> l = l').
  { clear. induction l as [ | t l IH]; intros l' H H' E; destruct l' as [ | t' l']; try discriminate E; [reflexivity | ].
    cbn [map] in E. injection E as E1 E2.
    rewrite (IH l') by (try exact E2; intros u X; first [apply H; right; exact X | apply H'; right; exact X]). f_equal.
    destruct (H t (or_introl eq_refl)) as [b [k ->]]. destruct (H' t' (or_introl eq_refl)) as [b' [k' ->]].
    destruct (fqdn_scalar_inj b k b' k' E1) as [-> ->]. reflexivity. }
  apply I in E.
  - apply app_inj_tail in E. exact E.
  - intros t X. apply S. apply in_app_iff in X. destruct X as [X | [X | []]]; [right; exact X | left; exact X].
  - intros t X. apply S'. apply in_app_iff in X. destruct X as [X | [X | []]]; [right; exact X | left; exact X].
Qed.
Print Assumptions C42_scalar_function_ids_partial.

Example C42_scalar_function_ids_sample :
  func_id "example.regexp" "compile" [Scalar false Str; Scalar true Int64] (Some (Scalar false Bool)) =
  "example_regexp_compile_string_repeated int64_bool".
Proof. reflexivity. Qed.

(** Finding: the arguments of one function may be taken for a part of the name of
    another; both are in one plugin, and the generated switch has a case twice. *)
Definition C42_function_ids_statement : Prop := forall o n args ret n' args' ret',
  func_id o n args ret = func_id o n' args' ret' -> n = n' /\ args = args' /\ ret = ret'.

Theorem C42_function_ids_refuted : ~ C42_function_ids_statement.
Proof.
  intros H. destruct (H "p" "f" [Scalar false Str] (Some (Scalar false Bool)) "f_string" [] (Some (Scalar false Bool)) ltac:(vm_compute; reflexivity))
    as [X _]. discriminate X.
Qed.
Print Assumptions C42_function_ids_refuted.
