(** C17, C18, C25: null comparisons, the message argument placeholder, the list library. *)
From Coq Require Import String Ascii List ZArith Bool Permutation Sorted Lia.
From Verif.Base Require Import Result.
From Verif.Cel Require Import Null NullSpec NullProofs Placeholder PlaceholderSpec PlaceholderProofs ListLib ListSpec ListProofs.
Import ListNotations.
Local Open Scope string_scope.

(** ** C17 *)
(** The rewriting ends on every expression. *)
Theorem C17_ends : forall e, exists n, forall fuel max_id, n <= fuel -> exists r, resolve fuel max_id e = Some r.
Proof. exact resolve_total. Qed.
Print Assumptions C17_ends.

(** It wraps exactly the operands compared with the literal null, and changes nothing else. (Keys of map literals are not
    looked at: see C17_everywhere_refuted.) *)
Theorem C17_rewrites_exactly_null_comparisons_partial : forall fuel max_id e e' changed,
  resolve fuel max_id e = Some (e', changed) -> rewritten e e'.
Proof. exact resolve_rewritten. Qed.
Print Assumptions C17_rewrites_exactly_null_comparisons_partial.

(** The nodes of the expression keep their ids, new ids are distinct and larger than all known ids, and "changed" is reported
    exactly if something changed. *)
Theorem C17_fresh_ids : forall fuel max_id e e' changed, resolve fuel max_id e = Some (e', changed) ->
  NoDup (ids e) -> (forall x, In x (ids e) -> (x <= max_id)%Z) ->
  NoDup (ids e') /\ (forall x, In x (ids e) -> In x (ids e')) /\
  (forall x, In x (ids e') -> ~ In x (ids e) -> (max_id < x)%Z) /\ (changed = false -> e' = e) /\ (changed = true -> e' <> e).
Proof. exact resolve_ids. Qed.
Print Assumptions C17_fresh_ids.

(** Rewriting again changes nothing. *)
Theorem C17_idempotent : forall fuel fuel2 m m2 e e' e'' b b2,
  resolve fuel m e = Some (e', b) -> resolve fuel2 m2 e' = Some (e'', b2) -> e'' = e' /\ b2 = false.
Proof. exact resolve_twice. Qed.
Print Assumptions C17_idempotent.

(** The rewritten expression means: [e == null] holds exactly if the value of [e] is null or a nil message; everything else is as in
    CEL. Functions, literals, folds are arbitrary; of the cast and of the comparison of CEL only what is stated is
    assumed. *)
Theorem C17_meaning_partial : forall V E (vnull : V) nullish vbool vconst vselect apply vlist vstruct fold,
  nullish vnull = true ->
  (forall o : result V E, apply "grpc.federation.cast.null_value" None [o] =
     match o with Ok v => Ok (if nullish v then vnull else v) | Err e => Err e end) ->
  (forall f o, f = "_==_" \/ f = "_!=_" -> (forall v, o = Ok v -> nullish v = true -> v = vnull) ->
     apply f None [o; Ok vnull] = null_test V E nullish vbool f o /\ apply f None [Ok vnull; o] = null_test V E nullish vbool f o) ->
  (forall a b c c' d d' f f', (forall x y, c x y = c' x y) -> (forall x y, d x y = d' x y) -> (forall x, f x = f' x) ->
     fold a b c d f = fold a b c' d' f') ->
  forall fuel max_id e e' changed, resolve fuel max_id e = Some (e', changed) -> parsed e -> keys_null_free e ->
  forall env, meaning V E vnull vconst vselect apply vlist vstruct fold env e'
            = NullSpec.intended V E vnull nullish vbool vconst vselect apply vlist vstruct fold env e.
Proof.
  intros V E vnull nullish vbool vconst vselect apply vlist vstruct fold H1 H2 H3 H4 fuel max_id e e' changed Hr Hp Hk env.
  exact (proj1 (rw_meaning vnull nullish vbool vconst vselect apply vlist vstruct fold H1 H2 H3 H4) e e' (resolve_rewritten _ _ _ _ _ Hr) Hp Hk env).
Qed.
Print Assumptions C17_meaning_partial.

(** The full claim: no comparison with null is left without a cast anywhere in the result. *)
Definition C17_everywhere_statement : Prop := forall fuel max_id e e' changed,
  resolve fuel max_id e = Some (e', changed) -> null_free e'.
(** [{x == null: 1}] is left as it is. *)
Theorem C17_everywhere_refuted : ~ C17_everywhere_statement.
Proof.
  intros H.
  set (key := Node 2 (KCall None "_==_" [Node 3 (KIdent "x"); Node 4 (KConst CNull)])).
  set (e := Node 1 (KStruct "" [(Some key, "", Node 5 (KConst (COther "1")))])).
  specialize (H 5 5%Z e e false eq_refl). cbn in H. destruct H as ((H & _) & _). apply (proj1 H).
  repeat split; [left; reflexivity|eexists; reflexivity|intros [? ?]; discriminate|intros (? & ? & ? & ?); discriminate].
Qed.
Print Assumptions C17_everywhere_refuted.

(** Outside keys the claim holds: if no key of a map literal compares with null, nothing in the result does without cast. *)
Theorem C17_no_comparison_left : forall e e', rewritten e e' -> keys_null_free e -> null_free e'.
Proof.
  assert (G : (forall e e', rewritten e e' -> keys_null_free e -> null_free e') /\
    (forall o o', rewritten_opt o o' -> match o with Some e => keys_null_free e | None => True end -> match o' with Some e => null_free e | None => True end) /\
    (forall l l', rewritten_all l l' -> (fix all l := match l with [] => True | a :: l => keys_null_free a /\ all l end) l ->
       (fix all l := match l with [] => True | a :: l => null_free a /\ all l end) l') /\
    (forall l l', rewritten_entries l l' ->
       (fix all l := match l with [] => True | (key, _, v) :: l => match key with Some k => null_free k | None => True end /\ keys_null_free v /\ all l end) l ->
       (fix all l := match l with [] => True | (key, _, v) :: l => match key with Some k => null_free k | None => True end /\ null_free v /\ all l end) l')).
  { apply rw_mut; try (intros; exact I); try (cbn; intros; tauto).
    - intros i t t' fn l l' r r' rest rest' j Hc _ IHt _ IHl Hr IHr _ IHrest (Hk & Hkt). cbn in Hk.
      assert (Hn : null_literal r') by (rewrite <- (rw_null _ _ Hr); apply Hc).
      destruct (wrapped_not_compares fn j l' r' Hn) as (N1 & N2 & _). cbn. split; [|tauto].
      unfold null_free_call. destruct rest'; tauto.
    - intros i t t' fn l l' r r' rest rest' j Hc _ IHt Hl IHl _ IHr _ IHrest (Hk & Hkt). cbn in Hk.
      assert (Hn : null_literal l') by (rewrite <- (rw_null _ _ Hl); apply Hc).
      destruct (wrapped_not_compares fn j r' l' Hn) as (_ & _ & N1 & N2). cbn. split; [|tauto].
      unfold null_free_call. destruct rest'; tauto.
    - intros i t t' fn args args' Nc _ IHt Ha IHa (Hk & Hkt). cbn. split; [|tauto].
      unfold null_free_call. destruct args' as [|l' [|r' [|]]]; try exact I.
      inversion Ha as [|l ? es ? Hl Hes]; subst. inversion Hes as [|r ? es2 ? Hr Hrest]; subst. inversion Hrest; subst.
      destruct (rw_compares fn _ _ _ _ Hl Hr) as [<- <-]. exact (Nc l r [] eq_refl). }
  exact (proj1 G).
Qed.
Print Assumptions C17_no_comparison_left.

(** That an expression with a null comparison can be evaluated at all is not guaranteed: the changed tree is printed and compiled
    again, and a comprehension cannot be printed. *)
Definition C17_evaluable_statement : Prop := forall fuel max_id e r, create_ast fuel max_id e = Some r -> exists e', r = Ok e'.
Theorem C17_evaluable_refuted : ~ C17_evaluable_statement.
Proof.
  intros H.
  set (cmp := Node 5 (KCall None "_==_" [Node 6 (KIdent "v"); Node 7 (KConst CNull)])).
  set (e := Node 1 (KComp "v" "acc" (Node 2 (KIdent "xs")) (Node 3 (KConst (COther "false"))) (Node 4 (KConst (COther "true"))) cmp (Node 8 (KIdent "acc")))).
  destruct (H 9 8%Z e _ eq_refl) as [e' He]. discriminate He.
Qed.
Print Assumptions C17_evaluable_refuted.

(** [a.exists(...)]-free expressions are evaluable. *)
Theorem C17_evaluable_without_comprehension : forall fuel max_id e e' changed,
  resolve fuel max_id e = Some (e', changed) -> has_comp e' = false -> exists e2, create_ast fuel max_id e = Some (Ok e2) /\ rewritten e e2.
Proof.
  intros fuel max_id e e' changed H Hc. unfold create_ast. rewrite H.
  assert (Hrw := resolve_rewritten _ _ _ _ _ H). destruct changed.
  - rewrite Hc. eauto.
  - exists e. split; [reflexivity|]. unfold resolve in H. destruct (visit fuel e _) as [[e1 s1]|] eqn:E1; [|discriminate].
    injection H as -> Hres. apply visit_track in E1. destruct E1 as (news & _ & _ & Hr & Hs). rewrite Hres in Hr. cbn in Hr.
    destruct news; [|discriminate]. rewrite (Hs eq_refl) in Hrw. exact Hrw.
Qed.
Print Assumptions C17_evaluable_without_comprehension.

(** [$.a != null && f(null == x.y)] *)
Definition C17_sample_expr : expr :=
  Node 1 (KCall None "_&&_"
    [Node 2 (KCall None "_!=_" [Node 3 (KSelect (Node 4 (KIdent "__ARG__")) "a" false); Node 5 (KConst CNull)]);
     Node 6 (KCall None "f" [Node 7 (KCall None "_==_" [Node 8 (KConst CNull); Node 9 (KSelect (Node 10 (KIdent "x")) "y" false)])])]).
Example C17_sample :
  resolve 10 10 C17_sample_expr = Some (Node 1 (KCall None "_&&_"
    [Node 2 (KCall None "_!=_" [Node 11 (KCall None cast_null [Node 3 (KSelect (Node 4 (KIdent "__ARG__")) "a" false)]); Node 5 (KConst CNull)]);
     Node 6 (KCall None "f" [Node 7 (KCall None "_==_" [Node 8 (KConst CNull); Node 12 (KCall None cast_null [Node 9 (KSelect (Node 10 (KIdent "x")) "y" false)])])])]), true) /\
  NoDup (ids C17_sample_expr) /\ (forall x, In x (ids C17_sample_expr) -> (x <= 10)%Z) /\ parsed C17_sample_expr /\ keys_null_free C17_sample_expr.
Proof.
  split; [reflexivity|]. split; [|split; [|split]].
  - cbn. repeat constructor; cbn; intuition discriminate.
  - cbn. intuition lia.
  - cbn. repeat split; intros; intuition discriminate.
  - cbn. tauto.
Qed.
(** An interpretation satisfying the assumptions of C17_meaning_partial: values are null, typed nil, or others. *)
Example C17_meaning_sample : exists (apply : string -> option (result (option (option nat)) nat) -> list (result (option (option nat)) nat) -> result (option (option nat)) nat),
  let nullish := fun v : option (option nat) => match v with Some (Some _) => false | _ => true end in
  let vbool := fun b : bool => Some (Some (if b then 1 else 0)) in
  (forall o, apply "grpc.federation.cast.null_value" None [o] =
     match o with Ok v => Ok (if nullish v then None else v) | Err e => Err e end) /\
  (forall f o, f = "_==_" \/ f = "_!=_" -> (forall v, o = Ok v -> nullish v = true -> v = None) ->
     apply f None [o; Ok None] = null_test _ nat nullish vbool f o /\ apply f None [Ok None; o] = null_test _ nat nullish vbool f o).
Proof.
  set (nullish := fun v : option (option nat) => match v with Some (Some _) => false | _ => true end).
  set (vbool := fun b : bool => Some (Some (if b then 1 else 0))).
  exists (fun f _ args =>
    match args with
    | [Ok v] => Ok (if nullish v then None else v)
    | [Err e] => Err e
    | [Ok None; o] => null_test _ nat nullish vbool f o
    | [o; Ok None] => null_test _ nat nullish vbool f o
    | _ => Err 0
    end).
  cbv zeta. split; [intros [[|]|]; reflexivity|]. intros f o _ _. split;
  destruct o as [[v|]|]; reflexivity.
Qed.

(** ** C18 *)
Definition C18_placeholder_statement : Prop := forall text, replace_dollar text = PlaceholderSpec.intended (Code false) text.
(** A dollar sign inside a string literal is replaced too: the literal '$' becomes the literal '__ARG__'. *)
Theorem C18_placeholder_refuted : ~ C18_placeholder_statement.
Proof. intros H. specialize (H "'$'"). vm_compute in H. discriminate. Qed.
Print Assumptions C18_placeholder_refuted.

(** The substitution is the intended one exactly for the texts whose literals contain no dollar sign. *)
Theorem C18_placeholder_partial : forall text,
  replace_dollar text = PlaceholderSpec.intended (Code false) text <-> no_dollar_in_literals (Code false) text = true.
Proof. intros text. split; [apply replace_exact|apply replace_spec]. Qed.
Print Assumptions C18_placeholder_partial.

(** After substitution no placeholder is left: substituting again (as generator and runtime both do) changes nothing. *)
Theorem C18_substituted_once : forall text, PlaceholderSpec.intended (Code false) (replace_dollar text) = replace_dollar text.
Proof. intros text. apply replace_removes. Qed.
Print Assumptions C18_substituted_once.

Example C18_sample : replace_dollar "$.name + 'a\'b' + x" = "__ARG__.name + 'a\'b' + x" /\
  no_dollar_in_literals (Code false) "$.name + 'a\'b' + r'\' + $.y // it's $" = true /\
  no_dollar_in_literals (Code false) "$.name + 'a\'$' + x" = false.
Proof. repeat split; reflexivity. Qed.

(** ** C25 *)
(** The sort macros: a permutation, ordered by the key in the direction of the macro; the stable ones keep the order of
    elements with equal keys. For keys that are pairwise comparable. *)
Theorem C25_sort_partial : forall E A K compare good le sort_slice (key : A -> result K E) (stable : bool) d l,
  orders good le compare -> sorts sort_slice -> (forall x k, In x l -> key x = Ok k -> good k) ->
  match sort_macro compare sort_slice stable d key l with
  | Err e => exists x, In x l /\ key x = Err e
  | Ok out =>
      Permutation l out /\
      StronglySorted (fun a b => forall ka kb, key a = Ok ka -> key b = Ok kb ->
                        match d with Asc => le ka kb | Desc => le kb ka end) out /\
      (stable = true -> forall k, good k -> filter (class compare key k) out = filter (class compare key k) l)
  end.
Proof. intros E A K compare good le sort_slice key stable d l Ho Hs. exact (sort_macro_spec compare good le Ho sort_slice Hs key stable d l). Qed.
Print Assumptions C25_sort_partial.

(** For any keys at all the result is a permutation. *)
Theorem C25_sort_permutes : forall E A K compare sort_slice (key : A -> result K E) (stable : bool) d l out,
  sorts sort_slice -> sort_macro compare sort_slice stable d key l = Ok out -> Permutation l out.
Proof.
  intros E A K compare sort_slice key stable d l out Hs H. unfold sort_macro in H.
  pose proof (map_macro_spec key l) as Hm. destruct (map_macro key l) as [ks|]; [|discriminate]. injection H as <-.
  destruct (combine_keys key l ks Hm) as (C1 & _). rewrite <- C1 at 1. apply Permutation_map. destruct stable.
  - symmetry. apply stable_perm.
  - apply Hs.
Qed.
Print Assumptions C25_sort_permutes.

(** Ordered for every list of numbers? Not with NaN among the keys, which compares with nothing. *)
Definition C25_sort_statement : Prop := forall (compare : option Z -> option Z -> cmp),
  (forall a b, compare a b = match a, b with
                             | Some x, Some y => if (x <? y)%Z then Lt else if (x =? y)%Z then Eq else Gt
                             | _, _ => Incomparable
                             end) ->
  forall sort_slice l out, sorts sort_slice -> sort_macro (E := nat) compare sort_slice true Asc (fun k => Ok k) l = Ok out ->
  StronglySorted (fun a b => forall x y, a = Some x -> b = Some y -> (x <= y)%Z) out.
Theorem C25_sort_refuted : ~ C25_sort_statement.
Proof.
  intros H.
  set (compare := fun a b : option Z => match a, b with
                             | Some x, Some y => if (x <? y)%Z then Lt else if (x =? y)%Z then Eq else Gt
                             | _, _ => Incomparable
                             end).
  assert (S : sorts (@stable_sort (option Z) (option Z))).
  { intros ls l. split; [symmetry; apply stable_perm|]. intros [W1 W2].
    eapply (stable_sorted ls (fun x => In x l)); [exact W1|exact W2|]. rewrite Forall_forall. auto. }
  specialize (H compare (fun a b => eq_refl) stable_sort [Some 2; None; Some 1]%Z [Some 2; None; Some 1]%Z S eq_refl).
  inversion H as [|? ? _ F]; subst. inversion F as [|? ? _ F2]; subst. inversion F2 as [|? ? F3 _]; subst.
  specialize (F3 2%Z 1%Z eq_refl eq_refl). lia.
Qed.
Print Assumptions C25_sort_refuted.

(** first: the first element satisfying the condition, if all conditions evaluate. *)
Theorem C25_first : forall E A (p : A -> result bool E) (b : A -> bool) l,
  (forall x, In x l -> p x = Ok (b x)) -> first p l = Ok (find b l).
Proof. intros E A. exact first_spec. Qed.
Print Assumptions C25_first.

(** It looks at all elements: a condition that fails anywhere fails the whole. *)
Theorem C25_first_evaluates_all : forall E A (p : A -> result bool E) l x e, In x l -> p x = Err e -> exists e', first p l = Err e'.
Proof. intros E A p l x e Hin He. destruct (filter_err p l x e Hin He) as [e' H]. exists e'. unfold first. rewrite H. reflexivity. Qed.
Print Assumptions C25_first_evaluates_all.

(** reduce folds from the left; flatten concatenates one level. *)
Theorem C25_reduce : forall E A B (step : A -> B -> B) (l : list A) (init : B),
  reduce l (fun x (acc : result B E) => match acc with Ok a => Ok (step x a) | Err e => Err e end) (Ok init) = Ok (fold_left (fun a x => step x a) l init).
Proof.
  intros E A B step l. unfold reduce, cel_fold. induction l as [|x l IH]; intros init; [reflexivity|]. cbn. apply IH.
Qed.
Print Assumptions C25_reduce.

Theorem C25_flatten : forall A (l : list (elem A)),
  flatten l = concat (map (fun e => match e with Nested xs => xs | Plain x => [x] end) l).
Proof. intros A l. induction l as [|[xs|x] l IH]; cbn; [reflexivity| |]; rewrite IH; reflexivity. Qed.
Print Assumptions C25_flatten.

Definition zcompare (a b : Z) : cmp := if (a <? b)%Z then Lt else if (a =? b)%Z then Eq else Gt.
Example C25_sample : orders (fun _ => True) Z.le zcompare /\ sorts (@stable_sort (Z * Z) Z) /\
  sort_macro (E := nat) zcompare stable_sort true Desc (fun p => Ok (fst p)) [(1, 10); (2, 20); (1, 30); (3, 40); (2, 50)]%Z
    = Ok [(3, 40); (2, 20); (2, 50); (1, 10); (1, 30)]%Z.
Proof.
  split; [|split; [|reflexivity]].
  - split; [|intros; lia]. intros a b _ _. unfold zcompare. destruct (Z.ltb_spec a b); cbv iota; [lia|]. destruct (Z.eqb_spec a b); cbv iota; lia.
  - intros ls l. split; [symmetry; apply stable_perm|]. intros [W1 W2].
    eapply (stable_sorted ls (fun x => In x l)); [exact W1|exact W2|]. rewrite Forall_forall. auto.
Qed.
