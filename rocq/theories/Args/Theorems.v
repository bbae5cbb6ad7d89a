(** * Theorems about the arguments of messages (C39) *)

From Coq Require Import String List Bool Arith Lia.
From Verif.Args Require Import Model Spec Proofs.
Import ListNotations.
Local Open Scope string_scope.

Definition initial : state := {| st_args := fun _ => []; st_errors := [] |}.

Lemma resolve_spec : forall F children calls has_rule rs,
  acyclic children -> (forall m, named (F m)) -> (forall c d e, In e (calls c d) -> tidy e) ->
  proper_roots children rs ->
  exists N, forall fuel, N <= fuel ->
    exists s, resolve F children calls has_rule fuel rs = Some (Some s) /\
      outcome F calls (all_given F children calls has_rule rs)
        (below_response children has_rule rs) initial s (st_errors s).
Proof.
  intros F children calls has_rule rs [rank R] Fn T [P1 [P2 P3]].
  exists (S (list_max (map (fun p => rank (fst p)) rs))). intros fuel L.
  assert (G : forall d : nat, good []) by (intros d; split; [constructor | intros []]).
  destruct (roots_spec F Fn children calls has_rule rank R T fuel rs initial) as [s [es [E O]]].
  - intros r req I.
    pose proof (proj1 (list_max_le (map (fun p => rank (fst p)) rs)
                  (list_max (map (fun p => rank (fst p)) rs))) (Nat.le_refl _)) as X.
    rewrite Forall_forall in X.
    specialize (X _ (in_map (fun p : nat * option (list field) => rank (fst p)) _ _ I)).
    cbn in X. lia.
  - exact P1.
  - exact P2.
  - exact P3.
  - exact G.
  - intros r _. reflexivity.
  - exists s. split; [exact E | ]. pose proof (o_errors _ _ _ _ _ _ _ O) as X. cbn in X.
    rewrite X. exact O.
Qed.

(** ** The argument of a message *)

(** For every acyclic graph of messages with tidy arguments: the computation ends
    without a nil dereference, no argument name is there twice, and the names in the
    argument of a message are exactly the fields of its request and the names passed
    by any of its callers, each with a type with which it is passed. *)
Theorem C39_argument_is_union_partial : forall F children calls has_rule rs,
  acyclic children -> (forall m, named (F m)) -> (forall c d e, In e (calls c d) -> tidy e) ->
  proper_roots children rs ->
  exists N, forall fuel, N <= fuel ->
    exists s, resolve F children calls has_rule fuel rs = Some (Some s) /\
      (forall d, NoDup (map fst (st_args s d))) /\
      (forall d n, In n (map fst (st_args s d)) <->
         (exists t, requested rs d n t) \/
         exists c e t, called children calls has_rule rs c d e /\ passes F e n t) /\
      (forall d n t, In (n, t) (st_args s d) ->
         requested rs d n t \/
         exists c e, called children calls has_rule rs c d e /\ passes F e n t).
Proof.
  intros F children calls has_rule rs A Fn T P.
  destruct (resolve_spec F children calls has_rule rs A Fn T P) as [N H]. exists N.
  intros fuel L. destruct (H fuel L) as [s [E O]]. exists s. split; [exact E | ].
  pose proof (fun d => o_grow _ _ _ _ _ _ _ O d) as G. split; [ | split].
  - intros d. apply (g_good _ _ _ (G d)).
  - intros d n. rewrite (g_names _ _ _ (G d)). split.
    + intros [[] | [t [K | [c [e [[r [q [X [Y [Z W]]]]] [V U]]]]]]]; [left; exists t; exact K | right].
      exists c, e, t. split; [ | exact U]. exists r, q. repeat (split; [assumption | ]). exact V.
    + intros [[t K] | [c [e [t [[r [q [X [Y [Z [W V]]]]]] U]]]]]; right; exists t.
      * left. exact K.
      * right. exists c, e. split; [exists r, q; repeat (split; [assumption | ]); exact W | ].
        split; assumption.
  - intros d n t K. destruct (g_origin _ _ _ (G d) n t K) as [[] | [X | X]]; [left; exact X | right].
    destruct X as [c [e [[r [q [X [Y [Z W]]]]] [V U]]]]. exists c, e. split; [ | exact U].
    exists r, q. repeat (split; [assumption | ]). exact V.
Qed.
Print Assumptions C39_argument_is_union_partial.

(** ** What no error means *)

(** Without an error, whatever is passed below a response under a name is compatible
    with the type of the name in the argument. *)
Theorem C39_accepted_types_partial : forall F children calls has_rule rs,
  acyclic children -> (forall m, named (F m)) -> (forall c d e, In e (calls c d) -> tidy e) ->
  proper_roots children rs ->
  exists N, forall fuel, N <= fuel ->
    exists s, resolve F children calls has_rule fuel rs = Some (Some s) /\
      (st_errors s = [] -> forall c d e n t,
         called_by_response children calls has_rule rs c d e -> passes F e n t ->
         exists t0, In (n, t0) (st_args s d) /\ compatible t0 t).
Proof.
  intros F children calls has_rule rs A Fn T P.
  destruct (resolve_spec F children calls has_rule rs A Fn T P) as [N H]. exists N.
  intros fuel L. destruct (H fuel L) as [s [E O]]. exists s. split; [exact E | ].
  intros Z c d e n t [r [q [X [Y [W [V U]]]]]] K.
  apply (o_checked _ _ _ _ _ _ _ O).
  - rewrite Z. intros k [].
  - exists c, e. split; [exists r, q; repeat (split; [assumption | ]); exact V | ].
    split; [exact U | exact K].
Qed.
Print Assumptions C39_accepted_types_partial.

(** Without an error, all expressions with which a message calls another one below a
    response have each other's argument names; and of two callers of a message, one
    has all the names the other passes. *)
Theorem C39_accepted_names_partial : forall F children calls has_rule rs,
  acyclic children -> (forall m, named (F m)) -> (forall c d e, In e (calls c d) -> tidy e) ->
  proper_roots children rs ->
  exists N, forall fuel, N <= fuel ->
    exists s, resolve F children calls has_rule fuel rs = Some (Some s) /\
      (st_errors s = [] ->
        (forall c d e n, called_by_response children calls has_rule rs c d e ->
           named_arg (calls c d) n -> mentions F e n) /\
        (forall c1 c2 d e1 e2, c1 <> c2 ->
           called_by_response children calls has_rule rs c1 d e1 ->
           called_by_response children calls has_rule rs c2 d e2 ->
           let has_names_of c c' := forall e n t e', In e (calls c' d) -> passes F e n t ->
             In e' (calls c d) -> mentions F e' n in
           has_names_of c1 c2 \/ has_names_of c2 c1)).
Proof.
  intros F children calls has_rule rs A Fn T P.
  destruct (resolve_spec F children calls has_rule rs A Fn T P) as [N H]. exists N.
  intros fuel L. destruct (H fuel L) as [s [E O]]. exists s. split; [exact E | ].
  intros Z.
  assert (C : forall n, ~ In (EMissing n) (st_errors s)) by (rewrite Z; intros n []).
  assert (CB : forall c d e, called_by_response children calls has_rule rs c d e ->
             below_response children has_rule rs c d /\ In e (calls c d)).
  { intros c d e [r [q [X [Y [W [V U]]]]]]. split; [ | exact U]. exists r, q.
    repeat (split; [assumption | ]). exact V. }
  split.
  - intros c d e n K M. apply CB in K. destruct K as [K K'].
    apply (o_uniform _ _ _ _ _ _ _ O C c d e n K K' M).
  - intros c1 c2 d e1 e2 D K1 K2. cbv zeta. apply CB in K1. apply CB in K2.
    destruct (o_chain _ _ _ _ _ _ _ O C c1 c2 d (proj1 K1) (proj1 K2) D) as [X | X]; [right | left];
      intros e n t e' I Q J; apply (X e n t e' I Q J).
Qed.
Print Assumptions C39_accepted_names_partial.

(** ** What an error means *)

(** Every error is about a call below a response: a name passed with a type that is
    not compatible with the one in the argument, a name that another expression or
    another caller gives and this one does not, or an inline value that is not a message; and every such inline value is an
    error. *)
Theorem C39_errors_justified : forall F children calls has_rule rs,
  acyclic children -> (forall m, named (F m)) -> (forall c d e, In e (calls c d) -> tidy e) ->
  proper_roots children rs ->
  exists N, forall fuel, N <= fuel ->
    exists s, resolve F children calls has_rule fuel rs = Some (Some s) /\
      (forall n, In (EDifferent n) (st_errors s) ->
         exists c d e t t0, called_by_response children calls has_rule rs c d e /\
           passes F e n t /\ In (n, t0) (st_args s d) /\ ~ compatible t0 t) /\
      (forall n, In (EMissing n) (st_errors s) ->
         exists c d e, called_by_response children calls has_rule rs c d e /\ ~ mentions F e n /\
           (named_arg (calls c d) n \/
            exists c' e' t, called children calls has_rule rs c' d e' /\ passes F e' n t)) /\
      (In EInline (st_errors s) <->
         exists c d e, called_by_response children calls has_rule rs c d e /\ inline_error e).
Proof.
  intros F children calls has_rule rs A Fn T P.
  destruct (resolve_spec F children calls has_rule rs A Fn T P) as [N H]. exists N.
  intros fuel L. destruct (H fuel L) as [s [E O]]. exists s. split; [exact E | ].
  assert (CB : forall c d e, called_by_response children calls has_rule rs c d e <->
             below_response children has_rule rs c d /\ In e (calls c d)).
  { intros c d e. split.
    - intros [r [q [X [Y [W [V U]]]]]]. split; [ | exact U]. exists r, q.
      repeat (split; [assumption | ]). exact V.
    - intros [[r [q [X [Y [W V]]]]] U]. exists r, q. repeat (split; [assumption | ]). exact U. }
  split; [ | split].
  - intros n K. destruct (o_sound _ _ _ _ _ _ _ O n K) as [d [t [t0 [[c [e [X [Y Z]]]] W]]]].
    exists c, d, e, t, t0. split; [apply CB; split; assumption | ]. split; [exact Z | exact W].
  - intros n K. destruct (o_missing _ _ _ _ _ _ _ O n K) as [c [d [e [X [Y [Z W]]]]]].
    exists c, d, e. split; [apply CB; split; assumption | ]. split; [exact Z | ].
    destruct W as [W | W]; [left; exact W | right].
    apply (g_names _ _ _ (o_grow _ _ _ _ _ _ _ O d)) in W.
    destruct W as [[] | [t [[q [W W']] | [c' [e' [[r [q [B1 B2]]] [W W']]]]]]].
    + (* a root is not called *)
      destruct X as [r [q' [_ [_ [X _]]]]]. destruct P as [_ [P _]].
      destruct (P d c); [ | exact X]. apply (in_map fst) in W. exact W.
    + exists c', e', t. split; [ | exact W']. exists r, q. split; [exact B1 | ].
      destruct B2 as [B2 [B3 B4]]. repeat (split; [assumption | ]). exact W.
  - rewrite (o_inline _ _ _ _ _ _ _ O). split.
    + intros [c [d [e [X [Y Z]]]]]. exists c, d, e. split; [apply CB; split; assumption | exact Z].
    + intros [c [d [e [X Z]]]]. apply CB in X. exists c, d, e. split; [apply X | ].
      split; [apply X | exact Z].
Qed.
Print Assumptions C39_errors_justified.

(** ** What is missing *)

(** The claim in full: without an error, every caller of a message passes every name
    of its argument, with the type it has there. *)
Definition C39_statement : Prop := forall F children calls has_rule rs fuel s,
  acyclic children -> (forall m, named (F m)) -> (forall c d e, In e (calls c d) -> tidy e) ->
  proper_roots children rs ->
  resolve F children calls has_rule fuel rs = Some (Some s) -> st_errors s = [] ->
  forall c d e n t, called children calls has_rule rs c d e -> In (n, t) (st_args s d) ->
    passes F e n t.

Definition ty (k : kind) (r : bool) : type := {| ty_kind := k; ty_repeated := r; ty_null := false |}.
Definition str : type := ty (KOther 9) false.
Definition strs : type := ty (KOther 9) true.
Definition num : type := ty (KNumber 5) false.
Definition dbl : type := ty (KNumber 1) false.
Definition by_ (n : string) (t : type) : arg := {| a_name := n; a_value := Some (false, Some t) |}.
Definition inl_ (t : type) : arg := {| a_name := ""; a_value := Some (true, Some t) |}.

(** A response (0) with the dependencies 1 and 2, which both depend on 3. *)
Definition diamond (m : nat) : list nat :=
  match m with 0 => [1; 2] | 1 => [3] | 2 => [3] | _ => [] end.

Definition diamond_swapped (m : nat) : list nat :=
  match m with 0 => [2; 1] | 1 => [3] | 2 => [3] | _ => [] end.

Lemma diamond_acyclic : acyclic diamond.
Proof.
  exists (fun m => 4 - m). intros [ | [ | [ | c]]] d I; cbn in I.
  - destruct I as [<- | [<- | []]]; cbn; lia.
  - destruct I as [<- | []]; cbn; lia.
  - destruct I as [<- | []]; cbn; lia.
  - destruct I.
Qed.

Definition one_root : list (nat * option (list field)) := [(0, Some [("id", str)])].

Lemma one_root_proper : proper_roots diamond one_root.
Proof.
  split; [repeat constructor; intros [] | ]. split.
  - intros r c [<- | []] I. destruct c as [ | [ | [ | c]]]; cbn in I.
    + destruct I as [I | [I | []]]; discriminate I.
    + destruct I as [I | []]; discriminate I.
    + destruct I as [I | []]; discriminate I.
    + destruct I.
  - intros r req [H | []]. injection H as <- <-. split; [repeat constructor; intros [] | ].
    intros [H | []]. discriminate H.
Qed.

(** Message 1 passes a, message 2 passes a and b. *)
Definition late_calls (c d : nat) : list expr :=
  match c, d with
  | 1, 3 => [[by_ "a" str]]
  | 2, 3 => [[by_ "a" str; by_ "b" str]]
  | _, _ => []
  end.

Lemma late_tidy : forall c d e, In e (late_calls c d) -> tidy e.
Proof.
  intros [ | [ | [ | c]]] [ | [ | [ | [ | d]]]] e I; cbn in I; try destruct I as [<- | []]; try destruct I.
  - intros a [<- | []]. exists false, (Some str). split; [reflexivity | discriminate].
  - intros a [<- | [<- | []]]; exists false, (Some str); (split; [reflexivity | discriminate]).
Qed.

Lemma reach1 : reaches diamond (fun _ => true) 0 1.
Proof. apply (reaches_step _ _ 0 0 1); [apply reaches_here | left; reflexivity | reflexivity]. Qed.

Lemma reach2 : reaches diamond (fun _ => true) 0 2.
Proof. apply (reaches_step _ _ 0 0 2); [apply reaches_here | right; left; reflexivity | reflexivity]. Qed.

(** A later caller may pass more: the earlier one then leaves [b] unset. *)
Theorem C39_late_name_refuted : ~ C39_statement.
Proof.
  intros H.
  specialize (H (fun _ => []) diamond late_calls (fun _ => true) one_root 4).
  destruct (resolve (fun _ => []) diamond late_calls (fun _ => true) 4 one_root) as [[s | ] | ] eqn:E;
    try discriminate E.
  specialize (H s diamond_acyclic (fun m (X : In "" (map fst [])) => X) late_tidy one_root_proper eq_refl).
  assert (Es : st_errors s = [] /\ In ("b", str) (st_args s 3)).
  { cbn in E. injection E as <-. split; [reflexivity | ]. cbn. right. left. reflexivity. }
  destruct Es as [E1 E2].
  assert (X : passes (fun _ => []) [by_ "a" str] "b" str).
  { apply (H E1 1 3); [ | exact E2]. exists 0, (Some [("id", str)]).
    split; [left; reflexivity | ]. split; [exact reach1 | ]. split; [left; reflexivity | ].
    split; [reflexivity | left; reflexivity]. }
  destruct X as [a [<- | []] A B | a t' m _ _ _ []]. discriminate A.
Qed.
Print Assumptions C39_late_name_refuted.

(** So the verdict depends on the order of the dependencies. *)
Theorem C39_order_dependent :
  exists s s',
    resolve (fun _ => []) diamond late_calls (fun _ => true) 4 one_root = Some (Some s) /\
    st_errors s = [] /\
    resolve (fun _ => []) diamond_swapped late_calls (fun _ => true) 4 one_root = Some (Some s') /\
    st_errors s' = [EMissing "b"].
Proof.
  destruct (resolve (fun _ => []) diamond late_calls (fun _ => true) 4 one_root) as [[s | ] | ] eqn:E;
    try discriminate E.
  destruct (resolve (fun _ => []) diamond_swapped late_calls (fun _ => true) 4 one_root)
    as [[s' | ] | ] eqn:E'; try discriminate E'.
  exists s, s'. split; [reflexivity | ]. cbn in E. injection E as <-. split; [reflexivity | ].
  split; [reflexivity | ]. cbn in E'. injection E' as <-. reflexivity.
Qed.
Print Assumptions C39_order_dependent.

(** A value and a list of such values are accepted under one name, and so are numbers
    of different types. *)
Theorem C39_repeated_compatible_refuted :
  ~ (forall t0 t, is_different t0 t = false -> ty_repeated t0 = ty_repeated t).
Proof. intros H. specialize (H str strs eq_refl). discriminate H. Qed.
Print Assumptions C39_repeated_compatible_refuted.

Theorem C39_types_compatible_refuted :
  ~ (forall t0 t, is_different t0 t = false ->
       ty_kind t0 = ty_kind t \/ ty_null t0 = true \/ ty_kind t0 = KEnum).
Proof.
  intros H. destruct (H dbl num eq_refl) as [X | [X | X]]; discriminate X.
Qed.
Print Assumptions C39_types_compatible_refuted.

(** Below a root that is not a response nothing is reported: a string and a number
    under one name. *)
Definition clash_calls (c d : nat) : list expr :=
  match c, d with
  | 0, 1 => [[by_ "a" str]; [by_ "a" num]]
  | _, _ => []
  end.

Theorem C39_other_roots_unchecked :
  (exists s, resolve (fun _ => []) diamond clash_calls (fun _ => true) 4 [(0, None)] = Some (Some s) /\
     st_errors s = []) /\
  (exists s, resolve (fun _ => []) diamond clash_calls (fun _ => true) 4 one_root = Some (Some s) /\
     st_errors s = [EDifferent "a"]).
Proof.
  split.
  - destruct (resolve (fun _ => []) diamond clash_calls (fun _ => true) 4 [(0, None)])
      as [[s | ] | ] eqn:E; try discriminate E.
    exists s. split; [reflexivity | ]. cbn in E. injection E as <-. reflexivity.
  - destruct (resolve (fun _ => []) diamond clash_calls (fun _ => true) 4 one_root)
      as [[s | ] | ] eqn:E; try discriminate E.
    exists s. split; [reflexivity | ]. cbn in E. injection E as <-. reflexivity.
Qed.
Print Assumptions C39_other_roots_unchecked.

(** Two expressions of one message with different inline messages need not have each
    other's names. *)
Definition inline_fields_of (m : nat) : list field :=
  match m with 10 => [("a", str)] | 11 => [("b", str)] | _ => [] end.

Definition inline_calls (c d : nat) : list expr :=
  match c, d with
  | 0, 1 => [[inl_ (ty (KMessage 10) false)]; [inl_ (ty (KMessage 11) false)]]
  | _, _ => []
  end.

Theorem C39_inline_names_unchecked : exists s,
  resolve inline_fields_of diamond inline_calls (fun _ => true) 4 one_root = Some (Some s) /\
  st_errors s = [] /\ st_args s 1 = [("a", str); ("b", str)].
Proof.
  destruct (resolve inline_fields_of diamond inline_calls (fun _ => true) 4 one_root)
    as [[s | ] | ] eqn:E; try discriminate E.
  exists s. split; [reflexivity | ]. cbn in E. injection E as <-. split; reflexivity.
Qed.
Print Assumptions C39_inline_names_unchecked.

(** An argument with a name and no value crashes the compiler, so tidiness is needed;
    an argument without a name becomes a field without a name, and then the fields of
    an inline value are lost. *)
Theorem C39_no_value_crashes : forall n fuel, exists calls,
  resolve (fun _ => []) diamond calls (fun _ => true) (S fuel) one_root = Some None /\
  calls 0 1 = [[{| a_name := n; a_value := None |}]].
Proof.
  intros n fuel.
  exists (fun c d => match c, d with 0, 1 => [[{| a_name := n; a_value := None |}]] | _, _ => [] end).
  split; reflexivity.
Qed.
Print Assumptions C39_no_value_crashes.

Definition nameless_calls (c d : nat) : list expr :=
  match c, d with
  | 0, 1 => [[by_ "" (ty (KMessage 11) false); inl_ (ty (KMessage 10) false)]]
  | _, _ => []
  end.

Theorem C39_nameless_argument_refuted :
  ~ (forall F children calls has_rule rs fuel s, acyclic children -> (forall m, named (F m)) ->
       proper_roots children rs ->
       resolve F children calls has_rule fuel rs = Some (Some s) -> st_errors s = [] ->
       forall c d e n t, called children calls has_rule rs c d e -> passes F e n t ->
         In n (map fst (st_args s d))).
Proof.
  intros H. specialize (H inline_fields_of diamond nameless_calls (fun _ => true) one_root 4).
  destruct (resolve inline_fields_of diamond nameless_calls (fun _ => true) 4 one_root)
    as [[s | ] | ] eqn:E; try discriminate E.
  assert (Nm : forall m, named (inline_fields_of m)).
  { intros m X. do 12 (destruct m as [ | m]; [cbn in X; try destruct X as [X | []]; try discriminate X; try exact X | ]).
    exact X. }
  specialize (H s diamond_acyclic Nm one_root_proper eq_refl).
  assert (Es : st_errors s = [] /\ st_args s 1 = [("", ty (KMessage 11) false)]).
  { cbn in E. injection E as <-. split; reflexivity. }
  destruct Es as [E1 E2].
  specialize (H E1 0 1 [by_ "" (ty (KMessage 11) false); inl_ (ty (KMessage 10) false)] "a" str).
  rewrite E2 in H. destruct H as [X | []]; [ | | discriminate X].
  - exists 0, (Some [("id", str)]). split; [left; reflexivity | ]. split; [apply reaches_here | ].
    split; [left; reflexivity | ]. split; [reflexivity | left; reflexivity].
  - apply (passes_inline _ _ _ _ (inl_ (ty (KMessage 10) false)) (ty (KMessage 10) false) 10);
      [right; left; reflexivity | reflexivity | reflexivity | left; reflexivity].
Qed.
Print Assumptions C39_nameless_argument_refuted.

(** ** A case *)

Definition sample_calls (c d : nat) : list expr :=
  match c, d with
  | 0, 1 => [[by_ "x" num]]
  | 0, 2 => [[by_ "y" str; by_ "z" strs]; [by_ "z" strs; by_ "y" str]]
  | 1, 3 => [[inl_ (ty (KMessage 10) false); by_ "b" num]]
  | 2, 3 => [[by_ "a" str; by_ "b" dbl]]
  | _, _ => []
  end.

Example sample_meets_hypotheses :
  acyclic diamond /\ (forall m, named (inline_fields_of m)) /\
  (forall c d e, In e (sample_calls c d) -> tidy e) /\ proper_roots diamond one_root.
Proof.
  split; [exact diamond_acyclic | ]. split; [ | split; [ | exact one_root_proper]].
  - intros m X. do 12 (destruct m as [ | m]; [cbn in X; try destruct X as [X | []]; try discriminate X; try exact X | ]).
    exact X.
  - intros c d e I a J.
    destruct c as [ | [ | [ | c]]]; destruct d as [ | [ | [ | [ | d]]]]; cbn in I;
      repeat (destruct I as [<- | I]); try destruct I; cbn in J;
      repeat (destruct J as [<- | J]); try destruct J;
      (eexists; eexists; split; [reflexivity | try reflexivity; discriminate]).
Qed.

Example sample_result : exists s,
  resolve inline_fields_of diamond sample_calls (fun _ => true) 4 one_root = Some (Some s) /\
  st_errors s = [] /\ st_args s 0 = [("id", str)] /\ st_args s 1 = [("x", num)] /\
  st_args s 2 = [("y", str); ("z", strs)] /\ st_args s 3 = [("a", str); ("b", num)].
Proof.
  destruct (resolve inline_fields_of diamond sample_calls (fun _ => true) 4 one_root)
    as [[s | ] | ] eqn:E; try discriminate E.
  exists s. split; [reflexivity | ]. cbn in E. injection E as <-. repeat split; reflexivity.
Qed.
