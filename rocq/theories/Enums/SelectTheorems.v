(** * grpc.federation.enum.select (C62) *)

From Coq Require Import String List Bool ZArith Lia.
From Verif.Enums Require Import Select.
Import ListNotations.
Local Open Scope string_scope.

(** ** Specification *)

Definition int32 (z : Z) : Prop := (- 2 ^ 31 <= z < 2 ^ 31)%Z.

(** The arguments are values of known enums, or such calls again. *)
Inductive of_enums (known : string -> bool) : expr -> Prop :=
| of_value : forall n z, known n = true -> of_enums known (Any (COpaque n [CInt]) (VNumber z))
| of_select : forall c a b, of_enums known a -> of_enums known b -> of_enums known (Select c a b).

(** The conditions lead to the value [z] of the enum [n]. *)
Inductive selects : expr -> string -> Z -> Prop :=
| selects_value : forall n z, selects (Any (COpaque n [CInt]) (VNumber z)) n z
| selects_true : forall a b n z, selects a n z -> selects (Select true a b) n z
| selects_false : forall a b n z, selects b n z -> selects (Select false a b) n z.

(** [n] is the enum of one of the arguments. *)
Inductive mentions : expr -> string -> Prop :=
| mentions_value : forall n z, mentions (Any (COpaque n [CInt]) (VNumber z)) n
| mentions_true : forall c a b n, mentions a n -> mentions (Select c a b) n
| mentions_false : forall c a b n, mentions b n -> mentions (Select c a b) n.

(** No call has a call as its last argument. *)
Inductive last_is_value : expr -> Prop :=
| last_any : forall t v, last_is_value (Any t v)
| last_select : forall c a t v, last_is_value a -> last_is_value (Select c a (Any t v)).

(** The value is assigned as it is to its own enum, and converted to another. *)
Definition converted (cast : string -> Z -> option Z) (to n : string) (z : Z) : option Z :=
  if String.eqb n to then Some z else cast n z.

(** The full statement. *)
Definition C62_statement : Prop := forall cast known to c a b n z, known fqdn = false ->
  of_enums known (Select c a b) -> selects (Select c a b) n z -> int32 z ->
  assign cast known to (Select c a b) = Some (converted cast to n z).

(** ** Proofs *)

Section Proofs.
  Variable known : string -> bool.
  Hypothesis Private : known fqdn = false.

  (** The type of the resolver. *)
  Fixpoint rtype_of (e : expr) : rtype :=
    match e with
    | Any (COpaque n _) _ => REnum n
    | Any _ _ => ROther
    | Select _ a b => RSelector (rtype_of a) (rtype_of b)
    end.

  Lemma from_cel_select : forall p q, from_cel known (COpaque fqdn [p; q]) =
    match from_cel known p, from_cel known q with
    | Some a, Some b => if enum_or_selector a && enum_or_selector b then Some (RSelector a b) else None
    | _, _ => None
    end.
  Proof using Private. intros p q. cbn [from_cel]. rewrite Private. cbn [andb]. rewrite String.eqb_refl. reflexivity. Qed.

  Lemma enums_type : forall e, of_enums known e ->
    valid e = true /\ valid_argument (type_of e) = true /\ from_cel known (type_of e) = Some (rtype_of e) /\ enum_or_selector (rtype_of e) = true.
  Proof using Private.
    intros e H. induction H as [n z K | c a b Ha [Va [Aa [Fa Ea]]] Hb [Vb [Ab [Fb Eb]]]].
    - cbn [valid type_of valid_argument from_cel rtype_of]. rewrite K. cbn [andb]. rewrite orb_true_r. repeat split.
    - cbn [valid type_of rtype_of]. rewrite Aa, Ab, Va, Vb, from_cel_select, Fa, Fb, Ea, Eb.
      cbn [valid_argument andb]. rewrite String.eqb_refl. repeat split.
  Qed.

  Lemma enums_eval : forall e, of_enums known e ->
    exists v b, eval e = Some v /\ branch v = Some b /\ (forall c x y, e = Select c x y -> exists s, v = VSelector s /\ b = BSelector s).
  Proof using.
    intros e H. induction H as [n z K | c a b Ha [va [ba [Ea [Ba _]]]] Hb [vb [bb [Eb [Bb _]]]]].
    - exists (VNumber z), (BNumber (to_int32 z)). repeat split. intros c x y E. discriminate E.
    - exists (VSelector (Selector c ba bb)), (BSelector (Selector c ba bb)). cbn [eval]. rewrite Ea, Eb, Ba, Bb. repeat split.
      intros c' x y _. eexists. split; reflexivity.
  Qed.

  Lemma param_of_enums : forall to e, of_enums known e -> exists p, selector_param to (rtype_of e) = Some p /\
    (compiles p = true <-> last_is_value e) /\ ((exists n c, p = Convert n c) <-> exists t v, e = Any t v).
  Proof using.
    intros to e H. induction H as [n z K | c a b Ha [p [Pa [Ca Na]]] Hb [q [Pb [Cb Nb]]]].
    - exists (Convert n (negb (String.eqb n to))). split; [reflexivity | ]. split.
      + split; [intros _; constructor | reflexivity].
      + split; intros _; eexists; eexists; reflexivity.
    - exists (Nested p q). cbn [rtype_of selector_param]. rewrite Pa, Pb. split; [reflexivity | ]. split.
      + cbn [compiles]. rewrite andb_true_iff, Ca. split.
        * intros [L X]. destruct q as [n c' | q1 q2]; [ | discriminate X].
          destruct (proj1 Nb (ex_intro _ n (ex_intro _ c' eq_refl))) as [t [v ->]]. constructor. exact L.
        * intros L. inversion L as [ | ? ? t v L']; subst. split; [exact L' | ].
          destruct (proj2 Nb (ex_intro _ t (ex_intro _ v eq_refl))) as [n [c' ->]]. reflexivity.
      + split; [intros [n [c' E]]; discriminate E | intros [t [v E]]; discriminate E].
  Qed.

  Lemma to_int32_id : forall z, int32 z -> to_int32 z = z.
  Proof using. intros z H. unfold to_int32, int32 in *. rewrite Z.mod_small; lia. Qed.

  Lemma run_selected : forall cast to e, of_enums known e -> forall n z, selects e n z -> int32 z ->
    forall p v b, selector_param to (rtype_of e) = Some p -> eval e = Some v -> branch v = Some b ->
    run cast p (Some b) = converted cast to n z.
  Proof using.
    intros cast to e H. induction H as [m y K | c a b Ha IHa Hb IHb]; intros n z S R p v br P E B.
    - inversion S; subst. cbn in P. injection P as <-. cbn in E. injection E as <-. cbn [branch] in B. injection B as <-.
      cbn [run get_number]. rewrite (to_int32_id z R). unfold converted. destruct (String.eqb n to); reflexivity.
    - cbn [rtype_of selector_param] in P. destruct (selector_param to (rtype_of a)) as [pa | ] eqn:Pa; [ | discriminate P].
      destruct (selector_param to (rtype_of b)) as [pb | ] eqn:Pb; [ | discriminate P]. injection P as <-.
      cbn [eval] in E. destruct (eval a) as [x | ] eqn:Ea; [ | discriminate E]. destruct (eval b) as [y | ] eqn:Eb; [ | discriminate E].
      destruct (branch x) as [bx | ] eqn:Bx; [ | discriminate E]. destruct (branch y) as [by_ | ] eqn:By; [ | discriminate E].
      injection E as <-. cbn [branch] in B. injection B as <-. cbn [run get_selector get_cond get_true get_false].
      inversion S as [ | ? ? ? ? S' | ? ? ? ? S']; subst.
      + exact (IHa n z S' R pa x bx eq_refl eq_refl Bx).
      + exact (IHb n z S' R pb y by_ eq_refl eq_refl By).
  Qed.
End Proofs.

(** The selected value is assigned, converted from its enum, whatever the conditions, unless a
    call has a call as its last argument. *)
Theorem C62_assigned_partial : forall cast known to c a b n z, known fqdn = false ->
  of_enums known (Select c a b) -> last_is_value (Select c a b) -> selects (Select c a b) n z -> int32 z ->
  assign cast known to (Select c a b) = Some (converted cast to n z).
Proof.
  intros cast known to c a b n z Pr Of La S R. destruct (enums_type known Pr _ Of) as [V [_ [F _]]].
  destruct (enums_eval known _ Of) as [v [br [E [B X]]]]. destruct (X c a b eq_refl) as [s [-> ->]].
  destruct (param_of_enums known to _ Of) as [p [P [C _]]].
  unfold assign, resolve. rewrite V, F, E. cbn [rtype_of] in *. rewrite P, (proj2 C La). f_equal.
  exact (run_selected known cast to _ Of n z S R p _ _ P E B).
Qed.
Print Assumptions C62_assigned_partial.

(** Exactly then: with a call as the last argument of a call, what is generated is not valid. *)
Theorem C62_assigned_exact : forall cast known to c a b, known fqdn = false -> of_enums known (Select c a b) ->
  (assign cast known to (Select c a b) <> None <-> last_is_value (Select c a b)).
Proof.
  intros cast known to c a b Pr Of. destruct (enums_type known Pr _ Of) as [V [_ [F _]]].
  destruct (enums_eval known _ Of) as [v [br [E [B X]]]]. destruct (X c a b eq_refl) as [s [-> ->]].
  destruct (param_of_enums known to _ Of) as [p [P [C _]]].
  unfold assign, resolve. rewrite V, F, E. cbn [rtype_of] in *. rewrite P, <- C. destruct (compiles p).
  - split; [reflexivity | intros _ D; discriminate D].
  - split; [intros D; contradiction | discriminate].
Qed.
Print Assumptions C62_assigned_exact.

Definition value_of (n : string) (z : Z) : expr := Any (COpaque n [CInt]) (VNumber z).

Theorem C62_refuted : ~ C62_statement.
Proof.
  intros H. set (known := fun n => String.eqb n "a.E").
  assert (A : forall z, of_enums known (value_of "a.E" z)) by (intros z; apply of_value; reflexivity).
  specialize (H (fun _ z => Some z) known "a.E" true (value_of "a.E" 1) (Select true (value_of "a.E" 2) (value_of "a.E" 3)) "a.E" 1%Z eq_refl
    (of_select _ _ _ _ (A 1%Z) (of_select _ _ _ _ (A 2%Z) (A 3%Z))) (selects_true _ _ _ _ (selects_value _ _))).
  assert (R : int32 1) by (unfold int32; lia). specialize (H R). vm_compute in H. discriminate H.
Qed.
Print Assumptions C62_refuted.

(** ** What is accepted *)

(** Types other than that of selectors; a type named like an enum is that enum. *)
Definition plain_type (known : string -> bool) (t : ctype) : Prop :=
  match t with
  | COpaque n ps => n <> fqdn /\ exists p, ps = [p] /\ (n = "enum" \/ known n = true -> p = CInt)
  | _ => True
  end.
Fixpoint plain_arguments (known : string -> bool) (e : expr) : Prop :=
  match e with Any t _ => plain_type known t | Select _ a b => plain_arguments known a /\ plain_arguments known b end.

(** The types of the arguments are those of known enums. *)
Fixpoint enum_types (known : string -> bool) (e : expr) : Prop :=
  match e with
  | Any t _ => exists n, known n = true /\ t = COpaque n [CInt]
  | Select _ a b => enum_types known a /\ enum_types known b
  end.

Lemma accepted_types : forall known, known fqdn = false -> forall e, plain_arguments known e -> valid e = true ->
  valid_argument (type_of e) = true -> (exists t, from_cel known (type_of e) = Some t /\ enum_or_selector t = true) -> enum_types known e.
Proof.
  intros known Pr e. induction e as [t v | c a IHa b IHb]; intros P V A [r [F E]].
  - cbn in *. destruct t as [ | k | n ps]; [discriminate A | discriminate A | ]. destruct P as [N [p [-> I]]].
    cbn [valid_argument] in A. rewrite (proj2 (String.eqb_neq n fqdn) N) in A. cbn [orb] in A.
    assert (X : p = CInt).
    { destruct (String.eqb_spec n "enum") as [Y | _]; [apply I; left; exact Y | ]. cbn [orb] in A. destruct p; [reflexivity | discriminate A | discriminate A]. }
    subst p. cbn [from_cel] in F. rewrite (proj2 (String.eqb_neq n fqdn) N), andb_true_r in F.
    destruct (known n) eqn:K; [exists n; split; [exact K | reflexivity] | ]. injection F as <-. discriminate E.
  - cbn [plain_arguments valid type_of] in *. destruct P as [Pa Pb]. apply andb_true_iff in V. destruct V as [V Vb]. apply andb_true_iff in V. destruct V as [V Va].
    apply andb_true_iff in V. destruct V as [Aa Ab]. rewrite (from_cel_select known Pr) in F.
    destruct (from_cel known (type_of a)) as [x | ] eqn:Fa; [ | discriminate F]. destruct (from_cel known (type_of b)) as [y | ] eqn:Fb; [ | discriminate F].
    destruct (enum_or_selector x) eqn:Ex; [ | discriminate F]. destruct (enum_or_selector y) eqn:Ey; [ | discriminate F].
    split; [apply IHa; try assumption; exists x; split; [reflexivity | exact Ex] | apply IHb; try assumption; exists y; split; [reflexivity | exact Ey]].
Qed.

Lemma types_accepted : forall known, known fqdn = false -> forall e, enum_types known e ->
  valid e = true /\ valid_argument (type_of e) = true /\ exists t, from_cel known (type_of e) = Some t /\ enum_or_selector t = true.
Proof.
  intros known Pr e. induction e as [t v | c a IHa b IHb]; cbn [enum_types].
  - intros [n [K ->]]. cbn [valid type_of valid_argument from_cel]. rewrite K, orb_true_r. repeat split. exists (REnum n). split; reflexivity.
  - intros [Ha Hb]. destruct (IHa Ha) as [Va [Aa [x [Fa Ex]]]]. destruct (IHb Hb) as [Vb [Ab [y [Fb Ey]]]].
    cbn [valid type_of]. rewrite Aa, Ab, Va, Vb, (from_cel_select known Pr), Fa, Fb, Ex, Ey. cbn [valid_argument andb]. rewrite String.eqb_refl.
    repeat split. eexists. split; reflexivity.
Qed.

(** A call is accepted as a selector if and only if its arguments are of known enums, at any depth. *)
Theorem C62_accepted_exact : forall known c a b, known fqdn = false -> plain_arguments known (Select c a b) ->
  (resolve known (Select c a b) <> None <-> enum_types known (Select c a b)).
Proof.
  intros known c a b Pr P. unfold resolve. split.
  - intros H. destruct (valid (Select c a b)) eqn:V; [ | contradiction].
    apply (accepted_types known Pr (Select c a b) P V); [cbn [type_of valid_argument]; rewrite String.eqb_refl; reflexivity | ].
    cbn [type_of] in *. rewrite (from_cel_select known Pr) in *.
    destruct (from_cel known (type_of a)) as [x | ]; [ | contradiction]. destruct (from_cel known (type_of b)) as [y | ]; [ | contradiction].
    destruct (enum_or_selector x && enum_or_selector y); [ | contradiction]. eexists. split; reflexivity.
  - intros H. destruct (types_accepted known Pr _ H) as [V [_ [t [F _]]]]. rewrite V, F. discriminate.
Qed.
Print Assumptions C62_accepted_exact.

(** So the example of docs/cel/enum.md:38, with constants, which are numbers in CEL, is refused. *)
Theorem C62_constants_refused : forall known c z z', known fqdn = false ->
  resolve known (Select c (Any CInt (VNumber z)) (Any CInt (VNumber z'))) = None.
Proof. intros known c z z' _. reflexivity. Qed.
Print Assumptions C62_constants_refused.

(** The check alone lets other arguments pass: an optional number, where the value is not used as
    an enum, and evaluation panics. *)
Theorem C62_optional_refuted : exists e, valid e = true /\ eval e = None.
Proof. exists (Select true (Any (COpaque "optional_type" [CInt]) VOther) (Any (COpaque "optional_type" [CInt]) VOther)). split; reflexivity. Qed.
Print Assumptions C62_optional_refuted.

(** Values of enums never make it panic. *)
Theorem C62_no_panic : forall known e, of_enums known e -> eval e <> None.
Proof. intros known e H. destruct (enums_eval known e H) as [v [b [-> _]]]. discriminate. Qed.
Print Assumptions C62_no_panic.

(** ** Aliases *)

(** Each enum that may come out is the wanted one or declared as an alias. *)
Definition aliased (aliases : string -> list string) (to n : string) : Prop :=
  n = to \/ In to (aliases n) \/ In n (aliases to).

Lemma alias_spec : forall aliases to n, String.eqb n to || find_alias aliases n to = true <-> aliased aliases to n.
Proof.
  intros aliases to n. unfold find_alias, aliased. rewrite !orb_true_iff, String.eqb_eq, !existsb_exists. split.
  - intros [H | [[x [I E]] | [x [I E]]]]; [left; exact H | right; left | right; right]; apply String.eqb_eq in E; subst x; exact I.
  - intros [H | [H | H]]; [left; exact H | right; left; exists to | right; right; exists n]; (split; [exact H | apply String.eqb_refl]).
Qed.

Theorem C62_field_checked : forall known aliases to e, known fqdn = false -> of_enums known e ->
  exists t, from_cel known (type_of e) = Some t /\
  (field_accepts aliases to t = true <-> forall n, mentions e n -> aliased aliases to n).
Proof.
  intros known aliases to e Pr Of. exists (rtype_of e). split; [exact (proj1 (proj2 (proj2 (enums_type known Pr e Of)))) | ].
  induction Of as [n z K | c a b Ha IHa Hb IHb]; cbn [rtype_of field_accepts].
  - rewrite alias_spec. split; [intros H m M; inversion M; subst; exact H | intros H; apply H; constructor].
  - rewrite andb_true_iff, IHa, IHb. split.
    + intros [H1 H2] n M. inversion M; subst; auto.
    + intros H. split; intros n M; apply H; [apply mentions_true | apply mentions_false]; exact M.
Qed.
Print Assumptions C62_field_checked.

(** A definition with `enum` accepts any enums in a selector. *)
Definition C62_definition_statement : Prop := forall known aliases to e t n, known fqdn = false -> of_enums known e ->
  from_cel known (type_of e) = Some t -> definition_accepts aliases to t = true -> mentions e n -> aliased aliases to n.

Theorem C62_definition_refuted : ~ C62_definition_statement.
Proof.
  intros H. set (known := fun n => String.eqb n "a.E").
  assert (A : forall z, of_enums known (value_of "a.E" z)) by (intros z; apply of_value; reflexivity).
  specialize (H known (fun _ => []) "b.E" (Select true (value_of "a.E" 1) (value_of "a.E" 2)) (RSelector (REnum "a.E") (REnum "a.E")) "a.E" eq_refl
    (of_select _ _ _ _ (A 1%Z) (A 2%Z)) eq_refl eq_refl (mentions_true _ _ _ _ (mentions_value _ _))).
  destruct H as [H | [[] | []]]. discriminate H.
Qed.
Print Assumptions C62_definition_refuted.

(** Selectors of different values are equal in CEL. *)
Theorem C62_equal_refuted : exists s s', s <> s' /\ selector_equal s (VSelector s') = true.
Proof. exists (Selector true (BNumber 1) (BNumber 2)), (Selector true (BNumber 3) (BNumber 2)). split; [discriminate | reflexivity]. Qed.
Print Assumptions C62_equal_refuted.

(** Example: _examples/06_alias, federation.proto:76-77, two enums and a nested call. *)
Definition post_enums (n : string) : bool := String.eqb n "org.post.PostDataType" || String.eqb n "org.post.v2.PostDataType".
Definition nested (c d : bool) : expr :=
  Select c (Select d (value_of "org.post.PostDataType" 2) (value_of "org.post.v2.PostDataType" 1)) (value_of "org.post.v2.PostDataType" 3).
Example C62_example : of_enums post_enums (nested true false) /\ last_is_value (nested true false) /\
  selects (nested true false) "org.post.v2.PostDataType" 1 /\
  assign (fun n z => if String.eqb n "org.post.PostDataType" then Some (z + 10)%Z else Some (z + 20)%Z) post_enums "org.federation.PostDataType" (nested true false) = Some (Some 21%Z).
Proof.
  split; [repeat (constructor; try reflexivity) | ]. split; [repeat constructor | ]. split; [repeat constructor | ]. vm_compute. reflexivity.
Qed.
