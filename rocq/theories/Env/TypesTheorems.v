(** * An environment variable has the type it is declared with (C67) *)

From Coq Require Import String List Bool.
From Verif.Env Require Import Types.
Import ListNotations.
Local Open Scope string_scope.

(** ** Specification *)

(** The Go type a declaration describes. *)
Inductive describes : env_type -> go_type -> Prop :=
| D_string : describes (TKind STRING) GoString
| D_bool : describes (TKind BOOL) GoBool
| D_int64 : describes (TKind INT64) GoInt64
| D_uint64 : describes (TKind UINT64) GoUint64
| D_double : describes (TKind DOUBLE) GoFloat64
| D_duration : describes (TKind DURATION) GoDuration
| D_repeated : forall t g, describes t g -> describes (TRepeated t) (GoSlice g)
| D_map : forall k v gk gv, describes k gk -> describes v gv -> describes (TMap (Some k) (Some v)) (GoMap gk gv).

(** An accepted declaration gives the type it describes, and a type of Go; no declaration crashes the generator. *)
Definition C67_statement : Prop := forall t,
  resolve t false <> Panic /\
  forall r, resolve t false = Resolved r -> describes t (go_type_of r) /\ go_valid (go_type_of r) = true.

(** Every "repeated" is of a kind. *)
Inductive flat : env_type -> Prop :=
| F_unset : flat TUnset
| F_kind : forall k, flat (TKind k)
| F_repeated : forall k, flat (TRepeated (TKind k))
| F_map : forall k v, (forall t, k = Some t -> flat t) -> (forall t, v = Some t -> flat t) -> flat (TMap k v).

(** Every map has a key and a value. *)
Inductive whole : env_type -> Prop :=
| W_unset : whole TUnset
| W_kind : forall k, whole (TKind k)
| W_repeated : forall t, whole t -> whole (TRepeated t)
| W_map : forall k v, whole k -> whole v -> whole (TMap (Some k) (Some v)).

(** Every key is of a kind. *)
Inductive keyed : env_type -> Prop :=
| K_unset : keyed TUnset
| K_kind : forall k, keyed (TKind k)
| K_repeated : forall t, keyed t -> keyed (TRepeated t)
| K_map : forall k v, (forall t, v = Some t -> keyed t) -> keyed (TMap (Some (TKind k)) v).

(** ** Proofs *)

Section Induction.
  Variable P : env_type -> Prop.
  Hypothesis U : P TUnset.
  Hypothesis K : forall k, P (TKind k).
  Hypothesis R : forall t, P t -> P (TRepeated t).
  Hypothesis M : forall k v, (forall t, k = Some t -> P t) -> (forall t, v = Some t -> P t) -> P (TMap k v).
  Fixpoint env_type_rect' (t : env_type) : P t :=
    match t with
    | TUnset => U
    | TKind k => K k
    | TRepeated t' => R t' (env_type_rect' t')
    | TMap k v => M k v
        (match k as k0 return forall t, k0 = Some t -> P t with
         | None => fun t E => match E in _ = y return match y with None => True | Some _ => P t end with eq_refl => I end
         | Some k' => fun t E => match E in _ = y return match y with None => True | Some x => P x end with eq_refl => env_type_rect' k' end
         end)
        (match v as v0 return forall t, v0 = Some t -> P t with
         | None => fun t E => match E in _ = y return match y with None => True | Some _ => P t end with eq_refl => I end
         | Some v' => fun t E => match E in _ = y return match y with None => True | Some x => P x end with eq_refl => env_type_rect' v' end
         end)
    end.
End Induction.

Lemma resolve_repeated : forall t b, resolve (TRepeated t) b = resolve t true.
Proof. reflexivity. Qed.

(** The panic: exactly a map without a key, or whose key is accepted and that has no value. *)
Theorem C67_no_panic_partial : forall t, whole t -> forall b, resolve t b <> Panic.
Proof.
  intros t W. induction W as [ | k | t W IH | k v Wk IHk Wv IHv]; intros b; cbn [resolve].
  - discriminate.
  - destruct k; discriminate.
  - apply IH.
  - specialize (IHk false). specialize (IHv false). destruct (resolve k false); [ | discriminate | congruence].
    destruct (resolve v false); [discriminate | discriminate | congruence].
Qed.
Print Assumptions C67_no_panic_partial.

Lemma describes_fun : forall t g, describes t g -> forall g', describes t g' -> g = g'.
Proof.
  intros t g D. induction D as [ | | | | | | t g D IH | k v gk gv Dk IHk Dv IHv]; intros g' D'; inversion D'; subst; try reflexivity.
  - f_equal. apply IH. assumption.
  - f_equal; [apply IHk | apply IHv]; assumption.
Qed.

Lemma described_resolved : forall t b r, resolve t b = Resolved r -> flat t -> (b = true -> exists k, t = TKind k) ->
  describes t (if b then match go_type_of r with GoSlice g => g | g => g end else go_type_of r) /\ (b = true -> exists g, go_type_of r = GoSlice g).
Proof.
  intros t b r E F. revert b r E. induction F as [ | k | k | k v Fk IHk Fv IHv]; intros b r E B; cbn [resolve] in E.
  - discriminate E.
  - destruct k; try discriminate E; injection E as <-; destruct b; cbn; (split; [constructor | ]); try discriminate; intros _; eexists; reflexivity.
  - destruct b; [destruct (B eq_refl) as [k' X]; discriminate X | ].
    split; [ | discriminate]. destruct k; try discriminate E; injection E as <-; cbn; repeat constructor.
  - destruct b; [destruct (B eq_refl) as [k' X]; discriminate X | ]. split; [ | discriminate].
    destruct k as [k | ]; [ | discriminate E]. destruct (resolve k false) as [rk | | ] eqn:Ek; try discriminate E.
    destruct v as [v | ]; [ | discriminate E]. destruct (resolve v false) as [rv | | ] eqn:Ev; try discriminate E. injection E as <-.
    destruct (IHk k eq_refl false rk Ek) as [Dk _]; [discriminate | ]. destruct (IHv v eq_refl false rv Ev) as [Dv _]; [discriminate | ].
    cbn [go_type_of]. constructor; assumption.
Qed.

(** A declaration gives the type it describes exactly if every "repeated" in it is of a kind. *)
Theorem C67_described_exact : forall t r, resolve t false = Resolved r -> (describes t (go_type_of r) <-> flat t).
Proof.
  intros t r E. split.
  - revert r E. pattern t. apply env_type_rect'; clear t.
    + intros r E. discriminate E.
    + intros k r E D. constructor.
    + intros t _ r E D. rewrite resolve_repeated in E. inversion D as [ | | | | | | t' g D' | ]; subst.
      destruct t as [ | k | t' | k v].
      * discriminate E.
      * constructor.
      * exfalso. inversion D' as [ | | | | | | t'' g' D'' | ]; subst. cbn [resolve] in E.
        assert (X : forall u w, resolve u true = Resolved w -> go_type_of w <> GoSlice (GoSlice g')).
        { induction u as [ | k | u IH | k v]; intros w X Y; cbn [resolve] in X.
          - discriminate X.
          - destruct k; try discriminate X; injection X as <-; discriminate Y.
          - exact (IH w X Y).
          - destruct (match k with None => Panic | Some k' => resolve k' false end); try discriminate X.
            destruct (match v with None => Panic | Some v' => resolve v' false end); try discriminate X. injection X as <-. discriminate Y. }
        exact (X t' r E (eq_sym H0)).
      * exfalso. cbn [resolve] in E. destruct (match k with None => Panic | Some k' => resolve k' false end); try discriminate E.
        destruct (match v with None => Panic | Some v' => resolve v' false end); try discriminate E. injection E as <-. discriminate H0.
    + intros k v IHk IHv r E D. cbn [resolve] in E. inversion D as [ | | | | | | | k' v' gk gv Dk Dv]; subst.
      destruct (resolve k' false) as [rk | | ] eqn:Ek; try discriminate E. destruct (resolve v' false) as [rv | | ] eqn:Ev; try discriminate E.
      injection E as <-. cbn [go_type_of] in H1. injection H1 as -> ->.
      constructor; intros t X; injection X as <-; [exact (IHk k' eq_refl rk Ek Dk) | exact (IHv v' eq_refl rv Ev Dv)].
  - intros F. destruct (described_resolved t false r E F) as [D _]; [discriminate | exact D].
Qed.
Print Assumptions C67_described_exact.

Lemma go_kind_scalar : forall k, match go_kind k with GoSlice _ | GoMap _ _ => false | _ => true end = true.
Proof. intros []; reflexivity. Qed.

(** With kinds as keys the type is one of Go. *)
Theorem C67_valid_partial : forall t b r, keyed t -> resolve t b = Resolved r -> go_valid (go_type_of r) = true.
Proof.
  intros t b r Kt. revert b r. induction Kt as [ | k | t Kt IH | k v Kv IHv]; intros b r E; cbn [resolve] in E.
  - discriminate E.
  - destruct k; try discriminate E; injection E as <-; destruct b; reflexivity.
  - exact (IH true r E).
  - destruct k; try discriminate E; (destruct v as [v | ]; [ | discriminate E]);
      (destruct (resolve v false) as [rv | | ] eqn:Ev; try discriminate E); injection E as <-; cbn; exact (IHv v eq_refl false rv Ev).
Qed.
Print Assumptions C67_valid_partial.

(** Every declaration with nothing left out and no UNKNOWN in it is accepted. *)
Inductive known : env_type -> Prop :=
| N_kind : forall k, k <> UNKNOWN -> known (TKind k)
| N_repeated : forall t, known t -> known (TRepeated t)
| N_map : forall k v, known k -> known v -> known (TMap (Some k) (Some v)).
Theorem C67_accepted_exact : forall t b, (exists r, resolve t b = Resolved r) <-> known t.
Proof.
  intros t. pattern t. apply env_type_rect'; clear t.
  - intros b. split; [intros [r E]; discriminate E | intros H; inversion H].
  - intros k b. split; [intros [r E]; constructor; intros ->; discriminate E | ]. intros H. inversion H as [? N | | ]; subst.
    destruct k; try congruence; eexists; reflexivity.
  - intros t IH b. cbn [resolve]. rewrite IH. split; [intros H; constructor; exact H | intros H; inversion H; assumption].
  - intros k v IHk IHv b. cbn [resolve]. split.
    + intros [r E]. destruct k as [k | ]; [ | discriminate E]. destruct (resolve k false) as [rk | | ] eqn:Ek; try discriminate E.
      destruct v as [v | ]; [ | discriminate E]. destruct (resolve v false) as [rv | | ] eqn:Ev; try discriminate E.
      constructor; [apply (IHk k eq_refl false) | apply (IHv v eq_refl false)]; eexists; eassumption.
    + intros H. inversion H as [ | | k' v' Nk Nv]; subst. destruct (proj2 (IHk k' eq_refl false) Nk) as [rk Ek].
      destruct (proj2 (IHv v' eq_refl false) Nv) as [rv Ev]. rewrite Ek, Ev. eexists. reflexivity.
Qed.
Print Assumptions C67_accepted_exact.

Theorem C67_refuted : ~ C67_statement.
Proof. intros H. destruct (H (TMap (Some (TKind STRING)) None)) as [N _]. apply N. reflexivity. Qed.
Print Assumptions C67_refuted.

(** Also without the panic: a list of lists becomes a list, a list of maps a map, and a list may be a key. *)
Theorem C67_type_refuted :
  (exists r, resolve (TRepeated (TRepeated (TKind STRING))) false = Resolved r /\ go_type_of r = GoSlice GoString) /\
  (exists r, resolve (TRepeated (TMap (Some (TKind STRING)) (Some (TKind BOOL)))) false = Resolved r /\ go_type_of r = GoMap GoString GoBool) /\
  (exists r, resolve (TMap (Some (TRepeated (TKind STRING))) (Some (TKind BOOL))) false = Resolved r /\ go_valid (go_type_of r) = false).
Proof. repeat split; eexists; (split; reflexivity). Qed.
Print Assumptions C67_type_refuted.

Example C67_example : flat (TMap (Some (TKind STRING)) (Some (TRepeated (TKind DURATION)))) /\ keyed (TMap (Some (TKind STRING)) (Some (TRepeated (TKind DURATION)))) /\
  whole (TMap (Some (TKind STRING)) (Some (TRepeated (TKind DURATION)))) /\
  exists r, resolve (TMap (Some (TKind STRING)) (Some (TRepeated (TKind DURATION)))) false = Resolved r /\ go_type_of r = GoMap GoString (GoSlice GoDuration).
Proof.
  split; [constructor; intros t E; injection E as <-; constructor | split; [constructor; intros t E; injection E as <-; constructor; constructor | split]].
  - constructor; [constructor | constructor; constructor].
  - eexists. split; reflexivity.
Qed.
