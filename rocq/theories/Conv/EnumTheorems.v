(** Theorems about conversions between enums (C23). *)
From Coq Require Import Ascii String List Bool Arith ZArith Lia.
From Verif.Base Require Import Text.
From Verif.Conv Require Import Enum EnumSpec EnumProofs.
Import ListNotations.
Local Open Scope string_scope.

Section Theorems.
  Variable enums : nat -> enum.
  Notation values e := (e_values (enums e)).

  (** [e] is a federation enum whose option names the dependency's enum [d], and the resolver accepts it. *)
  Definition federates (e d : nat) : Prop :=
    well_named enums e /\ (exists l, e_opt (enums e) = Some l /\ In d l /\ forall a, In a l -> well_named enums a) /\ resolve_enum enums (enums e) <> None.

  Lemma fed : forall e d, federates e d -> (forall a, In a (aliases_of enums e) -> well_named enums a) /\ has_aliases (enums e) = true.
  Proof.
    intros e d (We & (l & El & Hd & Wl) & Acc). unfold aliases_of, has_aliases. rewrite El. split; [exact Wl|]. destruct l; [destruct Hd|reflexivity].
  Qed.

  (** C23. A value of the dependency's enum becomes the value that declares it; any other number becomes the default, or 0
      if there is none. *)
  Theorem C23_forward : forall e d, federates e d ->
    exists t, ToEnum enums d e = Some t /\
      (enum_compiles t = true ->
         (forall v w, declares enums e v d w -> castEnum t (v_num w) = v_num v) /\
         (forall x, (forall v w, declares enums e v d w -> v_num w <> x) ->
            (forall v, In v (values e) -> is_default v -> (forall u, In u (values e) -> is_default u -> u = v) -> castEnum t x = v_num v) /\
            ((forall v, In v (values e) -> ~ is_default v) -> castEnum t x = 0%Z))).
  Proof.
    intros e d F. destruct (fed e d F) as [Wa Ha]. destruct F as (We & _ & Acc). exists (depToService (rules enums e) d).
    split; [unfold ToEnum; rewrite Ha; reflexivity|]. intros C. apply distinct_spec in C. unfold castEnum. split.
    - intros v w D. rewrite (lookup_in _ _ (v_num v) C); [reflexivity|]. apply (forward_cases enums e We Wa Acc). exists v, w. auto.
    - intros x Hx. rewrite lookup_none.
      2:{ intros y Hy. apply (forward_cases enums e We Wa Acc) in Hy. destruct Hy as (v & w & D & Ex & _). apply (Hx v w D). symmetry. exact Ex. }
      rewrite (forward_default enums e Acc d).
      split.
      + intros v Hv Dv U. revert Hv U. generalize (values e). intros l Hv U.
        assert (G : forall l z, (forall u, In u l -> is_default u -> u = v) ->
          fold_left (fun d v => match v_opt v with Some o => if vo_default o then v_num v else d | None => d end) l z = v_num v \/
          (fold_left (fun d v => match v_opt v with Some o => if vo_default o then v_num v else d | None => d end) l z = z /\ ~ In v l)).
        { clear l Hv U. induction l as [|u l IH]; intros z U; cbn [fold_left]; [right; auto|].
          assert (Hd : (exists o, v_opt u = Some o /\ vo_default o = true) \/ match v_opt u with Some o => if vo_default o then v_num u else z | None => z end = z /\ ~ is_default u).
          { unfold is_default. destruct (v_opt u) as [o|]; [|right; split; [reflexivity|]; intros (o & E & _); discriminate E].
            destruct (vo_default o) eqn:E; [left; exists o; auto|]. right. split; [reflexivity|]. intros (o' & E1 & E2). congruence. }
          destruct (IH (match v_opt u with Some o => if vo_default o then v_num u else z | None => z end) (fun u' Hu => U u' (or_intror Hu))) as [E|[E N]].
          - left. exact E.
          - rewrite E. destruct Hd as [(o & Eo & Do)|[Ez Nd]].
            + left. rewrite Eo, Do. f_equal. apply U; [left; reflexivity|exists o; auto].
            + right. split; [exact Ez|]. intros [->|Hi]; [|exact (N Hi)]. exact (Nd Dv). }
        destruct (G l 0%Z U) as [E|[_ N]]; [exact E|contradiction].
      + intros ND. revert ND. generalize (values e). intros l ND.
        assert (G : forall l z, (forall v, In v l -> ~ is_default v) ->
          fold_left (fun d v => match v_opt v with Some o => if vo_default o then v_num v else d | None => d end) l z = z).
        { clear l ND. induction l as [|u l IH]; intros z N; cbn [fold_left]; [reflexivity|]. rewrite IH by (intros v Hv; apply N; right; exact Hv).
          destruct (v_opt u) as [o|] eqn:Eo; [|reflexivity]. destruct (vo_default o) eqn:E; [|reflexivity]. exfalso. apply (N u (or_introl eq_refl)). exists o. auto. }
        apply G, ND.
  Qed.

  (** C23. The way back, to a dependency's enum without aliases of its own: a value becomes its alias, any other number 0. *)
  Theorem C23_backward : forall e d t, federates e d -> has_aliases (enums d) = false -> ToEnum enums e d = Some t -> enum_compiles t = true ->
    (forall v w, declares enums e v d w -> castEnum t (v_num v) = v_num w) /\
    (forall x, (forall v w, declares enums e v d w -> v_num v <> x) -> castEnum t x = 0%Z).
  Proof.
    intros e d t F Hd H C. destruct (fed e d F) as [Wa Ha]. destruct F as (We & _ & Acc). unfold ToEnum in H. rewrite Hd, Ha in H.
    destruct (serviceToDep (rules enums e) d) as [l|] eqn:E; [|discriminate H]. injection H as <-.
    destruct (backward_cases enums e We Wa Acc d l E) as [_ B]. apply distinct_spec in C. unfold castEnum. cbn [ce_cases ce_default] in *. split.
    - intros v w D. rewrite (lookup_in _ _ (v_num w) C); [reflexivity|]. apply B. exists v, w. auto.
    - intros x Hx. rewrite lookup_none; [reflexivity|]. intros y Hy. apply B in Hy. destruct Hy as (v & w & D & Ex & _). apply (Hx v w D). symmetry. exact Ex.
  Qed.

  (** C23. There and back. *)
  Theorem C23_round_trip : forall e d t u, federates e d -> has_aliases (enums d) = false ->
    ToEnum enums d e = Some t -> ToEnum enums e d = Some u -> enum_compiles t = true -> enum_compiles u = true ->
    forall v w, declares enums e v d w -> castEnum u (castEnum t (v_num w)) = v_num w /\ castEnum t (castEnum u (v_num v)) = v_num v.
  Proof.
    intros e d t u F Hd Ht Hu Ct Cu v w D. destruct (C23_forward e d F) as (t' & E & Hf). assert (t' = t) by congruence. subst t'.
    destruct (Hf Ct) as [Fw _]. destruct (C23_backward e d u F Hd Hu Cu) as [Bw _].
    rewrite (Fw v w D), (Bw v w D), (Fw v w D). auto.
  Qed.

  (** C23. The way back is refused exactly if a value of the federation enum is a default. *)
  Theorem C23_default_rejected : forall e d, federates e d -> has_aliases (enums d) = false ->
    (ToEnum enums e d = None <-> exists v, In v (values e) /\ is_default v).
  Proof.
    intros e d F Hd. destruct (fed e d F) as [Wa Ha]. destruct F as (We & _ & Acc). unfold ToEnum. rewrite Hd, Ha.
    destruct (serviceToDep (rules enums e) d) as [l|] eqn:E.
    - split; [discriminate|]. intros (v & Hv & Dv). destruct (backward_cases enums e We Wa Acc d l E) as [N _]. destruct (N v Hv Dv).
    - split; [intros _|reflexivity].
      assert (X : (exists v, In v (values e) /\ is_default v) \/ (forall v, In v (values e) -> ~ is_default v)).
      { clear. induction (values e) as [|v l IH]; [right; intros ? []|].
        assert (Hd : is_default v \/ ~ is_default v).
        { unfold is_default. destruct (v_opt v) as [o|]; [|right; intros (o & E & _); discriminate E]. destruct (vo_default o) eqn:E; [left; exists o; auto|].
          right. intros (o' & E1 & E2). congruence. }
        destruct Hd as [Hd|Hd]; [left; exists v; auto with datatypes|]. destruct IH as [(u & Hu & Du)|IH]; [left; exists u; auto with datatypes|].
        right. intros u [<-|Hu]; [exact Hd|apply IH, Hu]. }
      destruct X as [X|X]; [exact X|]. destruct (backward_total enums e We Wa d X E).
  Qed.

  (** C23. An ambiguous conversion never becomes a conversion that compiles: a value with two aliases in the same
      dependency's enum on the way back, or two values with the same alias on the way there. *)
  Theorem C23_ambiguous_partial : forall e d, federates e d ->
    (forall t v v' w, ToEnum enums d e = Some t -> declares enums e v d w -> declares enums e v' d w -> v_num v <> v_num v' -> enum_compiles t = false) /\
    (forall t v w w', has_aliases (enums d) = false -> ToEnum enums e d = Some t -> declares enums e v d w -> declares enums e v d w' ->
       v_num w <> v_num w' -> enum_compiles t = false).
  Proof.
    intros e d F. split.
    - intros t v v' w H D D' N. destruct (enum_compiles t) eqn:C; [|reflexivity]. exfalso. destruct (C23_forward e d F) as (t' & E & Hf).
      assert (t' = t) by congruence. subst t'. destruct (Hf C) as [Fw _]. apply N. rewrite <- (Fw v w D). apply Fw, D'.
    - intros t v w w' Hd H D D' N. destruct (enum_compiles t) eqn:C; [|reflexivity]. exfalso. destruct (C23_backward e d t F Hd H C) as [Bw _].
      apply N. rewrite <- (Bw v w D). apply Bw, D'.
  Qed.
End Theorems.
Print Assumptions C23_forward.
Print Assumptions C23_backward.
Print Assumptions C23_round_trip.
Print Assumptions C23_default_rejected.
Print Assumptions C23_ambiguous_partial.

(** *** A case that meets the hypotheses *)
Definition val (n : string) (z : Z) : evalue := {| v_name := n; v_num := z; v_opt := None |}.
Definition alias (n : string) (z : Z) (a : list string) : evalue := {| v_name := n; v_num := z; v_opt := Some {| vo_default := false; vo_alias := a |} |}.
Definition dflt (n : string) (z : Z) : evalue := {| v_name := n; v_num := z; v_opt := Some {| vo_default := true; vo_alias := [] |} |}.
(** Enum 0 is post.PostType with values UNSPECIFIED 0, FOO 1, BAR 2, BAZ 7; enum 1 renames FOO and BAR; enum 2 has two values for the dependency's enum
    and a default. *)
Definition ex_enums (n : nat) : enum :=
  match n with
  | 0 => {| e_fqdn := "post.PostType"; e_pkg := "post"; e_values := [val "UNSPECIFIED" 0; val "FOO" 1; val "BAR" 2; val "BAZ" 7]; e_opt := None |}
  | 1 => {| e_fqdn := "fed.Type"; e_pkg := "fed"; e_values := [val "UNSPECIFIED" 0; alias "F" 5 ["FOO"]; alias "B" 6 ["post.PostType.BAR"]]; e_opt := Some [0] |}
  | 2 => {| e_fqdn := "fed.Kind"; e_pkg := "fed"; e_values := [dflt "OTHER" 3; alias "ANY" 4 ["FOO"; "BAR"]]; e_opt := Some [0] |}
  | _ => {| e_fqdn := ""; e_pkg := ""; e_values := []; e_opt := None |}
  end.

Lemma ex_named : forall n, well_named ex_enums n.
Proof.
  intros n. destruct n as [|[|[|n]]]; unfold well_named, explicit; cbn.
  all: split; [repeat constructor; cbn; intuition congruence|]. all: split; repeat constructor; cbn; intuition congruence.
Qed.
Example C23_sample : federates ex_enums 1 0 /\ has_aliases (ex_enums 0) = false /\ declares ex_enums 1 (alias "B" 6 ["post.PostType.BAR"]) 0 (val "BAR" 2) /\
  exists t u, ToEnum ex_enums 0 1 = Some t /\ ToEnum ex_enums 1 0 = Some u /\ enum_compiles t = true /\ enum_compiles u = true /\
    castEnum t 2 = 6%Z /\ castEnum u 6 = 2%Z /\ castEnum t 7 = 0%Z /\ castEnum t (-5) = 0%Z.
Proof.
  split; [|split; [reflexivity|split]].
  - split; [apply ex_named|split; [|vm_compute; discriminate]]. exists [0]. split; [reflexivity|]. split; [left; reflexivity|]. intros; apply ex_named.
  - unfold declares, is_default, explicit, names. cbn [alias val v_opt e_values ex_enums e_opt]. split; [cbn; intuition|]. split; [intros (o & E & D); injection E as <-; discriminate D|].
    split; [exists [0]; cbn; auto|]. left. exists "post.PostType.BAR". split; [left; reflexivity|]. split; [cbn; intuition|]. right. left. reflexivity.
  - exists (depToService (rules ex_enums 1) 0). eexists. split; [reflexivity|]. split; [vm_compute; reflexivity|]. vm_compute. repeat split; reflexivity.
Qed.
Example C23_default_sample : federates ex_enums 2 0 /\ ToEnum ex_enums 2 0 = None /\
  exists t, ToEnum ex_enums 0 2 = Some t /\ enum_compiles t = true /\ castEnum t 1 = 4%Z /\ castEnum t 2 = 4%Z /\ castEnum t 0 = 3%Z /\ castEnum t 99 = 3%Z.
Proof.
  split; [|split].
  - split; [apply ex_named|split; [|vm_compute; discriminate]]. exists [0]. split; [reflexivity|]. split; [left; reflexivity|]. intros; apply ex_named.
  - vm_compute. reflexivity.
  - exists (depToService (rules ex_enums 2) 0). split; [reflexivity|]. vm_compute. repeat split; reflexivity.
Qed.

(** *** What is not true *)
(** The full claim: an ambiguous way back is refused by the generator. *)
Definition C23_ambiguous_statement : Prop :=
  forall enums e d v w w', federates enums e d -> has_aliases (enums d) = false -> declares enums e v d w -> declares enums e v d w' ->
    v_num w <> v_num w' -> ToEnum enums e d = None.
Definition amb_enums (n : nat) : enum :=
  match n with
  | 2 => {| e_fqdn := "fed.Kind"; e_pkg := "fed"; e_values := [alias "ANY" 4 ["FOO"; "BAR"]]; e_opt := Some [0] |}
  | n => ex_enums n
  end.
Lemma amb_named : forall n, well_named amb_enums n.
Proof.
  intros n. destruct n as [|[|[|n]]]; unfold well_named, explicit; cbn.
  all: split; [repeat constructor; cbn; intuition congruence|]. all: split; repeat constructor; cbn; intuition congruence.
Qed.
(** The generator writes a switch with the case of ANY twice. *)
Theorem C23_ambiguous_refuted : ~ C23_ambiguous_statement.
Proof.
  intros H. specialize (H amb_enums 2 0 (alias "ANY" 4 ["FOO"; "BAR"]) (val "FOO" 1) (val "BAR" 2)).
  assert (D : forall w, In w [val "FOO" 1; val "BAR" 2] -> declares amb_enums 2 (alias "ANY" 4 ["FOO"; "BAR"]) 0 w).
  { intros w Hw. unfold declares, is_default, explicit, names. cbn [alias val v_opt e_values ex_enums amb_enums e_opt]. split; [cbn; intuition|]. split; [intros (o & E & Do); injection E as <-; discriminate Do|].
    split; [exists [0]; cbn; auto|]. left. destruct Hw as [<-|[<-|[]]]; [exists "FOO"|exists "BAR"]; cbn; intuition. }
  assert (F : federates amb_enums 2 0).
  { split; [apply amb_named|split; [|vm_compute; discriminate]]. exists [0]. split; [reflexivity|]. split; [left; reflexivity|]. intros; apply amb_named. }
  specialize (H F eq_refl (D _ (or_introl eq_refl)) (D _ (or_intror (or_introl eq_refl)))). cbn in H.
  assert (N : 1%Z <> 2%Z) by discriminate. specialize (H N). vm_compute in H. discriminate H.
Qed.
Print Assumptions C23_ambiguous_refuted.

(** The way back to an enum that has aliases of its own (to a third enum) ignores the aliases of the source. *)
Definition C23_backward_statement : Prop :=
  forall enums e d t, federates enums e d -> resolve_enum enums (enums d) <> None -> ToEnum enums e d = Some t -> enum_compiles t = true ->
    forall v w, declares enums e v d w -> castEnum t (v_num v) = v_num w.
Definition chain_enums (n : nat) : enum :=
  match n with
  | 0 => {| e_fqdn := "base.T"; e_pkg := "base"; e_values := [val "ZERO" 0; val "ONE" 1]; e_opt := None |}
  | 1 => {| e_fqdn := "mid.T"; e_pkg := "mid"; e_values := [val "ZERO" 0; val "ONE" 1]; e_opt := Some [0] |}
  | 2 => {| e_fqdn := "top.T"; e_pkg := "top"; e_values := [val "ZERO" 0; val "ONE" 1]; e_opt := Some [1] |}
  | _ => {| e_fqdn := ""; e_pkg := ""; e_values := []; e_opt := None |}
  end.
Lemma chain_named : forall n, well_named chain_enums n.
Proof.
  intros n. destruct n as [|[|[|n]]]; unfold well_named, explicit; cbn.
  all: split; [repeat constructor; cbn; intuition congruence|]. all: split; repeat constructor; cbn; intuition congruence.
Qed.
Theorem C23_backward_refuted : ~ C23_backward_statement.
Proof.
  intros H. specialize (H chain_enums 2 1). 
  assert (F : federates chain_enums 2 1).
  { split; [apply chain_named|split; [|vm_compute; discriminate]]. exists [1]. split; [reflexivity|]. split; [left; reflexivity|]. intros; apply chain_named. }
  specialize (H (depToService (rules chain_enums 1) 2) F). assert (N : resolve_enum chain_enums (chain_enums 1) <> None) by (vm_compute; discriminate).
  specialize (H N eq_refl). assert (C : enum_compiles (depToService (rules chain_enums 1) 2) = true) by (vm_compute; reflexivity). specialize (H C (val "ONE" 1) (val "ONE" 1)).
  assert (D : declares chain_enums 2 (val "ONE" 1) 1 (val "ONE" 1)).
  { unfold declares, is_default, explicit. cbn [val v_opt e_values chain_enums e_opt]. split; [cbn; intuition|]. split; [intros (o & E & _); discriminate E|]. split; [exists [1]; cbn; auto|]. right. cbn. auto 6. }
  specialize (H D). vm_compute in H. discriminate H.
Qed.
Print Assumptions C23_backward_refuted.

(** Enums without options keep nothing of their values, although the names are the same. *)
Definition same_enums (n : nat) : enum :=
  {| e_fqdn := match n with 0 => "a.T" | _ => "b.T" end; e_pkg := match n with 0 => "a" | _ => "b" end; e_values := [val "ZERO" 0; val "ONE" 1]; e_opt := None |}.
Example C23_no_option : exists t, ToEnum same_enums 0 1 = Some t /\ forall x, castEnum t x = 0%Z.
Proof. eexists. split; [reflexivity|]. intros x. reflexivity. Qed.
