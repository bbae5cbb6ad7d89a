(** Proofs for Typing. *)

From Coq Require Import String List Bool.
From Verif.Typing Require Import Model Spec.
Import ListNotations.
Local Open Scope list_scope.
Local Open Scope string_scope.

(** * Types *)

Lemma with_repeated_kind t r : kind_of (with_repeated t r) = kind_of t.
Proof. destruct t; reflexivity. Qed.

Lemma with_repeated_rep t r : repeated_of (with_repeated t r) = r.
Proof. destruct t; reflexivity. Qed.

Lemma to_cel_nested t :
  (match t with Ty a _ => to_cel_kind a end) = to_cel_kind (kind_of t).
Proof. destruct t; reflexivity. Qed.

Lemma selectable_spec t : selectable t = true <-> of_enums (to_cel_kind (kind_of t)).
Proof.
  destruct t as [k r]; unfold selectable; cbn [kind_of].
  destruct k; cbn; try (split; intro H; [discriminate H | contradiction]); try (split; auto; fail).
  - destruct k, v; cbn. split; intro H; [discriminate H | contradiction].
  - destruct a, b; cbn. split; auto.
Qed.

Lemma entry_cel a b : to_cel_kind (KEntry a b) = CMap (to_cel_kind (kind_of a)) (to_cel_kind (kind_of b)).
Proof. destruct a, b; reflexivity. Qed.

Lemma selector_cel a b : to_cel_kind (KSelector a b) = CSel (to_cel_kind (kind_of a)) (to_cel_kind (kind_of b)).
Proof. destruct a, b; reflexivity. Qed.

Definition image (t : celty) (u : ty) : Prop :=
  to_cel_kind (kind_of u) = inner t /\ repeated_of u = listed t.

Lemma from_cel_spec t :
  (exists u, from_cel t = Some u /\ supported t /\ image t u) \/
  (from_cel t = None /\ ~ supported t).
Proof.
  induction t as [ | | | | | | | | m | e | a IHa b IHb | k IHk v IHv | e IHe | e IHe ];
    cbn [from_cel supported];
    try (left; eexists; split; [reflexivity | split; [exact I | split; reflexivity]]).
  - right; split; [reflexivity | intros []].
  - destruct IHa as [[a' [Ea [Sa [Ka Ra]]]] | [Ea Sa]];
      [| right; rewrite Ea; split; [reflexivity | intros [[X _] _]; exact (Sa X)]].
    rewrite Ea.
    destruct IHb as [[b' [Eb [Sb [Kb Rb]]]] | [Eb Sb]];
      [| right; rewrite Eb; split; [reflexivity | intros [[_ X] _]; exact (Sb X)]].
    rewrite Eb.
    destruct (selectable a') eqn:Qa; [destruct (selectable b') eqn:Qb |]; cbn [andb].
    + left; eexists; split; [reflexivity |]. apply selectable_spec in Qa, Qb.
      rewrite Ka in Qa; rewrite Kb in Qb.
      split; [split; [split; assumption | split; assumption] |].
      split; [cbn [kind_of]; rewrite selector_cel, Ka, Kb; reflexivity | reflexivity].
    + right; split; [reflexivity |]. intros [_ [_ X]]. rewrite <- Kb in X.
      apply selectable_spec in X. rewrite X in Qb; discriminate Qb.
    + right; split; [reflexivity |]. intros [_ [X _]]. rewrite <- Ka in X.
      apply selectable_spec in X. rewrite X in Qa; discriminate Qa.
  - destruct IHk as [[a' [Ea [Sa [Ka Ra]]]] | [Ea Sa]];
      [| right; rewrite Ea; split; [reflexivity | intros [X _]; exact (Sa X)]].
    rewrite Ea.
    destruct IHv as [[b' [Eb [Sb [Kb Rb]]]] | [Eb Sb]];
      [| right; rewrite Eb; split; [reflexivity | intros [_ X]; exact (Sb X)]].
    rewrite Eb. left; eexists; split; [reflexivity |].
    split; [split; assumption |].
    split; [cbn [kind_of]; rewrite entry_cel, Ka, Kb; reflexivity | reflexivity].
  - destruct IHe as [[a' [Ea [Sa [Ka Ra]]]] | [Ea Sa]];
      [| right; rewrite Ea; split; [reflexivity | exact Sa]].
    rewrite Ea. left; eexists; split; [reflexivity | split; [exact Sa |]].
    split; [rewrite with_repeated_kind; exact Ka | rewrite with_repeated_rep; reflexivity].
  - exact IHe.
Qed.

Lemma from_cel_some t u : from_cel t = Some u -> supported t /\ image t u.
Proof.
  intro H. destruct (from_cel_spec t) as [[u' [E [S I]]] | [E _]]; rewrite H in E.
  - injection E as ->. split; assumption.
  - discriminate E.
Qed.

Lemma from_cel_supported t : supported t -> exists u, from_cel t = Some u /\ image t u.
Proof.
  intro H. destruct (from_cel_spec t) as [[u [E [S I]]] | [_ X]].
  - exists u; split; assumption.
  - contradiction.
Qed.

Lemma image_flat t u : image t u -> to_cel u = flat t.
Proof.
  intros [K R]. unfold to_cel, flat. rewrite R, K. reflexivity.
Qed.

Lemma inner_bare t : bare t -> inner t = t.
Proof.
  induction t as [ | | | | | | | | m | e | a IHa b IHb | k IHk v IHv | e IHe | e IHe ]; cbn;
    try reflexivity; try contradiction.
  - intros [X Y]; rewrite (IHa X), (IHb Y); reflexivity.
  - intros [X Y]; rewrite (IHk X), (IHv Y); reflexivity.
Qed.

Lemma bare_inner t : bare (inner t).
Proof.
  induction t as [ | | | | | | | | m | e | a IHa b IHb | k IHk v IHv | e IHe | e IHe ]; cbn; auto.
Qed.

Lemma bare_listed t : bare t -> listed t = false.
Proof. destruct t; cbn; try reflexivity; contradiction. Qed.

Lemma flat_one_list t : flat t = t <-> one_list t.
Proof.
  split; intro H.
  - unfold flat in H. destruct (listed t).
    + destruct t; try discriminate H. cbn [inner one_list] in *.
      injection H as H. rewrite <- H. apply bare_inner.
    + assert (B : bare t) by (rewrite <- H; apply bare_inner).
      destruct t; cbn in *; try assumption; contradiction.
  - unfold flat. destruct t as [ | | | | | | | | m | e | a b | k v | e | e ];
      try (rewrite (bare_listed _ H); apply (inner_bare _ H)).
    cbn [listed inner one_list] in *. rewrite (inner_bare _ H). reflexivity.
Qed.

(** * Places *)

Section Exact.
  Variable chk : env -> string -> option celty.
  Variable alias : string -> string -> bool.
  Local Notation R := (implemented alias).

  Ltac resolve G e :=
    unfold resolve_cel; destruct (chk G e) as [ct |] eqn:Echk;
    [ let u := fresh "u" in
      destruct (from_cel_spec ct) as [[u [Efrom [Hsup Himg]]] | [Efrom Hsup]]; rewrite Efrom
    | ].

  Ltac no_type X Y :=
    split; [intro X; discriminate X | intros [? [X Y]]; try discriminate X].

  Lemma any_exact G e : check_any chk G e = [] <-> typed chk G e (fits_any R).
  Proof.
    unfold check_any, typed; cbn. resolve G e.
    - split; [intros _; exists ct; auto | reflexivity].
    - no_type X Y. injection X as <-. contradiction.
    - no_type X Y.
  Qed.

  Lemma bool_exact G e : check_bool chk G e = [] <-> typed chk G e (fits_bool R).
  Proof.
    unfold check_bool, typed; cbn. resolve G e.
    - destruct Himg as [K Rp]. split.
      + intro X. exists ct. split; [reflexivity | split; [exact Hsup |]]. rewrite <- K.
        destruct (kind_of u); try discriminate X. reflexivity.
      + intros [t [X [_ Y]]]. injection X as <-. rewrite <- K in Y.
        destruct (kind_of u) as [ | | | | | | | | [] [] | [] [] | ]; try discriminate Y. reflexivity.
    - no_type X Y. injection X as <-. destruct Y; contradiction.
    - no_type X Y.
  Qed.

  Lemma string_exact G e : check_string chk G e = [] <-> typed chk G e (fits_string R).
  Proof.
    unfold check_string, typed; cbn. resolve G e.
    - destruct Himg as [K Rp]. split.
      + intro X. exists ct. split; [reflexivity | split; [exact Hsup |]]. rewrite <- K.
        destruct (kind_of u); try discriminate X. reflexivity.
      + intros [t [X [_ Y]]]. injection X as <-. rewrite <- K in Y.
        destruct (kind_of u) as [ | | | | | | | | [] [] | [] [] | ]; try discriminate Y. reflexivity.
    - no_type X Y. injection X as <-. destruct Y; contradiction.
    - no_type X Y.
  Qed.

  Lemma message_kind_exact G e :
    check_message_kind chk G e = [] <-> typed chk G e (fits_message R).
  Proof.
    unfold check_message_kind, typed; cbn. resolve G e.
    - destruct Himg as [K Rp]. split.
      + intro X. exists ct. split; [reflexivity | split; [exact Hsup |]]. rewrite <- K.
        destruct (kind_of u) as [ | | | | | | | | [] [] | [] [] | ]; try discriminate X; exact I.
      + intros [t [X [_ Y]]]. injection X as <-. rewrite <- K in Y.
        destruct (kind_of u); try contradiction Y; reflexivity.
    - no_type X Y. injection X as <-. destruct Y; contradiction.
    - no_type X Y.
  Qed.

  Lemma response_exact G m e :
    check_response chk G m e = [] <->
    typed chk G e (fun t => fits_any R t /\ if_given m (fun m => fits_response R m t)).
  Proof.
    unfold check_response, typed, if_given; cbn. resolve G e.
    - destruct Himg as [K Rp]. destruct m as [m |].
      + split.
        * intro X. exists ct. split; [reflexivity | split; [exact Hsup |]]. rewrite <- K.
          destruct (kind_of u); try discriminate X. cbn.
          destruct (String.eqb_spec msg m) as [-> |]; [reflexivity | discriminate X].
        * intros [t [X [_ Y]]]. injection X as <-. rewrite <- K in Y.
          destruct (kind_of u) as [ | | | | | | | | [] [] | [] [] | ]; try discriminate Y.
          cbn in Y. injection Y as ->. rewrite String.eqb_refl. reflexivity.
      + split; [intros _; exists ct; auto | reflexivity].
    - no_type X Y. injection X as <-. destruct Y; contradiction.
    - no_type X Y.
  Qed.

  Lemma enum_exact G en e :
    fst (check_enum chk alias G en e) = [] <-> typed chk G e (fits_enum R en).
  Proof.
    unfold check_enum, typed; cbn [fst implemented fits_enum]. resolve G e.
    - destruct Himg as [K Rp]. split.
      + intro X. exists ct. split; [reflexivity | split; [exact Hsup |]]. rewrite <- K.
        destruct (kind_of u) as [ | | | | | | | | | [] [] | from ]; try discriminate X.
        * right. cbn. eauto.
        * left. exists from. split; [reflexivity |].
          destruct (String.eqb_spec from en) as [-> |]; [left; reflexivity |].
          right. destruct (alias from en); [reflexivity | discriminate X].
      + intros [t [X [_ Y]]]. injection X as <-. rewrite <- K in Y.
        destruct (kind_of u) as [ | | | | | | | | [] [] | [] [] | from ];
          destruct Y as [[e' [Y Z]] | [a' [b' Y]]]; try discriminate Y; try reflexivity.
        cbn in Y. injection Y as <-.
        destruct (String.eqb_spec from en) as [-> | N]; [reflexivity |].
        destruct Z as [Z | Z]; [contradiction | rewrite Z; reflexivity].
    - no_type X Y. injection X as <-. destruct Y; contradiction.
    - no_type X Y.
  Qed.

  Lemma opt_exact (f : string -> list err) (P : string -> Prop) o :
    (forall e, f e = [] <-> P e) -> check_opt f o = [] <-> if_given o P.
  Proof. intro H. destruct o; cbn; [apply H | split; auto]. Qed.

  Lemma flat_exact {A} (f : A -> list err) (P : A -> Prop) l :
    (forall e, f e = [] <-> P e) -> flat_map f l = [] <-> all l P.
  Proof.
    intro H. induction l as [| a l IH]; cbn; unfold all.
    - split; [intros _ a [] | reflexivity].
    - split.
      + intro E. apply app_eq_nil in E. destruct E as [E1 E2].
        intros b [<- | I]; [apply H, E1 | apply IH; assumption].
      + intro E. rewrite (proj2 (H a) (E a (or_introl eq_refl))).
        apply IH. intros b I. apply E. right; exact I.
  Qed.

  Lemma arg_exact G a : check_arg chk G a = [] <-> arg_ok chk R G a.
  Proof.
    unfold check_arg, arg_ok. destruct (a_by a) as [e |]; cbn [if_given]; [| split; auto].
    rewrite <- (any_exact G e).
    rewrite <- (opt_exact (check_bool chk G) _ (a_if a) (bool_exact G)).
    split.
    - intro E. apply app_eq_nil in E. exact E.
    - intros [-> ->]. reflexivity.
  Qed.

  Lemma msg_exact G args :
    flat_map (check_opt (check_any chk G)) args = [] <-> message_ok chk R G args.
  Proof.
    apply flat_exact. intro o. apply opt_exact. apply any_exact.
  Qed.

  Lemma body_exact G b v :
    (fst (check_body chk alias G b) = [] /\
     exists u, snd (check_body chk alias G b) = Some u /\ to_cel_kind (kind_of u) = inner v) <->
    exists w, body_ok chk R G b w /\ inner w = inner v.
  Proof.
    destruct b as [e | args m | en e]; cbn [check_body body_ok].
    - cbn [fst snd]. split.
      + intros [E [u [S K]]]. unfold resolve_cel in S.
        destruct (chk G e) as [w |] eqn:C; [| discriminate S].
        destruct (from_cel_some _ _ S) as [Sw [Kw _]].
        exists w. split; [split; [reflexivity | exact Sw] | rewrite <- Kw; exact K].
      + intros [w [[C Sw] I]]. unfold check_any, resolve_cel. rewrite C.
        destruct (from_cel_supported _ Sw) as [u [F [K _]]]. rewrite F.
        split; [reflexivity |]. exists u. split; [reflexivity | rewrite K; exact I].
    - unfold check_msg; cbn [fst snd]. rewrite msg_exact. split.
      + intros [E [u [S K]]]. injection S as <-. exists (CObj m). auto.
      + intros [w [[E ->] I]]. split; [exact E |]. eexists; split; [reflexivity | exact I].
    - rewrite (enum_exact G en e). unfold check_enum; cbn [snd]. split.
      + intros [E [u [S K]]]. injection S as <-. exists (CEnum en). auto.
      + intros [w [[E ->] I]]. split; [exact E |]. eexists; split; [reflexivity | exact I].
  Qed.

  Definition seen (L : locals) : siblings :=
    map (fun p => (fst p, option_map to_cel (snd p))) L.

  Lemma look_seen L n : look (seen L) n = option_map (option_map to_cel) (look L n).
  Proof.
    induction L as [| [k v] L IH]; cbn; [reflexivity |].
    destruct (String.eqb k n); [reflexivity | exact IH].
  Qed.

  Lemma body_has_type G b :
    fst (check_body chk alias G b) = [] -> exists u, snd (check_body chk alias G b) = Some u.
  Proof.
    destruct b as [e | args m | en e]; cbn [check_body]; try (eexists; reflexivity).
    unfold check_any; cbn [fst snd]. destruct (resolve_cel chk G e) as [u |]; [eauto | intro X; discriminate X].
  Qed.

  Lemma map_exact G L iter src b t :
    (fst (check_map chk alias G L iter src b) = [] /\
     exists u, snd (check_map chk alias G L iter src b) = Some u /\ t = to_cel u) <->
    expr_ok chk R G (seen L) (XMap iter src b) t.
  Proof.
    cbn [expr_ok]. unfold check_map.
    destruct (String.eqb_spec iter "") as [-> | Ni].
    { split.
      - intros [E _]. destruct (String.eqb src ""); [| destruct (look L src)];
          destruct (map_type (check_body chk alias G b)); cbn in E; discriminate E.
      - intros [X _]. contradiction. }
    destruct (String.eqb_spec src "") as [-> | Ns].
    { split.
      - intros [E _]. destruct (map_type (check_body chk alias G b)); cbn in E; discriminate E.
      - intros [_ [X _]]. contradiction. }
    destruct (look L src) as [[st |] |] eqn:El.
    - destruct (repeated_of st) eqn:Er.
      + set (G' := (iter, to_cel (with_repeated st false)) :: G).
        assert (Hel : forall u, elements R G (seen L) src u <-> u = to_cel (with_repeated st false)).
        { intro u. cbn [implemented elements]. rewrite look_seen, El; cbn [option_map].
          unfold to_cel. rewrite Er, with_repeated_kind, with_repeated_rep.
          split; [intro X; injection X as <-; reflexivity | intros ->; reflexivity]. }
        unfold map_type. cbn [fst snd app]. split.
        * intros [E [u [S ->]]].
          destruct (snd (check_body chk alias G' b)) as [u0 |] eqn:Sb; [| discriminate S].
          injection S as <-.
          destruct (proj1 (body_exact G' b (to_cel_kind (kind_of u0)))) as [w [Bw Iw]].
          { split; [exact E |]. exists u0. split; [exact Sb |].
            symmetry. apply inner_bare.
            clear. destruct u0 as [k r]; cbn [kind_of].
            revert k. fix IH 1. intro k; destruct k as [ | | | | | | | | [k1 r1] [k2 r2] | [k1 r1] [k2 r2] | ];
              cbn; try exact I; (split; apply IH). }
          split; [exact Ni | split; [exact Ns |]].
          exists (to_cel (with_repeated st false)), w.
          split; [apply Hel; reflexivity | split; [exact Bw |]].
          cbn [implemented map_var_type]. unfold to_cel.
          rewrite with_repeated_rep, with_repeated_kind. f_equal. rewrite Iw. symmetry. apply inner_bare.
          clear. destruct u0 as [k r]; cbn [kind_of].
          revert k. fix IH 1. intro k; destruct k as [ | | | | | | | | [k1 r1] [k2 r2] | [k1 r1] [k2 r2] | ];
            cbn; try exact I; (split; apply IH).
        * intros [_ [_ [u [v [Hu [Bv Mv]]]]]]. apply Hel in Hu. subst u. fold G' in Bv.
          destruct (proj2 (body_exact G' b v)) as [E [u0 [Sb K]]]; [exists v; auto |].
          split; [exact E |]. rewrite Sb. eexists; split; [reflexivity |].
          cbn [implemented map_var_type] in Mv. subst t. unfold to_cel.
          rewrite with_repeated_rep, with_repeated_kind, K. reflexivity.
      + split.
        * intros [E _]. cbn in E. discriminate E.
        * intros [_ [_ [u [v [Hu _]]]]]. exfalso. cbn [implemented elements] in Hu.
          rewrite look_seen, El in Hu; cbn [option_map] in Hu. unfold to_cel in Hu. rewrite Er in Hu.
          injection Hu as Hu. destruct (kind_of st) as [ | | | | | | | | [] [] | [] [] | ]; discriminate Hu.
    - split.
      + intros [E _]. cbn in E. discriminate E.
      + intros [_ [_ [u [v [Hu _]]]]]. exfalso. cbn [implemented elements] in Hu.
        rewrite look_seen, El in Hu. discriminate Hu.
    - split.
      + intros [E _]. destruct (map_type (check_body chk alias G b)); cbn in E; discriminate E.
      + intros [_ [_ [u [v [Hu _]]]]]. exfalso. cbn [implemented elements] in Hu.
        rewrite look_seen, El in Hu. discriminate Hu.
  Qed.

  (** * The traversal *)

  Lemma map_has_type G L iter src b :
    fst (check_map chk alias G L iter src b) = [] ->
    exists u, snd (check_map chk alias G L iter src b) = Some u.
  Proof.
    unfold check_map. destruct (String.eqb iter "").
    { destruct (String.eqb src ""); [| destruct (look L src)];
        destruct (map_type (check_body chk alias G b)); cbn; intro X; discriminate X. }
    destruct (String.eqb src "").
    { destruct (map_type (check_body chk alias G b)); cbn; intro X; discriminate X. }
    destruct (look L src) as [[st |] |].
    - destruct (repeated_of st); [| cbn; intro X; discriminate X].
      unfold map_type; cbn [fst snd app]. intro E.
      destruct (body_has_type _ b E) as [u ->]. eauto.
    - cbn; intro X; discriminate X.
    - destruct (map_type (check_body chk alias G b)); cbn; intro X; discriminate X.
  Qed.

  Lemma expr_has_type G L x :
    fst (check_expr chk alias G L x) = [] -> x <> XNone ->
    exists u, snd (check_expr chk alias G L x) = Some u.
  Proof.
    destruct x as [ | e | iter src b | args retry errs m | args m | en e | g ]; cbn [check_expr];
      intros E N; try (eexists; reflexivity).
    - contradiction.
    - unfold check_any in E; cbn [fst snd] in *.
      destruct (resolve_cel chk G e) as [u |]; [eauto | discriminate E].
    - apply map_has_type; exact E.
  Qed.

  Lemma app_nil {A} (a b : list A) : (a ++ b)%list = [] <-> a = [] /\ b = [].
  Proof.
    split; [apply app_eq_nil | intros [-> ->]; reflexivity].
  Qed.
End Exact.

Scheme vdef_mind := Induction for vdef Sort Prop
  with vdefs_mind := Induction for vdefs Sort Prop
  with vexpr_mind := Induction for vexpr Sort Prop
  with gerr_mind := Induction for gerr Sort Prop
  with gerrs_mind := Induction for gerrs Sort Prop
  with detail_mind := Induction for detail Sort Prop
  with details_mind := Induction for details Sort Prop.
Combined Scheme syntax_mind from vdef_mind, vdefs_mind, vexpr_mind, gerr_mind, gerrs_mind, detail_mind, details_mind.

Section Traversal.
  Variable chk : env -> string -> option celty.
  Variable alias : string -> string -> bool.
  Local Notation R := (implemented alias).

  Let Pexpr (x : vexpr) : Prop := forall G L t,
    (fst (check_expr chk alias G L x) = [] /\
     exists u, snd (check_expr chk alias G L x) = Some u /\ t = to_cel u) <->
    expr_ok chk R G (seen L) x t.
  Let Pdefs (ds : vdefs) : Prop := forall G L (K : env -> Prop),
    (fst (check_defs chk alias G L ds) = [] /\ K (snd (check_defs chk alias G L ds))) <->
    defs_ok chk R G (seen L) ds K.
  Let Perr (g : gerr) : Prop := forall G m,
    check_err chk alias G m g = [] <-> err_ok chk R G m g.
  Let Perrs (g : gerrs) : Prop := forall G m,
    check_errs chk alias G m g = [] <-> errs_ok chk R G m g.
  Let Pdetail (d : detail) : Prop := forall G,
    check_detail chk alias G d = [] <-> detail_ok chk R G d.
  Let Pdetails (d : details) : Prop := forall G,
    check_details chk alias G d = [] <-> details_ok chk R G d.

  Lemma seen_keep L n x u :
    seen (keep L n x u) = sibling n x (option_map to_cel u) (seen L).
  Proof.
    unfold keep, sibling. destruct x as [ | e | iter src b | args retry errs m | args m | en e | g ];
      try reflexivity.
    destruct errs; reflexivity.
  Qed.

  Lemma check_defs_cons G L n c x r :
    check_defs chk alias G L (DCons (VDef n c x) r) =
    let p := check_expr chk alias G L x in
    let q := check_defs chk alias (extend G n (snd p)) (keep L n x (snd p)) r in
    (((check_opt (check_bool chk G) c ++ fst p) ++ fst q)%list, snd q).
  Proof.
    transitivity
      (let '(e1, G1, L1) :=
         let '(ex, t) := check_expr chk alias G L x in
         ((check_opt (check_bool chk G) c ++ ex)%list, extend G n t, keep L n x t) in
       let '(e2, G2) := check_defs chk alias G1 L1 r in ((e1 ++ e2)%list, G2)); [reflexivity |].
    destruct (check_expr chk alias G L x) as [ex t]. cbv zeta. cbn [fst snd].
    destruct (check_defs chk alias (extend G n t) (keep L n x t) r) as [e2 G2]. reflexivity.
  Qed.

  Lemma check_err_eq G m defs c ig msg ds :
    check_err chk alias G m (GErr defs c ig msg ds) =
    let p := check_defs chk alias G [] defs in
    (fst p ++ check_bool chk (snd p) c
     ++ check_opt (check_response chk (snd p) m) ig
     ++ check_opt (check_string chk (snd p)) msg
     ++ check_details chk alias (snd p) ds)%list.
  Proof.
    transitivity
      (let '(e1, G1) := check_defs chk alias G [] defs in
       (e1 ++ check_bool chk G1 c
         ++ check_opt (check_response chk G1 m) ig
         ++ check_opt (check_string chk G1) msg
         ++ check_details chk alias G1 ds)%list); [reflexivity |].
    destruct (check_defs chk alias G [] defs). reflexivity.
  Qed.

  Lemma check_detail_eq G defs c bys msgs texts :
    check_detail chk alias G (Det defs c bys msgs texts) =
    let p := check_defs chk alias G [] defs in
    let q := check_defs chk alias (snd p) [] msgs in
    (fst p ++ check_bool chk (snd p) c
     ++ flat_map (check_message_kind chk (snd p)) bys
     ++ fst q ++ flat_map (check_string chk (snd q)) texts)%list.
  Proof.
    transitivity
      (let '(e1, G1) := check_defs chk alias G [] defs in
       let '(e2, G2) := check_defs chk alias G1 [] msgs in
       (e1 ++ check_bool chk G1 c
         ++ flat_map (check_message_kind chk G1) bys
         ++ e2
         ++ flat_map (check_string chk G2) texts)%list); [reflexivity |].
    destruct (check_defs chk alias G [] defs) as [e1 G1]. cbv zeta. cbn [fst snd].
    destruct (check_defs chk alias G1 [] msgs). reflexivity.
  Qed.

  Lemma defs_ok_cons G L n c x r K :
    defs_ok chk R G L (DCons (VDef n c x) r) K <->
    if_given c (fun e => typed chk G e (fits_bool R)) /\
    ((x = XNone /\ defs_ok chk R G (sibling n x None L) r K) \/
     (x <> XNone /\ exists t, expr_ok chk R G L x t /\
                    defs_ok chk R (visible n t G) (sibling n x (Some t) L) r K)).
  Proof.
    cbn [defs_ok].
    destruct x;
      (split; intros [A B]; (split; [exact A |]);
       [ first [left; split; [reflexivity | exact B] | right; split; [discriminate | exact B]]
       | destruct B as [[E B] | [N B]]; [first [discriminate E | exact B] | first [exact B | contradiction]] ]).
  Qed.

  Lemma traversal_exact :
    (forall d : vdef, match d with VDef _ _ x => Pexpr x end) /\
    (forall ds, Pdefs ds) /\ (forall x, Pexpr x) /\ (forall g, Perr g) /\
    (forall g, Perrs g) /\ (forall d, Pdetail d) /\ (forall d, Pdetails d).
  Proof.
    apply syntax_mind; unfold Pexpr, Pdefs, Perr, Perrs, Pdetail, Pdetails.
    - (* VDef *) intros n c x IH. exact IH.
    - (* DNil *) intros G L K. cbn. split; [intros [_ X]; exact X | auto].
    - (* DCons *) intros [n c x] IHx r IHr G L K.
      rewrite check_defs_cons. cbv zeta. cbn [fst snd]. rewrite defs_ok_cons.
      rewrite !app_nil.
      rewrite <- (opt_exact (check_bool chk G) _ c (bool_exact chk alias G)).
      destruct (check_expr chk alias G L x) as [ex u] eqn:Ex. cbn [fst snd]. split.
      + intros [[[Hc Hx] Hr] HK]. split; [exact Hc |].
        assert (D : x = XNone \/ x <> XNone) by (destruct x; [left; reflexivity | right; discriminate ..]).
        destruct D as [-> | N].
        * left. split; [reflexivity |]. cbn [check_expr] in Ex. injection Ex as <- <-.
          change None with (option_map to_cel None) at 1. rewrite <- seen_keep.
          apply IHr. split; [exact Hr | exact HK].
        * right. split; [exact N |].
          destruct (expr_has_type chk alias G L x) as [u0 Su]; [rewrite Ex; exact Hx | exact N |].
          rewrite Ex in Su; cbn [snd] in Su. subst u. exists (to_cel u0). split.
          -- apply IHx. rewrite Ex. cbn [fst snd]. split; [exact Hx | eauto].
          -- change (Some (to_cel u0)) with (option_map to_cel (Some u0)). rewrite <- seen_keep.
             apply IHr. cbn [extend] in Hr, HK. unfold visible. split; [exact Hr | exact HK].
      + intros [Hc [[-> Hr] | [N [t [Ht Hr]]]]].
        * cbn [check_expr] in Ex. injection Ex as <- <-.
          change None with (option_map to_cel None) in Hr. rewrite <- seen_keep in Hr.
          apply IHr in Hr. destruct Hr as [Hr HK].
          split; [split; [split; [exact Hc | reflexivity] | exact Hr] | exact HK].
        * apply IHx in Ht. rewrite Ex in Ht. cbn [fst snd] in Ht.
          destruct Ht as [Hx [u0 [-> ->]]].
          change (Some (to_cel u0)) with (option_map to_cel (Some u0)) in Hr. rewrite <- seen_keep in Hr.
          apply IHr in Hr. destruct Hr as [Hr HK].
          split; [split; [split; [exact Hc | exact Hx] | exact Hr] | exact HK].
    - (* XNone *) intros G L t. cbn. split; [intros [_ [u [X _]]]; discriminate X | contradiction].
    - (* XBy *) intros e G L t. cbn [check_expr expr_ok fst snd]. unfold typed.
      cbn [implemented var_type]. split.
      + intros [_ [u [S ->]]]. unfold resolve_cel in S.
        destruct (chk G e) as [w |] eqn:C; [| discriminate S].
        destruct (from_cel_some _ _ S) as [Sw Iw].
        exists w. split; [reflexivity | split; [exact Sw | apply image_flat; exact Iw]].
      + intros [w [C [Sw ->]]]. unfold check_any, resolve_cel. rewrite C.
        destruct (from_cel_supported _ Sw) as [u [F Iu]]. rewrite F.
        split; [reflexivity |]. exists u. split; [reflexivity | symmetry; apply image_flat; exact Iu].
    - (* XMap *) intros iter src b G L t. cbn [check_expr]. apply map_exact.
    - (* XCall *) intros args retry errs IH m G L t. cbn [check_expr expr_ok fst snd].
      rewrite !app_nil, IH. rewrite (flat_exact _ _ args (arg_exact chk alias G)).
      rewrite (opt_exact _ _ retry (bool_exact chk alias (error_var :: G))).
      split.
      + intros [[A [B C]] [u [S ->]]]. injection S as <-.
        split; [exact A | split; [exact B | split; [exact C | reflexivity]]].
      + intros [A [B [C ->]]].
        split; [split; [exact A | split; [exact B | exact C]] | eexists; split; reflexivity].
    - (* XMsg *) intros args m G L t. cbn [check_expr expr_ok]. unfold check_msg; cbn [fst snd].
      rewrite (msg_exact chk alias G args). split.
      + intros [A [u [S ->]]]. injection S as <-. split; [exact A | reflexivity].
      + intros [A ->]. split; [exact A | eexists; split; reflexivity].
    - (* XEnum *) intros en e G L t. cbn [check_expr expr_ok].
      rewrite (enum_exact chk alias G en e). unfold check_enum; cbn [snd]. split.
      + intros [A [u [S ->]]]. injection S as <-. split; [exact A | reflexivity].
      + intros [A ->]. split; [exact A | eexists; split; reflexivity].
    - (* XValid *) intros g IH G L t. cbn [check_expr expr_ok fst snd]. rewrite IH. split.
      + intros [A [u [S ->]]]. injection S as <-. split; [exact A | reflexivity].
      + intros [A ->]. split; [exact A | eexists; split; reflexivity].
    - (* GErr *) intros defs IHd c ig msg ds IHt G m. rewrite check_err_eq. cbv zeta.
      cbn [err_ok]. change (@nil (string * option celty)) with (seen []). rewrite <- IHd.
      rewrite !app_nil, IHt.
      rewrite (bool_exact chk alias).
      rewrite (opt_exact _ _ ig (response_exact chk alias _ m)).
      rewrite (opt_exact _ _ msg (string_exact chk alias _)). reflexivity.
    - (* GNil *) intros G m. cbn. split; auto.
    - (* GCons *) intros g IHg r IHr G m. cbn [check_errs errs_ok]. rewrite app_nil, IHg, IHr. reflexivity.
    - (* Det *) intros defs IHd c bys msgs IHm texts G. rewrite check_detail_eq. cbv zeta.
      cbn [detail_ok]. change (@nil (string * option celty)) with (seen []). rewrite <- IHd.
      rewrite <- IHm. rewrite !app_nil.
      rewrite (bool_exact chk alias).
      rewrite (flat_exact _ _ bys (message_kind_exact chk alias _)).
      rewrite (flat_exact _ _ texts (string_exact chk alias _)). reflexivity.
    - (* TNil *) intros G. cbn. split; auto.
    - (* TCons *) intros d IHd r IHr G. cbn [check_details details_ok]. rewrite app_nil, IHd, IHr. reflexivity.
  Qed.

  Lemma defs_exact ds : Pdefs ds.
  Proof. exact (proj1 (proj2 traversal_exact) ds). Qed.

  Lemma rule_exact G r : check_rule chk alias G r = [] <-> rule_ok chk R G r.
  Proof.
    destruct r as [ | e | o]; cbn [check_rule rule_ok].
    - split; auto.
    - apply any_exact.
    - pose proof (defs_exact (o_defs o) G []) as H. unfold Pdefs in H.
      change (@nil (string * option celty)) with (seen []). rewrite <- H.
      destruct (check_defs chk alias G [] (o_defs o)) as [e2 G1]. cbn [fst snd].
      rewrite !app_nil. rewrite (opt_exact _ _ (o_if o) (bool_exact chk alias G)).
      rewrite (opt_exact _ _ (o_by o) (any_exact chk alias G1)). reflexivity.
  Qed.

  Lemma message_exact G m :
    check_message chk alias G m = [] <-> message_well_typed chk R G m.
  Proof.
    unfold check_message, message_well_typed.
    pose proof (defs_exact (m_defs m) G []) as H. unfold Pdefs in H.
    change (@nil (string * option celty)) with (seen []). rewrite <- H.
    destruct (check_defs chk alias G [] (m_defs m)) as [e1 G1]. cbn [fst snd].
    rewrite app_nil. rewrite (flat_exact _ _ (m_fields m) (rule_exact G1)). reflexivity.
  Qed.
End Traversal.

(** * From some rules to others *)

Record weaker (R R' : rules) : Prop := {
  w_bool : forall t, fits_bool R t -> fits_bool R' t;
  w_string : forall t, fits_string R t -> fits_string R' t;
  w_message : forall t, fits_message R t -> fits_message R' t;
  w_response : forall m t, fits_response R m t -> fits_response R' m t;
  w_enum : forall en t, fits_enum R en t -> fits_enum R' en t;
  w_any : forall t, fits_any R t -> fits_any R' t;
  w_var : forall t u, var_type R t u -> var_type R' t u;
  w_map : forall t u, map_var_type R t u -> map_var_type R' t u
}.

Section Weaken.
  Variable chk : env -> string -> option celty.
  Variables R R' : rules.
  Hypothesis W : weaker R R'.
  (** What holds of the visible variables and the siblings all along. *)
  Variable Inv : env -> siblings -> list string -> Prop.
  Hypothesis Inv_elements : forall G L ns src t, Inv G L ns ->
    elements R G L src t -> src <> "" -> elements R' G L src t.
  (** Whether names have to be distinct for it. *)
  Variable need : Prop.
  Hypothesis Inv_nil : forall G ns, Inv G [] ns.

  Lemma typed_weak G e (P Q : celty -> Prop) :
    (forall t, P t -> Q t) -> typed chk G e P -> typed chk G e Q.
  Proof. intros H [t [C X]]. exists t; split; [exact C | apply H, X]. Qed.

  Lemma given_weak {A} (o : option A) (P Q : A -> Prop) :
    (forall a, P a -> Q a) -> if_given o P -> if_given o Q.
  Proof. intro H. destruct o; cbn; auto. Qed.

  Lemma all_weak {A} (l : list A) (P Q : A -> Prop) :
    (forall a, P a -> Q a) -> all l P -> all l Q.
  Proof. intros H X a I. apply H, X, I. Qed.

  Lemma message_ok_weak G args : message_ok chk R G args -> message_ok chk R' G args.
  Proof.
    apply all_weak. intro o. apply given_weak. intro e. apply typed_weak. apply (w_any _ _ W).
  Qed.

  Lemma arg_ok_weak G a : arg_ok chk R G a -> arg_ok chk R' G a.
  Proof.
    unfold arg_ok. apply given_weak. intros e [A B]. split.
    - revert A. apply typed_weak, (w_any _ _ W).
    - revert B. apply given_weak. intro c. apply typed_weak, (w_bool _ _ W).
  Qed.

  Lemma body_ok_weak G b t : body_ok chk R G b t -> body_ok chk R' G b t.
  Proof.
    destruct b; cbn [body_ok].
    - intros [A B]. split; [exact A | apply (w_any _ _ W), B].
    - intros [A B]. split; [apply message_ok_weak, A | exact B].
    - intros [A B]. split; [| exact B]. revert A. apply typed_weak, (w_enum _ _ W).
  Qed.

  (** Names after the list; the invariant is kept by definitions of new names. *)
  Hypothesis Inv_step : forall G L n x t ns,
    Inv G L (n :: ns) -> (need -> ~ In n ns /\ n <> "") -> x <> XNone ->
    Inv (visible n t G) (sibling n x (Some t) L) ns.
  Hypothesis Inv_skip : forall G L n ns,
    Inv G L (n :: ns) -> (need -> ~ In n ns /\ n <> "") -> Inv G ((n, None) :: L) ns.

  Lemma defs_ok_eq RR G L n c x r K :
    defs_ok chk RR G L (DCons (VDef n c x) r) K <->
    if_given c (fun e => typed chk G e (fits_bool RR)) /\
    ((x = XNone /\ defs_ok chk RR G ((n, None) :: L) r K) \/
     (x <> XNone /\ exists t, expr_ok chk RR G L x t /\
                    defs_ok chk RR (visible n t G) (sibling n x (Some t) L) r K)).
  Proof.
    cbn [defs_ok].
    destruct x;
      (split; intros [A B]; (split; [exact A |]);
       [ first [left; split; [reflexivity | exact B] | right; split; [discriminate | exact B]]
       | destruct B as [[E B] | [N B]]; [first [discriminate E | exact B] | first [exact B | contradiction]] ]).
  Qed.

  Lemma weaken :
    (forall d : vdef, match d with VDef _ _ x => (need -> distinct_expr x) -> forall G L ns t,
       Inv G L ns -> expr_ok chk R G L x t -> expr_ok chk R' G L x t end) /\
    (forall ds, (need -> distinct_defs ds) -> forall G L (K K' : env -> Prop),
       Inv G L (names_of ds) -> (forall G1, K G1 -> K' G1) ->
       defs_ok chk R G L ds K -> defs_ok chk R' G L ds K') /\
    (forall x, (need -> distinct_expr x) -> forall G L ns t,
       Inv G L ns -> expr_ok chk R G L x t -> expr_ok chk R' G L x t) /\
    (forall g, (need -> distinct_err g) -> forall G m, err_ok chk R G m g -> err_ok chk R' G m g) /\
    (forall g, (need -> distinct_errs g) -> forall G m, errs_ok chk R G m g -> errs_ok chk R' G m g) /\
    (forall d, (need -> distinct_detail d) -> forall G, detail_ok chk R G d -> detail_ok chk R' G d) /\
    (forall d, (need -> distinct_details d) -> forall G, details_ok chk R G d -> details_ok chk R' G d).
  Proof.
    apply syntax_mind.
    - intros n c x IH. exact IH.
    - intros _ G L K K' _ H. cbn. apply H.
    - intros [n c x] IHx r IHr Hds G L K K' HI HK.
      assert (Hn : need -> ~ In n (names_of r) /\ n <> "") by (intro N; destruct (Hds N) as [X [Y _]]; split; assumption).
      assert (Hx : need -> distinct_expr x) by (intro N; destruct (Hds N) as [_ [_ [X _]]]; exact X).
      assert (Hr : need -> distinct_defs r) by (intro N; destruct (Hds N) as [_ [_ [_ X]]]; exact X).
      rewrite !defs_ok_eq. intros [A B]. split.
      { revert A. apply given_weak. intro e. apply typed_weak, (w_bool _ _ W). }
      destruct B as [[-> B] | [N [t [B1 B2]]]].
      + left. split; [reflexivity |]. revert B. apply IHr; [exact Hr | | exact HK].
        apply Inv_skip; assumption.
      + right. split; [exact N |]. exists t. split.
        * exact (IHx Hx G L (names_of (DCons (VDef n c x) r)) t HI B1).
        * revert B2. apply IHr; [exact Hr | | exact HK]. apply Inv_step; assumption.
    - intros _ G L ns t _ X. exact X.
    - intros e _ G L ns t _. cbn [expr_ok]. apply typed_weak. intro u. apply (w_var _ _ W).
    - intros iter src b _ G L ns t HI. cbn [expr_ok].
      intros [A [B [u [v [C [D E]]]]]]. split; [exact A | split; [exact B |]].
      exists u, v. split; [apply (Inv_elements G L ns src u HI C B) |].
      split; [apply body_ok_weak, D | apply (w_map _ _ W), E].
    - intros args retry errs IH m Hd G L ns t HI. cbn [expr_ok distinct_expr] in *.
      intros [A [B [C D]]]. split.
      + revert A. apply all_weak. intro a. apply arg_ok_weak.
      + split; [revert B; apply given_weak; intro c; apply typed_weak, (w_bool _ _ W) |].
        split; [exact (IH Hd _ _ C) | exact D].
    - intros args m _ G L ns t _. cbn [expr_ok]. intros [A B]. split; [apply message_ok_weak, A | exact B].
    - intros en e _ G L ns t _. cbn [expr_ok]. intros [A B].
      split; [revert A; apply typed_weak, (w_enum _ _ W) | exact B].
    - intros g IH Hd G L ns t _. cbn [expr_ok distinct_expr] in *. intros [A B].
      split; [exact (IH Hd _ _ A) | exact B].
    - intros defs IHd c ig msg ds IHt Hds G m. cbn [err_ok].
      apply IHd; [intro N; exact (proj1 (Hds N)) | apply Inv_nil |].
      intros G1 [A [B [C D]]].
      split; [revert A; apply typed_weak, (w_bool _ _ W) |].
      split.
      { revert B. apply given_weak. intro e. apply typed_weak. intros t [X Y].
        split; [apply (w_any _ _ W), X |]. revert Y. apply given_weak. intro m'. apply (w_response _ _ W). }
      split; [revert C; apply given_weak; intro e; apply typed_weak, (w_string _ _ W) |].
      exact (IHt (fun N => proj2 (Hds N)) _ D).
    - intros _ G m _. exact I.
    - intros g IHg r IHr Hds G m. cbn [errs_ok]. intros [A B].
      split; [exact (IHg (fun N => proj1 (Hds N)) _ _ A) | exact (IHr (fun N => proj2 (Hds N)) _ _ B)].
    - intros defs IHd c bys msgs IHm texts Hds G. cbn [detail_ok].
      apply IHd; [intro N; exact (proj1 (Hds N)) | apply Inv_nil |].
      intros G1 [A [B C]].
      split; [revert A; apply typed_weak, (w_bool _ _ W) |].
      split; [revert B; apply all_weak; intro e; apply typed_weak, (w_message _ _ W) |].
      revert C. apply IHm; [intro N; exact (proj2 (Hds N)) | apply Inv_nil |].
      intros G2. apply all_weak. intro e. apply typed_weak, (w_string _ _ W).
    - intros _ G _. exact I.
    - intros d IHd r IHr Hds G. cbn [details_ok]. intros [A B].
      split; [exact (IHd (fun N => proj1 (Hds N)) _ A) | exact (IHr (fun N => proj2 (Hds N)) _ B)].
  Qed.

  Lemma weaken_message G m :
    (need -> distinct_message m) -> message_well_typed chk R G m -> message_well_typed chk R' G m.
  Proof.
    intros Hm. unfold message_well_typed.
    apply (proj1 (proj2 weaken)); [intro N; exact (proj1 (Hm N)) | apply Inv_nil |].
    intros G1 X r I. specialize (X r I). destruct r as [ | e | o]; cbn [rule_ok] in *.
    - exact X.
    - revert X. apply typed_weak, (w_any _ _ W).
    - destruct X as [A B]. split.
      + revert A. apply given_weak. intro c. apply typed_weak, (w_bool _ _ W).
      + revert B. apply (proj1 (proj2 weaken)); [intro N; exact (proj2 (Hm N) o I) | apply Inv_nil |].
        intro G2. apply given_weak. intro e. apply typed_weak, (w_any _ _ W).
  Qed.
End Weaken.

(** A sibling is visible under its name and no later definition has its name. *)
Definition linked (G : env) (L : siblings) (ns : list string) : Prop :=
  (forall s t, look L s = Some (Some t) -> look G s = Some t) /\
  (forall s, In s (map fst L) -> ~ In s ns).

Lemma implemented_lenient alias : weaker (implemented alias) (lenient alias).
Proof. constructor; cbn; auto. Qed.

Lemma look_in {A} (l : list (string * A)) n v : look l n = Some v -> In n (map fst l).
Proof.
  induction l as [| [k w] l IH]; cbn; [discriminate |].
  destruct (String.eqb_spec k n) as [-> |]; [left; reflexivity | intro H; right; apply IH, H].
Qed.

Lemma sibling_cases n x t L : sibling n x t L = L \/ sibling n x t L = (n, t) :: L.
Proof.
  unfold sibling. destruct x as [ | e | iter src b | args retry errs m | args m | en e | g ]; auto.
  destruct errs; auto.
Qed.

Lemma sound_message chk alias G m :
  distinct_message m ->
  message_well_typed chk (implemented alias) G m ->
  message_well_typed chk (lenient alias) G m.
Proof.
  intro Hm. apply (weaken_message chk (implemented alias) (lenient alias) (implemented_lenient alias)
                   linked) with (need := True).
  - intros G0 L ns src t [H _] E _. cbn in *. apply H, E.
  - intros G0 ns. split; [intros s t X; discriminate X | intros s []].
  - intros G0 L n x t ns [H1 H2] Hn Hx. destruct (Hn I) as [N1 N2].
    unfold visible. destruct (String.eqb_spec n "") as [E | _]; [contradiction |].
    assert (H3 : forall s u, look L s = Some (Some u) -> look ((n, t) :: G0) s = Some u).
    { intros s u E. cbn. destruct (String.eqb_spec n s) as [-> |]; [| apply H1, E].
      exfalso. apply (H2 s (look_in _ _ _ E)). left; reflexivity. }
    destruct (sibling_cases n x (Some t) L) as [-> | ->].
    + split; [exact H3 |]. intros s X Y. apply (H2 s X). right; exact Y.
    + split.
      * intros s u E. cbn in E. destruct (String.eqb n s) eqn:Q.
        -- injection E as <-. cbn. rewrite Q. reflexivity.
        -- apply H3, E.
      * intros s [<- | X] Y; [exact (N1 Y) | apply (H2 s X); right; exact Y].
  - intros G0 L n ns [H1 H2] Hn. destruct (Hn I) as [N1 N2]. split.
    + intros s u E. cbn in E. destruct (String.eqb n s); [discriminate E | apply H1, E].
    + intros s [<- | X] Y; [exact (N1 Y) | apply (H2 s X); right; exact Y].
  - intros _. exact Hm.
Qed.

Lemma simple_message chk R R' G m :
  weaker R R' ->
  (forall G L src t, elements R G L src t -> elements R' G L src t) ->
  message_well_typed chk R G m -> message_well_typed chk R' G m.
Proof.
  intros W H. apply (weaken_message chk R R' W (fun _ _ _ => True)) with (need := False); auto.
  intros [].
Qed.

Lemma careful_expected alias : weaker (careful alias) (expected alias).
Proof.
  constructor; cbn; auto.
  - intros en t [e [-> H]]. cbn. split; [discriminate |]. intros e' [<- | []]. exact H.
  - intros t u [_ [_ H]]. exact H.
  - intros t u [_ H]. exact H.
Qed.

Lemma careful_implemented alias : weaker (careful alias) (implemented alias).
Proof.
  constructor; cbn; auto.
  - intros t ->. split; [exact I | reflexivity].
  - intros t ->. split; [exact I | reflexivity].
  - intros t [m ->]. split; exact I.
  - intros m t ->. reflexivity.
  - intros en t [e [-> H]]. split; [exact I |]. left. exists e. auto.
  - intros t u [S [F ->]]. split; [exact S | symmetry; exact F].
  - intros t u [F ->]. rewrite F. reflexivity.
Qed.
