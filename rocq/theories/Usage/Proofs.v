From Coq Require Import String Ascii List Arith Bool Lia.
From Verif.Base Require Import Text TextProofs.
From Verif.Lookup Require Import Model.
From Verif.Lookup Require Proofs.
From Verif.Usage Require Import Model Spec.
Import ListNotations.
Local Open Scope string_scope.
Local Open Scope list_scope.
Module L := Verif.Lookup.Proofs.

(** * Names *)
Lemma app_dot : forall (p r : string) c t, p <> "" -> (forall r, p <> ("." ++ r)%string) -> (p ++ "." ++ r)%string = String c t -> c <> "."%char.
Proof.
  intros [|a p] r c t N D E C; [congruence|]. cbn in E. injection E as -> _. subst c. apply (D p). reflexivity.
Qed.
Lemma trim_id : forall n, (forall t, n <> String "."%char t) -> trim_prefix1 "." n = n.
Proof.
  intros [|a n] H; [reflexivity|]. cbn [trim_prefix1]. destruct (Ascii.eqb "." a) eqn:E; [|reflexivity].
  apply Ascii.eqb_eq in E. subst a. elim (H n). reflexivity.
Qed.
Lemma package_of_has : forall s p, package_of s p <-> has_package s p = true.
Proof. intros. rewrite L.has_package_In. reflexivity. Qed.

Lemma lookup_exact : forall s p n r, separate s -> package_of s p -> trim_prefix1 "." n = (p ++ "." ++ r)%string -> lookupPackage s n = Some p.
Proof.
  intros s p n r S P T. destruct (S p P) as [_ [_ Nest]]. unfold lookupPackage. rewrite T.
  change ((p ++ "." ++ r)%string) with ((p ++ String "." r)%string). rewrite split_app_gen.
  pose proof (split_nonempty "." p) as Np. pose proof (split_nonempty "." r) as Nr. pose proof (join_split "." p) as Jp.
  set (a := split "." p) in *. set (b := split "." r) in *. rewrite app_length.
  assert (La : 0 < List.length a) by (destruct a; [congruence | cbn; lia]). assert (Lb : 0 < List.length b) by (destruct b; [congruence | cbn; lia]).
  destruct (List.length a + List.length b <=? 1)%nat eqn:Q; [apply Nat.leb_le in Q; lia|]. clear Q.
  assert (F : join "." (firstn (List.length a) (a ++ b)) = p) by (rewrite firstn_app, Nat.sub_diag, firstn_all, app_nil_r; exact Jp).
  rewrite (L.longest_package_is s (a ++ b) (List.length a)); try lia.
  - rewrite F. reflexivity.
  - rewrite F. apply package_of_has, P.
  - intros j Hj Hk. destruct (has_package s (join "." (firstn j (a ++ b)))) eqn:H; [exfalso|reflexivity].
    rewrite firstn_app, firstn_all2 in H by lia.
    assert (N1 : firstn (j - List.length a) b <> []) by (intros Z; apply (f_equal (@List.length string)) in Z; rewrite firstn_length in Z; cbn in Z; lia).
    rewrite L.join_app in H by assumption. apply package_of_has in H. change (join "." a) with (join (String "." "") a) in H. rewrite Jp in H.
    apply (Nest _ (join "." (firstn (j - List.length a) b)) H). reflexivity.
Qed.

Lemma ident_exact : forall s n p, separate s -> (In p (ident_packages s n) <-> package_of s p /\ refers p n).
Proof.
  intros s n p S. unfold ident_packages. split.
  - destruct (lookupPackage s n) as [q|] eqn:Lk.
    + intros [<-|[]]. destruct (L.lookupPackage_sound _ _ _ Lk) as [H [r E]]. split; [apply package_of_has, H|]. right. exists r.
      destruct n as [|c n]; [left; exact E|]. cbn [trim_prefix1] in E. destruct (Ascii.eqb "." c) eqn:C; [|left; exact E].
      apply Ascii.eqb_eq in C. subst c n. right. reflexivity.
    + destruct (has_package s n) eqn:H; [|intros []]. intros [<-|[]]. split; [apply package_of_has, H | left; reflexivity].
  - intros [P R]. destruct (S p P) as [Ne [Nd Nest]]. destruct R as [->|[r [->| ->]]].
    + destruct (lookupPackage s p) as [q|] eqn:Lk.
      * destruct (L.lookupPackage_sound _ _ _ Lk) as [H [r E]]. rewrite trim_id in E.
        -- exfalso. apply package_of_has in H. destruct (S q H) as [_ [_ Nq]]. apply (Nq p r P E).
        -- intros t ->. apply (Nd t). reflexivity.
      * apply package_of_has in P. rewrite P. left. reflexivity.
    + rewrite (lookup_exact s p _ r S P); [left; reflexivity|]. apply trim_id. intros t E.
      apply (app_dot _ _ _ _ Ne Nd E). reflexivity.
    + rewrite (lookup_exact s p _ r S P); [left; reflexivity|]. reflexivity.
Qed.

(** * Expressions *)
Lemma dotted_selector : forall e n, dotted e n -> to_selector e = n /\ n <> "".
Proof.
  intros e n D. induction D as [n N|e n f D [IH N]]; [split; [reflexivity | exact N]|]. cbn [to_selector]. rewrite IH.
  destruct (String.eqb_spec n "") as [C|_]; [contradiction|]. split; [reflexivity|]. destruct n; [congruence | discriminate].
Qed.
Lemma trailing_selector : forall e n, trailing e n -> to_selector e = n /\ n <> "".
Proof.
  intros e n T. induction T as [e f N D Sl|e n f T [IH N]].
  - cbn [to_selector]. assert (E : to_selector e = "").
    { destruct e; try reflexivity; [|exfalso; eapply Sl; reflexivity]. cbn. destruct name as [|c name]; [reflexivity|].
      exfalso. apply (D (String c name)). constructor. discriminate. }
    rewrite E. cbn. auto.
  - cbn [to_selector]. rewrite IH. destruct (String.eqb_spec n "") as [C|_]; [contradiction|]. split; [reflexivity|]. destruct n; [congruence | discriminate].
Qed.
Lemma dotted_fun : forall e n m, dotted e n -> dotted e m -> n = m.
Proof. intros e n m A B. destruct (dotted_selector _ _ A) as [<- _], (dotted_selector _ _ B) as [<- _]. reflexivity. Qed.
Lemma dotted_identifiers : forall e n, dotted e n -> to_identifiers e = [n].
Proof.
  intros e n D. destruct (dotted_selector _ _ D) as [E _]. destruct D; cbn [to_identifiers]; [reflexivity|]. rewrite E. reflexivity.
Qed.
Lemma dotted_occurs : forall e n w m, dotted e n -> occurs w m e -> m = n.
Proof.
  intros e n w m D O. inversion O; subst; try (inversion D; fail); [eapply dotted_fun; eassumption|].
  inversion D; subst. exfalso. eapply H; eassumption.
Qed.
Lemma trailing_not_dotted : forall e n, trailing e n -> forall m, ~ dotted e m.
Proof.
  intros e n T. induction T as [e f N D Sl|e n f T IH]; intros m Q; inversion Q; subst; [eapply D | eapply IH]; eassumption.
Qed.
Lemma trailing_identifiers : forall e n, trailing e n -> to_identifiers e = [n].
Proof. intros e n T. destruct (trailing_selector _ _ T) as [E _]. destruct T; cbn [to_identifiers]; rewrite E; reflexivity. Qed.
Lemma trailing_occurs : forall e n w m, trailing e n -> occurs w m e -> w <> [].
Proof.
  intros e n w m T O. pose proof (trailing_not_dotted _ _ T) as D. inversion O; subst; try (inversion T; fail); [exfalso; eapply D; eassumption | discriminate].
Qed.

Section Exact.
  Variable s : schema.
  Hypothesis S : separate s.
  Local Notation known := (package_of s).

  Lemma flat_cel : forall es p, (forall e, In e es -> In p (cel_packages s e) <-> known p /\ exists n, occurs [] n e /\ refers p n) ->
    (In p (flat_map (ident_packages s) (flat_map to_identifiers es)) <-> known p /\ exists e n, In e es /\ occurs [] n e /\ refers p n).
  Proof.
    intros es p H. split.
    - intros I. apply in_flat_map in I. destruct I as [n [I J]]. apply in_flat_map in I. destruct I as [e [Ie I]].
      assert (C : In p (cel_packages s e)) by (apply in_flat_map; exists n; auto). apply (H e Ie) in C. destruct C as [K [m [O R]]]. eauto 6.
    - intros [K [e [n [Ie [O R]]]]]. assert (C : In p (cel_packages s e)) by (apply H; eauto). unfold cel_packages in C. apply in_flat_map in C.
      destruct C as [m [I J]]. apply in_flat_map. exists m. split; [|exact J]. apply in_flat_map. eauto.
  Qed.

  Lemma cel_exact : forall e p, plain known e -> (In p (cel_packages s e) <-> known p /\ exists n, occurs [] n e /\ refers p n).
  Proof.
    intros e p P. induction P as [|e n D|e n T N|t args P IH Pa IHa|es P IH|es P IH|n fs P IH|es].
    - unfold cel_packages. cbn. split; [intros [] | intros [_ [n [O _]]]; inversion O; subst; inversion H].
    - unfold cel_packages. rewrite (dotted_identifiers _ _ D). cbn [flat_map]. rewrite app_nil_r, (ident_exact s n p S). split.
      + intros [K R]. split; [exact K|]. exists n. split; [constructor; exact D | exact R].
      + intros [K [m [O R]]]. split; [exact K|]. rewrite <- (dotted_occurs _ _ _ _ D O). exact R.
    - unfold cel_packages. rewrite (trailing_identifiers _ _ T). cbn [flat_map]. rewrite app_nil_r, (ident_exact s n p S). split.
      + intros [K R]. exfalso. apply (N p K R).
      + intros [K [m [O R]]]. exfalso. apply (trailing_occurs _ _ _ _ T O). reflexivity.
    - unfold cel_packages in *. cbn [to_identifiers]. rewrite flat_map_app, in_app_iff, IH, (flat_cel args p IHa). split.
      + intros [[K [n [O R]]]|[K [e [n [I [O R]]]]]]; (split; [exact K|]); exists n; (split; [|exact R]); [apply occurs_target | eapply occurs_arg]; eassumption.
      + intros [K [n [O R]]]. inversion O; subst; [inversion H | left | right]; (split; [exact K|]); eauto 6.
    - unfold cel_packages in *. cbn [to_identifiers]. rewrite (flat_cel es p IH). split.
      + intros [K [e [n [I [O R]]]]]. split; [exact K|]. exists n. split; [eapply occurs_elem; eassumption | exact R].
      + intros [K [n [O R]]]. inversion O; subst; [inversion H|]. split; [exact K|]. eauto 6.
    - unfold cel_packages in *. cbn [to_identifiers]. rewrite (flat_cel es p IH). split.
      + intros [K [e [n [I [O R]]]]]. split; [exact K|]. exists n. split; [eapply occurs_entry; eassumption | exact R].
      + intros [K [n [O R]]]. inversion O; subst; [inversion H|]. split; [exact K|]. eauto 6.
    - unfold cel_packages in *. cbn [to_identifiers flat_map]. rewrite in_app_iff, (ident_exact s n p S), (flat_cel fs p IH). split.
      + intros [[K R]|[K [e [m [I [O R]]]]]]; (split; [exact K|]); [exists n; split; [apply occurs_struct | exact R] | exists m; split; [eapply occurs_field; eassumption | exact R]].
      + intros [K [m [O R]]]. inversion O; subst; [inversion H | left; auto | right]. split; [exact K|]. eauto 6.
    - unfold cel_packages. cbn. split; [intros [] | intros [_ [n [O _]]]; inversion O; subst; inversion H].
  Qed.
  Lemma cel_mentions : forall e p, plain known e -> (In p (cel_packages s e) <-> mentions known p [] (Cel e)).
  Proof.
    intros e p P. rewrite (cel_exact e p P). split.
    - intros [K [n [O R]]]. econstructor; eassumption.
    - intros M. inversion M; subst. eauto.
  Qed.

  (** * Types *)
  Section TypInd.
    Variable P : typ -> Prop.
    Hypothesis P0 : P TScalar.
    Hypothesis P1 : forall p, P (TMsg p).
    Hypothesis P2 : forall p, P (TEnum p).
    Hypothesis P3 : forall ts, (forall t, In t ts -> P t) -> P (TEntry ts).
    Fixpoint typ_ind' (t : typ) : P t.
    Proof.
      destruct t as [|p|p|ts]; [exact P0 | exact (P1 p) | exact (P2 p)|]. apply P3.
      induction ts as [|t ts IH]; [intros t []|]. intros x [<-|I]; [apply typ_ind' | apply IH, I].
    Defined.
  End TypInd.
  Lemma type_exact : forall t p, In p (type_packages t) <-> mentions known p [] (Ty t).
  Proof.
    intros t p. assert (E : In p (type_packages t) <-> type_from p t).
    { induction t as [|q|q|ts IH] using typ_ind'; cbn [type_packages].
      - split; [intros [] | intros H; inversion H].
      - split; [intros [<-|[]]; constructor | intros H; inversion H; left; reflexivity].
      - split; [intros [<-|[]]; constructor | intros H; inversion H; left; reflexivity].
      - rewrite in_flat_map. split; [intros [t [I J]]; apply (IH t I) in J; econstructor; eassumption | intros H; inversion H; subst; exists t; split; [|apply IH]; assumption]. }
    rewrite E. split; [constructor; assumption | intros M; inversion M; assumption].
  Qed.
  Lemma ref_exact : forall q p, q = p <-> mentions known p [] (Ref q).
  Proof. intros. split; [intros ->; constructor | intros M; inversion M; reflexivity]. Qed.

  (** what is found directly at some place *)
  Definition at_place (place : way -> item -> Prop) (p : string) : Prop := exists x, place [] x /\ mentions known p [] x.
  Definition plain_at (place : way -> item -> Prop) : Prop := forall w e, place w (Cel e) -> plain known e.

  Lemma at_ref : forall (place : way -> item -> Prop) p, place [] (Ref p) -> at_place place p.
  Proof. intros. exists (Ref p). split; [assumption | constructor]. Qed.
  Lemma at_cel : forall (place : way -> item -> Prop) e p, plain_at place -> place [] (Cel e) -> In p (cel_packages s e) -> at_place place p.
  Proof. intros place e p P H I. exists (Cel e). split; [exact H|]. apply cel_mentions; [eapply P, H | exact I]. Qed.
  Lemma at_type : forall (place : way -> item -> Prop) t p, place [] (Ty t) -> In p (type_packages t) -> at_place place p.
  Proof. intros place t p H I. exists (Ty t). split; [exact H | apply type_exact, I]. Qed.
  Lemma at_sub : forall (a b : way -> item -> Prop) p, (forall w x, a w x -> b w x) -> at_place a p -> at_place b p.
  Proof. intros a b p H [x [A M]]. exists x. split; [apply H, A | exact M]. Qed.
  Lemma plain_sub : forall (a b : way -> item -> Prop), (forall w x, a w x -> exists w', b w' x) -> plain_at b -> plain_at a.
  Proof. intros a b H P w e A. destruct (H _ _ A) as [w' B]. eapply P, B. Qed.

  Lemma arg_exact : forall a p, plain_at (arg_place a) -> (In p (arg_packages s a) <-> at_place (arg_place a) p).
  Proof.
    intros a p P. unfold arg_packages. rewrite in_app_iff. split.
    - intros [I|I].
      + destruct (a_cel a) as [e|] eqn:E; [|destruct I]. eapply at_cel; [exact P | constructor; exact E | exact I].
      + eapply at_type; [constructor | exact I].
    - intros [x [A M]]. inversion A; subst.
      + left. rewrite H. cbn [opt]. apply cel_mentions; [eapply P, A | exact M].
      + right. apply type_exact, M.
  Qed.
  Lemma args_exact : forall (place : way -> item -> Prop) l p, (forall a w x, In a l -> arg_place a w x -> place w x) -> plain_at place ->
    (In p (args_packages s l) <-> exists a, In a l /\ at_place (arg_place a) p).
  Proof.
    intros place l p H P. unfold args_packages. rewrite in_flat_map.
    assert (Q : forall a, In a l -> plain_at (arg_place a)) by (intros a I; eapply plain_sub; [|exact P]; intros w x A; exists w; eapply H; eassumption).
    split; intros [a [I J]]; exists a; (split; [exact I|]); apply (arg_exact a p (Q a I)), J.
  Qed.
  Lemma map_exact : forall m p, plain_at (map_place m) -> (In p (map_packages s m) <-> at_place (map_place m) p).
  Proof.
    intros m p P. split.
    - destruct m as [e|q args|q e]; cbn [map_packages].
      + intros I. eapply at_cel; [exact P | constructor | exact I].
      + intros [<-|I]; [apply at_ref; constructor|]. apply (args_exact (map_place (MMessage q args))) in I; [|intros; econstructor; eassumption | exact P].
        destruct I as [a [I J]]. eapply at_sub; [|exact J]. intros; econstructor; eassumption.
      + intros [].
    - intros [x [A M]]. inversion A; subst; cbn [map_packages].
      + apply cel_mentions; [eapply P, A | exact M].
      + left. apply ref_exact, M.
      + right. apply (args_exact (map_place (MMessage p0 args))); [intros; econstructor; eassumption | exact P|]. exists a. split; [assumption|]. exists x. auto.
  Qed.

  (** * Definitions *)
  Section DefInd.
    Variables (P : def -> Prop) (Q : vexpr -> Prop) (R : gerr -> Prop) (T : detail -> Prop).
    Hypothesis HD : forall c v, Q v -> P (Def c v).
    Hypothesis H0 : Q XNone.
    Hypothesis H1 : forall e, Q (XBy e).
    Hypothesis H2 : forall a b c d errs, (forall g, In g errs -> R g) -> Q (XCall a b c d errs).
    Hypothesis H3 : forall a b, Q (XMessage a b).
    Hypothesis H4 : forall a b, Q (XEnum a b).
    Hypothesis H5 : forall m, Q (XMap m).
    Hypothesis H6 : forall g, R g -> Q (XValidation g).
    Hypothesis HR : forall defs conds ds, (forall d, In d ds -> T d) -> R (GErr defs conds ds).
    Hypothesis HT : forall c b ms ds ps, (forall d, In d ms -> P d) -> (forall d, In d ds -> P d) -> T (Detail c b ms ds ps).
    Fixpoint def_ind' (d : def) : P d :=
      match d with Def c v => HD c v (vexpr_ind' v) end
    with vexpr_ind' (v : vexpr) : Q v :=
      match v with
      | XNone => H0
      | XBy e => H1 e
      | XCall a b c d errs => H2 a b c d errs ((fix go l : forall g, In g l -> R g :=
          match l with
          | [] => fun g (I : In g []) => match I with end
          | h :: t => fun g I => match I with or_introl E => match E in _ = y return R y with eq_refl => err_ind' h end | or_intror J => go t g J end
          end) errs)
      | XMessage a b => H3 a b
      | XEnum a b => H4 a b
      | XMap m => H5 m
      | XValidation g => H6 g (err_ind' g)
      end
    with err_ind' (g : gerr) : R g :=
      match g with GErr defs conds ds => HR defs conds ds ((fix go l : forall g, In g l -> T g :=
          match l with
          | [] => fun g (I : In g []) => match I with end
          | h :: t => fun g I => match I with or_introl E => match E in _ = y return T y with eq_refl => detail_ind' h end | or_intror J => go t g J end
          end) ds) end
    with detail_ind' (d : detail) : T d :=
      match d with Detail c b ms ds ps =>
        let go := (fix go l : forall g, In g l -> P g :=
          match l with
          | [] => fun g (I : In g []) => match I with end
          | h :: t => fun g I => match I with or_introl E => match E in _ = y return P y with eq_refl => def_ind' h end | or_intror J => go t g J end
          end) in HT c b ms ds ps (go ms) (go ds) end.
  End DefInd.

  Local Ltac lift C := eapply plain_sub; [|eassumption]; intros; eexists; eapply C; eassumption.

  Lemma def_exact : forall d p, plain_at (def_place d) -> (In p (def_packages s d) <-> at_place (def_place d) p).
  Proof.
    intros d p. revert d.
    apply (def_ind' (fun d => plain_at (def_place d) -> (In p (def_packages s d) <-> at_place (def_place d) p))
                    (fun v => plain_at (vexpr_place v) -> (In p (vexpr_packages s v) <-> at_place (vexpr_place v) p))
                    (fun g => plain_at (err_place g) -> (In p (err_packages s g) <-> at_place (err_place g) p))
                    (fun d => plain_at (detail_place d) -> (In p (detail_packages s d) <-> at_place (detail_place d) p))).
    - intros c v IH P. cbn [def_packages]. assert (Pv : plain_at (vexpr_place v)) by (lift place_def_value). rewrite (IH Pv). split.
      + apply at_sub. intros; constructor; assumption.
      + intros [x [A M]]. inversion A; subst. exists x. auto.
    - intros P. split; [intros [] | intros [x [A M]]; inversion A].
    - intros e P. cbn [vexpr_packages]. split.
      + intros I. eapply at_cel; [exact P | constructor | exact I].
      + intros [x [A M]]. inversion A; subst. apply cel_mentions; [eapply P, A | exact M].
    - intros svc req args r errs IH P. cbn [vexpr_packages In]. rewrite in_app_iff.
      rewrite (args_exact (vexpr_place (XCall svc req args r errs))); [|intros; eapply place_call_arg; eassumption | exact P]. rewrite in_flat_map. split.
      + intros [<-|[<-|[[a [I J]]|[g [I J]]]]].
        * apply at_ref. constructor.
        * apply at_ref. constructor.
        * eapply at_sub; [|exact J]. intros; eapply place_call_arg; eassumption.
        * apply (IH g I) in J; [|lift place_call_error]. eapply at_sub; [|exact J]. intros; eapply place_call_error; eassumption.
      + intros [x [A M]]. inversion A; subst.
        * left. apply ref_exact, M.
        * right. left. apply ref_exact, M.
        * right. right. left. exists a. split; [assumption|]. exists x. auto.
        * right. right. right. exists g. split; [assumption|]. apply IH; [assumption | lift place_call_error |]. exists x. auto.
    - intros q args P. cbn [vexpr_packages In]. rewrite (args_exact (vexpr_place (XMessage q args))); [|intros; eapply place_message_arg; eassumption | exact P]. split.
      + intros [<-|[a [I J]]]; [apply at_ref; constructor|]. eapply at_sub; [|exact J]. intros; eapply place_message_arg; eassumption.
      + intros [x [A M]]. inversion A; subst; [left; apply ref_exact, M|]. right. exists a. split; [assumption|]. exists x. auto.
    - intros q e P. cbn [vexpr_packages In]. split.
      + intros [<-|[]]. apply at_ref. constructor.
      + intros [x [A M]]. inversion A; subst. left. apply ref_exact, M.
    - intros m P. cbn [vexpr_packages]. assert (Pm : plain_at (map_place m)) by (lift place_map). rewrite (map_exact m p Pm). split.
      + apply at_sub. intros; constructor; assumption.
      + intros [x [A M]]. inversion A; subst. exists x. auto.
    - intros g IH P. cbn [vexpr_packages]. assert (Pg : plain_at (err_place g)) by (lift place_validation). rewrite (IH Pg). split.
      + apply at_sub. intros; constructor; assumption.
      + intros [x [A M]]. inversion A; subst. exists x. auto.
    - intros defs conds ds IH P. cbn [err_packages]. rewrite in_app_iff, !in_flat_map. split.
      + intros [[e [I J]]|[d [I J]]].
        * eapply at_cel; [exact P | apply place_err_cond; exact I | exact J].
        * apply (IH d I) in J; [|lift place_err_detail]. eapply at_sub; [|exact J]. intros; eapply place_err_detail; eassumption.
      + intros [x [A M]]. inversion A; subst.
        * left. exists e. split; [assumption|]. apply cel_mentions; [eapply P, A | exact M].
        * right. exists d. split; [assumption|]. apply IH; [assumption | lift place_err_detail |]. exists x. auto.
    - intros c b ms ds ps IHm IHd P. cbn [detail_packages]. rewrite !in_app_iff, !in_flat_map. split.
      + intros [I|[[e [I J]]|[[d [I J]]|[[d [I J]]|[e [I J]]]]]].
        * destruct c as [e|]; [|destruct I]. eapply at_cel; [exact P | apply place_detail_if | exact I].
        * eapply at_cel; [exact P | apply place_detail_by; exact I | exact J].
        * apply (IHm d I) in J; [|lift place_detail_message]. eapply at_sub; [|exact J]. intros; eapply place_detail_message; eassumption.
        * apply (IHd d I) in J; [|lift place_detail_def]. eapply at_sub; [|exact J]. intros; eapply place_detail_def; eassumption.
        * eapply at_cel; [exact P | apply place_detail_part; exact I | exact J].
      + intros [x [A M]]. inversion A; subst.
        * left. cbn [opt]. apply cel_mentions; [eapply P, A | exact M].
        * right. left. exists e. split; [assumption|]. apply cel_mentions; [eapply P, A | exact M].
        * right. right. left. exists d. split; [assumption|]. apply IHm; [assumption | lift place_detail_message |]. exists x. auto.
        * right. right. right. left. exists d. split; [assumption|]. apply IHd; [assumption | lift place_detail_def |]. exists x. auto.
        * right. right. right. right. exists e. split; [assumption|]. apply cel_mentions; [eapply P, A | exact M].
  Qed.

  (** * Messages *)
  Lemma field_exact : forall f p, plain_at (field_place f) -> (In p (field_packages s f) <-> at_place (field_place f) p).
  Proof.
    intros f p P. unfold field_packages. split.
    - destruct (f_rule f) as [r|] eqn:Er; [|intros []]. cbn [opt]. unfold frule_packages. rewrite !in_app_iff. intros [I|[I|I]].
      + apply at_ref. eapply place_field_alias; eassumption.
      + destruct (r_value r) as [e|] eqn:Ev; [|destruct I]. eapply at_cel; [exact P | eapply place_field_value; eassumption | exact I].
      + destruct (r_oneof r) as [o|] eqn:Eo; [|destruct I]. cbn [opt] in I. unfold oneof_packages in I. destruct (o_by o) as [e|] eqn:Eb; [|destruct I].
        eapply at_cel; [exact P | eapply place_oneof_by; eassumption | exact I].
    - intros [x [A M]]. inversion A; subst; rewrite H; cbn [opt]; unfold frule_packages; rewrite !in_app_iff.
      + left. rewrite (proj2 (ref_exact _ _) M) in H0. exact H0.
      + right. left. rewrite H0. cbn [opt]. apply cel_mentions; [eapply P, A | exact M].
      + right. right. rewrite H0. cbn [opt]. unfold oneof_packages. rewrite H1. cbn [opt]. apply cel_mentions; [eapply P, A | exact M].
  Qed.
  Section MsgInd.
    Variable P : message -> Prop.
    Hypothesis H : forall os r fs es ns, (forall m, In m ns -> P m) -> P (Message os r fs es ns).
    Fixpoint message_ind' (m : message) : P m :=
      match m with Message os r fs es ns => H os r fs es ns ((fix go l : forall g, In g l -> P g :=
          match l with
          | [] => fun g (I : In g []) => match I with end
          | h :: t => fun g I => match I with or_introl E => match E in _ = y return P y with eq_refl => message_ind' h end | or_intror J => go t g J end
          end) ns) end.
  End MsgInd.
  Lemma message_exact : forall m p, plain_at (message_place m) -> (In p (message_packages s m) <-> at_place (message_place m) p).
  Proof.
    intros m p. induction m as [os r fs es ns IH] using message_ind'. intros P. cbn [message_packages]. rewrite !in_app_iff, !in_flat_map. split.
    - intros [I|[[f [I J]]|[n [I J]]]].
      + destruct r as [r|]; [|destruct I]. cbn [opt] in I. unfold mrule_packages in I. rewrite in_app_iff, in_flat_map in I. destruct I as [I|[d [I J]]].
        * apply at_ref. apply place_alias. exact I.
        * apply def_exact in J; [|lift place_def]. eapply at_sub; [|exact J]. intros; eapply place_def; eassumption.
      + apply field_exact in J; [|lift place_field]. eapply at_sub; [|exact J]. intros; eapply place_field; eassumption.
      + apply (IH n I) in J; [|lift place_nested]. eapply at_sub; [|exact J]. intros; eapply place_nested; eassumption.
    - intros [x [A M]]. inversion A; subst.
      + left. cbn [opt]. unfold mrule_packages. apply in_app_iff. left. rewrite (proj2 (ref_exact _ _) M) in *. assumption.
      + left. cbn [opt]. unfold mrule_packages. apply in_app_iff. right. apply in_flat_map. exists d. split; [assumption|].
        apply def_exact; [lift place_def|]. exists x. auto.
      + right. left. exists f. split; [assumption|]. apply field_exact; [lift place_field|]. exists x. auto.
      + right. right. exists n. split; [assumption|]. apply IH; [assumption | lift place_nested |]. exists x. auto.
  Qed.
  Lemma proto_message_exact : forall m p, In p (proto_message m) <-> at_place (proto_message_place m) p.
  Proof.
    intros m p. induction m as [os r fs es ns IH] using message_ind'. cbn [proto_message]. rewrite in_app_iff, !in_flat_map. split.
    - intros [[f [I J]]|[n [I J]]].
      + unfold proto_field in J. apply in_app_iff in J. destruct J as [J|J]; [apply at_ref; eapply place_field_option; eassumption|].
        eapply at_type; [apply place_field_type; exact I | exact J].
      + apply (IH n I) in J. eapply at_sub; [|exact J]. intros; eapply place_nested_proto; eassumption.
    - intros [x [A M]]. inversion A; subst.
      + left. exists f. split; [assumption|]. unfold proto_field. apply in_app_iff. left. rewrite (proj2 (ref_exact _ _) M) in *. assumption.
      + left. exists f. split; [assumption|]. unfold proto_field. apply in_app_iff. right. apply type_exact, M.
      + right. exists n. split; [assumption|]. apply IH; [assumption|]. exists x. auto.
  Qed.

  (** * The file *)
  Lemma file_exact : forall f p, plain_file s f -> (In p (file_packages s f) <-> at_place (federation_place f) p).
  Proof.
    intros f p P. change (plain_at (federation_place f)) in P. unfold file_packages. rewrite !in_app_iff, !in_flat_map. split.
    - intros [[v [I J]]|[[m [I J]]|[e [I J]]]].
      + unfold service_packages in J. apply in_flat_map in J. destruct J as [t [It J]]. eapply at_type; [eapply place_env; eassumption | exact J].
      + apply message_exact in J; [|lift place_in_message]. eapply at_sub; [|exact J]. intros; eapply place_in_message; eassumption.
      + apply at_ref. eapply place_enum_alias; eassumption.
    - intros [x [A M]]. inversion A; subst.
      + left. exists v. split; [assumption|]. unfold service_packages. apply in_flat_map. exists t. split; [assumption | apply type_exact, M].
      + right. left. exists m. split; [assumption|]. apply message_exact; [lift place_in_message|]. exists x. auto.
      + right. right. exists e. split; [assumption|]. rewrite (proj2 (ref_exact _ _) M) in *. assumption.
  Qed.
  Lemma proto_file_exact : forall f p, In p (proto_file f) <-> at_place (proto_place f) p.
  Proof.
    intros f p. unfold proto_file. rewrite in_app_iff, !in_flat_map. split.
    - intros [[v [I J]]|[m [I J]]].
      + unfold proto_service in J. apply in_app_iff in J. destruct J as [J|J]; [apply at_ref; eapply place_service_option; eassumption|].
        apply in_flat_map in J. destruct J as [d [Id J]]. unfold proto_method in J. apply in_app_iff in J.
        destruct J as [J|[<-|[<-|[]]]]; apply at_ref; [eapply place_method_option | eapply place_method_request | eapply place_method_reply]; eassumption.
      + apply proto_message_exact in J. eapply at_sub; [|exact J]. intros; eapply place_in_proto_message; eassumption.
    - intros [x [A M]]. inversion A; subst.
      + left. exists v. split; [assumption|]. apply in_app_iff. left. rewrite (proj2 (ref_exact _ _) M) in *. assumption.
      + left. exists v. split; [assumption|]. apply in_app_iff. right. apply in_flat_map. exists m. split; [assumption|]. apply in_app_iff. left.
        rewrite (proj2 (ref_exact _ _) M) in *. assumption.
      + left. exists v. split; [assumption|]. apply in_app_iff. right. apply in_flat_map. exists m. split; [assumption|]. apply in_app_iff. right. left. apply ref_exact, M.
      + left. exists v. split; [assumption|]. apply in_app_iff. right. apply in_flat_map. exists m. split; [assumption|]. apply in_app_iff. right. right. left. apply ref_exact, M.
      + right. exists m. split; [assumption|]. apply proto_message_exact. exists x. auto.
  Qed.
  Lemma at_used : forall place p, at_place place p <-> used_in place known direct p.
  Proof.
    intros place p. split.
    - intros [x [A M]]. exists [], [], x. repeat split; assumption.
    - intros [w [w' [x [A [M E]]]]]. unfold direct in E. apply app_eq_nil in E. destruct E as [-> ->]. exists x. auto.
  Qed.

  Lemma has_In : forall l p, has l p = true <-> In p l.
  Proof.
    intros. unfold has. rewrite existsb_exists. split; [intros [x [I E]]; apply String.eqb_eq in E; subst; exact I | intros I; exists p; split; [exact I | apply String.eqb_refl]].
  Qed.
  Lemma warnings_packages : forall f name pkg, In (name, pkg) (imports f) -> (forall q, In (name, q) (imports f) -> q = pkg) ->
    (In (Unused name) (validate_import s f) <-> In name (fed_imports f) /\ ~ In pkg (file_packages s f)) /\
    (In (OnlyFederation name) (validate_import s f) <-> ~ In name (fed_imports f) /\ ~ In pkg (proto_file f) /\ In pkg (file_packages s f)).
  Proof.
    intros f name pkg I U. unfold validate_import.
    assert (E : forall w, In w (flat_map (import_warning s f) (imports f)) -> (w = Unused name \/ w = OnlyFederation name) -> In w (import_warning s f (name, pkg))).
    { intros w J W. apply in_flat_map in J. destruct J as [[n q] [J K]]. assert (n = name).
      { unfold import_warning in K. destruct (has (fed_imports f) n), (has (file_packages s f) q), (has (proto_file f) q); cbn in K; try (exfalso; exact K);
          (destruct K as [K|K]; [|exfalso; exact K]); subst w; destruct W as [W|W]; congruence. }
      subst n. rewrite (U q J) in K. exact K. }
    assert (F : forall w, In w (import_warning s f (name, pkg)) -> In w (flat_map (import_warning s f) (imports f))) by (intros w J; apply in_flat_map; eauto).
    assert (N : forall l p, has l p = false <-> ~ In p l) by (intros l p; rewrite <- has_In; destruct (has l p); split; congruence).
    unfold import_warning in E, F. split; split.
    - intros J. specialize (E _ J (or_introl eq_refl)). destruct (has (fed_imports f) name) eqn:A, (has (file_packages s f) pkg) eqn:B, (has (proto_file f) pkg) eqn:C;
        cbn in E; try (exfalso; exact E); (destruct E as [E|E]; [|exfalso; exact E]); try discriminate E; (split; [apply has_In, A | apply N, B]).
    - intros [A B]. apply F. apply has_In in A. apply N in B. rewrite A, B. left. reflexivity.
    - intros J. specialize (E _ J (or_intror eq_refl)). destruct (has (fed_imports f) name) eqn:A, (has (file_packages s f) pkg) eqn:B, (has (proto_file f) pkg) eqn:C;
        cbn in E; try (exfalso; exact E); (destruct E as [E|E]; [|exfalso; exact E]); try discriminate E.
      split; [apply N, A|]. split; [apply N, C | apply has_In, B].
    - intros [A [B C]]. apply F. apply N in A. apply N in B. apply has_In in C. rewrite A, B, C. left. reflexivity.
  Qed.
  Lemma warnings_exact : forall f, plain_file s f -> right_warnings s direct direct f (validate_import s f).
  Proof.
    intros f P name pkg I U. destruct (warnings_packages f name pkg I U) as [A B]. rewrite A, B, <- !at_used, (file_exact f pkg P), (proto_file_exact f pkg). split; reflexivity.
  Qed.
End Exact.
