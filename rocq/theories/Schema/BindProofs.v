From Coq Require Import String List Bool Arith Lia.
From Verif.Cast Require Import Model.
From Verif.Schema Require Import Model Spec Proofs Bind BindSpec.
Import ListNotations.
Local Open Scope nat_scope.

Section BindProofs.
  Variables (expr defs : Type) (s : schema) (fields_of : nat -> list (string * ty)).
  Notation mdecl := (mdecl expr defs). Notation fdecl := (fdecl expr defs). Notation frule := (frule expr defs).
  Notation f_opt := (f_opt expr defs). Notation f_name := (f_name expr defs). Notation f_type := (f_type expr defs).
  Notation f_oneof := (f_oneof expr defs).
  Notation m_custom := (m_custom expr defs). Notation m_aliases := (m_aliases expr defs).
  Notation resolve := (resolve expr defs s fields_of).
  Notation resolveFieldRule := (resolveFieldRule expr defs fields_of).
  Notation autobind := (autobind expr defs fields_of).
  Notation candidates := (candidates expr defs fields_of).
  Notation offers := (offers expr defs fields_of).
  Notation auto_bound := (auto_bound expr defs fields_of).

  (** *** The rules of an accepted message *)
  Lemma all_spec : forall A B (g : A -> option B) l r, all g l = Some r -> Forall2 (fun a b => g a = Some b) l r.
  Proof.
    intros A B g l. induction l as [|a l IH]; intros r H; cbn in H; [injection H as <-; constructor|].
    destruct (g a) eqn:E; [|discriminate H]. destruct (all g l) eqn:E2; [|discriminate H]. injection H as <-.
    constructor; [exact E|apply IH; reflexivity].
  Qed.
  Lemma all_complete : forall A B (g : A -> option B) l, (forall a, In a l -> g a <> None) -> all g l <> None.
  Proof.
    intros A B g l. induction l as [|a l IH]; intros H; cbn; [discriminate|].
    destruct (g a) eqn:E; [|exfalso; apply (H a); [left; reflexivity|exact E]].
    destruct (all g l) eqn:E2; [discriminate|]. exfalso. apply IH; [intros b' Hb; apply H; right; exact Hb|reflexivity].
  Qed.

  Definition open_ (m : mdecl) : bool := negb (m_custom m) && Nat.eqb (length (m_aliases m)) 0.
  Lemma open_spec : forall m, open_ m = true <-> m_custom m = false /\ m_aliases m = [].
  Proof.
    intros m. unfold open_. rewrite andb_true_iff, negb_true_iff, Nat.eqb_eq. split; intros [A B]; (split; [exact A|]).
    - apply length_zero_iff_nil. exact B.
    - rewrite B. reflexivity.
  Qed.

  Lemma rule_facts : forall m f r, oapp (resolveFieldRule m f) (autobind m f) = Some (Some r) ->
    r_value _ _ r = match f_opt f with OBy x t => Some (x, t) | _ => None end /\
    r_custom _ _ r = match f_opt f with OCustom b => b | _ => false end /\
    r_oneof _ _ r = match f_opt f with OOneof o => Some o | _ => None end /\
    (f_opt f = ONone -> open_ m = true -> exists c, candidates m (f_name f) = [c] /\ r_auto _ _ r = Some c /\
       isDifferentType (snd (snd c)) (f_type f) = false) /\
    (f_opt f <> ONone \/ open_ m = false -> r_auto _ _ r = None) /\
    (forall o, f_opt f = OOneof o -> f_oneof f <> None) /\
    (r_msg_custom _ _ r = match f_opt f with ONone => m_custom m | _ => false end).
  Proof.
    intros m f r H. unfold Bind.resolveFieldRule in H.
    destruct (f_opt f) as [|x t|b|n|o|] eqn:O.
    - fold (open_ m) in H. destruct (open_ m) eqn:Op.
      + cbn [oapp] in H. unfold Bind.autobind in H. pose proof Op as Op'. apply open_spec in Op'. destruct Op' as [C A]. rewrite C in H.
        destruct (candidates m (f_name f)) as [|c [|c2 l]] eqn:Cd; try discriminate H.
        destruct (isDifferentType (snd (snd c)) (f_type f)) eqn:D; [discriminate H|]. injection H as <-. cbn.
        split; [reflexivity|]. split; [reflexivity|]. split; [reflexivity|]. split; [intros _ _; exists c; auto|].
        split; [intros [X|X]; [exfalso; apply X; reflexivity|discriminate X]|]. split; [intros o X; discriminate X|symmetry; exact C].
      + destruct (all _ (m_aliases m)) as [l|]; [|discriminate H]. cbn [oapp Bind.autobind] in H. injection H as <-. cbn.
        split; [reflexivity|]. split; [reflexivity|]. split; [reflexivity|]. split; [intros _ X; discriminate X|].
        split; [reflexivity|]. split; [intros o X; discriminate X|reflexivity].
    - assert (G : oapp (all (resolveFieldAlias expr defs fields_of f (f_name f)) (m_aliases m))
        (fun l => Some (Some {| r_value := Some (x, t); r_custom := false; r_msg_custom := false; r_aliases := l; r_auto := None; r_oneof := None; r_env := false |})) = Some (Some r)).
      { destruct (m_aliases m) as [|a l]; [exact H|]. destruct (all _ (a :: l)); exact H. }
      destruct (all _ _); [|discriminate G]. cbn in G. injection G as <-. cbn.
      split; [reflexivity|]. split; [reflexivity|]. split; [reflexivity|]. split; [intros X; discriminate X|].
      split; [reflexivity|]. split; [intros o X; discriminate X|reflexivity].
    - assert (G : oapp (all (resolveFieldAlias expr defs fields_of f (f_name f)) (m_aliases m))
        (fun l => Some (Some {| r_value := None; r_custom := b; r_msg_custom := false; r_aliases := l; r_auto := None; r_oneof := None; r_env := false |})) = Some (Some r)).
      { destruct (m_aliases m) as [|a l]; [exact H|]. destruct (all _ (a :: l)); exact H. }
      destruct (all _ _); [|discriminate G]. cbn in G. injection G as <-. cbn.
      split; [reflexivity|]. split; [reflexivity|]. split; [reflexivity|]. split; [intros X; discriminate X|].
      split; [reflexivity|]. split; [intros o X; discriminate X|reflexivity].
    - destruct (m_aliases m) as [|a l]; [discriminate H|]. destruct (all _ (a :: l)) as [l'|] eqn:Al; [|discriminate H].
      cbn in H. injection H as <-. cbn.
      split; [reflexivity|]. split; [reflexivity|]. split; [reflexivity|]. split; [intros X; discriminate X|].
      split; [reflexivity|]. split; [intros o X; discriminate X|reflexivity].
    - assert (G : match f_oneof f with None => None | Some _ => oapp (all (resolveFieldAlias expr defs fields_of f (f_name f)) (m_aliases m))
        (fun l => Some (Some {| r_value := None; r_custom := false; r_msg_custom := false; r_aliases := l; r_auto := None; r_oneof := Some o; r_env := false |})) end = Some (Some r)).
      { destruct (f_oneof f); destruct (m_aliases m) as [|a l]; try discriminate H; try exact H. destruct (all _ (a :: l)); exact H. }
      destruct (f_oneof f) eqn:Fo; [|discriminate G]. destruct (all _ _); [|discriminate G]. cbn in G. injection G as <-. cbn.
      split; [reflexivity|]. split; [reflexivity|]. split; [reflexivity|]. split; [intros X; discriminate X|].
      split; [reflexivity|]. split; [intros o' X; discriminate|reflexivity].
    - assert (G : oapp (all (resolveFieldAlias expr defs fields_of f (f_name f)) (m_aliases m))
        (fun l => Some (Some {| r_value := None; r_custom := false; r_msg_custom := false; r_aliases := l; r_auto := None; r_oneof := None; r_env := true |})) = Some (Some r)).
      { destruct (m_aliases m) as [|a l]; [exact H|]. destruct (all _ (a :: l)); exact H. }
      destruct (all _ _); [|discriminate G]. cbn in G. injection G as <-. cbn.
      split; [reflexivity|]. split; [reflexivity|]. split; [reflexivity|]. split; [intros X; discriminate X|].
      split; [reflexivity|]. split; [intros o X; discriminate X|reflexivity].
  Qed.

  Lemma resolve_facts : forall m l, resolve m = Some l ->
    map fst l = m_fields _ _ m /\ oneofs_ok _ _ false (map snd l) = true /\
    Forall (fun fr => oapp (resolveFieldRule m (fst fr)) (autobind m (fst fr)) = Some (Some (snd fr)) /\
                      field_ok expr defs s fields_of (fst fr) (Some (snd fr)) = true) l.
  Proof.
    intros m l H. unfold Bind.resolve in H. destruct (all _ (m_fields _ _ m)) as [l'|] eqn:A; [|discriminate H]. cbn [oapp] in H.
    destruct (oneofs_ok _ _ false (map snd l')) eqn:O; [|discriminate H]. injection H as <-. apply all_spec in A.
    enough (map fst l' = m_fields expr defs m /\ Forall (fun fr => oapp (resolveFieldRule m (fst fr)) (autobind m (fst fr)) = Some (Some (snd fr)) /\
                      field_ok expr defs s fields_of (fst fr) (Some (snd fr)) = true) l') by tauto.
    clear O. induction A as [|f fr fs l' Hf A [IH1 IH2]]; [split; [reflexivity|constructor]|].
    destruct (oapp (resolveFieldRule m f) (autobind m f)) as [[r|]|] eqn:R; cbn [oapp] in Hf; try discriminate Hf.
    destruct (field_ok expr defs s fields_of f (Some r)) eqn:Ok; [|discriminate Hf]. injection Hf as <-.
    split; [cbn; rewrite IH1; reflexivity|]. constructor; [split; [exact R|exact Ok]|exact IH2].
  Qed.

  Lemma candidates_spec : forall m n d f, In (d, f) (candidates m n) <-> offers m n d (snd f) /\ fst f = n.
  Proof.
    intros m n d [n' t]. unfold Bind.candidates, BindSpec.offers. rewrite in_flat_map. cbn [fst snd]. split.
    - intros (d' & Hd & H). destruct (d_auto d') eqn:A; [|destruct H]. apply in_map_iff in H. destruct H as (g & E & Hg).
      injection E as Ed Eg. subst d' g. apply filter_In in Hg. destruct Hg as [Hg E]. cbn in E. apply String.eqb_eq in E. subst n'. auto.
    - intros ((Hd & A & Hi) & E). subst n'. exists d. split; [exact Hd|]. rewrite A. apply in_map_iff. exists (n, t). split; [reflexivity|].
      apply filter_In. split; [exact Hi|apply String.eqb_refl].
  Qed.

  (** *** Automatic binding *)
  Lemma bound_unique : forall m l f r, resolve m = Some l -> In (f, r) l -> f_opt f = ONone -> m_custom m = false -> m_aliases m = [] ->
    exists d t, r_auto _ _ r = Some (d, (f_name f, t)) /\ offers m (f_name f) d t /\
      (forall d' t', offers m (f_name f) d' t' -> d' = d /\ t' = t) /\ validateBindFieldType s t (f_type f) = true.
  Proof.
    intros m l f r H Hin O C A. apply resolve_facts in H. destruct H as (_ & _ & H). rewrite Forall_forall in H.
    specialize (H _ Hin). cbn in H. destruct H as [R Ok]. destruct (rule_facts _ _ _ R) as (V & Cu & On & Au & _ & _ & Mc).
    destruct (Au O) as (c & Cd & Ra & D); [apply open_spec; auto|]. destruct c as [d [n t]].
    assert (Hc : In (d, (n, t)) (candidates m (f_name f))) by (rewrite Cd; left; reflexivity).
    apply candidates_spec in Hc. cbn in Hc. destruct Hc as [Ho ->]. exists d, t. split; [exact Ra|]. split; [exact Ho|]. split.
    - intros d' t' Ho'. assert (Hc : In (d', (f_name f, t')) (candidates m (f_name f))) by (apply candidates_spec; auto).
      rewrite Cd in Hc. destruct Hc as [Hc|[]]. injection Hc as <- <-. auto.
    - unfold field_ok in Ok. rewrite O in Mc. rewrite Mc, C in Ok. rewrite Cu, O in Ok. cbn [orb] in Ok. apply andb_true_iff in Ok.
      destruct Ok as [_ Ok]. rewrite Ra in Ok. exact Ok.
  Qed.

  Lemma rejected_unless_unique : forall m f, In f (m_fields _ _ m) -> f_opt f = ONone -> m_custom m = false -> m_aliases m = [] ->
    (forall c, candidates m (f_name f) = [c] -> isDifferentType (snd (snd c)) (f_type f) = true) -> resolve m = None.
  Proof.
    intros m f Hf O C A H. destruct (resolve m) as [l|] eqn:E; [|reflexivity]. exfalso.
    pose proof (resolve_facts _ _ E) as (F & _ & _). rewrite <- F in Hf. apply in_map_iff in Hf. destruct Hf as ([f' r] & Ef & Hin).
    cbn in Ef. subst f'. apply resolve_facts in E. destruct E as (_ & _ & E). rewrite Forall_forall in E. specialize (E _ Hin).
    destruct E as [R _]. cbn in R. destruct (rule_facts _ _ _ R) as (_ & _ & _ & Au & _).
    destruct (Au O) as (c & Cd & _ & D); [apply open_spec; auto|]. specialize (H c Cd). congruence.
  Qed.

  (** A list without repetitions whose elements are all the same. *)
  Lemma flat_map_nil : forall A B (g : A -> list B) l, (forall a, In a l -> g a = []) -> flat_map g l = [].
  Proof. intros A B g l. induction l as [|a l IH]; intros H; [reflexivity|]. cbn. rewrite (H a), IH; [reflexivity| |left; reflexivity]. intros b' Hb. apply H. right. exact Hb. Qed.
  Lemma filter_name : forall n t (l : list (string * ty)), NoDup (map fst l) -> In (n, t) l -> filter (fun f => String.eqb (fst f) n) l = [(n, t)].
  Proof.
    intros n t l. induction l as [|[k u] l IH]; intros ND Hin; [destruct Hin|]. cbn in *. inversion ND as [|? ? N1 N2]; subst. destruct Hin as [E|Hin].
    - injection E as -> ->. rewrite String.eqb_refl. f_equal. clear IH. induction l as [|[k u] l IH]; [reflexivity|]. cbn in *.
      destruct (String.eqb k n) eqn:E; [apply String.eqb_eq in E; subst; exfalso; apply N1; left; reflexivity|]. apply IH; [inversion ND; subst; constructor; [|inversion N2; assumption]| |].
      + intros X. apply N1. right. exact X.
      + intros X. apply N1. right. exact X.
      + inversion N2. assumption.
    - destruct (String.eqb k n) eqn:E; [apply String.eqb_eq in E; subst; exfalso; apply N1; exact (in_map fst _ _ Hin)|]. apply IH; assumption.
  Qed.
  Lemma filter_nil : forall n (l : list (string * ty)), (forall t, ~ In (n, t) l) -> filter (fun f => String.eqb (fst f) n) l = [].
  Proof.
    intros n l. induction l as [|[k u] l IH]; intros H; [reflexivity|]. cbn. destruct (String.eqb k n) eqn:E.
    - apply String.eqb_eq in E. subst. exfalso. apply (H u). left. reflexivity.
    - apply IH. intros t X. apply (H t). right. exact X.
  Qed.
  Lemma candidates_single : forall (m : mdecl) n d t, NoDup (m_defs _ _ m) ->
    (forall d, In d (m_defs _ _ m) -> NoDup (map fst (offered fields_of (d_type d)))) ->
    offers m n d t -> (forall d' t', offers m n d' t' -> d' = d) -> candidates m n = [(d, (n, t))].
  Proof.
    intros m n d t ND NF (Hd & Ha & Hi) U. unfold Bind.candidates. unfold BindSpec.offers in U. revert ND NF Hd U. generalize (m_defs _ _ m).
    intros ds. induction ds as [|x ds IH]; intros ND NF Hd U; [destruct Hd|]. inversion ND as [|? ? N1 N2]; subst. cbn [flat_map]. destruct Hd as [->|Hd].
    - rewrite Ha, (filter_name n t) by (try apply NF; auto with datatypes). cbn. rewrite flat_map_nil; [reflexivity|]. intros y Hy.
      destruct (d_auto y) eqn:Ay; [|reflexivity]. rewrite filter_nil; [reflexivity|]. intros u Hu. apply N1.
      rewrite <- (U y u); [exact Hy|]. split; [right; exact Hy|split; assumption].
    - rewrite IH; auto.
      + destruct (d_auto x) eqn:Ax; [|reflexivity]. rewrite filter_nil; [reflexivity|]. intros u Hu. apply N1.
        rewrite (U x u); [exact Hd|]. split; [left; reflexivity|split; assumption].
      + intros y Hy. apply NF. right. exact Hy.
      + intros y u (Hy & P). apply (U y u). split; [right; exact Hy|exact P].
  Qed.
  Lemma auto_accepted : forall m, m_custom m = false -> m_aliases m = [] -> NoDup (m_defs _ _ m) ->
    (forall d, In d (m_defs _ _ m) -> NoDup (map fst (offered fields_of (d_type d)))) ->
    (forall f, In f (m_fields _ _ m) -> f_opt f = ONone /\ exists d t, offers m (f_name f) d t /\
       (forall d' t', offers m (f_name f) d' t' -> d' = d) /\ proper t /\ field_type t /\ compatible s t (f_type f)) ->
    resolve m <> None.
  Proof.
    intros m C A ND NF H. unfold Bind.resolve.
    assert (X : exists l, all (fun f => oapp (oapp (resolveFieldRule m f) (autobind m f)) (fun r =>
                        oapp r (fun r => if field_ok expr defs s fields_of f (Some r) then Some (f, r) else None))) (m_fields _ _ m) = Some l /\
              oneofs_ok expr defs false (map snd l) = true).
    { induction (m_fields _ _ m) as [|f fs IH]; [exists []; split; reflexivity|].
      destruct IH as (l & El & Ol); [intros g Hg; apply H; right; exact Hg|].
      destruct (H f (or_introl eq_refl)) as (O & d & t & Ho & U & P & Ft & Co).
      pose proof (candidates_single _ _ _ _ ND NF Ho U) as Cd. cbn [all]. rewrite El.
      unfold Bind.resolveFieldRule at 1. rewrite O, C, A. cbn [negb andb length Nat.eqb oapp]. unfold Bind.autobind. rewrite C, Cd. cbn [fst snd].
      assert (D : isDifferentType t (f_type f) = false).
      { eapply not_different; [|exact Co]. inversion Ft as [t' Pt Nt Sel]; subst. exact Sel. }
      rewrite D. cbn [oapp]. unfold field_ok. cbn. rewrite (bind_complete s t (f_type f) P Co). eexists. split; [reflexivity|]. exact Ol. }
    destruct X as (l & -> & Ol). cbn [oapp]. rewrite Ol. discriminate.
  Qed.

  (** *** Running *)
  Section Run.
    Variables (env V : Type) (eval_if : env -> expr -> option bool) (eval : env -> expr -> option V)
      (run_defs : env -> defs -> option env) (get : env -> string -> string -> V) (is_nil : V -> bool)
      (convert : ty -> ty -> V -> option V) (custom : env -> string -> option V).
    Notation exec1 := (exec1 expr defs env V eval_if eval run_defs get is_nil convert custom).
    Notation exec := (exec expr defs env V eval_if eval run_defs get is_nil convert custom).
    Notation conditions := (conditions expr defs env V eval_if get is_nil).
    Notation switch := (switch expr defs env V eval run_defs get convert).
    Notation set_case := (set_case expr defs env V eval run_defs get convert).
    Notation condition := (condition expr defs fields_of env V eval_if get is_nil).
    Notation value_of := (value_of expr defs fields_of env V eval run_defs get convert custom).
    Notation selected := (selected expr defs fields_of env V eval_if get is_nil).
    Notation members := (members expr defs).
    Notation response := (response V). Notation slot := (slot V). Notation plain := (plain V).

    Lemma exec_app : forall e a b r, exec e (a ++ b) r = oapp (exec e a r) (exec e b).
    Proof. intros e a. induction a as [|x a IH]; intros b r; [reflexivity|]. cbn. destruct (exec1 e x r); [apply IH|reflexivity]. Qed.

    Lemma switch_frame : forall e n cs bs d r r', switch e n cs bs d r = Some r' ->
      plain r' = plain r /\ forall k, k <> n -> slot r' k = slot r k.
    Proof.
      assert (F : forall e n c r r', set_case e n c r = Some r' -> plain r' = plain r /\ forall k, k <> n -> slot r' k = slot r k).
      { intros e n c r r' H. unfold Bind.set_case in H. destruct (k_src _ _ c) as [i d x t|v [g t]].
        - destruct (run_defs e d) as [e'|]; [|discriminate H]. cbn in H. destruct (eval e' x); [|discriminate H]. cbn in H.
          destruct (converted _ _ _ _ _); [|discriminate H]. injection H as <-. split; [reflexivity|]. intros k Hk. cbn.
          destruct (String.eqb k n) eqn:E; [apply String.eqb_eq in E; contradiction|reflexivity].
        - destruct (converted _ _ _ _ _); [|discriminate H]. injection H as <-. split; [reflexivity|]. intros k Hk. cbn.
          destruct (String.eqb k n) eqn:E; [apply String.eqb_eq in E; contradiction|reflexivity]. }
      intros e n cs. induction cs as [|c cs IH]; intros bs d r r' H; cbn in H.
      - destruct d; [eapply F; exact H|injection H as <-; auto].
      - destruct bs as [|b bs]; [destruct d; [eapply F; exact H|injection H as <-; auto]|].
        destruct b; [eapply F; exact H|eapply IH; exact H].
    Qed.

    Lemma exec1_frame : forall e rf r r', exec1 e rf r = Some r' ->
      match rf with
      | ROneof _ _ n _ _ => plain r' = plain r /\ forall k, k <> n -> slot r' k = slot r k
      | RCustom _ _ f | RCel _ _ f _ _ | RAuto _ _ f _ _ => slot r' = slot r /\ forall k, k <> f_name f -> plain r' k = plain r k
      end.
    Proof.
      assert (P : forall r n v, slot (set_plain V r n v) = slot r /\ forall k, k <> n -> plain (set_plain V r n v) k = plain r k).
      { intros r n v. split; [reflexivity|]. intros k Hk. cbn. destruct (String.eqb k n) eqn:E; [apply String.eqb_eq in E; contradiction|reflexivity]. }
      intros e rf r r' H. destruct rf as [f|f x t|f v [g t]|n cs d]; cbn in H.
      - destruct (custom e (f_name f)); [|discriminate H]. injection H as <-. apply P.
      - destruct (eval e x); [|discriminate H]. cbn in H. destruct (converted _ _ _ _ _); [|discriminate H]. injection H as <-. apply P.
      - destruct (converted _ _ _ _ _); [|discriminate H]. injection H as <-. apply P.
      - destruct (conditions e cs); [|discriminate H]. eapply switch_frame. exact H.
    Qed.

    (** A oneof no statement is about keeps its value; likewise a plain field. *)
    Definition about_slot (n : string) (rf : ret_field expr defs) : Prop := match rf with ROneof _ _ k _ _ => k = n | _ => False end.
    Definition about_plain (n : string) (rf : ret_field expr defs) : Prop :=
      match rf with RCustom _ _ f | RCel _ _ f _ _ | RAuto _ _ f _ _ => f_name f = n | _ => False end.
    Lemma exec_slot_frame : forall e n rfs r r', (forall x, In x rfs -> ~ about_slot n x) -> exec e rfs r = Some r' -> slot r' n = slot r n.
    Proof.
      intros e n rfs. induction rfs as [|x rfs IH]; intros r r' Hn H; cbn in H; [injection H as <-; reflexivity|].
      destruct (exec1 e x r) as [r1|] eqn:E; [|discriminate H]. cbn in H. rewrite (IH r1 r'); [|intros y Hy; apply Hn; right; exact Hy|exact H].
      apply exec1_frame in E. specialize (Hn x (or_introl eq_refl)).
      destruct x; cbn in Hn; try (rewrite (proj1 E); reflexivity). apply (proj2 E). intros ->. apply Hn. reflexivity.
    Qed.
    Lemma exec_plain_frame : forall e n rfs r r', (forall x, In x rfs -> ~ about_plain n x) -> exec e rfs r = Some r' -> plain r' n = plain r n.
    Proof.
      intros e n rfs. induction rfs as [|x rfs IH]; intros r r' Hn H; cbn in H; [injection H as <-; reflexivity|].
      destruct (exec1 e x r) as [r1|] eqn:E; [|discriminate H]. cbn in H. rewrite (IH r1 r'); [|intros y Hy; apply Hn; right; exact Hy|exact H].
      apply exec1_frame in E. specialize (Hn x (or_introl eq_refl)).
      destruct x; cbn in Hn; try (rewrite (proj1 E); reflexivity); (apply (proj2 E); intros ->; apply Hn; reflexivity).
    Qed.

    (** *** Oneofs *)
    Lemma oneof_cases_spec : forall l cs d, oneof_cases expr defs l cs d =
      (cs ++ flat_map (fun fr => match case_of _ _ fr with Some (false, c) => [c] | _ => [] end) l,
       fold_left (fun d fr => match case_of _ _ fr with Some (true, c) => Some c | _ => d end) l d).
    Proof.
      induction l as [|fr l IH]; intros cs d; cbn; [rewrite app_nil_r; reflexivity|].
      destruct (case_of expr defs fr) as [[[|] c]|]; rewrite IH; try reflexivity. rewrite <- app_assoc. reflexivity.
    Qed.

    Notation case_list l := (flat_map (fun fr => match case_of expr defs fr with Some (false, c) => [c] | _ => [] end) l).

    Variables (m : mdecl) (e : env).
    (** What is known of a member and its case. *)
    Definition good (fr : fdecl * frule) : Prop :=
      oapp (resolveFieldRule m (fst fr)) (autobind m (fst fr)) = Some (Some (snd fr)).

    (** The condition of a case is the condition of the member. *)
    Definition cond_val (c : ocase expr defs) : option bool :=
      match k_src _ _ c with
      | SExpr (Some x) _ _ _ => eval_if e x
      | SExpr None _ _ _ => None
      | SAuto v (f, _) => Some (negb (is_nil (get e (d_name v) f)))
      end.
    Lemma good_auto : forall fr d g, good fr -> r_auto _ _ (snd fr) = Some (d, g) ->
      fst g = f_name (fst fr) /\ auto_bound m (fst fr) d (snd g) /\ forall d' t', auto_bound m (fst fr) d' t' -> d' = d /\ t' = snd g.
    Proof.
      intros fr d g G Ra. destruct (rule_facts _ _ _ G) as (_ & _ & _ & Au & Na & _ & _).
      destruct (f_opt (fst fr)) eqn:O; try (rewrite Na in Ra; [discriminate Ra|left; discriminate]).
      destruct (open_ m) eqn:Op; [|rewrite Na in Ra; [discriminate Ra|right; reflexivity]].
      destruct (Au eq_refl eq_refl) as (c & Cd & Ra' & _). rewrite Ra' in Ra. injection Ra as ->. apply open_spec in Op. destruct Op as [C A].
      assert (Hc : In (d, g) (candidates m (f_name (fst fr)))) by (rewrite Cd; left; reflexivity).
      apply candidates_spec in Hc. destruct Hc as [Ho En]. split; [exact En|]. split.
      - unfold BindSpec.auto_bound. auto.
      - intros d' t' (_ & _ & _ & Ho'). assert (Hc : In (d', (f_name (fst fr), t')) (candidates m (f_name (fst fr)))) by (apply candidates_spec; auto).
        rewrite Cd in Hc. destruct Hc as [Hc|[]]. destruct g as [n t]. cbn in *. injection Hc as <- _ <-. auto.
    Qed.

    Lemma case_condition : forall fr c, good fr -> case_of _ _ fr = Some (false, c) ->
      (forall o, f_opt (fst fr) = OOneof o -> o_default _ _ o = false -> o_if _ _ o <> None) ->
      condition m e (fst fr) (cond_val c) /\ (forall b, condition m e (fst fr) b -> b = cond_val c) /\ ~ is_default _ _ (fst fr) /\
      k_name _ _ c = f_name (fst fr).
    Proof.
      intros [f r] c G H Hif. cbn [fst] in *. unfold Bind.case_of in H. pose proof (rule_facts _ _ _ G) as (_ & _ & On & _ & Na & _ & _). cbn [fst snd] in *.
      destruct (r_auto _ _ r) as [[d [g t]]|] eqn:Ra.
      - injection H as <-. unfold cond_val. cbn. destruct (good_auto _ _ _ G Ra) as (E & Ab & U). cbn [fst snd] in *. subst g.
        split; [eapply cond_auto; exact Ab|]. split; [|split; [|reflexivity]].
        + intros b Hb. inversion Hb; subst.
          * destruct Ab as (O & _). congruence.
          * match goal with HH : auto_bound _ _ ?d ?t |- _ => destruct (U _ _ HH) as [-> _] end. reflexivity.
        + intros (o & O & _). destruct Ab as (O' & _). congruence.
      - rewrite On in H. destruct (f_opt f) as [| | | |o|] eqn:O; try discriminate H. destruct (o_default _ _ o) eqn:Df; [discriminate H|].
        injection H as <-. unfold cond_val. cbn. specialize (Hif o eq_refl Df). destruct (o_if _ _ o) as [x|] eqn:Oi; [|contradiction].
        split; [eapply cond_if; eauto|]. split; [|split; [|reflexivity]].
        + intros b Hb. inversion Hb; subst; [congruence|]. match goal with HH : auto_bound _ _ _ _ |- _ => destruct HH as (O' & _) end. congruence.
        + intros (o' & O' & D). congruence.
    Qed.
    Lemma default_case : forall fr c, good fr -> case_of _ _ fr = Some (true, c) ->
      is_default _ _ (fst fr) /\ (forall b, ~ condition m e (fst fr) b) /\ k_name _ _ c = f_name (fst fr).
    Proof.
      intros [f r] c G H. unfold Bind.case_of in H. pose proof (rule_facts _ _ _ G) as (_ & _ & On & _ & _ & _ & _). cbn [fst snd] in *.
      destruct (r_auto _ _ r) as [[d [g t]]|] eqn:Ra; [discriminate H|]. rewrite On in H.
      destruct (f_opt f) as [| | | |o|] eqn:O; try discriminate H. destruct (o_default _ _ o) eqn:Df; [|discriminate H]. injection H as <-.
      split; [exists o; auto|]. split; [|reflexivity]. intros b Hb. inversion Hb; subst; [congruence|].
      match goal with HH : auto_bound _ _ _ _ |- _ => destruct HH as (O' & _) end. congruence.
    Qed.
    Lemma no_case : forall fr, good fr -> case_of _ _ fr = None ->
      ~ is_default _ _ (fst fr) /\ forall b, ~ condition m e (fst fr) b.
    Proof.
      intros [f r] G H. unfold Bind.case_of in H. pose proof (rule_facts _ _ _ G) as (_ & _ & On & Au & _ & _ & _). cbn [fst snd] in *.
      destruct (r_auto _ _ r) as [[d [g t]]|] eqn:Ra; [discriminate H|]. rewrite On in H.
      destruct (f_opt f) as [| | | |o|] eqn:O; try (split; [intros (o' & O' & _); congruence|intros bb Hb; inversion Hb; subst;
        [congruence|match goal with HH : auto_bound _ _ _ _ |- _ => destruct HH as (O' & _) end; congruence]]; fail).
      - split; [intros (o' & O' & _); congruence|]. intros b Hb. inversion Hb; subst; [congruence|].
        match goal with HH : auto_bound _ _ _ _ |- _ => destruct HH as (O' & C & A & _) end.
        destruct (Au eq_refl) as (c & _ & Ra' & _); [apply open_spec; auto|]. congruence.
      - destruct (o_default _ _ o); discriminate H.
    Qed.

    (** The case of a member stores the value the member's rule asks for. *)
    Lemma set_case_value : forall fr b c n r r', good fr -> case_of _ _ fr = Some (b, c) -> set_case e n c r = Some r' ->
      exists v, value_of m e (fst fr) (Some v) /\ slot r' n = Some (f_name (fst fr), v).
    Proof.
      intros [f rl] b c n r r' G H X. unfold Bind.case_of in H. pose proof (rule_facts _ _ _ G) as (_ & _ & On & _ & _ & _ & _). cbn [fst snd] in *.
      destruct (r_auto _ _ rl) as [[d [g t]]|] eqn:Ra.
      - injection H as <- <-. unfold Bind.set_case in X. cbn in X. destruct (good_auto _ _ _ G Ra) as (E & Ab & _). cbn [fst snd] in *. subst g.
        destruct (converted V convert t (f_type f) (get e (d_name d) (f_name f))) as [v|] eqn:Cv; [|discriminate X]. injection X as <-. exists v. split.
        + rewrite <- Cv. apply (val_auto expr defs fields_of env V eval run_defs get convert custom m e f d t Ab).
        + cbn. rewrite String.eqb_refl. reflexivity.
      - rewrite On in H. destruct (f_opt f) as [| | | |o|] eqn:O; try discriminate H.
        assert (Y : exists i, c = {| k_name := f_name f; k_type := f_type f; k_src := SExpr i (o_defs _ _ o) (o_by _ _ o) (o_type _ _ o) |}).
        { destruct (o_default _ _ o); injection H as _ <-; eexists; reflexivity. }
        destruct Y as [i ->]. unfold Bind.set_case in X. cbn in X. pose proof (val_oneof expr defs fields_of env V eval run_defs get convert custom m e f o O) as Hv.
        unfold oapp in Hv. destruct (run_defs e (o_defs _ _ o)) as [e'|]; [|discriminate X]. cbn in X.
        destruct (eval e' (o_by _ _ o)) as [v|]; [|discriminate X]. cbn in X.
        change (converted V convert) with (as_type V convert) in X.
        destruct (as_type V convert (o_type _ _ o) (f_type f) v) as [w|]; [|discriminate X]. injection X as <-. exists w. split; [exact Hv|].
        cbn. rewrite String.eqb_refl. reflexivity.
    Qed.

    Lemma last_default : forall l d, match fold_left (fun d fr => match case_of expr defs fr with Some (true, c) => Some c | _ => d end) l d with
      | Some c => d = Some c \/ exists fr, In fr l /\ case_of _ _ fr = Some (true, c)
      | None => d = None /\ forall fr c, In fr l -> case_of _ _ fr <> Some (true, c)
      end.
    Proof.
      induction l as [|fr l IH]; intros d; cbn; [destruct d; [left; reflexivity|split; [reflexivity|intros ? ? []]]|].
      specialize (IH (match case_of expr defs fr with Some (true, c) => Some c | _ => d end)).
      destruct (fold_left _ l _) as [c|] eqn:E.
      - destruct IH as [IH|(fr' & Hin & H)]; [|right; exists fr'; auto].
        destruct (case_of expr defs fr) as [[[|] c']|] eqn:Cf; [injection IH as ->; right; exists fr; auto|left; exact IH|left; exact IH].
      - destruct IH as [IH1 IH2]. destruct (case_of expr defs fr) as [[[|] c']|] eqn:Cf; [discriminate IH1| |];
          (split; [exact IH1|]; intros fr' c [<-|Hin]; [congruence|apply IH2; exact Hin]).
    Qed.

    Definition has_cond (fr : fdecl * frule) : Prop := forall o, f_opt (fst fr) = OOneof o -> o_default _ _ o = false -> o_if _ _ o <> None.

    Lemma cond_step : forall cs bs, conditions e cs = Some bs -> Forall2 (fun c b => cond_val c = Some b) cs bs.
    Proof.
      induction cs as [|c cs IH]; intros bs H; cbn in H; [injection H as <-; constructor|]. fold (cond_val c) in H.
      destruct (cond_val c) as [b|] eqn:E; [|discriminate H]. cbn in H. destruct (conditions e cs) as [bs'|]; [|discriminate H].
      cbn in H. injection H as <-. constructor; [exact E|apply IH; reflexivity].
    Qed.
    Lemma cond_total : forall cs, conditions e cs = None -> exists c, In c cs /\ cond_val c = None.
    Proof.
      induction cs as [|c cs IH]; intros H; cbn in H; [discriminate H|]. fold (cond_val c) in H.
      destruct (cond_val c) as [b|] eqn:E; [|exists c; split; [left; reflexivity|exact E]]. cbn in H.
      destruct (conditions e cs); [discriminate H|]. destruct (IH eq_refl) as (c' & Hc & E'). exists c'. split; [right; exact Hc|exact E'].
    Qed.

    (** Walking through the cases. [done] are the members passed, all with a false condition. *)
    Lemma switch_spec : forall l n d bs r r', Forall good l -> Forall has_cond l -> conditions e (case_list l) = Some bs ->
      switch e n (case_list l) bs d r = Some r' ->
      (exists a fr b, l = a ++ fr :: b /\ (forall g x, In g a -> condition m e (fst g) x -> x = Some false) /\
          condition m e (fst fr) (Some true) /\ exists v, value_of m e (fst fr) (Some v) /\ slot r' n = Some (f_name (fst fr), v)) \/
      ((forall g x, In g l -> condition m e (fst g) x -> x = Some false) /\
          match d with Some c => set_case e n c r = Some r' | None => r' = r end).
    Proof.
      induction l as [|fr l IH]; intros n d bs r r' G Hc C S.
      - right. split; [intros ? ? []|]. cbn in S. destruct d; [exact S|injection S as <-; reflexivity].
      - inversion G as [|? ? G1 G2]; subst. inversion Hc as [|? ? H1 H2]; subst. cbn [flat_map] in C, S.
        destruct (case_of expr defs fr) as [[[|] c]|] eqn:Cf; cbn [app] in C, S.
        + (* the default *)
          destruct (IH n d bs r r' G2 H2 C S) as [(a & g & b & El & Ha & Cg & V')|(Ha & S')].
          * left. exists (fr :: a), g, b. split; [rewrite El; reflexivity|]. split; [|split; assumption].
            intros g' x [<-|Hin] Hx; [|eapply Ha; eauto]. destruct (default_case _ _ G1 Cf) as (_ & N & _). destruct (N x Hx).
          * right. split; [|exact S']. intros g' x [<-|Hin] Hx; [|eapply Ha; eauto]. destruct (default_case _ _ G1 Cf) as (_ & N & _). destruct (N x Hx).
        + (* a case *)
          cbn [Bind.conditions] in C. fold (cond_val c) in C. destruct (cond_val c) as [b0|] eqn:Ec; [|discriminate C]. cbn [oapp] in C.
          destruct (conditions e (case_list l)) as [bs'|] eqn:C'; [|discriminate C]. cbn [oapp] in C. injection C as <-. cbn [Bind.switch] in S.
          destruct (case_condition _ _ G1 Cf H1) as (Cd & U & _ & _). destruct b0.
          * left. exists [], fr, l. split; [reflexivity|]. split; [intros ? ? []|]. rewrite Ec in Cd. split; [exact Cd|].
            eapply set_case_value; eauto.
          * destruct (IH n d bs' r r' G2 H2 eq_refl S) as [(a & g & b & El & Ha & Cg & V')|(Ha & S')].
            -- left. exists (fr :: a), g, b. split; [rewrite El; reflexivity|]. split; [|split; assumption].
               intros g' x [<-|Hin] Hx; [|eapply Ha; eauto]. rewrite (U x Hx). exact Ec.
            -- right. split; [|exact S']. intros g' x [<-|Hin] Hx; [|eapply Ha; eauto]. rewrite (U x Hx). exact Ec.
        + destruct (IH n d bs r r' G2 H2 C S) as [(a & g & b & El & Ha & Cg & V')|(Ha & S')].
          * left. exists (fr :: a), g, b. split; [rewrite El; reflexivity|]. split; [|split; assumption].
            intros g' x [<-|Hin] Hx; [|eapply Ha; eauto]. destruct (no_case _ G1 Cf) as (_ & N). destruct (N x Hx).
          * right. split; [|exact S']. intros g' x [<-|Hin] Hx; [|eapply Ha; eauto]. destruct (no_case _ G1 Cf) as (_ & N). destruct (N x Hx).
    Qed.

    Lemma oneofs_ok_cond : forall rs seen, oneofs_ok _ _ seen rs = true -> forall r o, In r rs -> r_oneof expr defs r = Some o ->
      o_default _ _ o = false -> o_if _ _ o <> None.
    Proof.
      induction rs as [|r rs IH]; intros seen H r' o Hin Ho Hd; [destruct Hin|]. cbn in H. destruct Hin as [->|Hin].
      - rewrite Ho in H. apply andb_true_iff in H. destruct H as [H _]. apply andb_true_iff in H. destruct H as [_ H].
        rewrite Hd in H. destruct (o_if _ _ o); [discriminate|discriminate H].
      - destruct (r_oneof _ _ r) as [o'|]; [apply andb_true_iff in H; destruct H as [_ H]|]; eapply IH; eauto.
    Qed.
    Lemma oneofs_ok_seen : forall rs, oneofs_ok _ _ true rs = true -> forall r o, In r rs -> r_oneof expr defs r = Some o -> o_default _ _ o = false.
    Proof.
      induction rs as [|r rs IH]; intros H r' o Hin Ho; [destruct Hin|]. cbn in H. destruct Hin as [->|Hin].
      - rewrite Ho in H. destruct (o_default _ _ o); [discriminate H|reflexivity].
      - destruct (r_oneof _ _ r) as [o'|]; [apply andb_true_iff in H; destruct H as [_ H]; cbn in H|]; eapply IH; eauto.
    Qed.
    Lemma one_default : forall l seen, Forall good l -> oneofs_ok _ _ seen (map snd l) = true ->
      forall a b, In a l -> In b l -> is_default _ _ (fst a) -> is_default _ _ (fst b) -> a = b.
    Proof.
      assert (D : forall a, good a -> is_default _ _ (fst a) -> exists o, r_oneof _ _ (snd a) = Some o /\ o_default _ _ o = true).
      { intros a G (o & O & Do). destruct (rule_facts _ _ _ G) as (_ & _ & On & _). rewrite O in On. exists o. auto. }
      induction l as [|x l IH]; intros seen G H a b Ha Hb Da Db; [destruct Ha|]. inversion G as [|? ? G1 G2]; subst. cbn [map oneofs_ok] in H.
      assert (F : forall y, In y l -> is_default _ _ (fst x) -> is_default _ _ (fst y) -> False).
      { intros y Hy Dx Dy. destruct (D x G1 Dx) as (o & Ro & Do). rewrite Ro in H. apply andb_true_iff in H. destruct H as [_ H].
        rewrite Do, orb_true_r in H. rewrite Forall_forall in G2. destruct (D y (G2 y Hy) Dy) as (o' & Ro' & Do').
        rewrite (oneofs_ok_seen _ H (snd y) o' (in_map snd _ _ Hy) Ro') in Do'. discriminate Do'. }
      destruct Ha as [<-|Ha], Hb as [<-|Hb]; [reflexivity|destruct (F b Hb Da Db)|destruct (F a Ha Db Da)|].
      destruct (r_oneof _ _ (snd x)); [apply andb_true_iff in H; destruct H as [_ H]|]; eapply IH; eauto.
    Qed.

    Section Accepted.
      Variable l : list (fdecl * frule).
      Hypothesis R : resolve m = Some l.
      Lemma acc_good : Forall good l.
      Proof. destruct (resolve_facts _ _ R) as (_ & _ & H). eapply Forall_impl; [|exact H]. intros a [A _]. exact A. Qed.
      Lemma acc_cond : Forall has_cond l.
      Proof.
        pose proof acc_good as G. destruct (resolve_facts _ _ R) as (_ & H & _). rewrite Forall_forall in *. intros fr Hin o O Hd.
        specialize (G _ Hin). destruct (rule_facts _ _ _ G) as (_ & _ & On & _). rewrite O in On.
        exact (oneofs_ok_cond _ _ H (snd fr) o (in_map snd _ _ Hin) On Hd).
      Qed.
      Lemma acc_members : forall n, members m n = map fst (filter (in_oneof _ _ n) l).
      Proof.
        intros n. destruct (resolve_facts _ _ R) as (H & _ & _). unfold BindSpec.members. rewrite <- H. clear. induction l as [|[f r] l' IH]; [reflexivity|].
        cbn. unfold in_oneof at 1. cbn. destruct (match f_oneof f with Some o => String.eqb o n | None => false end); cbn; rewrite IH; reflexivity.
      Qed.
      Lemma acc_sub : forall n P, Forall P l -> Forall P (filter (in_oneof expr defs n) l).
      Proof. intros n P H. rewrite Forall_forall in *. intros x Hx. apply filter_In in Hx. apply H, Hx. Qed.

      Lemma cond_det : forall f x y, In f (m_fields _ _ m) -> condition m e f x -> condition m e f y -> x = y.
      Proof.
        intros f x y Hf Hx Hy. destruct (resolve_facts _ _ R) as (H & _ & _). rewrite <- H in Hf. apply in_map_iff in Hf.
        destruct Hf as ([f' r] & Ef & Hin). cbn in Ef. subst f'. pose proof acc_good as G. rewrite Forall_forall in G. specialize (G _ Hin).
        inversion Hx; inversion Hy; subst; try congruence;
          try (match goal with HH : auto_bound _ _ _ _ |- _ => destruct HH as (O' & _) end; congruence).
        match goal with H1 : auto_bound m f ?d ?t, H2 : auto_bound m f ?d' ?t' |- _ =>
          destruct H1 as (O & C & A & OB1), H2 as (_ & _ & _ & OB2) end.
        destruct (bound_unique _ _ _ _ R Hin O C A) as (dd & tt_ & _ & _ & U & _). destruct (U _ _ OB1), (U _ _ OB2). subst. reflexivity.
      Qed.
      Lemma value_det : forall f x y, In f (m_fields _ _ m) -> value_of m e f x -> value_of m e f y -> x = y.
      Proof.
        intros f x y Hf Hx Hy. destruct (resolve_facts _ _ R) as (H & _ & _). rewrite <- H in Hf. apply in_map_iff in Hf.
        destruct Hf as ([f' r] & Ef & Hin). cbn in Ef. subst f'.
        inversion Hx; inversion Hy; subst; try congruence;
          try (match goal with HH : auto_bound _ _ _ _ |- _ => destruct HH as (O' & _) end; congruence).
        2: { match goal with A : f_opt f = OOneof ?a, B : f_opt f = OOneof ?b |- _ => assert (EO : @OOneof expr defs a = OOneof b) by congruence; injection EO; intros; subst end. reflexivity. }
        match goal with H1 : auto_bound m f ?d ?t, H2 : auto_bound m f ?d' ?t' |- _ =>
          destruct H1 as (O & C & A & OB1), H2 as (_ & _ & _ & OB2) end.
        destruct (bound_unique _ _ _ _ R Hin O C A) as (dd & tt_ & _ & _ & U & _). destruct (U _ _ OB1), (U _ _ OB2). subst. reflexivity.
      Qed.
      Lemma in_members : forall n f, In f (members m n) -> In f (m_fields _ _ m).
      Proof. intros n f H. apply filter_In in H. apply H. Qed.
      Lemma default_no_cond : forall f b, is_default _ _ f -> condition m e f b -> False.
      Proof. intros f b (o & O & D) H. inversion H; subst; [congruence|]. match goal with HH : auto_bound _ _ _ _ |- _ => destruct HH as (O' & _) end. congruence. Qed.

      Lemma selected_det : forall n a b, selected m e n a -> selected m e n b -> a = b.
      Proof.
        intros n a b Ha Hb.
        assert (F : forall l1 f r f', members m n = l1 ++ f :: r -> (forall g b, In g l1 -> condition m e g b -> b = Some false) -> condition m e f (Some true) ->
          forall l2 r2, members m n = l2 ++ f' :: r2 -> (forall g b, In g l2 -> condition m e g b -> b = Some false) -> condition m e f' (Some true) -> f = f').
        { intros l1. generalize (in_members n). generalize (members m n). induction l1 as [|x l1 IH]; intros ms Hin f r f' E1 A1 C1 l2 r2 E2 A2 C2.
          - destruct l2 as [|y l2]; cbn in *; [congruence|]. rewrite E1 in E2. injection E2 as <- _. specialize (A2 f _ (or_introl eq_refl) C1). discriminate A2.
          - destruct l2 as [|y l2]; cbn in *.
            + rewrite E1 in E2. injection E2 as -> _. specialize (A1 f' _ (or_introl eq_refl) C2). discriminate A1.
            + subst ms. injection E2 as -> E2. refine (IH (l1 ++ f :: r) _ f r f' eq_refl _ C1 l2 r2 E2 _ C2).
              * intros g Hg. apply Hin. right. exact Hg.
              * intros g b' Hg. apply A1. right. exact Hg.
              * intros g b' Hg. apply A2. right. exact Hg. }
        assert (T : forall l1 f r, members m n = l1 ++ f :: r -> condition m e f (Some true) ->
          (forall g b, In g (members m n) -> condition m e g b -> b = Some false) -> False).
        { intros l1 f r E C A. specialize (A f (Some true)). rewrite E in A. specialize (A (in_elt f l1 r) C). discriminate A. }
        inversion Ha as [l1 f1 r1 E1 A1 C1|f1 I1 D1 A1|D1 A1]; inversion Hb as [l2 f2 r2 E2 A2 C2|f2 I2 D2 A2|D2 A2]; subst;
          try (exfalso; eapply T; eassumption).
        - f_equal. eapply F; eassumption.
        - f_equal. rewrite acc_members in I1, I2. apply in_map_iff in I1. apply in_map_iff in I2.
          destruct I1 as (x & <- & I1), I2 as (y & <- & I2). apply filter_In in I1. apply filter_In in I2.
          destruct (resolve_facts _ _ R) as (_ & H & _). f_equal. eapply one_default; [exact acc_good|exact H|apply I1|apply I2|exact D1|exact D2].
        - destruct (D2 _ I1 D1).
        - destruct (D1 _ I2 D2).
        - reflexivity.
      Qed.

      (** One oneof. *)
      Lemma oneof_exec : forall n r r', exec1 e (oneof_return _ _ l n) r = Some r' -> exists sel, selected m e n sel /\
        match sel with Some f => exists v, value_of m e f (Some v) /\ slot r' n = Some (f_name f, v) | None => r' = r end.
      Proof.
        intros n r r' H. unfold oneof_return in H. rewrite oneof_cases_spec in H. cbn [app] in H. cbn [Bind.exec1] in H.
        set (L := filter (in_oneof expr defs n) l) in *. pose proof (acc_sub n _ acc_good) as G. pose proof (acc_sub n _ acc_cond) as Hc. fold L in G, Hc.
        destruct (conditions e (case_list L)) as [bs|] eqn:C; [|discriminate H]. cbn [oapp] in H.
        pose proof (last_default L None) as LD. set (d := fold_left _ L None) in *.
        destruct (switch_spec L n d bs r r' G Hc C H) as [(a & fr & b & El & Ha & Cd & v & Hv & Hs)|(Ha & Hd)].
        - exists (Some (fst fr)). split; [|exists v; auto]. apply (sel_first expr defs fields_of env V eval_if get is_nil m e n (map fst a) (fst fr) (map fst b)).
          + rewrite acc_members. fold L. rewrite El, map_app. reflexivity.
          + intros g x Hg. apply in_map_iff in Hg. destruct Hg as (y & <- & Hy). apply Ha, Hy.
          + exact Cd.
        - assert (Ha' : forall g x, In g (members m n) -> condition m e g x -> x = Some false).
          { intros g x Hg. rewrite acc_members in Hg. apply in_map_iff in Hg. destruct Hg as (y & <- & Hy). apply Ha, Hy. }
          destruct d as [c|] eqn:Ed.
          + destruct LD as [LD|(fr & Hin & Cf)]; [discriminate LD|]. rewrite Forall_forall in G. specialize (G _ Hin).
            exists (Some (fst fr)). split; [|eapply set_case_value; eauto]. apply sel_default; [|apply (default_case _ _ G Cf)|exact Ha'].
            rewrite acc_members. apply in_map. exact Hin.
          + exists None. split; [|exact Hd]. apply sel_none; [|exact Ha']. intros f Hf D. rewrite acc_members in Hf. apply in_map_iff in Hf.
            destruct Hf as (fr & <- & Hin). destruct LD as [_ LD]. destruct (case_of expr defs fr) as [[[|] c]|] eqn:Cf.
            * apply (LD fr c Hin Cf).
            * rewrite Forall_forall in G, Hc. destruct (case_condition _ _ (G _ Hin) Cf (Hc _ Hin)) as (_ & _ & N & _). exact (N D).
            * rewrite Forall_forall in G. destruct (no_case _ (G _ Hin) Cf) as (N & _). exact (N D).
      Qed.
      Lemma set_case_fails : forall fr b c n r, good fr -> case_of _ _ fr = Some (b, c) -> set_case e n c r = None -> value_of m e (fst fr) None.
      Proof.
        intros [f rl] b c n r G H X. unfold Bind.case_of in H. pose proof (rule_facts _ _ _ G) as (_ & _ & On & _ & _ & _ & _). cbn [fst snd] in *.
        destruct (r_auto _ _ rl) as [[d [g t]]|] eqn:Ra.
        - injection H as <- <-. unfold Bind.set_case in X. cbn in X. destruct (good_auto _ _ _ G Ra) as (E & Ab & _). cbn [fst snd] in *. subst g.
          destruct (converted V convert t (f_type f) (get e (d_name d) (f_name f))) as [v|] eqn:Cv; [discriminate X|].
          rewrite <- Cv. apply (val_auto expr defs fields_of env V eval run_defs get convert custom m e f d t Ab).
        - rewrite On in H. destruct (f_opt f) as [| | | |o|] eqn:O; try discriminate H.
          assert (Y : exists i, c = {| k_name := f_name f; k_type := f_type f; k_src := SExpr i (o_defs _ _ o) (o_by _ _ o) (o_type _ _ o) |}).
          { destruct (o_default _ _ o); injection H as _ <-; eexists; reflexivity. }
          destruct Y as [i ->]. unfold Bind.set_case in X. cbn in X. pose proof (val_oneof expr defs fields_of env V eval run_defs get convert custom m e f o O) as Hv.
          unfold oapp in Hv. destruct (run_defs e (o_defs _ _ o)) as [e'|]; [|exact Hv]. cbn in X.
          destruct (eval e' (o_by _ _ o)) as [v|]; [|exact Hv]. cbn in X.
          change (converted V convert) with (as_type V convert) in X.
          destruct (as_type V convert (o_type _ _ o) (f_type f) v) as [w|]; [discriminate X|exact Hv].
      Qed.
      Lemma switch_fails : forall L n d bs r, Forall good L -> Forall has_cond L -> conditions e (case_list L) = Some bs ->
        switch e n (case_list L) bs d r = None ->
        (exists a fr b, L = a ++ fr :: b /\ (forall g x, In g a -> condition m e (fst g) x -> x = Some false) /\
          condition m e (fst fr) (Some true) /\ value_of m e (fst fr) None) \/
        ((forall g x, In g L -> condition m e (fst g) x -> x = Some false) /\ exists c, d = Some c /\ set_case e n c r = None).
      Proof.
        induction L as [|fr L IH]; intros n d bs r G Hc C S.
        - right. split; [intros ? ? []|]. cbn in S. destruct d as [c|]; [exists c; auto|discriminate S].
        - inversion G as [|? ? G1 G2]; subst. inversion Hc as [|? ? H1 H2]; subst. cbn [flat_map] in C, S.
          destruct (case_of expr defs fr) as [[[|] c]|] eqn:Cf; cbn [app] in C, S.
          + destruct (IH n d bs r G2 H2 C S) as [(a & g & b & El & Ha & Cg & V')|(Ha & S')].
            * left. exists (fr :: a), g, b. split; [rewrite El; reflexivity|]. split; [|split; assumption].
              intros g' x [<-|Hin] Hx; [|eapply Ha; eauto]. destruct (default_case _ _ G1 Cf) as (_ & N & _). destruct (N x Hx).
            * right. split; [|exact S']. intros g' x [<-|Hin] Hx; [|eapply Ha; eauto]. destruct (default_case _ _ G1 Cf) as (_ & N & _). destruct (N x Hx).
          + cbn [Bind.conditions] in C. fold (cond_val c) in C. destruct (cond_val c) as [b0|] eqn:Ec; [|discriminate C]. cbn [oapp] in C.
            destruct (conditions e (case_list L)) as [bs'|] eqn:C'; [|discriminate C]. cbn [oapp] in C. injection C as <-. cbn [Bind.switch] in S.
            destruct (case_condition _ _ G1 Cf H1) as (Cd & U & _ & _). destruct b0.
            * left. exists [], fr, L. split; [reflexivity|]. split; [intros ? ? []|]. rewrite Ec in Cd. split; [exact Cd|].
              eapply set_case_fails; eauto.
            * destruct (IH n d bs' r G2 H2 eq_refl S) as [(a & g & b & El & Ha & Cg & V')|(Ha & S')].
              -- left. exists (fr :: a), g, b. split; [rewrite El; reflexivity|]. split; [|split; assumption].
                 intros g' x [<-|Hin] Hx; [|eapply Ha; eauto]. rewrite (U x Hx). exact Ec.
              -- right. split; [|exact S']. intros g' x [<-|Hin] Hx; [|eapply Ha; eauto]. rewrite (U x Hx). exact Ec.
          + destruct (IH n d bs r G2 H2 C S) as [(a & g & b & El & Ha & Cg & V')|(Ha & S')].
            * left. exists (fr :: a), g, b. split; [rewrite El; reflexivity|]. split; [|split; assumption].
              intros g' x [<-|Hin] Hx; [|eapply Ha; eauto]. destruct (no_case _ G1 Cf) as (_ & N). destruct (N x Hx).
            * right. split; [|exact S']. intros g' x [<-|Hin] Hx; [|eapply Ha; eauto]. destruct (no_case _ G1 Cf) as (_ & N). destruct (N x Hx).
      Qed.
      Lemma oneof_fails : forall n r, exec1 e (oneof_return _ _ l n) r = None ->
        exists f, In f (members m n) /\ (condition m e f None \/ selected m e n (Some f) /\ value_of m e f None).
      Proof.
        intros n r H. unfold oneof_return in H. rewrite oneof_cases_spec in H. cbn [app] in H. cbn [Bind.exec1] in H.
        set (L := filter (in_oneof expr defs n) l) in *. pose proof (acc_sub n _ acc_good) as G. pose proof (acc_sub n _ acc_cond) as Hc. fold L in G, Hc.
        pose proof (last_default L None) as LD. set (d := fold_left _ L None) in *.
        assert (M : forall fr, In fr L -> In (fst fr) (members m n)) by (intros fr Hf; rewrite acc_members; apply in_map; exact Hf).
        destruct (conditions e (case_list L)) as [bs|] eqn:C.
        - cbn [oapp] in H. destruct (switch_fails L n d bs r G Hc C H) as [(a & fr & b & El & Ha & Cd & Hv)|(Ha & c & Ed & Hs)].
          + exists (fst fr). split; [apply M; rewrite El; apply in_elt|]. right. split; [|exact Hv].
            apply (sel_first expr defs fields_of env V eval_if get is_nil m e n (map fst a) (fst fr) (map fst b)).
            * rewrite acc_members. fold L. rewrite El, map_app. reflexivity.
            * intros g x Hg. apply in_map_iff in Hg. destruct Hg as (y & <- & Hy). apply Ha, Hy.
            * exact Cd.
          + rewrite Ed in LD. destruct LD as [LD|(fr & Hin & Cf)]; [discriminate LD|]. exists (fst fr). split; [auto|]. right.
            rewrite Forall_forall in G. specialize (G _ Hin). split; [|eapply set_case_fails; eauto].
            apply sel_default; [auto|apply (default_case _ _ G Cf)|].
            intros g x Hg. rewrite acc_members in Hg. apply in_map_iff in Hg. destruct Hg as (y & <- & Hy). apply Ha, Hy.
        - destruct (cond_total _ C) as (c & Hc' & E). apply in_flat_map in Hc'. destruct Hc' as (fr & Hf & Hi).
          destruct (case_of expr defs fr) as [[[|] c']|] eqn:Cf; [destruct Hi| |destruct Hi]. destruct Hi as [->|[]].
          rewrite Forall_forall in G, Hc. destruct (case_condition _ _ (G _ Hf) Cf (Hc _ Hf)) as (Cd & _). rewrite E in Cd.
          exists (fst fr). split; [auto|left; exact Cd].
      Qed.
      (** A failing condition, wherever it stands, ends the resolution. *)
      Lemma oneof_cond_fails : forall n r f, In f (members m n) -> condition m e f None -> exec1 e (oneof_return _ _ l n) r = None.
      Proof.
        intros n r f Hf Cn. unfold oneof_return. rewrite oneof_cases_spec. cbn [app Bind.exec1].
        set (L := filter (in_oneof expr defs n) l) in *. pose proof (acc_sub n _ acc_good) as G. pose proof (acc_sub n _ acc_cond) as Hc. fold L in G, Hc.
        destruct (conditions e (case_list L)) as [bs|] eqn:C; [|reflexivity]. exfalso. apply cond_step in C.
        rewrite acc_members in Hf. fold L in Hf. apply in_map_iff in Hf. destruct Hf as (fr & <- & Hin). rewrite Forall_forall in G, Hc.
        destruct (case_of expr defs fr) as [[[|] c]|] eqn:Cf.
        - destruct (default_case _ _ (G _ Hin) Cf) as (_ & N & _). exact (N _ Cn).
        - destruct (case_condition _ _ (G _ Hin) Cf (Hc _ Hin)) as (_ & U & _). specialize (U _ Cn).
          assert (Hi : In c (case_list L)) by (apply in_flat_map; exists fr; rewrite Cf; split; [exact Hin|left; reflexivity]).
          clear -C Hi U. induction C as [|x b xs bs Hx C IH]; [destruct Hi|]. destruct Hi as [->|Hi]; [congruence|apply IH, Hi].
        - destruct (no_case _ (G _ Hin) Cf) as (_ & N). exact (N _ Cn).
      Qed.
      (** The value of the selected member fails. *)
      Lemma oneof_value_fails : forall n r f, selected m e n (Some f) -> value_of m e f None -> exec1 e (oneof_return _ _ l n) r = None.
      Proof.
        intros n r f Hs Hv. destruct (exec1 e (oneof_return _ _ l n) r) as [r'|] eqn:E; [exfalso|reflexivity].
        destruct (oneof_exec _ _ _ E) as (sel & Hs' & X). pose proof (selected_det _ _ _ Hs Hs') as <-. destruct X as (v & Hv' & _).
        assert (Hf : In f (m_fields _ _ m)).
        { inversion Hs as [l1 f1 r1 E1 A1 C1|f1 I1 D1 A1|]; subst; [|eapply in_members; exact I1]. apply (in_members n). rewrite E1. apply in_elt. }
        discriminate (value_det f _ _ Hf Hv Hv').
      Qed.

      (** The statements about oneof [n] are those of its own. *)
      Lemma exec_split : forall rfs1 x rfs2 r r', exec e (rfs1 ++ x :: rfs2) r = Some r' ->
        exists r1 r2, exec e rfs1 r = Some r1 /\ exec1 e x r1 = Some r2 /\ exec e rfs2 r2 = Some r'.
      Proof.
        intros rfs1 x rfs2 r r' H. rewrite exec_app in H. destruct (exec e rfs1 r) as [r1|]; [|discriminate H]. cbn in H.
        destruct (exec1 e x r1) as [r2|] eqn:E; [|discriminate H]. exists r1, r2. auto.
      Qed.
      Lemma plain_not_slot : forall n fr x, In x (plain_return expr defs fr) -> ~ about_slot n x.
      Proof.
        intros n [f r] x H. unfold plain_return in H. destruct (f_oneof f); [destruct H|]. destruct (r_custom _ _ r); [destruct H as [<-|[]]; intros []|].
        destruct (r_value _ _ r) as [[? ?]|]; [destruct H as [<-|[]]; intros []|]. destruct (r_auto _ _ r) as [[? ?]|]; [destruct H as [<-|[]]; intros []|destruct H].
      Qed.
      Lemma oneof_slot : forall n k, about_slot n (oneof_return expr defs l k) -> k = n.
      Proof. intros n k H. unfold oneof_return in H. destruct (oneof_cases _ _ _ _ _). exact H. Qed.
      Lemma oneof_not_plain : forall n k, ~ about_plain n (oneof_return expr defs l k).
      Proof. intros n k H. unfold oneof_return in H. destruct (oneof_cases _ _ _ _ _). exact H. Qed.

      Lemma return_oneof : forall n r r', NoDup (m_oneofs _ _ m) -> In n (m_oneofs _ _ m) -> exec e (ReturnFields _ _ m l) r = Some r' ->
        exists sel, selected m e n sel /\
          match sel with Some f => exists v, value_of m e f (Some v) /\ slot r' n = Some (f_name f, v) | None => slot r' n = slot r n end.
      Proof.
        intros n r r' ND Hn H. apply in_split in Hn. destruct Hn as (a & b & Eo). unfold ReturnFields in H. rewrite Eo, map_app in H. cbn [map] in H.
        rewrite app_assoc in H. apply exec_split in H. destruct H as (r1 & r2 & H1 & H2 & H3).
        rewrite Eo in ND. apply NoDup_remove_2 in ND. rewrite in_app_iff in ND.
        assert (F1 : slot r1 n = slot r n).
        { eapply exec_slot_frame; [|exact H1]. intros x Hx. apply in_app_or in Hx. destruct Hx as [Hx|Hx].
          - apply in_flat_map in Hx. destruct Hx as (fr & _ & Hx). eapply plain_not_slot; exact Hx.
          - apply in_map_iff in Hx. destruct Hx as (k & <- & Hk). intros Ha. apply oneof_slot in Ha. subst k. tauto. }
        assert (F3 : slot r' n = slot r2 n).
        { eapply exec_slot_frame; [|exact H3]. intros x Hx.
          apply in_map_iff in Hx. destruct Hx as (k & <- & Hk). intros Ha. apply oneof_slot in Ha. subst k. tauto. }
        destruct (oneof_exec _ _ _ H2) as (sel & Hs & Hv). exists sel. split; [exact Hs|]. rewrite F3. destruct sel as [f|]; [exact Hv|].
        subst r2. exact F1.
      Qed.
      Lemma exec_fails : forall rfs x r, In x rfs -> (forall r, exec1 e x r = None) -> exec e rfs r = None.
      Proof.
        intros rfs. induction rfs as [|y rfs IH]; intros x r Hin Hx; [destruct Hin|]. cbn. destruct Hin as [->|Hin]; [rewrite Hx; reflexivity|].
        destruct (exec1 e y r); [cbn; eapply IH; eauto|reflexivity].
      Qed.
      Lemma return_cond_fails : forall n r f, In n (m_oneofs _ _ m) -> In f (members m n) -> condition m e f None -> exec e (ReturnFields _ _ m l) r = None.
      Proof.
        intros n r f Hn Hf Cn. apply (exec_fails _ (oneof_return _ _ l n)).
        - apply in_or_app. right. apply in_map. exact Hn.
        - intros r0. eapply oneof_cond_fails; eauto.
      Qed.
      Lemma return_value_fails : forall n r f, In n (m_oneofs _ _ m) -> selected m e n (Some f) -> value_of m e f None -> exec e (ReturnFields _ _ m l) r = None.
      Proof.
        intros n r f Hn Hf Cn. apply (exec_fails _ (oneof_return _ _ l n)).
        - apply in_or_app. right. apply in_map. exact Hn.
        - intros r0. eapply oneof_value_fails; eauto.
      Qed.

      (** *** Plain fields *)
      (** The statements of a field outside oneofs: none, or one that stores its value. *)
      Lemma plain_exec : forall fr, In fr l -> f_oneof (fst fr) = None ->
        (plain_return _ _ fr = [] /\ (forall v, ~ value_of m e (fst fr) v)) \/
        exists x v, plain_return _ _ fr = [x] /\ about_plain (f_name (fst fr)) x /\ value_of m e (fst fr) v /\
          forall r, match v with Some v => exec1 e x r = Some (set_plain V r (f_name (fst fr)) v) | None => exec1 e x r = None end.
      Proof.
        intros [f rl] Hin Ho. cbn [fst] in *. pose proof acc_good as G. rewrite Forall_forall in G. specialize (G _ Hin).
        pose proof (rule_facts _ _ _ G) as (Va & Cu & On & Au & Na & Oo & _). cbn [fst snd] in *. unfold plain_return. rewrite Ho.
        rewrite Cu, Va. destruct (f_opt f) as [|x t|b|n|o|] eqn:O.
        - destruct (r_auto _ _ rl) as [[d [g t]]|] eqn:Ra.
          + right. destruct (good_auto _ _ _ G Ra) as (E & Ab & _). cbn [fst snd] in *. subst g.
            eexists. exists (as_type V convert t (f_type f) (get e (d_name d) (f_name f))). split; [reflexivity|]. split; [reflexivity|].
            split; [apply val_auto; exact Ab|]. intros r. cbn. change (converted V convert) with (as_type V convert).
            destruct (as_type V convert t (f_type f) (get e (d_name d) (f_name f))); reflexivity.
          + left. split; [reflexivity|]. intros v Hv. inversion Hv; subst; try congruence.
            match goal with HH : auto_bound _ _ _ _ |- _ => destruct HH as (_ & C & A & _) end.
            destruct (Au eq_refl) as (c & _ & Ra' & _); [apply open_spec; auto|]. congruence.
        - right. eexists. exists (oapp (eval e x) (as_type V convert t (f_type f))). split; [reflexivity|]. split; [reflexivity|].
          split; [apply val_by; exact O|]. intros r. cbn. destruct (eval e x) as [v|]; [|reflexivity]. cbn.
          change (converted V convert) with (as_type V convert). destruct (as_type V convert t (f_type f) v); reflexivity.
        - destruct b.
          + right. eexists. exists (custom e (f_name f)). split; [reflexivity|]. split; [reflexivity|]. split; [apply val_custom; exact O|].
            intros r. cbn. destruct (custom e (f_name f)); reflexivity.
          + left. rewrite Na by (left; discriminate). split; [reflexivity|]. intros v Hv. inversion Hv; subst; try congruence.
            match goal with HH : auto_bound _ _ _ _ |- _ => destruct HH as (O' & _) end. congruence.
        - left. rewrite Na by (left; discriminate). split; [reflexivity|]. intros v Hv. inversion Hv; subst; try congruence.
            match goal with HH : auto_bound _ _ _ _ |- _ => destruct HH as (O' & _) end. congruence.
        - exfalso. exact (Oo o eq_refl Ho).
        - left. rewrite Na by (left; discriminate). split; [reflexivity|]. intros v Hv. inversion Hv; subst; try congruence.
            match goal with HH : auto_bound _ _ _ _ |- _ => destruct HH as (O' & _) end. congruence.
      Qed.
      Lemma plain_about : forall n fr x, In x (plain_return expr defs fr) -> about_plain n x -> f_name (fst fr) = n.
      Proof.
        intros n [f r] x H A. unfold plain_return in H. destruct (f_oneof f); [destruct H|]. destruct (r_custom _ _ r); [destruct H as [<-|[]]; exact A|].
        destruct (r_value _ _ r) as [[? ?]|]; [destruct H as [<-|[]]; exact A|]. destruct (r_auto _ _ r) as [[? ?]|]; [destruct H as [<-|[]]; exact A|destruct H].
      Qed.

      Lemma return_plain : forall f r r', NoDup (map f_name (m_fields _ _ m)) -> In f (m_fields _ _ m) -> f_oneof f = None ->
        exec e (ReturnFields _ _ m l) r = Some r' ->
        (exists v, value_of m e f (Some v) /\ plain r' (f_name f) = Some v) \/
        ((forall v, ~ value_of m e f v) /\ plain r' (f_name f) = plain r (f_name f)).
      Proof.
        intros f r r' ND Hf Ho H. destruct (resolve_facts _ _ R) as (Ef & _ & _). rewrite <- Ef in ND, Hf. apply in_map_iff in Hf.
        destruct Hf as ([f' rl] & E & Hin). cbn in E. subst f'. pose proof (plain_exec _ Hin Ho) as P. apply in_split in Hin. destruct Hin as (a & b & El).
        unfold ReturnFields in H. rewrite El in H at 1. rewrite flat_map_app in H. cbn [flat_map] in H.
        rewrite El in ND. rewrite !map_app in ND. cbn [map fst] in ND. apply NoDup_remove_2 in ND. rewrite in_app_iff in ND.
        rewrite <- !app_assoc in H. rewrite exec_app in H. destruct (exec e (flat_map (plain_return expr defs) a) r) as [r1|] eqn:E1; [|discriminate H].
        cbn [oapp] in H. rewrite exec_app in H. destruct (exec e (plain_return expr defs (f, rl)) r1) as [r2|] eqn:E2; [|discriminate H]. cbn [oapp] in H.
        assert (Fr : forall c, (In c a \/ In c b) -> f_name (fst c) <> f_name f).
        { intros c Hc En. apply ND. destruct Hc as [Hc|Hc]; [left|right]; rewrite <- En; apply in_map, in_map, Hc. }
        assert (F1 : plain r1 (f_name f) = plain r (f_name f)).
        { eapply exec_plain_frame; [|exact E1]. intros x Hx Hp. apply in_flat_map in Hx. destruct Hx as (c & Hc & Hx).
          apply (Fr c (or_introl Hc)). eapply plain_about; eauto. }
        assert (F3 : plain r' (f_name f) = plain r2 (f_name f)).
        { eapply exec_plain_frame; [|exact H]. intros x Hx Hp. apply in_app_or in Hx. destruct Hx as [Hx|Hx].
          - apply in_flat_map in Hx. destruct Hx as (c & Hc & Hx). apply (Fr c (or_intror Hc)). eapply plain_about; eauto.
          - apply in_map_iff in Hx. destruct Hx as (k & <- & _). exact (oneof_not_plain _ _ Hp). }
        cbn [fst] in P. destruct P as [(Pn & Hv)|(x & v & Px & _ & Hv & Hx)].
        - right. split; [exact Hv|]. rewrite Pn in E2. cbn in E2. injection E2 as <-. congruence.
        - left. rewrite Px in E2. cbn in E2. specialize (Hx r1). destruct v as [v|]; [|rewrite Hx in E2; discriminate E2].
          rewrite Hx in E2. cbn in E2. injection E2 as <-. exists v. split; [exact Hv|]. rewrite F3. cbn. rewrite String.eqb_refl. reflexivity.
      Qed.
      Lemma return_plain_fails : forall f r, In f (m_fields _ _ m) -> f_oneof f = None -> value_of m e f None -> exec e (ReturnFields _ _ m l) r = None.
      Proof.
        intros f r Hf Ho Hv. pose proof Hf as Hf'. destruct (resolve_facts _ _ R) as (Ef & _ & _). rewrite <- Ef in Hf. apply in_map_iff in Hf.
        destruct Hf as ([f' rl] & E & Hin). cbn in E. subst f'. destruct (plain_exec _ Hin Ho) as [(_ & N)|(x & v & Px & _ & Hv' & Hx)]; [destruct (N _ Hv)|].
        rewrite (value_det f _ _ Hf' Hv' Hv) in Hx. apply (exec_fails _ x); [|exact Hx].
        apply in_or_app. left. apply in_flat_map. exists (f, rl). rewrite Px. split; [exact Hin|left; reflexivity].
      Qed.
      (** Nothing else makes it fail. *)
      Lemma return_fails : forall r, exec e (ReturnFields _ _ m l) r = None ->
        exists f, In f (m_fields _ _ m) /\ (condition m e f None \/
          value_of m e f None /\ (f_oneof f = None \/ exists n, f_oneof f = Some n /\ selected m e n (Some f))).
      Proof.
        intros r H.
        assert (X : forall rfs r, exec e rfs r = None -> exists x r0, In x rfs /\ exec1 e x r0 = None).
        { intros rfs. induction rfs as [|x rfs IH]; intros r0 H0; cbn in H0; [discriminate H0|]. destruct (exec1 e x r0) as [r1|] eqn:E.
          - destruct (IH r1 H0) as (y & ry & Hy & Ey). exists y, ry. split; [right; exact Hy|exact Ey].
          - exists x, r0. split; [left; reflexivity|exact E]. }
        destruct (X _ _ H) as (x & r0 & Hx & E). apply in_app_or in Hx. destruct Hx as [Hx|Hx].
        - apply in_flat_map in Hx. destruct Hx as (fr & Hin & Hx). destruct (resolve_facts _ _ R) as (Ef & _ & _).
          exists (fst fr). split; [rewrite <- Ef; apply in_map; exact Hin|right].
          assert (Ho : f_oneof (fst fr) = None) by (destruct fr as [f rl]; unfold plain_return in Hx; cbn; destruct (f_oneof f); [destruct Hx|reflexivity]).
          destruct (plain_exec _ Hin Ho) as [(Pn & _)|(y & v & Px & _ & Hv & Hy)]; [rewrite Pn in Hx; destruct Hx|].
          rewrite Px in Hx. destruct Hx as [<-|[]]. specialize (Hy r0). destruct v; [congruence|auto].
        - apply in_map_iff in Hx. destruct Hx as (n & <- & _). destruct (oneof_fails _ _ E) as (f & Hf & C). exists f. split; [eapply in_members; exact Hf|].
          destruct C as [C|[C D]]; [left; exact C|right]. split; [exact D|]. right. exists n. split; [|exact C]. apply filter_In in Hf. destruct Hf as [_ Hf].
          destruct (f_oneof f) as [k|]; [|discriminate Hf]. apply String.eqb_eq in Hf. subst. reflexivity.
      Qed.
    End Accepted.
  End Run.
End BindProofs.
