(** Proofs about the codec. *)
From Coq Require Import String List Bool ZArith Lia Permutation.
From Verif.Cast Require Import Model Spec Proofs.
From Verif.Plugin Require Import Codec CodecSpec.
Import ListNotations.
Local Open Scope list_scope.

Lemma new_object_type_ordinary n : ~ In n well_known -> NewObjectType n = TStruct n.
Proof.
  unfold well_known, NewObjectType. intros H. cbn [In] in H.
  repeat (match goal with |- context [String.eqb n ?x] => destruct (String.eqb_spec n x) as [->|?]; [exfalso; apply H; tauto|] end).
  reflexivity.
Qed.

Section Proofs.
  Variable F : Type.
  Variable fzero : F.
  Variable round32 : F -> F.
  Variable msg : Type.
  Variable msg_name : msg -> string.
  Variable marshal : msg -> out string.
  Variable unmarshal : string -> string -> out msg.
  Hypothesis transport : forall m b, marshal m = Good b -> unmarshal (msg_name m) b = Good m.

  Notation same := (same round32 msg_name marshal).
  Notation same_value := (same_value round32 msg_name marshal).
  Notation refTo := (refToCELPluginValue F msg msg_name marshal).
  Notation toRef := (celPluginValueToRef F fzero msg unmarshal).
  Notation arg_conv := (arg_conv F fzero round32 msg msg_name unmarshal).
  Notation arg_converter := (arg_converter F fzero round32 msg msg_name unmarshal).
  Notation ret_conv := (ret_conv F msg msg_name marshal).
  Notation ret_converter := (ret_converter F msg msg_name marshal).

  Lemma omap_forall2 {A B} (f : A -> out B) l l' : Forall2 (fun a b => f a = Good b) l l' -> omap f l = Good l'.
  Proof. induction 1 as [|a b l l' H _ IH]; [reflexivity|]. cbn [omap]. rewrite H. cbn [obind]. rewrite IH. reflexivity. Qed.

  Lemma omap_forall2_inv {A B} (f : A -> out B) l l' : omap f l = Good l' -> Forall2 (fun a b => f a = Good b) l l'.
  Proof.
    revert l'. induction l as [|a l IH]; intros l'; cbn [omap]; [intros [= <-]; constructor|].
    destruct (f a) as [b| |] eqn:E; try discriminate. cbn [obind].
    destruct (omap f l) as [ys| |] eqn:E2; try discriminate. intros [= <-]. constructor; auto.
  Qed.

  Lemma base_arg b c g ct conv : same b c g -> ordinary (RT b false) -> toCELTypeDeclare_base b = Some ct ->
    arg_conv b = Some conv -> exists w, refTo ct c = Good w /\ conv w = Good g.
  Proof.
    intros Hs Ho Hct Hc.
    destruct Hs as [x|s|s|f|f Hf|k z Hk Hz|k z Hk Hz|e z Hz|n m b Hn Hm].
    - injection Hct as <-. injection Hc as <-. eexists; split; reflexivity.
    - injection Hct as <-. injection Hc as <-. eexists; split; reflexivity.
    - injection Hct as <-. injection Hc as <-. eexists; split; reflexivity.
    - injection Hct as <-. injection Hc as <-. eexists; split; reflexivity.
    - injection Hct as <-. injection Hc as <-. eexists; split; [reflexivity|]. cbn. rewrite Hf. reflexivity.
    - exists (WInt64 z). destruct k; try discriminate Hk; injection Hct as <-; injection Hc as <-;
        (split; [reflexivity|]); cbn [GetInt64]; try reflexivity;
        exact (f_equal (fun x => Good (GoInt x)) (go_wrap_fits GInt32 z Hz)).
    - exists (WUint64 z). destruct k; try discriminate Hk; injection Hct as <-; injection Hc as <-;
        (split; [reflexivity|]); cbn [GetUint64]; try reflexivity;
        exact (f_equal (fun x => Good (GoInt x)) (go_wrap_fits GUint32 z Hz)).
    - injection Hct as <-. injection Hc as <-. exists (WInt64 z). split; [reflexivity|]. 
      exact (f_equal (fun x => Good (GoInt x)) (go_wrap_fits GInt32 z Hz)).
    - cbn [ordinary] in Ho. injection Hct as <-. rewrite new_object_type_ordinary by exact Ho. injection Hc as <-.
      exists (WMessage (msg_name m) b). cbn [refToCELPluginValue any_new]. unfold any_new. rewrite Hm. split; [reflexivity|].
      cbn [GetMessage unmarshal_new]. rewrite (transport _ _ Hm). cbn [obind]. subst n. rewrite String.eqb_refl. reflexivity.
  Qed.

  Lemma base_ret b c g ct conv : same b c g -> ordinary (RT b false) -> toCELTypeDeclare_base b = Some ct ->
    ret_conv b = Some conv -> exists w, conv g = Good w /\ toRef ct w = Good c.
  Proof.
    intros Hs Ho Hct Hc.
    destruct Hs as [x|s|s|f|f Hf|k z Hk Hz|k z Hk Hz|e z Hz|n m b Hn Hm]; try discriminate Hc.
    - injection Hct as <-. injection Hc as <-. eexists; split; reflexivity.
    - injection Hct as <-. injection Hc as <-. eexists; split; reflexivity.
    - injection Hct as <-. injection Hc as <-. eexists; split; reflexivity.
    - injection Hct as <-. injection Hc as <-. eexists; split; reflexivity.
    - injection Hct as <-. injection Hc as <-. eexists; split; reflexivity.
    - destruct k; try discriminate Hk; injection Hct as <-; injection Hc as <-; eexists; split; reflexivity.
    - destruct k; try discriminate Hk; injection Hct as <-; injection Hc as <-; eexists; split; reflexivity.
    - cbn [ordinary] in Ho. injection Hct as <-. rewrite new_object_type_ordinary by exact Ho. injection Hc as <-.
      unfold any_new. rewrite Hm. eexists; split; [reflexivity|].
      cbn. unfold native_any. cbn [GetMessage unmarshal_new]. rewrite (transport _ _ Hm). reflexivity.
  Qed.

  Lemma arg_round_trip t c g ct conv : same_value t c g -> ordinary t -> toCELTypeDeclare t = Some ct ->
    arg_converter t = Some conv -> exists w, refTo ct c = Good w /\ conv w = Good g.
  Proof.
    intros Hs Ho Hct Hc. destruct Hs as [b c g Hs|b cs gs Hs].
    - exact (base_arg _ _ _ _ _ Hs Ho Hct Hc).
    - cbn [toCELTypeDeclare] in Hct. cbn [Codec.arg_converter] in Hc.
      destruct (toCELTypeDeclare_base b) as [bt|] eqn:Eb; [|discriminate]. injection Hct as <-.
      destruct (arg_conv b) as [bc|] eqn:Ec; [|discriminate]. injection Hc as <-.
      assert (H : exists ws, Forall2 (fun c w => refTo bt c = Good w) cs ws /\ Forall2 (fun w g => bc w = Good g) ws gs).
      { induction Hs as [|c g cs gs Hx _ IH]; [exists []; split; constructor|]. destruct IH as (ws & H1 & H2).
        assert (Ho' : ordinary (RT b false)) by (destruct b; exact Ho).
        destruct (base_arg _ _ _ _ _ Hx Ho' Eb Ec) as (w & Hw1 & Hw2). exists (w :: ws). split; constructor; auto. }
      destruct H as (ws & H1 & H2). exists (WList ws). cbn [refToCELPluginValue].
      rewrite (omap_forall2 _ _ _ H1). split; [reflexivity|]. cbn [GetValues]. rewrite (omap_forall2 _ _ _ H2). reflexivity.
  Qed.

  Lemma ret_round_trip t c g ct conv : same_value t c g -> ordinary t -> toCELTypeDeclare t = Some ct ->
    ret_converter t = Some conv -> exists w, conv g = Good w /\ toRef ct w = Good c.
  Proof.
    intros Hs Ho Hct Hc. destruct Hs as [b c g Hs|b cs gs Hs].
    - exact (base_ret _ _ _ _ _ Hs Ho Hct Hc).
    - cbn [toCELTypeDeclare] in Hct. cbn [Codec.ret_converter] in Hc.
      destruct (toCELTypeDeclare_base b) as [bt|] eqn:Eb; [|discriminate]. injection Hct as <-.
      destruct (ret_conv b) as [bc|] eqn:Ec; [|discriminate]. injection Hc as <-.
      assert (H : exists ws, Forall2 (fun g w => bc g = Good w) gs ws /\ Forall2 (fun w c => toRef bt w = Good c) ws cs).
      { induction Hs as [|c g cs gs Hx _ IH]; [exists []; split; constructor|]. destruct IH as (ws & H1 & H2).
        assert (Ho' : ordinary (RT b false)) by (destruct b; exact Ho).
        destruct (base_ret _ _ _ _ _ Hx Ho' Eb Ec) as (w & Hw1 & Hw2). exists (w :: ws). split; constructor; auto. }
      destruct H as (ws & H1 & H2). exists (WList ws). rewrite (omap_forall2 _ _ _ H1). split; [reflexivity|].
      cbn [celPluginValueToRef GetValues]. rewrite (omap_forall2 _ _ _ H2). reflexivity.
  Qed.

  Lemma host_round_trip t v : of_type msg_name marshal t v -> exists w, refTo t v = Good w /\ toRef t w = Good v.
  Proof.
    revert v. induction t as [t IH| | | | | | |n| | | | | | |t IH]; intros v H; inversion H; subst;
      try (eexists; split; reflexivity).
    - match goal with H : Forall _ ?l |- _ => rename H into Hl; rename l into l0 end.
      assert (E : exists ws, Forall2 (fun c w => refTo t c = Good w) l0 ws /\ Forall2 (fun w c => toRef t w = Good c) ws l0).
      { clear H. induction Hl as [|c cs Hx _ IH2]; [exists []; split; constructor|].
        destruct IH2 as (ws & H1 & H2).
        destruct (IH c Hx) as (w & Hw1 & Hw2). exists (w :: ws). split; constructor; auto. }
      destruct E as (ws & H1 & H2). exists (WList ws). cbn [refToCELPluginValue celPluginValueToRef GetValues].
      rewrite (omap_forall2 _ _ _ H1), (omap_forall2 _ _ _ H2). split; reflexivity.
    - match goal with H : marshal m = Good b |- _ => rename H into Hm end.
      exists (WMessage (msg_name m) b). cbn [refToCELPluginValue celPluginValueToRef GetMessage]. unfold any_new, native_any.
      rewrite Hm. split; [reflexivity|]. cbn [unmarshal_new]. rewrite (transport _ _ Hm). reflexivity.
  Qed.

  Lemma all_some_map {A B} (f : A -> option B) l l' : all_some (map f l) = Some l' -> Forall2 (fun a b => f a = Some b) l l'.
  Proof.
    revert l'. induction l as [|a l IH]; intros l'; cbn [map all_some]; [intros [= <-]; constructor|].
    destruct (f a) as [b|] eqn:E; [|discriminate]. destruct (all_some (map f l)) as [r|] eqn:E2; [|discriminate].
    cbn [option_map]. intros [= <-]. constructor; auto.
  Qed.

  Lemma args_round_trip ts cs gs cts convs : Forall2 (fun t cg => same_value t (fst cg) (snd cg)) ts (combine cs gs) ->
    length cs = length ts -> length gs = length ts ->
    Forall ordinary ts -> all_some (map toCELTypeDeclare ts) = Some cts -> all_some (map arg_converter ts) = Some convs ->
    exists ws, conv_args F msg msg_name marshal cts cs = Good ws /\ plugin_args F msg convs ws = Good gs /\ length ws = length convs.
  Proof.
    intros Hs Hl1 Hl2 Ho H1 H2. apply all_some_map in H1. apply all_some_map in H2.
    revert cs gs cts convs Hs Hl1 Hl2 Ho H1 H2. induction ts as [|t ts IH]; intros cs gs cts convs Hs Hl1 Hl2 Ho H1 H2.
    - destruct cs; [|discriminate]. destruct gs; [|discriminate]. inversion H1; inversion H2; subst. exists []. auto.
    - destruct cs as [|c cs]; [discriminate|]. destruct gs as [|g gs]; [discriminate|]. cbn [combine] in Hs.
      inversion Hs as [|? ? ? ? Hs1 Hs2]; subst. inversion H1 as [|? ct ? cts' Hc1 Hc2]; subst.
      inversion H2 as [|? cv ? cvs' Hv1 Hv2]; subst. inversion Ho as [|? ? Ho1 Ho2]; subst.
      cbn [fst snd] in Hs1. destruct (arg_round_trip _ _ _ _ _ Hs1 Ho1 Hc1 Hv1) as (w & Hw1 & Hw2).
      cbn [length] in Hl1, Hl2. injection Hl1 as Hl1. injection Hl2 as Hl2.
      destruct (IH _ _ _ _ Hs2 Hl1 Hl2 Ho2 Hc2 Hv2) as (ws & Hws1 & Hws2 & Hl).
      exists (w :: ws). cbn [conv_args plugin_args]. rewrite Hw1, Hw2. cbn [obind]. rewrite Hws1, Hws2. cbn [length]. auto.
  Qed.

  Lemma find_id (fs : list (compiled F msg)) f : In f fs -> NoDup (map (c_id F msg) fs) ->
    find (fun g => String.eqb (c_id F msg g) (c_id F msg f)) fs = Some f.
  Proof.
    induction fs as [|g fs IH]; [intros []|]. cbn [map find]. intros [->|Hin] Hnd.
    - rewrite String.eqb_refl. reflexivity.
    - inversion Hnd as [|? ? Hni Hnd']; subst. destruct (String.eqb_spec (c_id F msg g) (c_id F msg f)) as [E|_]; [|auto].
      exfalso. apply Hni. rewrite E. apply in_map, Hin.
  Qed.

  Lemma decl_of_converter t conv : arg_converter t = Some conv -> exists ct, toCELTypeDeclare t = Some ct.
  Proof.
    destruct t as [b r]. assert (H : forall cv, arg_conv b = Some cv -> exists ct, toCELTypeDeclare_base b = Some ct).
    { intros cv. destruct b as [k| | | |]; cbn; try (intros _; eauto; fail). destruct k; try discriminate; eauto. }
    destruct r; cbn [Codec.arg_converter toCELTypeDeclare].
    - destruct (arg_conv b) as [c|]; [|discriminate]. destruct (H c eq_refl) as [ct ->]. cbn. eauto.
    - intros E. exact (H _ E).
  Qed.
  Lemma decl_of_ret t conv : ret_converter t = Some conv -> exists ct, toCELTypeDeclare t = Some ct.
  Proof.
    destruct t as [b r]. assert (H : forall cv, ret_conv b = Some cv -> exists ct, toCELTypeDeclare_base b = Some ct).
    { intros cv. destruct b as [k| | | |]; cbn; try (intros _; eauto; fail). destruct k; try discriminate; eauto. }
    destruct r; cbn [Codec.ret_converter toCELTypeDeclare].
    - destruct (ret_conv b) as [c|]; [|discriminate]. destruct (H c eq_refl) as [ct ->]. cbn. eauto.
    - intros E. exact (H _ E).
  Qed.
  Lemma all_some_total {A B C} (f : A -> option B) (g : A -> option C) l l' :
    (forall a b, f a = Some b -> exists c, g a = Some c) -> all_some (map f l) = Some l' -> exists l'', all_some (map g l) = Some l''.
  Proof.
    intros H Hf. apply all_some_map in Hf. induction Hf as [|a b l l' Hab _ IH]; [exists []; reflexivity|].
    destruct (H _ _ Hab) as [c Hc]. destruct IH as [l'' Hl]. exists (c :: l''). cbn [map all_some]. rewrite Hc, Hl. reflexivity.
  Qed.

  Lemma call_spec fs f i cf order cs gs :
    compile F fzero round32 msg msg_name marshal unmarshal f i = Some cf -> In cf fs -> NoDup (map (c_id F msg) fs) ->
    Forall ordinary (params f) -> ordinary (result_type f) ->
    length cs = length (params f) -> length gs = length (params f) ->
    Forall2 (fun t cg => same_value t (fst cg) (snd cg)) (params f) (combine cs gs) ->
    match i (md_of order) gs with
    | inl g => forall c, same_value (result_type f) c g ->
        call F fzero msg msg_name marshal unmarshal fs f order cs = Some (Good c)
    | inr e => e <> ""%string -> call F fzero msg msg_name marshal unmarshal fs f order cs = Some (Fails e)
    end.
  Proof.
    unfold compile. intros Hc Hin Hnd Ho1 Ho2 Hl1 Hl2 Hs.
    destruct (all_some (map arg_converter (params f))) as [convs|] eqn:Ea; [|discriminate].
    destruct (ret_converter (result_type f)) as [rc|] eqn:Er; [|discriminate]. injection Hc as <-.
    destruct (all_some_total _ toCELTypeDeclare _ _ decl_of_converter Ea) as [cts Ect].
    destruct (decl_of_ret _ _ Er) as [rt Ert].
    destruct (args_round_trip _ _ _ _ _ Hs Hl1 Hl2 Ho1 Ect Ea) as (ws & Hw1 & Hw2 & Hwl).
    pose proof (find_id _ _ Hin Hnd) as Hfind. cbn [c_id] in Hfind.
    assert (Hcall : call F fzero msg msg_name marshal unmarshal fs f order cs = Some
      match i (md_of order) gs with
      | inr e => read_response F fzero msg unmarshal rt {| error := e; value := WNone |}
      | inl g => match rc g with
                 | Good w => read_response F fzero msg unmarshal rt {| error := ""; value := w |}
                 | Fails w => read_response F fzero msg unmarshal rt {| error := w; value := WNone |}
                 | Panicked => Fails "module closed"
                 end
      end).
    { unfold call. rewrite Ect, Ert. unfold make_request. rewrite Hw1. cbn [obind]. unfold handle. cbn [method metadata args].
      rewrite Hfind. cbn [c_args c_impl c_ret]. rewrite Hwl, Nat.eqb_refl, Hw2.
      destruct (i (md_of order) gs) as [g|e]; [destruct (rc g)|]; reflexivity. }
    rewrite Hcall. destruct (i (md_of order) gs) as [g|e].
    - intros c Hsc. destruct (ret_round_trip _ _ _ _ _ Hsc Ho2 Ert Er) as (w & Hr1 & Hr2). rewrite Hr1.
      unfold read_response. cbn [error value]. cbn [String.eqb]. rewrite Hr2. reflexivity.
    - intros He. unfold read_response. cbn [error]. destruct (String.eqb_spec e ""); [contradiction|reflexivity].
  Qed.
End Proofs.

(** Metadata: the last entry of a key decides; keys of a Go map are distinct, so the order does not matter. *)
Definition md_add : (string -> option (list string)) -> string * list string -> string -> option (list string) :=
  fun m kv k => if String.eqb k (fst kv) then Some (snd kv) else m k.
Lemma md_fold l m0 k : ~ In k (map fst l) -> fold_left md_add l m0 k = m0 k.
Proof.
  revert m0. induction l as [|[a x] l IH]; intros m0 H; [reflexivity|]. cbn [fold_left]. rewrite IH.
  - unfold md_add. cbn [fst snd]. destruct (String.eqb_spec k a) as [->|]; [exfalso; apply H; left; reflexivity|reflexivity].
  - intros Hin. apply H. right. exact Hin.
Qed.
Lemma md_in l m0 k v : NoDup (map fst l) -> In (k, v) l -> fold_left md_add l m0 k = Some v.
Proof.
  revert m0. induction l as [|[a x] l IH]; intros m0 Hnd Hin; [destruct Hin|]. inversion Hnd as [|? ? Hni Hnd']; subst.
  cbn [fold_left]. destruct Hin as [[= -> ->]|Hin]; [|apply IH; assumption].
  rewrite md_fold by exact Hni. unfold md_add. cbn [fst snd]. rewrite String.eqb_refl. reflexivity.
Qed.
Lemma md_of_spec l l' k : NoDup (map fst l) -> Permutation l l' ->
  forall v, md_of l' k = Some v <-> In (k, v) l.
Proof.
  intros Hnd Hp v. assert (Hnd' : NoDup (map fst l')) by (eapply Permutation_NoDup; [apply Permutation_map, Hp|exact Hnd]).
  split.
  - intros H. destruct (in_dec string_dec k (map fst l')) as [Hin|Hni].
    + apply in_map_iff in Hin as ([k' v'] & Hk & Hin). cbn [fst] in Hk. subst k'.
      pose proof (md_in l' (fun _ => None) k v' Hnd' Hin) as H2. unfold md_of in H. fold md_add in H. rewrite H2 in H.
      injection H as ->. eapply Permutation_in; [apply Permutation_sym, Hp|exact Hin].
    + pose proof (md_fold l' (fun _ => None) k Hni) as H2. unfold md_of in H. fold md_add in H. congruence.
  - intros Hin. apply (md_in l' (fun _ => None) k v Hnd'). eapply Permutation_in; eassumption.
Qed.

Lemma validate_spec service version listed :
  validate service version listed = Good tt <-> version = 1%Z /\ forall f, In f service -> In (id f) listed.
Proof.
  unfold validate. destruct (Z.eqb_spec version 1) as [->|Hv]; cbn [negb]; [|split; [discriminate|intros [? _]; contradiction]].
  split.
  - destruct (filter _ service) as [|x l] eqn:E; [|discriminate]. intros _. split; [reflexivity|]. intros f Hf.
    destruct (existsb (String.eqb (id f)) listed) eqn:Ee.
    + apply existsb_exists in Ee as (y & Hy & Hq). apply String.eqb_eq in Hq. subst. exact Hy.
    + exfalso. assert (In f (filter (fun f => negb (existsb (String.eqb (id f)) listed)) service))
        by (apply filter_In; rewrite Ee; auto). rewrite E in *. contradiction.
  - intros [_ H]. destruct (filter _ service) as [|x l] eqn:E; [reflexivity|].
    assert (Hx : In x (filter (fun f => negb (existsb (String.eqb (id f)) listed)) service)) by (rewrite E; left; reflexivity).
    apply filter_In in Hx as [Hx1 Hx2]. specialize (H x Hx1). assert (existsb (String.eqb (id x)) listed = true)
      by (apply existsb_exists; exists (id x); split; [exact H|apply String.eqb_refl]). rewrite H0 in Hx2. discriminate.
Qed.
