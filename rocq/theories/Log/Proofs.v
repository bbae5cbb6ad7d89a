(** Proofs about the attributes of loggers. *)
From Coq Require Import List Arith Bool Lia.
From Verif.Base Require Import Slice SliceProofs.
From Verif.Log Require Import Model Spec.
Import ListNotations.

Lemma set_ref_nth n r l m : nth_error (set_ref n r l) m = if Nat.eqb n m then (match nth_error l m with Some _ => Some r | None => None end) else nth_error l m.
Proof.
  revert n m. induction l as [|x l IH]; intros [|n] [|m]; cbn; try reflexivity.
  - destruct (Nat.eqb n m); reflexivity.
  - apply IH.
Qed.
Lemma set_scope_nth n r l m : nth_error (set_scope n r l) m = if Nat.eqb n m then (match nth_error l m with Some _ => Some r | None => None end) else nth_error l m.
Proof.
  revert n m. induction l as [|x l IH]; intros [|n] [|m]; cbn; try reflexivity.
  - destruct (Nat.eqb n m); reflexivity.
  - apply IH.
Qed.
Lemma set_ref_length n r l : length (set_ref n r l) = length l.
Proof. revert n. induction l as [|x l IH]; intros [|n]; cbn; auto. Qed.
Lemma set_scope_length n r l : length (set_scope n r l) = length l.
Proof. revert n. induction l as [|x l IH]; intros [|n]; cbn; auto. Qed.
Lemma nth_snoc {A} (l : list A) x n y : nth_error (l ++ [x]) n = Some y -> nth_error l n = Some y \/ (n = length l /\ y = x).
Proof.
  intros H. destruct (Nat.lt_ge_cases n (length l)) as [L|L].
  - rewrite nth_error_app1 in H by exact L. auto.
  - rewrite nth_error_app2 in H by exact L. right. destruct (n - length l) as [|k] eqn:E; cbn in H; [|destruct k; discriminate].
    injection H as <-. split; [lia|reflexivity].
Qed.
Lemma values_some l : values (map Some l) = l.
Proof. induction l as [|x l IH]; [reflexivity|]. change (x :: values (map Some l) = x :: l). rewrite IH. reflexivity. Qed.

(** A slice and the scope it stands for *)
Definition held (st : state) (sp : spec) (a : slice) (r : scope) : Prop :=
  (exists c l, nth_error (refs st) c = Some {| logger := l; attrs := a |} /\ nth_error (scopes sp) c = Some r) \/
  (exists e, nth_error (errs st) e = Some a /\ nth_error (errors sp) e = Some r).

Record inv (st : state) (sp : spec) : Prop := {
  i_refs : length (refs st) = length (scopes sp);
  i_errs : length (errs st) = length (errors sp);
  i_nil : cells (mem st) 0 = [] /\ 0 < length (mem st);
  i_next : 0 < next sp;
  i_held : forall a r, held st sp a r -> valid (mem st) a /\ arr a < length (mem st) /\ view (mem st) a = map Some (own r) /\
                                         version r < next sp /\ (version r = 0 -> a = nil_slice) /\ (version r <> 0 -> arr a <> 0);
  i_same : forall a r b q, held st sp a r -> held st sp b q -> version r = version q -> a = b;
  i_diff : forall a r b q, held st sp a r -> held st sp b q -> version r <> version q -> version r <> 0 -> version q <> 0 -> arr a = arr b -> len a <> len b;
  i_last : forall a r b q, held st sp a r -> held st sp b q -> version r <> 0 -> ~ In (version r) (extended sp) -> arr b = arr a -> len b <= len a }.

Lemma inv_init : inv init start.
Proof.
  assert (N : forall a r, ~ held init start a r).
  { intros a r [(c & l & H & _)|(e & H & _)]; [destruct c | destruct e]; discriminate. }
  constructor; try reflexivity; try (split; [reflexivity|cbn; lia]); try (cbn; lia); intros; exfalso; eapply N; eassumption.
Qed.

(** A new holder of a slice that is held already, or of nil *)
Lemma inv_weaken st sp st' sp' :
  inv st sp -> mem st' = mem st -> next sp' = next sp -> extended sp' = extended sp ->
  length (refs st') = length (scopes sp') -> length (errs st') = length (errors sp') ->
  (forall a r, held st' sp' a r -> (exists r', held st sp a r' /\ version r' = version r /\ own r' = own r) \/ (a = nil_slice /\ version r = 0 /\ own r = [])) ->
  inv st' sp'.
Proof.
  intros I Em En Ex Lr Le H. destruct I as [I1 I2 I3 I4 I5 I6 I7 I8]. constructor; try assumption; try (rewrite Em; assumption); try (rewrite En; assumption).
  - intros a r Ha. rewrite Em, En. destruct (H a r Ha) as [(r' & Hh & <- & <-)|(-> & V & O)]; [apply I5; exact Hh|].
    rewrite O. destruct I3 as [N0 N1]. repeat split; try (unfold valid, view, cap; cbn; rewrite ?N0; cbn; lia || reflexivity); try (cbn; exact N1); try lia.
  - intros a r b q Ha Hb E. destruct (H a r Ha) as [(r' & Hh & V & _)|(-> & V & O)]; destruct (H b q Hb) as [(q' & Hq & W & _)|(-> & W & P)].
    + eapply I6; [exact Hh|exact Hq|congruence].
    + destruct (I5 _ _ Hh) as (_ & _ & _ & _ & Z & _). apply Z. congruence.
    + destruct (I5 _ _ Hq) as (_ & _ & _ & _ & Z & _). symmetry. apply Z. congruence.
    + reflexivity.
  - intros a r b q Ha Hb N Nr Nq E. destruct (H a r Ha) as [(r' & Hh & V & _)|(-> & V & O)]; [|congruence].
    destruct (H b q Hb) as [(q' & Hq & W & _)|(-> & W & P)]; [|congruence]. eapply I7; try eassumption; congruence.
  - intros a r b q Ha Hb Nr Nx E. rewrite Ex in Nx. destruct (H a r Ha) as [(r' & Hh & V & _)|(-> & V & O)]; [|congruence].
    destruct (H b q Hb) as [(q' & Hq & W & _)|(-> & W & P)].
    + eapply I8; try eassumption; congruence.
    + cbn. lia.
Qed.

Lemma extend_spec sp v e : extend sp v = Some e -> (v = 0 /\ e = extended sp) \/ (v <> 0 /\ ~ In v (extended sp) /\ e = v :: extended sp).
Proof.
  unfold extend. destruct (Nat.eqb v 0) eqn:E; [intros H; injection H as <-; left; split; [apply Nat.eqb_eq; exact E|reflexivity]|].
  destruct (existsb (Nat.eqb v) (extended sp)) eqn:X; [discriminate|]. intros H. injection H as <-. right. apply Nat.eqb_neq in E. repeat split; [exact E|].
  intros I. assert (T : existsb (Nat.eqb v) (extended sp) = true); [|congruence]. apply existsb_exists. exists v. split; [exact I|apply Nat.eqb_refl].
Qed.

(** Appending to a slice that may be extended changes nothing that is held. *)
Section Extend.
  Variable st : state. Variable sp : spec. Variable a : slice. Variable r : scope.
  Variable xs : list (option nat). Variable room : nat. Variable e : list nat.
  Hypothesis I : inv st sp.
  Hypothesis Ha : held st sp a r.
  Hypothesis Ex : extend sp (version r) = Some e.
  Hypothesis NX : xs <> [].
  Let h := fst (append room (mem st) a xs).
  Let a' := snd (append room (mem st) a xs).

  Lemma xs_pos : 0 < length xs.
  Proof. destruct xs; [congruence|cbn; lia]. Qed.
  Lemma nil_cap : cap (mem st) nil_slice = 0.
  Proof. unfold cap. cbn. rewrite (proj1 (i_nil _ _ I)). reflexivity. Qed.
  Lemma ext_other b q : held st sp b q -> view h b = view (mem st) b.
  Proof.
    intros Hb. destruct (i_held _ _ I _ _ Ha) as (Va & La & _ & _ & Z & _). destruct (i_held _ _ I _ _ Hb) as (Vb & Lb & _).
    apply append_other; [exact Va|exact Lb|]. destruct (Nat.eq_dec (arr b) (arr a)) as [E|E]; [|auto]. right.
    destruct (extend_spec _ _ _ Ex) as [[V0 _]|(V & N & _)].
    - rewrite (Z V0) in *. cbn in E. unfold valid, cap in Vb. rewrite E in Vb. rewrite (proj1 (i_nil _ _ I)) in Vb. cbn in *. lia.
    - eapply i_last; eassumption.
  Qed.
  Lemma ext_cap b : arr b < length (mem st) -> cap h b = cap (mem st) b.
  Proof.
    intros Lb. destruct (i_held _ _ I _ _ Ha) as (Va & La & _).
    unfold h, append. destruct (len a + length xs <=? cap (mem st) a) eqn:E; cbn [fst].
    - unfold cap, cells. destruct (Nat.eq_dec (arr a) (arr b)) as [Eb|Nb].
      + rewrite <- Eb, nth_set_same by exact La. apply Nat.leb_le in E. unfold valid, cap, cells in *. rewrite !app_length, firstn_length, skipn_length. lia.
      + rewrite nth_set_other by exact Nb. reflexivity.
    - unfold cap, cells. rewrite app_nth1 by exact Lb. reflexivity.
  Qed.
  Lemma ext_len : length (mem st) <= length h.
  Proof. apply append_grows. Qed.
  Lemma ext_nil : cells h 0 = [] /\ 0 < length h.
  Proof.
    destruct (i_nil _ _ I) as [N0 N1]. pose proof ext_len. split; [|lia].
    pose proof (ext_cap nil_slice N1) as C. rewrite nil_cap in C. unfold cap in C. cbn in C. destruct (cells h 0); [reflexivity|discriminate].
  Qed.
  Lemma ext_view : view h a' = view (mem st) a ++ xs.
  Proof. apply append_view. exact (proj1 (i_held _ _ I _ _ Ha)). Qed.
  Lemma ext_valid : valid h a' /\ arr a' < length h /\ arr a' <> 0.
  Proof.
    destruct (i_held _ _ I _ _ Ha) as (Va & La & _ & _ & Z & NZ). destruct (i_nil _ _ I) as [_ N1]. pose proof xs_pos.
    split; [apply append_valid; exact Va|]. unfold a', h, append.
    destruct (len a + length xs <=? cap (mem st) a) eqn:E; cbn [fst snd arr].
    - rewrite set_nth_length. split; [exact La|]. intros A0. apply Nat.leb_le in E. unfold cap in E. rewrite A0, (proj1 (i_nil _ _ I)) in E. cbn in E. lia.
    - rewrite app_length. cbn. lia.
  Qed.
  (** Either at the end of the array of [a], beyond everything held there, or in a new array *)
  Lemma ext_where : len a' = len a + length xs /\ ((arr a' = arr a /\ version r <> 0) \/ arr a' = length (mem st)).
  Proof.
    unfold a', append. destruct (len a + length xs <=? cap (mem st) a) eqn:E; cbn [fst snd arr len]; [|auto]. split; [reflexivity|]. left. split; [reflexivity|].
    intros V. destruct (i_held _ _ I _ _ Ha) as (_ & _ & _ & _ & Z & _). rewrite (Z V), nil_cap in E. apply Nat.leb_le in E. pose proof xs_pos. cbn in E. lia.
  Qed.
  Lemma ext_longer b q : held st sp b q -> arr b = arr a' -> len b < len a'.
  Proof.
    intros Hb E. destruct ext_where as [L W]. pose proof xs_pos. destruct W as [[W V]|W].
    - destruct (extend_spec _ _ _ Ex) as [[V0 _]|(_ & N & _)]; [congruence|].
      assert (len b <= len a) by (eapply i_last; try eassumption; congruence). lia.
    - destruct (i_held _ _ I _ _ Hb) as (_ & Lb & _). lia.
  Qed.
  (** No other list that may still be extended is in that array. *)
  Lemma ext_alone b q : held st sp b q -> version q <> 0 -> ~ In (version q) e -> arr b <> arr a'.
  Proof.
    intros Hb Vq Nq E. destruct ext_where as [L W]. destruct W as [[W V]|W].
    2:{ destruct (i_held _ _ I _ _ Hb) as (_ & Lb & _). lia. }
    destruct (extend_spec _ _ _ Ex) as [[V0 _]|(_ & N & ->)]; [congruence|].
    assert (Nv : version q <> version r) by (intros X; apply Nq; cbn; auto).
    assert (len b <= len a) by (eapply i_last; try eassumption; congruence).
    assert (len a <= len b) by (eapply i_last; [exact I|exact Hb|exact Ha|exact Vq|intros X; apply Nq; cbn; auto|congruence]).
    assert (len b <> len a) by (eapply i_diff; [exact I|exact Hb|exact Ha|assumption|assumption|assumption|congruence]). lia.
  Qed.
  Lemma ext_incl v : ~ In v e -> ~ In v (extended sp).
  Proof. destruct (extend_spec _ _ _ Ex) as [[_ ->]|(_ & _ & ->)]; cbn; tauto. Qed.

  (** The state after it, if the holders are the old ones and maybe the new slice *)
  Lemma inv_extend st' sp' vals :
    mem st' = h -> length (refs st') = length (scopes sp') -> length (errs st') = length (errors sp') ->
    extended sp' = e -> xs = map Some vals ->
    (next sp' = next sp /\ (forall b q, held st' sp' b q -> held st sp b q) \/
     next sp' = S (next sp) /\ (forall b q, held st' sp' b q -> held st sp b q \/ (b = a' /\ version q = next sp /\ own q = own r ++ vals))) ->
    inv st' sp'.
  Proof.
    intros Em Lr Le Ee Exs Hn.
    assert (Nx : next sp <= next sp') by (destruct Hn as [[-> _]|[-> _]]; lia).
    assert (Hd : forall b q, held st' sp' b q -> held st sp b q \/ (next sp' = S (next sp) /\ b = a' /\ version q = next sp /\ own q = own r ++ vals)).
    { intros b q Hb. destruct Hn as [[_ Hn]|[E Hn]]; [left; auto|]. destruct (Hn b q Hb) as [?|(? & ? & ?)]; auto. }
    pose proof (i_next _ _ I) as Np.
    constructor; try assumption.
    - rewrite Em. exact ext_nil.
    - lia.
    - intros b q Hb. rewrite Em. destruct (Hd b q Hb) as [Ho|(En & -> & Vq & Oq)].
      + destruct (i_held _ _ I _ _ Ho) as (V & L & W & X & Y & Z). rewrite (ext_other _ _ Ho). pose proof ext_len. repeat split; try assumption; try lia.
        unfold valid in *. rewrite (ext_cap _ L). exact V.
      + destruct ext_valid as (V & L & Z). split; [exact V|]. split; [exact L|]. split; [|split; [lia|split; [lia|auto]]].
        rewrite ext_view, (proj1 (proj2 (proj2 (i_held _ _ I _ _ Ha)))), Oq, map_app, Exs. reflexivity.
    - intros b q b2 q2 Hb Hb2 E. destruct (Hd _ _ Hb) as [Ho|(En & -> & Vq & _)]; destruct (Hd _ _ Hb2) as [Ho2|(En2 & -> & Vq2 & _)].
      + eapply i_same; eassumption.
      + destruct (i_held _ _ I _ _ Ho) as (_ & _ & _ & X & _). lia.
      + destruct (i_held _ _ I _ _ Ho2) as (_ & _ & _ & X & _). lia.
      + reflexivity.
    - intros b q b2 q2 Hb Hb2 N Nq Nq2 E. destruct (Hd _ _ Hb) as [Ho|(En & -> & Vq & _)]; destruct (Hd _ _ Hb2) as [Ho2|(En2 & -> & Vq2 & _)].
      + eapply i_diff; eassumption.
      + pose proof (ext_longer _ _ Ho E). lia.
      + pose proof (ext_longer _ _ Ho2 (eq_sym E)). lia.
      + congruence.
    - intros b q b2 q2 Hb Hb2 Nq Nx' E. rewrite Ee in Nx'. destruct (Hd _ _ Hb) as [Ho|(En & -> & Vq & _)]; destruct (Hd _ _ Hb2) as [Ho2|(En2 & -> & Vq2 & _)].
      + eapply i_last; try eassumption. apply ext_incl. exact Nx'.
      + exfalso. eapply ext_alone; try eassumption. congruence.
      + pose proof (ext_longer _ _ Ho2 E). lia.
      + lia.
  Qed.
End Extend.

Lemma held_ref st sp c r : inv st sp -> nth_error (refs st) c = Some r -> exists q, nth_error (scopes sp) c = Some q /\ held st sp (attrs r) q.
Proof.
  intros I H. destruct (nth_error (scopes sp) c) as [q|] eqn:E.
  - exists q. split; [reflexivity|]. left. exists c, (logger r). split; [destruct r; exact H|exact E].
  - apply nth_error_None in E. rewrite <- (i_refs _ _ I) in E. apply nth_error_None in E. congruence.
Qed.
Lemma held_err st sp e a : inv st sp -> nth_error (errs st) e = Some a -> exists q, nth_error (errors sp) e = Some q /\ held st sp a q.
Proof.
  intros I H. destruct (nth_error (errors sp) e) as [q|] eqn:E.
  - exists q. split; [reflexivity|]. right. exists e. auto.
  - apply nth_error_None in E. rewrite <- (i_errs _ _ I) in E. apply nth_error_None in E. congruence.
Qed.
Lemma ref_none st sp c : inv st sp -> nth_error (refs st) c = None -> nth_error (scopes sp) c = None.
Proof. intros I H. apply nth_error_None. rewrite <- (i_refs _ _ I). apply nth_error_None. exact H. Qed.
Lemma err_none st sp c : inv st sp -> nth_error (errs st) c = None -> nth_error (errors sp) c = None.
Proof. intros I H. apply nth_error_None. rewrite <- (i_errs _ _ I). apply nth_error_None. exact H. Qed.

Lemma set_nth_nth {X} n (h : list X) d : set_nth n (nth n h d) h = h.
Proof. revert n. induction h as [|x h IH]; intros [|n]; cbn; try reflexivity. f_equal. apply IH. Qed.
Lemma append_nil room (h : heap nat) a : valid h a -> append room h a [] = (h, a).
Proof.
  intros V. unfold append. cbn [length]. rewrite Nat.add_0_r. unfold valid in V. apply Nat.leb_le in V. rewrite V. cbn [app]. rewrite firstn_skipn.
  unfold cells. rewrite set_nth_nth. destruct a; reflexivity.
Qed.

Lemma inv_new st sp l a q : inv st sp -> (held st sp a q \/ (a = nil_slice /\ version q = 0 /\ own q = [])) ->
  inv {| mem := mem st; refs := refs st ++ [{| logger := l; attrs := a |}]; errs := errs st |}
      {| scopes := scopes sp ++ [q]; errors := errors sp; next := next sp; extended := extended sp |}.
Proof.
  intros I H. eapply inv_weaken; [exact I|reflexivity|reflexivity|reflexivity| | |].
  - cbn. rewrite !app_length, (i_refs _ _ I). reflexivity.
  - exact (i_errs _ _ I).
  - intros b r [(c & l0 & Hr & Hs)|(e & He & Hs)]; cbn [refs errs scopes errors] in *.
    + apply nth_snoc in Hr as [Hr|[Ec Hr]]; apply nth_snoc in Hs as [Hs|[Es Hs]].
      * left. exists r. split; [left; exists c, l0; auto|auto].
      * assert (Hc : c < length (refs st)) by (apply nth_error_Some; congruence). rewrite (i_refs _ _ I) in Hc. lia.
      * assert (Hc : c < length (scopes sp)) by (apply nth_error_Some; congruence). rewrite <- (i_refs _ _ I) in Hc. lia.
      * injection Hr as -> ->. subst r. destruct H as [H|H]; [left; exists q; auto|right; exact H].
    + left. exists r. split; [right; exists e; auto|auto].
Qed.

Lemma inv_step st sp o sp' : inv st sp -> follow sp o = Some sp' -> inv (step st o) sp'.
Proof.
  intros I F. destruct o as [|c|c|c xs room|c l|c|e x room]; cbn [follow step] in *.
  - injection F as <-. apply inv_new; [exact I|]. right. auto.
  - unfold Logger, Attrs. destruct (nth_error (refs st) c) as [r|] eqn:E; cbn [option_map].
    + destruct (held_ref _ _ _ _ I E) as (q & Eq & H). rewrite Eq in F. injection F as <-. apply inv_new; auto.
    + rewrite (ref_none _ _ _ I E) in F. injection F as <-. exact I.
  - unfold Logger. destruct (nth_error (refs st) c) as [r|] eqn:E; cbn [option_map].
    + destruct (held_ref _ _ _ _ I E) as (q & Eq & H). rewrite Eq in F. injection F as <-. apply inv_new; auto.
    + rewrite (ref_none _ _ _ I E) in F. injection F as <-. exact I.
  - destruct (nth_error (refs st) c) as [r|] eqn:E.
    2:{ rewrite (ref_none _ _ _ I E) in F. injection F as <-. exact I. }
    destruct (held_ref _ _ _ _ I E) as (q & Eq & H). rewrite Eq in F.
    destruct xs as [|x xs].
    { injection F as <-. cbn [map]. rewrite append_nil by (exact (proj1 (i_held _ _ I _ _ H))).
      eapply inv_weaken; [exact I|reflexivity|reflexivity|reflexivity| | |]; cbn [refs errs].
      - rewrite set_ref_length. exact (i_refs _ _ I).
      - exact (i_errs _ _ I).
      - intros b s [(c2 & l0 & Hr & Hs)|(e & He & Hs)]; cbn [refs errs] in *.
        + rewrite set_ref_nth in Hr. left. exists s. split; [|auto]. destruct (Nat.eqb_spec c c2) as [<-|N].
          * rewrite E in Hr. injection Hr as <- <-. left. exists c, (logger r). split; [destruct r; exact E|exact Hs].
          * left. exists c2, l0. auto.
        + left. exists s. split; [right; exists e; auto|auto]. }
    destruct (extend sp (version q)) as [e|] eqn:Ex; [|discriminate]. injection F as <-.
    destruct (append room (mem st) (attrs r) (map Some (x :: xs))) as [h a'] eqn:Ea.
    assert (NX : map Some (x :: xs) <> []) by discriminate.
    apply (inv_extend st sp (attrs r) q (map Some (x :: xs)) room e I H Ex NX) with (vals := x :: xs); cbn [mem refs errs scopes errors next extended].
    + rewrite Ea. reflexivity.
    + rewrite set_ref_length, set_scope_length. exact (i_refs _ _ I).
    + exact (i_errs _ _ I).
    + reflexivity.
    + reflexivity.
    + right. split; [reflexivity|]. intros b s [(c2 & l0 & Hr & Hs)|(e0 & He & Hs)]; cbn [refs errs scopes errors] in *.
      * rewrite set_ref_nth in Hr. rewrite set_scope_nth in Hs. destruct (Nat.eqb_spec c c2) as [<-|N].
        -- rewrite E in Hr. rewrite Eq in Hs. injection Hr as <- <-. injection Hs as <-. right. rewrite Ea. auto.
        -- left. left. exists c2, l0. auto.
      * left. right. exists e0. auto.
  - injection F as <-. destruct (nth_error (refs st) c) as [r|] eqn:E; [|exact I].
    eapply inv_weaken; [exact I|reflexivity|reflexivity|reflexivity| | |]; cbn [refs errs].
    + rewrite set_ref_length. exact (i_refs _ _ I).
    + exact (i_errs _ _ I).
    + intros b s [(c2 & l0 & Hr & Hs)|(e & He & Hs)]; cbn [refs errs] in *.
      * rewrite set_ref_nth in Hr. left. exists s. split; [|auto]. destruct (Nat.eqb_spec c c2) as [<-|N].
        -- rewrite E in Hr. injection Hr as <- <-. left. exists c, (logger r). split; [destruct r; exact E|exact Hs].
        -- left. exists c2, l0. auto.
      * left. exists s. split; [right; exists e; auto|auto].
  - unfold Attrs. destruct (nth_error (refs st) c) as [r|] eqn:E; cbn [option_map].
    + destruct (held_ref _ _ _ _ I E) as (q & Eq & H). rewrite Eq in F. injection F as <-.
      eapply inv_weaken; [exact I|reflexivity|reflexivity|reflexivity| | |]; cbn [refs errs scopes errors].
      * exact (i_refs _ _ I).
      * rewrite !app_length, (i_errs _ _ I). reflexivity.
      * intros b s [(c2 & l0 & Hr & Hs)|(e & He & Hs)]; cbn [refs errs scopes errors] in *.
        -- left. exists s. split; [left; exists c2, l0; auto|auto].
        -- apply nth_snoc in He as [He|[Ec He]]; apply nth_snoc in Hs as [Hs|[Es Hs]].
           ++ left. exists s. split; [right; exists e; auto|auto].
           ++ assert (Hc : e < length (errs st)) by (apply nth_error_Some; congruence). rewrite (i_errs _ _ I) in Hc. lia.
           ++ assert (Hc : e < length (errors sp)) by (apply nth_error_Some; congruence). rewrite <- (i_errs _ _ I) in Hc. lia.
           ++ subst b s. left. exists q. auto.
    + rewrite (ref_none _ _ _ I E) in F. injection F as <-. exact I.
  - destruct (nth_error (errs st) e) as [a|] eqn:E.
    2:{ rewrite (err_none _ _ _ I E) in F. injection F as <-. exact I. }
    destruct (held_err _ _ _ _ I E) as (q & Eq & H). rewrite Eq in F.
    destruct (extend sp (version q)) as [e'|] eqn:Ex; [|discriminate]. injection F as <-.
    assert (NX : [Some x] <> []) by discriminate.
    apply (inv_extend st sp a q [Some x] room e' I H Ex NX) with (vals := [x]); cbn [mem refs errs scopes errors next extended]; try reflexivity.
    + exact (i_refs _ _ I).
    + exact (i_errs _ _ I).
    + left. split; [reflexivity|]. intros b s Hb. exact Hb.
Qed.

Lemma inv_run ops st sp sp' : inv st sp -> follows sp ops = Some sp' -> inv (fold_left step ops st) sp'.
Proof.
  revert st sp. induction ops as [|o ops IH]; intros st sp I F; cbn in *; [injection F as <-; exact I|].
  destruct (follow sp o) as [sp1|] eqn:E; [|discriminate]. eapply IH; [eapply inv_step; eassumption|exact F].
Qed.

(** ** What the records show *)
Definition shows (st : state) (sp : spec) : Prop :=
  forall c r q, nth_error (refs st) c = Some r -> nth_error (scopes sp) c = Some q -> forall x, In x (logger r) \/ In x (own q) <-> In x (shown q).
Lemma shows_step st sp o sp' : inv st sp -> shows st sp -> keeps_logger o -> follow sp o = Some sp' -> shows (step st o) sp'.
Proof.
  intros I S K F. destruct o as [|c|c|c xs room|c l|c|e x room]; cbn [follow step keeps_logger] in *; try contradiction.
  - injection F as <-. intros c r q Hr Hq. cbn in *. apply nth_snoc in Hr as [Hr|[Ec ->]]; apply nth_snoc in Hq as [Hq|[Es ->]].
    + eapply S; eassumption.
    + assert (Hc : c < length (refs st)) by (apply nth_error_Some; congruence). rewrite (i_refs _ _ I) in Hc. lia.
    + assert (Hc : c < length (scopes sp)) by (apply nth_error_Some; congruence). rewrite <- (i_refs _ _ I) in Hc. lia.
    + cbn. tauto.
  - unfold Logger, Attrs. destruct (nth_error (refs st) c) as [r|] eqn:E; cbn [option_map].
    + destruct (held_ref _ _ _ _ I E) as (q & Eq & H). rewrite Eq in F. injection F as <-.
      intros c2 r2 q2 Hr Hq x. cbn in *. apply nth_snoc in Hr as [Hr|[Ec ->]]; apply nth_snoc in Hq as [Hq|[Es ->]].
      * eapply S; eassumption.
      * assert (Hc : c2 < length (refs st)) by (apply nth_error_Some; congruence). rewrite (i_refs _ _ I) in Hc. lia.
      * assert (Hc : c2 < length (scopes sp)) by (apply nth_error_Some; congruence). rewrite <- (i_refs _ _ I) in Hc. lia.
      * cbn. rewrite (proj1 (proj2 (proj2 (i_held _ _ I _ _ H)))), values_some, in_app_iff. specialize (S c r q E Eq x). tauto.
    + rewrite (ref_none _ _ _ I E) in F. injection F as <-. exact S.
  - unfold Logger. destruct (nth_error (refs st) c) as [r|] eqn:E; cbn [option_map].
    + destruct (held_ref _ _ _ _ I E) as (q & Eq & H). rewrite Eq in F. injection F as <-.
      intros c2 r2 q2 Hr Hq x. cbn in *. apply nth_snoc in Hr as [Hr|[Ec ->]]; apply nth_snoc in Hq as [Hq|[Es ->]].
      * eapply S; eassumption.
      * assert (Hc : c2 < length (refs st)) by (apply nth_error_Some; congruence). rewrite (i_refs _ _ I) in Hc. lia.
      * assert (Hc : c2 < length (scopes sp)) by (apply nth_error_Some; congruence). rewrite <- (i_refs _ _ I) in Hc. lia.
      * cbn. rewrite (proj1 (proj2 (proj2 (i_held _ _ I _ _ H)))), values_some, in_app_iff. specialize (S c r q E Eq x). tauto.
    + rewrite (ref_none _ _ _ I E) in F. injection F as <-. exact S.
  - destruct (nth_error (refs st) c) as [r|] eqn:E.
    2:{ rewrite (ref_none _ _ _ I E) in F. injection F as <-. exact S. }
    destruct (held_ref _ _ _ _ I E) as (q & Eq & H). rewrite Eq in F.
    destruct (append room (mem st) (attrs r) (map Some xs)) as [h a'].
    destruct xs as [|x0 xs].
    { injection F as <-. intros c2 r2 q2 Hr Hq x. cbn in *. rewrite set_ref_nth in Hr. destruct (Nat.eqb_spec c c2) as [<-|N].
      - rewrite E in Hr. injection Hr as <-. cbn. eapply S; eassumption.
      - eapply S; eassumption. }
    destruct (extend sp (version q)) as [e|] eqn:Ex; [|discriminate]. injection F as <-.
    intros c2 r2 q2 Hr Hq x. cbn [refs scopes] in *. rewrite set_ref_nth in Hr. rewrite set_scope_nth in Hq. destruct (Nat.eqb_spec c c2) as [<-|N].
    + rewrite E in Hr. rewrite Eq in Hq. injection Hr as <-. injection Hq as <-. cbn [logger own shown]. specialize (S c r q E Eq x). rewrite !in_app_iff. tauto.
    + eapply S; eassumption.
  - unfold Attrs. destruct (nth_error (refs st) c) as [r|] eqn:E; cbn [option_map].
    + destruct (held_ref _ _ _ _ I E) as (q & Eq & H). rewrite Eq in F. injection F as <-. exact S.
    + rewrite (ref_none _ _ _ I E) in F. injection F as <-. exact S.
  - destruct (nth_error (errs st) e) as [a|] eqn:E.
    2:{ rewrite (err_none _ _ _ I E) in F. injection F as <-. exact S. }
    destruct (held_err _ _ _ _ I E) as (q & Eq & H). rewrite Eq in F.
    destruct (extend sp (version q)) as [e'|] eqn:Ex; [|discriminate]. injection F as <-. exact S.
Qed.
Lemma shows_run ops st sp sp' : inv st sp -> shows st sp -> Forall keeps_logger ops -> follows sp ops = Some sp' -> shows (fold_left step ops st) sp'.
Proof.
  revert st sp. induction ops as [|o ops IH]; intros st sp I S K F; cbn in *; [injection F as <-; exact S|].
  destruct (follow sp o) as [sp1|] eqn:E; [|discriminate]. inversion K; subst. eapply IH; [eapply inv_step; eassumption|eapply shows_step; eassumption|assumption|exact F].
Qed.
