(** * Encoding followed by decoding *)

From Coq Require Import Ascii String List Arith Bool Lia.
From Verif.Base Require Import Text TextProofs.
From Verif.Options Require Proofs.
From Verif.Codec Require Import Model Spec Proofs Visits.
Import ListNotations.
Local Open Scope string_scope.

(** ** Ids and names *)

Lemma cut_first : forall c p q r r',
  has_char c p = false -> has_char c q = false ->
  p ++ String c r = q ++ String c r' -> p = q /\ r = r'.
Proof.
  induction p as [|x p IH]; intros q r r' Hp Hq E; destruct q as [|y q].
  - cbn in E. now inversion E.
  - cbn [append] in E. inversion E; subst. cbn [has_char] in Hq.
    now rewrite Ascii.eqb_refl in Hq.
  - cbn [append] in E. inversion E; subst. cbn [has_char] in Hp.
    now rewrite Ascii.eqb_refl in Hp.
  - cbn [append] in E. inversion E as [[Exy E']]. subst y.
    cbn [has_char] in Hp, Hq. apply orb_false_iff in Hp, Hq.
    destruct (IH q r r' (proj2 Hp) (proj2 Hq) E') as [-> ->]. auto.
Qed.

Lemma has_char_mid : forall c p r, has_char c (p ++ String c r) = true.
Proof.
  intros c p r. rewrite has_char_app. cbn [has_char]. rewrite Ascii.eqb_refl.
  cbn [orb]. apply orb_true_r.
Qed.

Lemma cut_last : forall c p q r r',
  has_char c r = false -> has_char c r' = false ->
  p ++ String c r = q ++ String c r' -> p = q /\ r = r'.
Proof.
  induction p as [|x p IH]; intros q r r' Hr Hr' E; destruct q as [|y q].
  - cbn in E. now inversion E.
  - cbn [append] in E. inversion E; subst. rewrite has_char_mid in Hr. discriminate.
  - cbn [append] in E. inversion E; subst. rewrite has_char_mid in Hr'. discriminate.
  - cbn [append] in E. inversion E as [[Exy E']]. subst y.
    destruct (IH q r r' Hr Hr' E') as [-> ->]. auto.
Qed.

Lemma join_inj : forall c l l', l <> [] -> l' <> [] ->
  (forall n, In n l -> has_char c n = false) ->
  (forall n, In n l' -> has_char c n = false) ->
  join (String c "") l = join (String c "") l' -> l = l'.
Proof.
  intros c l l' N N' H H' E.
  rewrite <- (Options.Proofs.split_join_plain c l N), E.
  - apply Options.Proofs.split_join_plain; [exact N'|]. now apply Forall_forall.
  - now apply Forall_forall.
Qed.

Lemma append_nonempty : forall a c b, a ++ String c b <> "".
Proof. intros [|x a] c b; discriminate. Qed.

(** The shapes of naming lists. *)
Definition joined (k : string) (names : list string) : string :=
  if k =? "File" then hd "" names ++ ":" ++ last names ""
  else if (k =? "Field") || (k =? "Oneof") || (k =? "EnumValue") then join "." names
  else if k =? "MessageDependencyGraph" then join ":" names
  else if k =? "VariableDefinitionGroup" then hd "" names ++ "/" ++ join ":" (tl names)
  else hd "" names.

Lemma id_joined : forall h k a, id_of h k a = joined k (naming h k a).
Proof.
  intros h k a. unfold id_of, naming, joined.
  destruct (String.eqb_spec k "File") as [->|N1]; [reflexivity|].
  destruct (String.eqb_spec k "Field") as [->|N2].
  { cbn [orb]. destruct (get h (VObj "Field" a) "Message"); reflexivity. }
  destruct (String.eqb_spec k "Oneof") as [->|N3]; [reflexivity|].
  destruct (String.eqb_spec k "EnumValue") as [->|N4]; [reflexivity|].
  cbn [orb].
  destruct (String.eqb_spec k "CELPlugin") as [->|N5]; [reflexivity|].
  destruct (String.eqb_spec k "MessageDependencyGraph") as [->|N6]; [reflexivity|].
  destruct (String.eqb_spec k "VariableDefinition") as [->|N7]; [reflexivity|].
  destruct (String.eqb_spec k "VariableDefinitionGroup") as [->|N8]; [reflexivity|].
  reflexivity.
Qed.

Definition pairs (k : string) : bool := (k =? "Field") || (k =? "Oneof") || (k =? "EnumValue").

Lemma naming_shape : forall h k a,
  (k = "File" -> exists x y, naming h k a = [x; y]) /\
  (pairs k = true -> (exists x, naming h k a = [x]) \/ (exists x y, naming h k a = [x; y])) /\
  (k = "VariableDefinitionGroup" -> exists t r, naming h k a = t :: r /\
     (t = "concurrent" \/ t = "sequential")) /\
  (k <> "File" -> pairs k = false -> k <> "MessageDependencyGraph" ->
   k <> "VariableDefinitionGroup" -> exists x, naming h k a = [x]).
Proof.
  intros h k a. split; [|split; [|split]].
  - intros ->. cbn. eauto.
  - unfold pairs. intros H. apply orb_true_iff in H. destruct H as [H|H].
    + apply orb_true_iff in H. destruct H as [H|H]; apply String.eqb_eq in H; subst.
      * unfold naming. cbn [String.eqb Ascii.eqb Bool.eqb andb].
        destruct (get h (VObj "Field" a) "Message"); cbn; eauto.
      * right. cbn. eauto.
    + apply String.eqb_eq in H. subst. right. cbn. eauto.
  - intros ->. unfold naming. cbn [String.eqb Ascii.eqb Bool.eqb andb].
    do 2 eexists. split; [reflexivity|].
    destruct (get h (VObj "VariableDefinitionGroup" a) "Sequential"); auto.
  - intros N1 N2 N3 N4. unfold pairs in N2. apply orb_false_iff in N2.
    destruct N2 as [N2 N7]. apply orb_false_iff in N2. destruct N2 as [N5 N6].
    unfold naming. apply String.eqb_neq in N1, N3, N4.
    rewrite N1, N5, N6, N7, N3, N4.
    destruct ((k =? "CELPlugin") || (k =? "VariableDefinition")); eauto.
Qed.

Lemma joined_inj : forall h k a b,
  lexical k (naming h k a) -> lexical k (naming h k b) ->
  id_of h k a = id_of h k b -> naming h k a = naming h k b.
Proof.
  intros h k a b La Lb E. rewrite !id_joined in E.
  destruct (naming_shape h k a) as (A1 & A2 & A3 & A4).
  destruct (naming_shape h k b) as (B1 & B2 & B3 & B4).
  destruct (naming h k a) as [|xa ra] eqn:Na; destruct (naming h k b) as [|xb rb] eqn:Nb.
  all: unfold joined, lexical in *.
  all: destruct (String.eqb_spec k "File") as [K1|K1].
  1,3,5,7: destruct (A1 K1) as (x1 & y1 & Ex1); destruct (B1 K1) as (x2 & y2 & Ex2);
    try discriminate; inversion Ex1; inversion Ex2; subst; cbn [hd last] in *;
    destruct (cut_first ":" _ _ _ _ La Lb E) as [-> ->]; reflexivity.
  all: fold (pairs k) in *; destruct (pairs k) eqn:K2.
  1,3,5,7: destruct (A2 eq_refl) as [(x1 & Ex1)|(x1 & y1 & Ex1)];
    destruct (B2 eq_refl) as [(x2 & Ex2)|(x2 & y2 & Ex2)];
    try discriminate; inversion Ex1; inversion Ex2; subst; cbn [last join] in *;
    destruct La as [La La']; destruct Lb as [Lb Lb'].
  - now subst.
  - exfalso. rewrite E in La. change ("." ++ y2) with (String "." y2) in La.
    now rewrite has_char_mid in La.
  - exfalso. rewrite <- E in Lb. change ("." ++ y1) with (String "." y1) in Lb.
    now rewrite has_char_mid in Lb.
  - destruct (cut_last "." _ _ _ _ La Lb E) as [-> ->]. reflexivity.
  - reflexivity.
  - exfalso. destruct (String.eqb_spec k "MessageDependencyGraph") as [K3|K3].
    + now destruct La.
    + destruct (String.eqb_spec k "VariableDefinitionGroup") as [K4|K4];
        [now destruct La|now apply La].
  - exfalso. destruct (String.eqb_spec k "MessageDependencyGraph") as [K3|K3].
    + now destruct Lb.
    + destruct (String.eqb_spec k "VariableDefinitionGroup") as [K4|K4];
        [now destruct Lb|now apply Lb].
  - destruct (String.eqb_spec k "MessageDependencyGraph") as [K3|K3].
    + apply (join_inj ":"); try discriminate; try apply La; try apply Lb. exact E.
    + destruct (String.eqb_spec k "VariableDefinitionGroup") as [K4|K4].
      * cbn [hd tl] in *. destruct La as [La1 La2]. destruct Lb as [Lb1 Lb2].
        destruct (A3 K4) as (t1 & r1 & Et1 & T1). destruct (B3 K4) as (t2 & r2 & Et2 & T2).
        inversion Et1; inversion Et2; subst t1 r1 t2 r2.
        assert (H1 : has_char "/" xa = false) by (destruct T1; subst; reflexivity).
        assert (H2 : has_char "/" xb = false) by (destruct T2; subst; reflexivity).
        destruct (cut_first "/" _ _ _ _ H1 H2 E) as [-> E2]. f_equal.
        apply (join_inj ":"); auto; intros n Hn; [apply La2|apply Lb2]; now right.
      * destruct (A4 K1 eq_refl K3 K4) as (x1 & Ex1).
        destruct (B4 K1 eq_refl K3 K4) as (x2 & Ex2).
        inversion Ex1; inversion Ex2; subst. cbn [hd] in E. now subst.
Qed.

Lemma id_nonempty : forall h k a, lexical k (naming h k a) -> id_of h k a <> "".
Proof.
  intros h k a L. rewrite id_joined.
  destruct (naming_shape h k a) as (A1 & A2 & A3 & A4).
  unfold joined, lexical in *.
  destruct (String.eqb_spec k "File") as [K1|K1].
  { apply append_nonempty. }
  fold (pairs k) in *. destruct (pairs k) eqn:K2.
  { destruct (A2 eq_refl) as [(x1 & Ex1)|(x1 & y1 & Ex1)]; rewrite Ex1 in *; cbn [join].
    - intros ->. now apply (proj2 L).
    - apply append_nonempty. }
  destruct (String.eqb_spec k "MessageDependencyGraph") as [K3|K3].
  { subst k. destruct L as [L _]. unfold naming in L |- *.
    cbn [String.eqb Ascii.eqb Bool.eqb andb] in L |- *.
    destruct (items (get h (VObj "MessageDependencyGraph" a) "Roots")) as [|n ns]; [easy|].
    cbn [map join]. destruct (map _ ns).
    - rewrite <- ?append_assoc. apply append_nonempty.
    - intros Z. apply (f_equal (has_char "_")) in Z. rewrite !has_char_app in Z.
      cbn in Z. rewrite ?orb_true_r in Z. cbn in Z. discriminate. }
  destruct (String.eqb_spec k "VariableDefinitionGroup") as [K4|K4].
  { apply append_nonempty. }
  exact L.
Qed.

(** ** The round trip *)

Lemma load_in : forall h k a fs, load h k a = Some fs ->
  In (k, a) (map fst h).
Proof.
  induction h as [|[[k' a'] fs'] h IH]; cbn; intros k a fs H; [discriminate|].
  destruct (String.eqb_spec k k') as [->|N]; cbn [andb] in H; [|right; eauto].
  destruct (Nat.eqb_spec a a') as [->|N]; [now left|right; eauto].
Qed.

Lemma tfind_in : forall B x (t : table B) b, tfind x t = Some b -> In x (map fst t).
Proof.
  induction t as [|[y c] t IH]; cbn; intros b H; [discriminate|].
  destruct (String.eqb (fst x) (fst y) && String.eqb (snd x) (snd y)) eqn:E.
  - left. symmetry. now apply key_eqb.
  - right. eauto.
Qed.

Lemma mentions_mono : forall (u u' : string -> string -> bool) v k a,
  (forall s l, u s l = true -> u' s l = true) -> mentions u v k a -> mentions u' v k a.
Proof.
  intros u u' v k a H M. induction M.
  - constructor.
  - econstructor; eauto.
  - econstructor; eauto.
Qed.

Lemma reached_mono : forall (u u' : string -> string -> bool) h roots k a,
  (forall s l, u s l = true -> u' s l = true) ->
  reached u h roots k a -> reached u' h roots k a.
Proof.
  intros u u' h roots k a H R. induction R.
  - now constructor.
  - eapply reached_step; eauto. eapply mentions_mono; eauto.
Qed.

Lemma registering_written : forall s l, registering s l = true -> written s l = true.
Proof.
  intros s l H. unfold registering in H. apply andb_true_iff in H. now apply kept_written.
Qed.

Section Trip.
Variable h : heap.
Variable c : config.
Let roots := cf_roots c.
Hypothesis Htyped : well_typed h.
Hypothesis Hroots : forall a, In a roots -> load h "File" a <> None.
Hypothesis Hlisted : all_listed h roots.
Hypothesis Hnamed : well_named h roots.
Hypothesis Hdistinct : distinctly_named any_kind h roots.

Lemma rec_compat : forall s, compat (SRec s) (ERec s) (DRec s) = true.
Proof. intros s. cbn. now rewrite String.eqb_refl. Qed.

Lemma fit_object : forall k a fs, load h k a = Some fs -> fits h (SRec k) (VRec k fs).
Proof. intros k a fs L. constructor. exact (Htyped k a fs L). Qed.

(** Everything mentioned is in the heap. *)
Lemma mentioned_loads : forall v sh k a, fits h sh v -> mentions written v k a ->
  load h k a <> None.
Proof.
  induction v as [|s|k0 a0|l IH|s fs IH] using value_induction; intros sh k a F M;
    [inversion M|inversion M|..].
  - inversion M; subst. inversion F; now subst.
  - inversion M as [|l2 v2 k2 a2 I M2|]; subst.
    inversion F as [| | | | |k1 l1 L| | |s1 l1 L]; subst.
    + destruct (L _ I) as (a' & -> & Ld). inversion M2; now subst.
    + destruct (L _ I) as (fs & -> & Ff). apply (IH _ I (SRec s1)); [now constructor|exact M2].
  - inversion M as [| |s2 fs2 l v k2 a2 I W M2]; subst.
    inversion F as [| | | | | | |s0 fs0 L|]; subst.
    destruct (fields_fit h s fs l v L I W) as (sh' & _ & Fv).
    exact (IH l v I sh' k a Fv M2).
Qed.

Lemma reached_loads : forall k a, reached written h roots k a -> load h k a <> None.
Proof.
  intros k a R. destruct R as [a Ha|k a fs k' a' R L M]; [now apply Hroots|].
  eapply mentioned_loads; [|exact M]. eapply fit_object; eauto.
Qed.

Lemma listed_written : forall k a, listed h roots k a -> reached written h roots k a.
Proof. intros k a. apply reached_mono, registering_written. Qed.

Lemma listed_id : forall k a, listed h roots k a -> id_of h k a <> "".
Proof. intros k a R. apply id_nonempty. now apply Hnamed. Qed.

Lemma listed_inj : forall k a b, listed h roots k a -> listed h roots k b ->
  id_of h k a = id_of h k b -> a = b.
Proof.
  intros k a b Ra Rb E. apply (Hdistinct k a b eq_refl Ra Rb).
  apply joined_inj; auto; now apply Hnamed.
Qed.

Lemma reached_named : forall k a fs, reached written h roots k a ->
  load h k a = Some fs -> named h (VRec k fs).
Proof.
  intros k a fs R L k' a' M. apply listed_id, Hlisted. eapply reached_step; eauto.
Qed.

(** The encoder. *)
Lemma encoding_ends : exists t,
  visits _ _ (enc_key h) (enc_expand h) (length h) []
         (map (fun a => ("File", a)) roots) = Ok t.
Proof.
  set (P := fun x : string * nat => reached written h roots (fst x) (snd x)).
  set (U := map (fun p => enc_key h (fst p)) h).
  assert (PE : forall x, P x -> exists b ys, enc_expand h x = Ok (b, ys) /\
            (forall y, In y ys -> P y)).
  { intros [k a] R. unfold P in R. cbn [fst snd] in R. unfold enc_expand. cbn [fst snd].
    destruct (load h k a) as [fs|] eqn:L; [|now apply reached_loads in R].
    do 2 eexists. split; [reflexivity|]. intros [k' a'] Hy. unfold P. cbn [fst snd].
    destruct (visited h _ (SRec k) (ERec k) (DRec k) k' a' (fit_object k a fs L)
                (rec_compat k) Hy) as [M _].
    eapply reached_step; eauto. }
  assert (PK : forall x, P x -> In (enc_key h x) U).
  { intros [k a] R. unfold P in R. cbn [fst snd] in R.
    destruct (load h k a) as [fs|] eqn:L; [|now apply reached_loads in R].
    apply load_in in L. unfold U. rewrite <- (map_map fst (enc_key h)).
    apply in_map. exact L. }
  destruct (visits_all _ _ (enc_key h) (enc_expand h) P U PE PK (length h)
              (map (fun a => ("File", a)) roots)) as (t & E & K & S).
  - intros x Hx. apply in_map_iff in Hx. destruct Hx as (a & <- & Ha).
    unfold P. cbn. now constructor.
  - unfold U. rewrite map_length. apply le_n.
  - exists t. exact E.
Qed.

Lemma encoded : exists t,
  visits _ _ (enc_key h) (enc_expand h) (length h) []
         (map (fun a => ("File", a)) roots) = Ok t /\
  (forall k a fs, reached written h roots k a -> load h k a = Some fs ->
     tfind (k, id_of h k a) t = Some (enc_val h (ERec k) (VRec k fs))) /\
  (forall x, tfind x t <> None ->
     exists k a, reached written h roots k a /\ x = (k, id_of h k a)).
Proof.
  set (P := fun x : string * nat => reached written h roots (fst x) (snd x)).
  set (U := map (fun p => enc_key h (fst p)) h).
  assert (PE : forall x, P x -> exists b ys, enc_expand h x = Ok (b, ys) /\
            (forall y, In y ys -> P y)).
  { intros [k a] R. unfold P in R. cbn [fst snd] in R. unfold enc_expand. cbn [fst snd].
    destruct (load h k a) as [fs|] eqn:L; [|now apply reached_loads in R].
    do 2 eexists. split; [reflexivity|]. intros [k' a'] Hy. unfold P. cbn [fst snd].
    destruct (visited h _ (SRec k) (ERec k) (DRec k) k' a' (fit_object k a fs L)
                (rec_compat k) Hy) as [M _].
    eapply reached_step; eauto. }
  assert (PK : forall x, P x -> In (enc_key h x) U).
  { intros [k a] R. unfold P in R. cbn [fst snd] in R.
    destruct (load h k a) as [fs|] eqn:L; [|now apply reached_loads in R].
    apply load_in in L. unfold U. rewrite <- (map_map fst (enc_key h)).
    apply in_map. exact L. }
  destruct (visits_all _ _ (enc_key h) (enc_expand h) P U PE PK (length h)
              (map (fun a => ("File", a)) roots)) as (t & E & K & S).
  - intros x Hx. apply in_map_iff in Hx. destruct Hx as (a & <- & Ha).
    unfold P. cbn. now constructor.
  - unfold U. rewrite map_length. apply le_n.
  - exists t. split; [exact E|].
    assert (S' : forall k a fs, reached written h roots k a -> load h k a = Some fs ->
       tfind (k, id_of h k a) t <> None ->
       tfind (k, id_of h k a) t = Some (enc_val h (ERec k) (VRec k fs)) /\
       (forall k' a', In (k', a') (enc_refs (ERec k) (VRec k fs)) ->
          tfind (k', id_of h k' a') t <> None)).
    { intros k a fs R L F. destruct (tfind (k, id_of h k a) t) as [b|] eqn:Fb; [|easy].
      destruct (S _ _ Fb) as ([k2 a2] & ys & P2 & K2 & E2 & Y2).
      unfold P in P2. unfold enc_key in K2. cbn [fst snd] in P2, K2.
      inversion K2; subst k2.
      assert (a2 = a) by (apply (listed_inj k); auto). subst a2.
      unfold enc_expand in E2. cbn [fst snd] in E2. rewrite L in E2.
      inversion E2; subst. split; [reflexivity|].
      intros k' a' Hx. exact (Y2 (k', a') Hx). }
    assert (G : forall k a, listed h roots k a -> tfind (k, id_of h k a) t <> None).
    { intros k a R. induction R as [a Ha|k a fs k' a' R IH L M].
      - apply (K ("File", a)). apply in_map_iff. eauto.
      - destruct (S' k a fs (listed_written _ _ R) L IH) as [_ Y].
        apply Y.
        apply (found h _ (SRec k) (ERec k) (DRec k) k' a' (fit_object k a fs L)
                 (rec_compat k) eq_refl M). }
    split.
    + intros k a fs R L. apply S'; auto.
    + intros x F. destruct (tfind x t) as [b|] eqn:Fb; [|easy].
      destruct (S _ _ Fb) as ([k2 a2] & ys & P2 & K2 & _). exists k2, a2. auto.
Qed.

(** The decoder. *)
Lemma transferred : exists v,
  transfer h c = Ok v /\ pl_roots v = map (id_of h "File") roots /\
  forall k a fs, reached written h roots k a -> load h k a = Some fs ->
    exists fs', plugin_graph v k (id_of h k a) = Some fs' /\
                stands h (VRec k fs) (VRec k fs').
Proof.
  destruct encoded as (t & E & T1 & T2).
  unfold transfer, encode. fold roots. rewrite E. unfold decode. cbn [rq_reference rq_file_ids rq_files].
  set (P := fun x : string * string =>
              exists k a, reached written h roots k a /\ x = (k, id_of h k a)).
  set (U := map fst t).
  assert (X : forall k a fs, reached written h roots k a -> load h k a = Some fs ->
     dec_expand t (k, id_of h k a)
     = Ok (dfs k (efs h k fs fs), dec_refs (DRec k) (enc_val h (ERec k) (VRec k fs)))).
  { intros k a fs R L. unfold dec_expand. rewrite (T1 k a fs R L). cbn [fst snd].
    rewrite (accepted h _ (SRec k) (ERec k) (DRec k) (fit_object k a fs L) (rec_compat k)).
    rewrite (enc_val_rec h (ERec k) k k fs eq_refl), (dec_val_rec (DRec k) k _ eq_refl).
    reflexivity. }
  assert (PE : forall x, P x -> exists b ys, dec_expand t x = Ok (b, ys) /\
            (forall y, In y ys -> P y)).
  { intros x (k & a & R & ->).
    destruct (load h k a) as [fs|] eqn:L; [|now apply reached_loads in R].
    rewrite (X k a fs R L). do 2 eexists. split; [reflexivity|].
    intros [k' id'] Hy.
    destruct (looked_up h _ (SRec k) (ERec k) (DRec k) k' id' (fit_object k a fs L)
                (rec_compat k) Hy) as (a' & M & ->).
    exists k', a'. split; [|reflexivity]. eapply reached_step; eauto. }
  assert (PK : forall x, P x -> In x U).
  { intros x (k & a & R & ->).
    destruct (load h k a) as [fs|] eqn:L; [|now apply reached_loads in R].
    eapply tfind_in. exact (T1 k a fs R L). }
  destruct (visits_all _ _ (fun x => x) (dec_expand t) P U PE PK (S (length t))
              (map (fun id => ("File", id)) (map (id_of h "File") roots))) as (t' & E' & K & S).
  - intros x Hx. apply in_map_iff in Hx. destruct Hx as (id & <- & Hid).
    apply in_map_iff in Hid. destruct Hid as (a & <- & Ha).
    exists "File", a. split; [now constructor|reflexivity].
  - unfold U. rewrite map_length. apply le_S, le_n.
  - rewrite E'. eexists. split; [reflexivity|]. split; [reflexivity|].
    assert (S' : forall k a fs, reached written h roots k a -> load h k a = Some fs ->
       tfind (k, id_of h k a) t' <> None ->
       tfind (k, id_of h k a) t' = Some (dfs k (efs h k fs fs)) /\
       (forall x, In x (dec_refs (DRec k) (enc_val h (ERec k) (VRec k fs))) ->
          tfind x t' <> None)).
    { intros k a fs R L F. destruct (tfind (k, id_of h k a) t') as [b|] eqn:Fb; [|easy].
      destruct (S _ _ Fb) as (x & ys & _ & -> & E2 & Y2).
      rewrite (X k a fs R L) in E2. inversion E2; subst. auto. }
    assert (G : forall k a, listed h roots k a -> tfind (k, id_of h k a) t' <> None).
    { intros k a R. induction R as [a Ha|k a fs k' a' R IH L M].
      - apply K. apply in_map_iff. exists (id_of h "File" a). split; [reflexivity|].
        apply in_map_iff. eauto.
      - destruct (S' k a fs (listed_written _ _ R) L IH) as [_ Y].
        apply Y.
        apply (found h _ (SRec k) (ERec k) (DRec k) k' a' (fit_object k a fs L)
                 (rec_compat k) eq_refl M).
        apply listed_id. eapply reached_step; eauto. }
    intros k a fs R L. unfold plugin_graph. cbn [pl_heap].
    destruct (S' k a fs R L (G k a (Hlisted _ _ R))) as [-> _].
    eexists. split; [reflexivity|].
    assert (B := back h (VRec k fs) (SRec k) (ERec k) (DRec k) (fit_object k a fs L)
                   (reached_named k a fs R L) (rec_compat k)).
    rewrite (enc_val_rec h (ERec k) k k fs eq_refl), (dec_val_rec (DRec k) k _ eq_refl) in B.
    exact B.
Qed.

Section View.
Variable v : plugin_view.
Hypothesis Vroots : pl_roots v = map (id_of h "File") roots.
Hypothesis Vobjects : forall k a fs, reached written h roots k a -> load h k a = Some fs ->
    exists fs', plugin_graph v k (id_of h k a) = Some fs' /\
                stands h (VRec k fs) (VRec k fs').

Definition inside (x : value nat) : Prop :=
  forall k a, mentions kept x k a -> reached written h roots k a.

Lemma inside_field : forall s fs l, inside (VRec s fs) -> kept s l = true ->
  inside (field fs l).
Proof.
  intros s fs l I K k a M. unfold field in M.
  destruct (assoc l fs) as [x|] eqn:E; [|inversion M].
  apply I. apply assoc_in in E. econstructor; eauto.
Qed.

Lemma follow_stands : forall p x y, stands h x y -> inside x ->
  match follow kept (load h) p x, follow kept (plugin_graph v) p y with
  | Some x', Some y' => stands h x' y' /\ inside x'
  | None, None => True
  | _, _ => False
  end.
Proof.
  induction p as [|st p IH]; intros x y S I; [cbn; auto|].
  assert (Inil : inside VNil) by (intros k a M; inversion M).
  destruct st as [l|n].
  - destruct S as [|s Hs|s|k a|l0 l0' F|s fs fs' F]; cbn [follow]; try exact Logic.I.
    + apply IH; [constructor|exact Inil].
    + destruct (kept s l).
      * unfold field at 1. cbn [assoc]. apply IH; [constructor|exact Inil].
      * apply IH; [constructor|exact Inil].
    + assert (R : reached written h roots k a) by (apply I; constructor).
      destruct (load h k a) as [fs|] eqn:L; [|now apply reached_loads in R].
      destruct (Vobjects k a fs R L) as (fs' & -> & St).
      inversion St; subst.
      destruct (kept k l) eqn:Kl; [|apply IH; [constructor|exact Inil]].
      apply IH; [auto|].
      apply (inside_field k); [|exact Kl]. intros k' a' M.
      eapply reached_step; eauto. eapply mentions_mono; [|exact M]. apply kept_written.
    + destruct (kept s l) eqn:Kl; [|apply IH; [constructor|exact Inil]].
      apply IH; [auto|]. now apply (inside_field s).
  - destruct S as [|s Hs|s|k a|l0 l0' F|s fs fs' F]; cbn [follow]; try exact Logic.I.
    assert (G : match nth_error l0 n, nth_error l0' n with
                | Some a, Some b => stands h a b /\ In a l0
                | None, None => True
                | _, _ => False
                end).
    { clear - F. revert n. induction F as [|a b l l' H F IH]; intros n.
      - destruct n; exact Logic.I.
      - destruct n as [|n]; cbn; [auto|]. specialize (IH n).
        destruct (nth_error l n), (nth_error l' n); auto. tauto. }
    destruct (nth_error l0 n) as [a|], (nth_error l0' n) as [b|]; try contradiction;
      try exact Logic.I.
    destruct G as [G1 G2]. apply IH; [exact G1|].
    intros k' a' M. apply I. econstructor; eauto.
Qed.

Lemma files_stand : stands h (files_of roots) (files_of (pl_roots v)) /\
  inside (files_of roots).
Proof.
  split.
  - unfold files_of. rewrite Vroots. constructor. rewrite map_map.
    clear. induction roots as [|a l IH]; cbn; constructor; [constructor|exact IH].
  - intros k a M. inversion M as [|l x k' a' I M'|]; subst.
    apply in_map_iff in I. destruct I as (b & <- & Hb). inversion M'; subst.
    now constructor.
Qed.

Lemma stands_look : forall x y, stands h x y -> look x = look y.
Proof.
  intros x y S. destruct S as [|s Hs|s|k a|l l' F|s fs fs' F]; cbn [look];
    try reflexivity.
  - now rewrite Hs.
  - f_equal. induction F as [|u w l l' _ F IH]; cbn; [reflexivity|now f_equal].
Qed.

Lemma view_same : same_schema kept (@look) h roots v.
Proof.
  intros p. destruct files_stand as [S I].
  assert (H := follow_stands p _ _ S I).
  destruct (follow kept (load h) p (files_of roots)),
           (follow kept (plugin_graph v) p (files_of (pl_roots v))); try contradiction.
  - cbn. f_equal. now apply stands_look.
  - reflexivity.
Qed.

Lemma view_sharing : same_sharing h roots v.
Proof.
  intros p q k a b Hp Hq. destruct files_stand as [S I].
  assert (Gp := follow_stands p _ _ S I). assert (Gq := follow_stands q _ _ S I).
  rewrite Hp in Gp. rewrite Hq in Gq.
  destruct (follow kept (plugin_graph v) p _) as [x|]; [|contradiction].
  destruct (follow kept (plugin_graph v) q _) as [y|]; [|contradiction].
  destruct Gp as [Sp Ip]. destruct Gq as [Sq Iq]. inversion Sp; inversion Sq; subst.
  do 2 eexists. split; [reflexivity|]. split; [reflexivity|]. split; [now intros ->|].
  intros E. apply (listed_inj k); auto.
  - apply Hlisted, Ip. constructor.
  - apply Hlisted, Iq. constructor.
Qed.

End View.

Lemma trip : exists v,
  transfer h c = Ok v /\ same_schema kept (@look) h roots v /\ same_sharing h roots v.
Proof.
  destruct transferred as (v & E & R & O). exists v. split; [exact E|].
  split; [now apply view_same|now apply view_sharing].
Qed.

End Trip.
