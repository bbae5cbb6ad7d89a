From Coq Require Import String List Bool Permutation.
From Verif.Regen Require Import Model Spec.
Import ListNotations.
Local Open Scope string_scope.

Section Cache.
  Context {source fed : Type}.
  Lemma find_remove p q (c : cache fed) : find q (remove p c) = if p =? q then None else find q c.
  Proof.
    unfold remove. induction c as [|[k e] c IH]; cbn [filter find fst].
    - destruct (p =? q); reflexivity.
    - destruct (String.eqb_spec p k) as [->|N]; cbn [negb find].
      + rewrite IH. rewrite (String.eqb_sym q k). destruct (k =? q); reflexivity.
      + rewrite IH. destruct (String.eqb_spec q k) as [->|M]; [|reflexivity]. destruct (String.eqb_spec p k); [congruence|reflexivity].
  Qed.
  Lemma find_put p q e (c : cache fed) : find q (put p e c) = if p =? q then Some e else find q c.
  Proof. unfold put. cbn. rewrite (String.eqb_sym q p). rewrite find_remove. destruct (p =? q); reflexivity. Qed.
  Definition keys (c : cache fed) : list path := map fst c.
  Lemma in_keys_remove p q (c : cache fed) : In q (keys (remove p c)) <-> In q (keys c) /\ p <> q.
  Proof.
    unfold keys, remove. rewrite !in_map_iff. split.
    - intros ([k e] & <- & I). apply filter_In in I. cbn in *. destruct I as [I N]. split; [exists (k, e); auto|].
      intros ->. rewrite String.eqb_refl in N. discriminate.
    - intros [([k e] & <- & I) N]. exists (k, e). split; [reflexivity|]. apply filter_In. split; [exact I|]. cbn in *.
      destruct (String.eqb_spec p k); [congruence|reflexivity].
  Qed.
  Lemma nodup_remove p (c : cache fed) : NoDup (keys c) -> NoDup (keys (remove p c)).
  Proof.
    unfold keys, remove. induction c as [|[k e] c IH]; cbn; intros N; [constructor|]. inversion N; subst. destruct (p =? k); cbn; [auto|]. constructor; [|auto].
    intros I. apply in_map_iff in I. destruct I as (x & E & I). apply filter_In in I. match goal with H : ~ In _ _ |- _ => apply H end. rewrite <- E. apply in_map, I.
  Qed.
  Lemma nodup_put p e (c : cache fed) : NoDup (keys c) -> NoDup (keys (put p e c)).
  Proof.
    intros N. unfold put. cbn. constructor; [|apply nodup_remove; exact N]. rewrite in_keys_remove. intros [_ H]. congruence.
  Qed.
  Lemma find_keys p (c : cache fed) : In p (keys c) <-> find p c <> None.
  Proof.
    unfold keys. induction c as [|[k e] c IH]; cbn; [split; [tauto|congruence]|]. destruct (String.eqb_spec p k) as [->|N].
    - split; [discriminate|auto].
    - rewrite <- IH. split; [intros [E|I]; [congruence|exact I]|auto].
  Qed.

  Definition extends (p : path) (c c' : cache fed) (l : list file) : Prop :=
    (NoDup (keys c) -> NoDup (keys c')) /\ (forall q, q <> p -> find q c' = find q c) /\
    ((c' = c /\ l = []) \/ (exists e, find p c' = Some e /\ concat (responses e) = concat (responses (entry_of p c)) ++ l)%list).
  Lemma extends_put p c c' new l e1 : responses e1 = (responses (entry_of p c) ++ [new])%list -> extends p (put p e1 c) c' l -> extends p c c' (new ++ l).
  Proof.
    intros E (N & O & X). split; [intros H; apply N, nodup_put, H|]. split.
    - intros q Q. rewrite O by exact Q. rewrite find_put. destruct (String.eqb_spec p q); [congruence|reflexivity].
    - right. destruct X as [[-> ->]|(e & F & R)].
      + exists e1. rewrite find_put, String.eqb_refl, E, concat_app, app_nil_r. cbn. rewrite app_nil_r. auto.
      + exists e. split; [exact F|]. rewrite R. unfold entry_of at 1. rewrite find_put, String.eqb_refl, E, concat_app. cbn. rewrite app_nil_r, <- app_assoc. reflexivity.
  Qed.
  Lemma loop_spec p : forall outs files fs (c : cache fed) l, collect outs = Some l ->
    exists c' fs', loop p outs files fs c = (c', Some (files ++ l, fs'))%list /\ extends p c c' l.
  Proof.
    induction outs as [|o outs IH]; cbn [loop collect]; intros files fs c l C.
    - injection C as <-. exists c, fs. rewrite app_nil_r. split; [reflexivity|]. repeat split; auto.
    - destruct o as [| |new|new [r|]]; try discriminate.
      + apply IH. exact C.
      + destruct (collect outs) as [l'|] eqn:E; [|discriminate]. injection C as <-. rewrite app_assoc.
        edestruct (IH (files ++ new)%list fs) as (c' & fs' & L & X); [reflexivity|]. exists c', fs'. split; [exact L|]. eapply extends_put; [|exact X]. reflexivity.
      + destruct (collect outs) as [l'|] eqn:E; [|discriminate]. injection C as <-. rewrite app_assoc.
        edestruct (IH (files ++ new)%list r) as (c' & fs' & L & X); [reflexivity|]. exists c', fs'. split; [exact L|]. eapply extends_put; [|exact X]. reflexivity.
  Qed.
  Lemma loop_fails p : forall outs files fs (c : cache fed), collect outs = None -> exists c', loop p outs files fs c = (c', None).
  Proof.
    induction outs as [|o outs IH]; cbn [loop collect]; intros files fs c C; [discriminate|].
    destruct o as [| |new|new [r|]]; try (eexists; reflexivity); try (apply IH; exact C); apply IH; destruct (collect outs); (discriminate || reflexivity).
  Qed.
  Lemma loop_keeps p N : forall outs files fs (c : cache fed), (forall o f, In o outs -> In f (files_of o) -> In (f_name f) N) ->
    (forall e f, find p c = Some e -> In f (concat (responses e)) -> In (f_name f) N) ->
    (NoDup (keys c) -> NoDup (keys (fst (loop p outs files fs c)))) /\ (forall q, q <> p -> find q (fst (loop p outs files fs c)) = find q c) /\
    (forall e f, find p (fst (loop p outs files fs c)) = Some e -> In f (concat (responses e)) -> In (f_name f) N).
  Proof.
    assert (PUT : forall (c : cache fed) new e1, (forall e f, find p c = Some e -> In f (concat (responses e)) -> In (f_name f) N) ->
      (forall f, In f new -> In (f_name f) N) -> concat (responses e1) = (concat (responses (entry_of p c)) ++ new)%list ->
      forall e f, find p (put p e1 c) = Some e -> In f (concat (responses e)) -> In (f_name f) N).
    { intros c new e1 H1 H2 R e f F I. rewrite find_put, String.eqb_refl in F. injection F as <-. rewrite R in I. apply in_app_or in I.
      destruct I as [I|I]; [|auto]. unfold entry_of in I. destruct (find p c) as [e0|] eqn:E0; [eauto|destruct I]. }
    assert (OTH : forall (c : cache fed) e1 q, q <> p -> find q (put p e1 c) = find q c).
    { intros c e1 q Q. rewrite find_put. destruct (String.eqb_spec p q); [congruence|reflexivity]. }
    induction outs as [|o outs IH]; cbn [loop]; intros files fs c HO HC; [auto|].
    destruct o as [| |new|new [r|]]; cbn [fst]; auto.
    - apply IH; [|exact HC]. intros o f I. apply HO. right. exact I.
    - edestruct (IH (files ++ new)%list fs) as (A1 & A2 & A3); [intros o f I; apply HO; right; exact I| |split; [intros K; apply A1, nodup_put, K|split; [|exact A3]]].
      + apply (PUT c new); [exact HC|intros f I; apply (HO (POk new)); [left; reflexivity|exact I]|]. cbn. rewrite concat_app. cbn. rewrite app_nil_r. reflexivity.
      + intros q Q. rewrite A2 by exact Q. apply OTH. exact Q.
    - edestruct (IH (files ++ new)%list r) as (A1 & A2 & A3); [intros o f I; apply HO; right; exact I| |split; [intros K; apply A1, nodup_put, K|split; [|exact A3]]].
      + apply (PUT c new); [exact HC|intros f I; apply (HO (PFed new (Some r))); [left; reflexivity|exact I]|]. cbn. rewrite concat_app. cbn. rewrite app_nil_r. reflexivity.
      + intros q Q. rewrite A2 by exact Q. apply OTH. exact Q.
    - split; [apply nodup_put|]. split; [intros q Q; apply OTH; exact Q|]. apply (PUT c []); [exact HC|intros f []|rewrite app_nil_r; reflexivity].
  Qed.
End Cache.

Section Disk.
  Context {fed : Type}.
  Lemma write_other : forall fs (d : disk) n, ~ In n (map f_name fs) -> fold_left (fun d f => write f d) fs d n = d n.
  Proof.
    induction fs as [|f fs IH]; cbn; intros d n N; [reflexivity|]. rewrite IH by tauto. unfold write. destruct (String.eqb_spec n (f_name f)); [|reflexivity]. subst. tauto.
  Qed.
  Lemma erase_other : forall fs (d : disk) n, ~ In n (map f_name fs) -> fold_left (fun d f => erase f d) fs d n = d n.
  Proof.
    induction fs as [|f fs IH]; cbn; intros d n N; [reflexivity|]. rewrite IH by tauto. unfold erase. destruct (String.eqb_spec n (f_name f)); [|reflexivity]. subst. tauto.
  Qed.
  Lemma write_hit : forall fs (d : disk) f, NoDup (map f_name fs) -> In f fs -> fold_left (fun d f => write f d) fs d (f_name f) = Some (f_content f).
  Proof.
    induction fs as [|g fs IH]; cbn; intros d f N I; [destruct I|]. inversion N; subst. destruct I as [->|I]; [|auto].
    rewrite write_other by assumption. unfold write. rewrite String.eqb_refl. reflexivity.
  Qed.
  Lemma erase_none : forall fs (d : disk) n, d n = None -> fold_left (fun d f => erase f d) fs d n = None.
  Proof. induction fs as [|g fs IH]; cbn; intros d n E; [exact E|]. apply IH. unfold erase. destruct (n =? f_name g); auto. Qed.
  Lemma erase_hit : forall fs (d : disk) n, In n (map f_name fs) -> fold_left (fun d f => erase f d) fs d n = None.
  Proof.
    induction fs as [|g fs IH]; cbn; intros d n I; [destruct I|]. destruct I as [<-|I]; [|auto]. apply erase_none. unfold erase. rewrite String.eqb_refl. reflexivity.
  Qed.
  Lemma writeFiles_other (r : result fed) d n : ~ In n (map f_name (r_files r)) -> writeFiles d r n = d n.
  Proof. intros N. unfold writeFiles. destruct (r_kind r); (apply write_other || apply erase_other); exact N. Qed.
  Lemma fold_other : forall (rs : list (result fed)) d n, (forall r, In r rs -> ~ In n (map f_name (r_files r))) -> fold_left writeFiles rs d n = d n.
  Proof.
    induction rs as [|r rs IH]; cbn; intros d n H; [reflexivity|]. rewrite IH by auto. apply writeFiles_other. auto.
  Qed.
  Lemma fold_hit (rs : list (result fed)) d n r v : In r rs -> NoDup (map r_path rs) ->
    (forall r', In r' rs -> In n (map f_name (r_files r')) -> r_path r' = r_path r) -> (forall d', writeFiles d' r n = v) -> fold_left writeFiles rs d n = v.
  Proof.
    intros I N O V. apply in_split in I. destruct I as (l1 & l2 & ->). rewrite fold_left_app. cbn. rewrite fold_other; [apply V|].
    intros r' I' In'. assert (E : r_path r' = r_path r) by (apply O; [apply in_or_app; right; right; exact I'|exact In']).
    rewrite map_app in N. cbn in N. apply NoDup_remove_2 in N. apply N. apply in_or_app. right. rewrite <- E. apply in_map. exact I'.
  Qed.
End Disk.

Section Others.
  Context {source fed : Type}.
  Definition kept (s : sources source) (c : cache fed) (q : path) : result fed :=
    {| r_path := q; r_kind := match s q with None => Delete | Some _ => Keep end; r_files := concat (responses (entry_of q c)); r_fed := federation (entry_of q c) |}.
  Lemma others_spec (s : sources source) p : forall order (c : cache fed), NoDup order -> exists c2,
    otherResults s p order c = (c2, map (kept s c) (filter (fun q => negb (p =? q)) order)) /\ (NoDup (keys c) -> NoDup (keys c2)) /\
    (forall q, find q c2 = if negb (p =? q) && existsb (String.eqb q) order && match s q with None => true | Some _ => false end then None else find q c).
  Proof.
    induction order as [|k order IH]; cbn [otherResults filter map existsb]; intros c N.
    - exists c. split; [reflexivity|]. split; [auto|]. intros q. rewrite andb_false_r. reflexivity.
    - inversion N as [|? ? Nk No]; subst. destruct (String.eqb_spec p k) as [<-|D].
      + destruct (IH c No) as (c2 & E & K & F). exists c2. split; [exact E|]. split; [exact K|]. intros q. rewrite F.
        rewrite (String.eqb_sym q p). destruct (String.eqb_spec p q); [reflexivity|]. cbn. reflexivity.
      + cbn [negb map]. destruct (s k) as [x|] eqn:Sk.
        * destruct (IH c No) as (c2 & E & K & F). exists c2. rewrite E. split; [unfold kept at 2; rewrite Sk; reflexivity|]. split; [exact K|].
          intros q. rewrite F. destruct (String.eqb_spec q k) as [->|]; [|reflexivity]. rewrite Sk. rewrite !andb_false_r. reflexivity.
        * cbn [deleteProtoFile]. destruct (IH (remove k c) No) as (c2 & E & K & F). exists c2. rewrite E. split; [|split].
          -- unfold kept at 2. rewrite Sk. f_equal. f_equal. apply map_ext_in. intros q I. apply filter_In in I. destruct I as [I _].
             unfold kept, entry_of. rewrite find_remove. destruct (String.eqb_spec k q); [subst; tauto|reflexivity].
          -- intros H. apply K, nodup_remove, H.
          -- intros q. rewrite F, find_remove, (String.eqb_sym q k). destruct (String.eqb_spec k q) as [->|]; [|reflexivity].
             rewrite Sk. destruct (String.eqb_spec p q); [congruence|]. cbn. destruct (existsb (String.eqb q) order); reflexivity.
  Qed.
End Others.

Section History.
  Context {source fed : Type}.
  Variable gen : sources source -> path -> option (list (pout fed)).
  Variable names : path -> list string.
  Hypothesis OWN : own_outputs gen names.

  Definition entry_ok (s : sources source) (p : path) (e : entry fed) : Prop :=
    (forall f, In f (concat (responses e)) -> In (f_name f) (names p)) /\
    (s p = None \/ fresh gen s p <> None -> exists old new, concat (responses e) = (old ++ new)%list /\ map f_name new = names p /\ (s p <> None -> fresh gen s p = Some new)).
  Record inv (s : sources source) (st : state fed) (b : bool) : Prop := {
    i_nodup : NoDup (keys (st_cache st));
    i_entry : forall p e, find p (st_cache st) = Some e -> entry_ok s p e;
    i_none : forall p fs, find p (st_cache st) = None -> s p <> None -> fresh gen s p = Some fs -> fs = [];
    i_absent : forall p n, find p (st_cache st) = None -> s p = None -> In n (names p) -> st_disk st n = None;
    i_alien : forall n, st_disk st n <> None -> exists p, In n (names p);
    i_present : b = true -> forall p, find p (st_cache st) <> None -> s p <> None;
    i_disk : b = true -> forall p fs f, s p <> None -> fresh gen s p = Some fs -> In f fs -> st_disk st (f_name f) = Some (f_content f) }.

  Lemma own_nodup p : NoDup (names p). Proof. apply OWN. Qed.
  Lemma own_disj p q n : In n (names p) -> In n (names q) -> p = q. Proof. apply OWN. Qed.
  Lemma own_names s p fs : s p <> None -> fresh gen s p = Some fs -> map f_name fs = names p. Proof. apply OWN. Qed.
  Lemma own_all s p outs o f : gen s p = Some outs -> In o outs -> In f (files_of o) -> In (f_name f) (names p). Proof. apply OWN. Qed.

  (** The result for the event's own file *)
  Definition own_ok (s : sources source) (p : path) (r : result fed) : Prop :=
    r_path r = p /\ (forall f, In f (r_files r) -> In (f_name f) (names p)) /\
    match s p with
    | None => r_kind r = Delete
    | Some _ => r_kind r <> Delete /\ fresh gen s p = Some (r_files r)
    end.
  Lemma fresh_outs s p fs : fresh gen s p = Some fs -> exists outs, gen s p = Some outs /\ collect outs = Some fs.
  Proof. unfold fresh. destruct (gen s p) as [outs|]; [eauto|discriminate]. Qed.
  Lemma create_ok s p k c fs : s p <> None -> fresh gen s p = Some fs -> k <> Delete -> exists c1 r,
    createGeneratorResult gen s p k c = (c1, Some r) /\ own_ok s p r /\ extends p c c1 fs.
  Proof.
    intros P F K. destruct (fresh_outs _ _ _ F) as (outs & G & C). destruct (loop_spec p outs [] [] c fs C) as (c1 & fs' & L & X).
    unfold createGeneratorResult. rewrite G, L. eexists c1, _. split; [reflexivity|]. split; [|exact X]. unfold own_ok. cbn. split; [reflexivity|]. split.
    - intros f I. rewrite <- (own_names s p fs P F). apply in_map. exact I.
    - destruct (s p); [auto|congruence].
  Qed.
  Lemma entry_of_some p (c : cache fed) e : find p c = Some e -> entry_of p c = e.
  Proof. unfold entry_of. intros ->. reflexivity. Qed.
  Lemma nil_of_names (l : list file) : (forall f, In f l -> In (f_name f) []) -> l = [].
  Proof. destruct l as [|f l]; [reflexivity|]. intros H. destruct (H f (or_introl eq_refl)). Qed.
  Lemma entry_moves s h p e : contained gen s h -> p <> changed h -> entry_ok s p e -> entry_ok (after_step s h) p e.
  Proof.
    intros [RM MN] Q [E1 E2]. split; [exact E1|]. intros [N|F].
    - destruct E2 as (old & new & R & M & X).
      + destruct (s p) as [x|] eqn:Sp; [|left; reflexivity]. right. apply RM; congruence.
      + exists old, new. split; [exact R|]. split; [exact M|]. congruence.
    - destruct (after_step s h p) as [x|] eqn:Sp'.
      + assert (SN : after_step s h p <> None) by congruence. assert (G : fresh gen (after_step s h) p = fresh gen s p) by (unfold fresh; rewrite (MN p Q SN); reflexivity).
        rewrite G in *. assert (S0 : s p <> None). { unfold after_step in SN. destruct (String.eqb_spec p (changed h)); [congruence|]. destruct (existsb _ _); congruence. }
        destruct E2 as (old & new & R & M & X); [right; exact F|]. exists old, new. auto.
      + destruct E2 as (old & new & R & M & X).
        * destruct (s p) as [x|] eqn:Sp; [|left; reflexivity]. right. apply RM; congruence.
        * exists old, new. split; [exact R|]. split; [exact M|]. congruence.
  Qed.
  (** After the own file's event: cache and result are as they should be *)
  Lemma own_step s st b h : inv s st b -> truthful h -> contained gen s h ->
    exists c1 r, handle_own gen (after_step s h) (event_kind h) (changed h) (st_cache st) = (c1, r) /\ match r with
      | Some r => own_ok (after_step s h) (changed h) r /\ (content h = None -> forall n, In n (names (changed h)) -> In n (map f_name (r_files r)) \/ st_disk st n = None)
      | None => content h <> None /\ fresh gen (after_step s h) (changed h) = None
      end /\
      NoDup (keys c1) /\ (forall q, q <> changed h -> find q c1 = find q (st_cache st)) /\
      (forall e, find (changed h) c1 = Some e -> content h <> None /\ entry_ok (after_step s h) (changed h) e) /\
      (forall fs, find (changed h) c1 = None -> content h <> None -> fresh gen (after_step s h) (changed h) = Some fs -> fs = []).
  Proof.
    intros V T [RM MN]. set (s' := after_step s h) in *. set (p := changed h) in *.
    assert (SP : s' p = content h) by (unfold s', after_step; fold p; rewrite String.eqb_refl; reflexivity).
    assert (OLD : forall c, (c = st_cache st \/ c = remove p (st_cache st)) -> forall e f, find p c = Some e -> In f (concat (responses e)) -> In (f_name f) (names p)).
    { intros c CC e f F I. assert (F1 : find p (st_cache st) = Some e).
      { destruct CC as [-> | ->]; [exact F|]. rewrite find_remove, String.eqb_refl in F. discriminate. }
      apply (proj1 (i_entry _ _ _ V _ _ F1)). exact I. }
    assert (EXT : forall k c, k <> Delete -> content h <> None -> (c = st_cache st \/ c = remove p (st_cache st)) -> exists c1 r,
      createGeneratorResult gen s' p k c = (c1, r) /\
      match r with
      | Some r => own_ok s' p r /\ (content h = None -> forall n, In n (names p) -> In n (map f_name (r_files r)) \/ st_disk st n = None)
      | None => content h <> None /\ fresh gen s' p = None
      end /\ NoDup (keys c1) /\ (forall q, q <> p -> find q c1 = find q (st_cache st)) /\
      (forall e, find p c1 = Some e -> content h <> None /\ entry_ok s' p e) /\
      (forall fs, find p c1 = None -> content h <> None -> fresh gen s' p = Some fs -> fs = [])).
    { intros k c K NC CC. assert (SN : s' p <> None) by congruence.
      assert (NK : NoDup (keys c)) by (destruct CC as [-> | ->]; [apply V|apply nodup_remove, V]).
      assert (FO : forall q, q <> p -> find q c = find q (st_cache st)).
      { intros q Q. destruct CC as [-> | ->]; [reflexivity|]. rewrite find_remove. destruct (String.eqb_spec p q); [congruence|reflexivity]. }
      destruct (fresh gen s' p) as [fs|] eqn:F.
      - destruct (create_ok s' p k c fs SN F K) as (c1 & r & E & O & (N1 & N2 & N3)).
        assert (NM : map f_name fs = names p) by (apply (own_names s'); assumption).
        exists c1, (Some r). split; [exact E|]. split; [|split; [|split; [|split]]].
        + split; [exact O|]. congruence.
        + apply N1, NK.
        + intros q Q. rewrite N2 by exact Q. apply FO. exact Q.
        + intros e Fe. split; [exact NC|].
          destruct N3 as [[-> ->]|(e' & Fe' & R)].
          * specialize (OLD c CC e). assert (Z : concat (responses e) = []). { apply nil_of_names. cbn in NM. rewrite NM. intros f. apply OLD. exact Fe. }
            split; [rewrite Z; intros f []|]. intros _. exists [], []. split; [exact Z|]. split; [exact NM|]. intros _. exact F.
          * assert (e' = e) by congruence. subst e'. split.
            -- rewrite R. intros f I. apply in_app_or in I. destruct I as [I|I]; [|rewrite <- NM; apply in_map; exact I].
               unfold entry_of in I. destruct (find p c) as [e0|] eqn:E0; [|destruct I]. apply (OLD c CC e0); assumption.
            -- intros _. exists (concat (responses (entry_of p c))), fs. auto.
        + intros fs' Fe _ X. injection X as <-. destruct N3 as [[_ E0]|(e' & Fe' & R)]; [exact E0|congruence].
      - unfold createGeneratorResult. unfold fresh in F. destruct (gen s' p) as [outs|] eqn:G.
        + destruct (loop_fails p outs [] [] c F) as (c1 & L). destruct (loop_keeps p (names p) outs [] [] c) as (A1 & A2 & A3).
          { intros o f. apply (own_all s'). exact G. }
          { intros e f. apply (OLD c CC). }
          rewrite L in *. cbn [fst] in *. exists c1, None. split; [reflexivity|]. split; [auto|]. split; [apply A1, NK|]. split; [intros q Q; rewrite A2 by exact Q; apply FO; exact Q|].
          split; [|discriminate]. intros e Fe. split; [exact NC|]. split; [intros f; apply A3; exact Fe|]. intros [X|X]; [congruence|]. unfold fresh in X. rewrite G in X. congruence.
        + exists c, None. split; [reflexivity|]. split; [auto|]. split; [exact NK|]. split; [exact FO|].
          split; [|discriminate]. intros e Fe. split; [exact NC|]. split; [intros f; apply (OLD c CC); exact Fe|]. intros [X|X]; [congruence|]. unfold fresh in X. rewrite G in X. congruence. }
    assert (DEL : content h = None -> exists c1 r, (let '(c', r) := deleteProtoFile p (st_cache st) in (c', Some r)) = (c1, r) /\
      match r with
      | Some r => own_ok s' p r /\ (content h = None -> forall n, In n (names p) -> In n (map f_name (r_files r)) \/ st_disk st n = None)
      | None => content h <> None /\ fresh gen s' p = None
      end /\ NoDup (keys c1) /\
      (forall q, q <> p -> find q c1 = find q (st_cache st)) /\ (forall e, find p c1 = Some e -> content h <> None /\ entry_ok s' p e) /\
      (forall fs, find p c1 = None -> content h <> None -> fresh gen s' p = Some fs -> fs = [])).
    { intros NC. cbn [deleteProtoFile]. eexists _, (Some _). split; [reflexivity|]. split; [split|split; [|split; [|split]]].
      - unfold own_ok. cbn. rewrite SP, NC. split; [reflexivity|]. split; [|reflexivity]. unfold entry_of. destruct (find p (st_cache st)) as [e|] eqn:Fe; [|intros f []].
        apply (i_entry _ _ _ V _ _ Fe).
      - intros _ n I. cbn. assert (GEN : s p = None \/ fresh gen s p <> None).
        { destruct (s p) as [x|] eqn:Sp; [right|left; reflexivity]. apply RM; [congruence|]. fold s'. congruence. }
        unfold entry_of. destruct (find p (st_cache st)) as [e|] eqn:Fe.
        + left. destruct (i_entry _ _ _ V _ _ Fe) as [_ X]. destruct (X GEN) as (old & new & R & M & _). rewrite R, map_app. apply in_or_app. right. rewrite M. exact I.
        + right. destruct (s p) as [x|] eqn:Sp.
          * assert (SN : s p <> None) by congruence. destruct GEN as [GEN|GEN]; [congruence|]. destruct (fresh gen s p) as [fs|] eqn:FR; [|congruence].
            pose proof (i_none _ _ _ V p fs Fe SN FR) as ->. rewrite <- (own_names s p [] SN FR) in I. destruct I.
          * apply (i_absent _ _ _ V p n Fe Sp I).
      - apply nodup_remove, V.
      - intros q Q. rewrite find_remove. destruct (String.eqb_spec p q); [congruence|reflexivity].
      - intros e Fe. rewrite find_remove, String.eqb_refl in Fe. discriminate.
      - congruence. }
    unfold truthful in T. unfold handle_own. destruct (event_kind h).
    - apply EXT; auto; discriminate.
    - apply DEL. exact T.
    - apply DEL. exact T.
    - apply EXT; auto; discriminate.
  Qed.

  Lemma inv_step s st b h b' : inv s st b -> truthful h -> any_order gen st (after_step s h) h -> contained gen s h ->
    (b' = true <-> (content h <> None -> fresh gen (after_step s h) (changed h) <> None)) ->
    inv (after_step s h) (handle gen (after_step s h) (event_kind h) (changed h) (iteration h) st) b'.
  Proof.
    intros V T A C B. destruct (own_step s st b h V T C) as (c1 & r & E & O & N1 & Fq & Fe & Fn). unfold handle. rewrite E.
    unfold any_order in A. rewrite E in A. cbn [fst] in A. fold (keys c1) in A.
    assert (MV : forall q e, q <> changed h -> entry_ok s q e -> entry_ok (after_step s h) q e) by (intros q e; apply entry_moves; exact C).
    set (s' := after_step s h) in *. set (p := changed h) in *. destruct C as [RM MN].
    assert (CO : forall q, q <> p -> s' q <> None -> gen s' q = gen s q) by exact MN.
    assert (SP : s' p = content h) by (unfold s', after_step; fold p; rewrite String.eqb_refl; reflexivity).
    assert (MONO : forall q, q <> p -> s' q <> None -> s q <> None).
    { intros q Q H. unfold s', after_step in H. fold p in H. destruct (String.eqb_spec q p); [congruence|]. destruct (existsb _ _); [congruence|exact H]. }
    assert (OK1 : forall q e, find q c1 = Some e -> entry_ok s' q e).
    { intros q e H. destruct (String.eqb_spec q p) as [->|Q]; [apply (Fe e H)|]. rewrite Fq in H by exact Q. apply MV; [exact Q|]. apply (i_entry _ _ _ V _ _ H). }
    assert (NONE1 : forall q fs, find q c1 = None -> s' q <> None -> fresh gen s' q = Some fs -> fs = []).
    { intros q fs H S' FR. destruct (String.eqb_spec q p) as [->|Q]; [apply Fn; auto; congruence|]. rewrite Fq in H by exact Q.
      apply (i_none _ _ _ V q fs H); [apply MONO; assumption|]. unfold fresh in *. rewrite <- CO by assumption. exact FR. }
    assert (ABS : forall q n, q <> p -> find q c1 = None -> s' q = None -> In n (names q) -> st_disk st n = None).
    { intros q n Q H S' In_. rewrite Fq in H by exact Q. destruct (s q) as [x|] eqn:Sq; [|apply (i_absent _ _ _ V q n H Sq In_)].
      assert (SN : s q <> None) by congruence. assert (GN : fresh gen s q <> None) by (apply RM; assumption). destruct (fresh gen s q) as [fs|] eqn:FR; [|congruence].
      pose proof (i_none _ _ _ V q fs H SN FR) as ->. rewrite <- (own_names s q [] SN FR) in In_. destruct In_. }
    destruct r as [r|].
    2:{ destruct O as [NC NF]. assert (BF : b' = false) by (destruct b'; [|reflexivity]; destruct (proj1 B eq_refl NC NF)). subst b'.
      constructor; cbn [st_cache st_disk]; try discriminate; try assumption.
      - intros q n H S' In_. destruct (String.eqb_spec q p) as [->|Q]; [congruence|]. apply (ABS q); assumption.
      - apply V. }
    destruct O as [O Del].
    assert (ND : NoDup (iteration h)) by (apply (Permutation_NoDup (Permutation_sym A)); exact N1).
    destruct (others_spec s' p (iteration h) c1 ND) as (c2 & E2 & N2 & F2). rewrite E2.
    assert (IO : forall q, In q (iteration h) <-> find q c1 <> None).
    { intros q. rewrite <- find_keys. split; intros I; [apply (Permutation_in _ A)|apply (Permutation_in _ (Permutation_sym A))]; exact I. }
    assert (EB : forall q, existsb (String.eqb q) (iteration h) = true <-> find q c1 <> None).
    { intros q. rewrite <- IO. rewrite existsb_exists. split; [intros (x & I & X); apply String.eqb_eq in X; subst; exact I|]. intros I. exists q. rewrite String.eqb_refl. auto. }
    assert (F2' : forall q e, find q c2 = Some e <-> find q c1 = Some e /\ s' q <> None).
    { intros q e. rewrite F2. destruct (String.eqb_spec p q) as [<-|D]; cbn [negb andb].
      - split; [intros H; split; [exact H|]|tauto]. rewrite SP. apply (Fe e H).
      - destruct (existsb _ _) eqn:X; cbn [andb].
        + destruct (s' q); [split; [intros H; split; [exact H|discriminate]|tauto]|split; [discriminate|intros [_ H]; congruence]].
        + split; [|tauto]. intros H. exfalso. assert (Y : existsb (String.eqb q) (iteration h) = true) by (apply EB; congruence). congruence. }
    set (rs := map (kept s' c1) (filter (fun q => negb (p =? q)) (iteration h))) in *.
    assert (RS : forall x, In x rs <-> exists q, q <> p /\ find q c1 <> None /\ x = kept s' c1 q).
    { intros x. unfold rs. rewrite in_map_iff. split.
      - intros (q & <- & I). apply filter_In in I. destruct I as [I D]. exists q. split; [|split; [apply IO; exact I|reflexivity]].
        intros ->. rewrite String.eqb_refl in D. discriminate.
      - intros (q & Q & I & ->). exists q. split; [reflexivity|]. apply filter_In. split; [apply IO; exact I|]. destruct (String.eqb_spec p q); [congruence|reflexivity]. }
    assert (NDR : NoDup (map r_path (r :: rs))).
    { cbn. destruct O as [-> _]. constructor.
      - intros I. apply in_map_iff in I. destruct I as (x & Ex & I). apply RS in I. destruct I as (q & Q & _ & ->). cbn in Ex. congruence.
      - unfold rs. rewrite map_map. cbn. rewrite map_id. apply NoDup_filter. exact ND. }
    assert (NAM : forall x, In x (r :: rs) -> forall n, In n (map f_name (r_files x)) -> In n (names (r_path x))).
    { intros x I n In_. destruct I as [<-|I].
      - apply in_map_iff in In_. destruct In_ as (f & <- & If). destruct O as (-> & O & _). auto.
      - apply RS in I. destruct I as (q & Q & Fq' & ->). cbn in *. destruct (find q c1) as [e|] eqn:Eq; [|congruence].
        rewrite (entry_of_some _ _ _ Eq) in In_. apply in_map_iff in In_. destruct In_ as (f & <- & If). apply (proj1 (OK1 _ _ Eq)). exact If. }
    assert (ONLY : forall x, In x (r :: rs) -> forall n, In n (names (r_path x)) -> forall y, In y (r :: rs) -> In n (map f_name (r_files y)) -> r_path y = r_path x).
    { intros x Ix n In_ y Iy Iny. apply (own_disj _ _ n); [apply NAM; assumption|exact In_]. }
    (* what a file that is there gets *)
    assert (WR : forall q fs f, s' q <> None -> fresh gen s' q = Some fs -> In f fs -> fold_left writeFiles (r :: rs) (st_disk st) (f_name f) = Some (f_content f)).
    { intros q fs f S' FR If. assert (NM : map f_name fs = names q) by (apply (own_names s'); assumption). assert (NF : In (f_name f) (names q)) by (rewrite <- NM; apply in_map, If).
      destruct (String.eqb_spec q p) as [->|Q].
      - apply (fold_hit _ _ _ r); [left; reflexivity|exact NDR| |].
        + apply ONLY; [left; reflexivity|]. destruct O as [-> _]. exact NF.
        + intros d'. destruct O as (_ & _ & O). rewrite SP in O. rewrite SP in S'. destruct (content h); [|congruence]. destruct O as [K O]. rewrite FR in O. injection O as ->.
          unfold writeFiles. destruct (r_kind r); try congruence; (apply write_hit; [rewrite NM; apply own_nodup|exact If]).
      - destruct (find q c1) as [e|] eqn:Eq.
        + apply (fold_hit _ _ _ (kept s' c1 q)).
          * right. apply RS. exists q. split; [exact Q|]. split; [congruence|reflexivity].
          * exact NDR.
          * apply ONLY; [right; apply RS; exists q; split; [exact Q|]; split; [congruence|reflexivity]|exact NF].
          * pose proof S' as S2. intros d'. unfold writeFiles, kept. cbn. destruct (s' q) eqn:Sq'; [|congruence]. rewrite (entry_of_some _ _ _ Eq).
            destruct (OK1 _ _ Eq) as [_ X]. destruct X as (old & new & R & M & FR'); [right; congruence|]. rewrite R, fold_left_app. rewrite FR in FR'. assert (EF : Some fs = Some new) by (apply FR'; congruence). injection EF as <-.
            apply write_hit; [rewrite M; apply own_nodup|exact If].
        + rewrite (NONE1 q fs Eq S' FR) in If. destruct If. }
    constructor; cbn [st_cache st_disk].
    - apply N2, N1.
    - intros q e H. apply F2' in H. apply OK1, H.
    - intros q fs H S' FR. apply (NONE1 q fs); auto. destruct (find q c1) as [e|] eqn:X; [|reflexivity]. exfalso. assert (Y : find q c2 = Some e) by (apply F2'; auto). congruence.
    - intros q n H S' In_. destruct (String.eqb_spec q p) as [->|Q].
      + rewrite SP in S'. destruct (Del S' n In_) as [D|D].
        * apply (fold_hit _ _ _ r); [left; reflexivity|exact NDR| |].
          -- apply ONLY; [left; reflexivity|]. destruct O as [-> _]. exact In_.
          -- intros d'. destruct O as (_ & _ & O). rewrite SP, S' in O. unfold writeFiles. rewrite O. apply erase_hit. exact D.
        * cbn. rewrite fold_other.
          -- destruct O as (_ & _ & O). rewrite SP, S' in O. unfold writeFiles. rewrite O. apply erase_none. exact D.
          -- intros x I Ix. apply RS in I. destruct I as (q & Q & Iq & ->).
             assert (QQ : q = p). { apply (own_disj q p n); [|exact In_]. apply (NAM (kept s' c1 q)); [right; apply RS; eauto|exact Ix]. } congruence.
      + destruct (find q c1) as [e|] eqn:Eq.
        * apply (fold_hit _ _ _ (kept s' c1 q)).
          -- right. apply RS. exists q. split; [exact Q|]. split; [congruence|reflexivity].
          -- exact NDR.
          -- apply ONLY; [right; apply RS; exists q; split; [exact Q|]; split; [congruence|reflexivity]|exact In_].
          -- intros d'. unfold writeFiles, kept. cbn. rewrite S', (entry_of_some _ _ _ Eq).
             destruct (OK1 _ _ Eq) as [_ X]. destruct X as (old & new & R & M & _); [left; exact S'|]. apply erase_hit. rewrite R, map_app, M. apply in_or_app. auto.
        * rewrite fold_other; [apply (ABS q); assumption|]. intros x I Ix. pose proof (NAM x I n Ix) as NX. pose proof (own_disj _ _ _ NX In_) as PX. destruct I as [<-|I].
             ++ destruct O as [O _]. congruence.
             ++ apply RS in I. destruct I as (q' & _ & Iq & ->). cbn in PX. congruence.
    - intros n H. destruct (in_dec string_dec n (flat_map (fun x => map f_name (r_files x)) (r :: rs))) as [I|I].
      + apply in_flat_map in I. destruct I as (x & Ix & In_). exists (r_path x). apply NAM; assumption.
      + apply (i_alien _ _ _ V n). rewrite fold_other in H; [exact H|]. intros x Ix Ixn. apply I, in_flat_map. eauto.
    - intros _ q H. destruct (find q c2) as [e|] eqn:X; [|congruence]. apply F2' in X. apply X.
    - intros _. exact WR.
  Qed.
  Theorem inv_history s0 st0 s st b : inv s0 st0 false -> history gen (contained gen) s0 st0 s st b -> inv s st b.
  Proof. intros V H. induction H; [exact V|]. eapply inv_step; eassumption. Qed.
  Theorem inv_up_to_date s st : inv s st true -> (forall p, s p <> None -> fresh gen s p <> None) -> up_to_date gen s (st_disk st).
  Proof.
    intros V ALL n c. split.
    - intros H. assert (HN : st_disk st n <> None) by congruence. destruct (i_alien _ _ _ V n HN) as (p & In_).
      assert (SP : s p <> None).
      { destruct (find p (st_cache st)) as [e|] eqn:Fp.
        - apply (i_present _ _ _ V eq_refl). congruence.
        - intros E. pose proof (i_absent _ _ _ V p n Fp E In_). congruence. }
      assert (FR : exists fs, fresh gen s p = Some fs) by (specialize (ALL p SP); destruct (fresh gen s p) as [fs|]; [eauto|congruence]).
      destruct FR as [fs FR]. exists p, fs. split; [exact SP|]. split; [exact FR|]. rewrite <- (own_names s p fs SP FR) in In_.
      apply in_map_iff in In_. destruct In_ as (f & Ef & If). pose proof (i_disk _ _ _ V eq_refl p fs f SP FR If) as D.
      destruct f as [fn fc]. cbn in *. subst fn. rewrite H in D. injection D as ->. exact If.
    - intros (p & fs & SP & FR & I). apply (i_disk _ _ _ V eq_refl p fs _ SP FR I).
  Qed.

  (** The start *)
  Lemma generateAll_spec s : forall ps c c', (forall p, In p ps -> s p <> None) -> NoDup ps -> (forall p, In p ps -> find p c = None) -> NoDup (keys c) ->
    generateAll gen s ps c = Some c' -> NoDup (keys c') /\
    (forall p, In p ps -> exists fs, fresh gen s p = Some fs /\ ((find p c' = None /\ fs = []) \/ exists e, find p c' = Some e /\ concat (responses e) = fs)) /\
    (forall p, ~ In p ps -> find p c' = find p c).
  Proof.
    induction ps as [|p ps IH]; cbn [generateAll]; intros c c' S ND NC NK E.
    - injection E as <-. split; [exact NK|]. split; [intros p []|reflexivity].
    - inversion ND as [|? ? Np Nps]; subst. destruct (fresh gen s p) as [fs|] eqn:F.
      + destruct (create_ok s p Keep c fs (S p (or_introl eq_refl)) F ltac:(discriminate)) as (c1 & r & E1 & _ & (X1 & X2 & X3)). rewrite E1 in E.
        destruct (IH c1 c') as (G1 & G2 & G3); auto.
        * intros q I. apply S. right. exact I.
        * intros q I. rewrite X2; [apply NC; right; exact I|]. intros ->. tauto.
        * split; [exact G1|]. split.
          -- intros q [<-|I]; [|auto]. exists fs. split; [exact F|]. rewrite G3 by exact Np. destruct X3 as [[-> ->]|(e & Fe & R)].
             ++ left. split; [|reflexivity]. apply NC. left. reflexivity.
             ++ right. exists e. split; [exact Fe|]. rewrite R. unfold entry_of. rewrite (NC p (or_introl eq_refl)). reflexivity.
          -- intros q Q. rewrite G3 by (intros I; apply Q; right; exact I). apply X2. intros ->. apply Q. left. reflexivity.
      + unfold createGeneratorResult in E. unfold fresh in F. destruct (gen s p) as [outs|]; [|discriminate].
        destruct (loop_fails p outs [] [] c F) as (c1 & L). rewrite L in E. discriminate.
  Qed.
  Lemma inv_start ps s st : NoDup ps -> started gen ps s st -> (forall n, st_disk st n <> None -> exists p, s p <> None /\ In n (names p)) -> inv s st false.
  Proof.
    intros ND [PS GA] LO. destruct (generateAll_spec s ps [] (st_cache st)) as (K & P & Q); auto.
    - intros p I. apply PS, I.
    - constructor.
    - assert (PR : forall p, s p <> None -> exists fs, fresh gen s p = Some fs /\ ((find p (st_cache st) = None /\ fs = []) \/ exists e, find p (st_cache st) = Some e /\ concat (responses e) = fs)).
      { intros p H. apply P, PS, H. }
      constructor; try discriminate.
      + exact K.
      + intros p e Fe. destruct (s p) as [x|] eqn:Sp.
        * assert (SN : s p <> None) by congruence. destruct (PR p SN) as (fs & FR & X). destruct X as [[X _]|(e' & X & R)]; [congruence|].
          assert (e' = e) by congruence. subst e'. pose proof (own_names s p fs SN FR) as NM. split; [rewrite R, <- NM; apply in_map|]. intros _. exists [], fs. auto.
        * assert (NI : ~ In p ps) by (intros I; apply PS in I; congruence). rewrite Q in Fe by exact NI. discriminate.
      + intros p fs Fp SN FR0. destruct (PR p SN) as (fs' & FR & [[_ ->]|(e & X & _)]); congruence.
      + intros p n _ Sp In_. destruct (st_disk st n) as [x|] eqn:D; [|reflexivity]. assert (DN : st_disk st n <> None) by congruence.
        destruct (LO n DN) as (q & Sq & Inq). assert (p = q) by (apply (own_disj p q n); assumption). congruence.
      + intros n DN. destruct (LO n DN) as (q & _ & Inq). eauto.
  Qed.
End History.
