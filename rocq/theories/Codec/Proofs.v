(** * Lemmas about the transfer of a schema *)

From Coq Require Import Ascii String List Arith Bool Lia.
From Verif.Base Require Import Text TextProofs.
From Verif.Codec Require Import Model Spec.
Import ListNotations.
Local Open Scope string_scope.

(** ** Association lists *)

Lemma assoc_in : forall B (l : string) (fs : list (string * B)) b,
  assoc l fs = Some b -> In (l, b) fs.
Proof.
  induction fs as [|[l' b'] fs IH]; cbn; intros b H; [discriminate|].
  destruct (String.eqb_spec l l') as [->|N]; [inversion H; auto|auto].
Qed.

Lemma in_assoc : forall B (l : string) (fs : list (string * B)) b,
  NoDup (map fst fs) -> In (l, b) fs -> assoc l fs = Some b.
Proof.
  induction fs as [|[l' b'] fs IH]; cbn; intros b ND H; [tauto|].
  inversion ND as [|? ? NI ND']; subst.
  destruct H as [H|H].
  - inversion H; subst. now rewrite String.eqb_refl.
  - destruct (String.eqb_spec l l') as [->|N]; [|auto].
    destruct NI. apply in_map_iff. now exists (l', b).
Qed.

Lemma assoc_none : forall B (l : string) (fs : list (string * B)),
  (forall b, ~ In (l, b) fs) -> assoc l fs = None.
Proof.
  induction fs as [|[l' b'] fs IH]; cbn; intros H; [reflexivity|].
  destruct (String.eqb_spec l l') as [->|N]; [destruct (H b'); auto|].
  apply IH. intros b Hb. apply (H b). auto.
Qed.

Lemma field_in : forall A (fs : fields A) l v,
  NoDup (map fst fs) -> In (l, v) fs -> field fs l = v.
Proof. intros A fs l v ND H. unfold field. now rewrite (in_assoc _ _ _ _ ND H). Qed.

Lemma mem_in : forall s l, mem s l = true <-> In s l.
Proof.
  intros s l. unfold mem. rewrite existsb_exists. split.
  - intros (x & Hx & E). apply String.eqb_eq in E. now subst.
  - intros H. exists s. split; [exact H|apply String.eqb_refl].
Qed.

Lemma is_nil_spec : forall A (v : value A), is_nil v = true <-> v = VNil.
Proof. destruct v; cbn; split; congruence. Qed.

(** ** Induction on values *)

Section Ind.
Variable A : Type.
Variable P : value A -> Prop.
Hypothesis Pnil : P VNil.
Hypothesis Patom : forall s, P (VAtom s).
Hypothesis Pobj : forall k a, P (VObj k a).
Hypothesis Plist : forall l, (forall v, In v l -> P v) -> P (VList l).
Hypothesis Prec : forall s fs, (forall l v, In (l, v) fs -> P v) -> P (VRec s fs).

Fixpoint value_induction (v : value A) : P v.
Proof.
  destruct v as [|s|k a|l|s fs]; [exact Pnil|apply Patom|apply Pobj| |].
  - apply Plist. induction l as [|x l IH]; intros v Hv; [destruct Hv|].
    destruct Hv as [<-|Hv]; [apply value_induction|apply IH; exact Hv].
  - apply Prec. induction fs as [|[l' x] fs IH]; intros l v Hv; [destruct Hv|].
    destruct Hv as [E|Hv]; [|apply (IH l); exact Hv].
    apply (f_equal snd) in E. cbn in E. rewrite <- E. apply value_induction.
Defined.
End Ind.

(** ** The tables of both sides agree *)

Definition shape_eqb (a b : shape) : bool :=
  match a, b with
  | SAtom, SAtom | SKind, SKind => true
  | SObj k, SObj k' | SObjs k, SObjs k' | SRec k, SRec k' | SRecs k, SRecs k' =>
      String.eqb k k'
  | _, _ => false
  end.

Definition compat (sh : shape) (e : emode) (d : dmode) : bool :=
  match sh, e, d with
  | SAtom, EAtom, DAtom | SKind, EKind, DKind => true
  | SObj k, EObj k1, DObj k2 | SObj k, EId k1, DObj k2
  | SObjs k, EObjs k1, DObjs k2 | SObjs k, EIds k1, DObjs k2
  | SRec k, ERec k1, DRec k2 | SRecs k, ERecs k1, DRecs k2 =>
      String.eqb k k1 && String.eqb k k2
  | SRec k, EForce k1, DRec k2 | SRec k, ERec k1, DForce k2 =>
      String.eqb k k1 && String.eqb k k2 && mem k presence_lost
  | _, _, _ => false
  end.

Definition only_id (e : emode) : bool :=
  match e with EId _ | EIds _ => true | _ => false end.

Definition row_ok (s : string) (r : string * shape) : bool :=
  let (l, sh) := r in
  if written s l then
    match assoc l (rows enc_table s) with
    | Some (wl, e) =>
        match assoc wl (rows dec_table s) with
        | Some (l', d) =>
            String.eqb l l' && compat sh e d
            && Bool.eqb (only_id e) (mem l (rows by_name s))
        | None => false
        end
    | None => false
    end
  else true.

Fixpoint nodupb (l : list string) : bool :=
  match l with [] => true | x :: r => negb (mem x r) && nodupb r end.

Lemma nodupb_spec : forall l, nodupb l = true -> NoDup l.
Proof.
  induction l as [|x l IH]; cbn; intros H; [constructor|].
  apply andb_true_iff in H. destruct H as [H1 H2]. constructor; [|auto].
  intros C. apply mem_in in C. rewrite C in H1. discriminate.
Qed.

Fixpoint prefixb (p l : list string) : bool :=
  match p, l with
  | [], _ => true
  | x :: p', y :: l' => String.eqb x y && prefixb p' l'
  | _, _ => false
  end.

Lemma prefixb_spec : forall p l, prefixb p l = true -> exists r, l = (p ++ r)%list.
Proof.
  induction p as [|x p IH]; intros l H; [now exists l|].
  destruct l as [|y l]; cbn in H; [discriminate|].
  apply andb_true_iff in H. destruct H as [E H]. apply String.eqb_eq in E. subst.
  destruct (IH l H) as (r & ->). now exists r.
Qed.

Definition strings_eqb (a b : list string) : bool :=
  if list_eq_dec string_dec a b then true else false.

Definition sort_ok (s : string) : bool :=
  forallb (row_ok s) (rows attributes s)
  && nodupb (map (fun r => fst (snd r)) (rows enc_table s))
  && forallb (fun r => written s (fst r)) (rows enc_table s)
  && prefixb (rows exclusive s) (rows enc_switch s)
  && forallb (fun l => negb (kept s l) || mem l (rows exclusive s)) (rows enc_switch s)
  && strings_eqb (rows dec_needs s)
       (map (fun l => match assoc l (rows enc_table s) with
                      | Some (wl, _) => wl | None => "" end) (rows required s))
  && forallb (fun l => kept s l &&
                       match assoc l (rows attributes s) with
                       | Some (SRec _) => true | _ => false end) (rows required s)
  && nodupb (map fst (rows attributes s)).

Definition sorts : list string := map fst attributes.

Lemma sorts_ok : forallb sort_ok sorts = true.
Proof. vm_compute. reflexivity. Qed.

Lemma sorts_cover :
  forallb (fun s => mem s sorts)
    (map fst enc_table ++ map fst dec_table ++ map fst enc_switch ++ map fst dec_needs
     ++ map fst exclusive ++ map fst required)%list = true.
Proof. vm_compute. reflexivity. Qed.

Lemma rows_other : forall B (t : list (string * list B)) s,
  ~ In s (map fst t) -> rows t s = [].
Proof.
  intros B t s H. unfold rows. rewrite (assoc_none _ s t); [reflexivity|].
  intros b Hb. apply H. apply in_map_iff. now exists (s, b).
Qed.

Lemma sort_ok_all : forall s, sort_ok s = true.
Proof.
  intros s. destruct (in_dec string_dec s sorts) as [H|H].
  - exact (proj1 (forallb_forall _ _) sorts_ok s H).
  - assert (C := proj1 (forallb_forall _ _) sorts_cover).
    assert (N : forall x, In x
        (map fst enc_table ++ map fst dec_table ++ map fst enc_switch ++ map fst dec_needs
         ++ map fst exclusive ++ map fst required)%list -> x <> s).
    { intros x Hx ->. apply H. apply mem_in. exact (C s Hx). }
    assert (R : forall B (t : list (string * list B)),
      (forall x, In x (map fst t) -> x <> s) -> rows t s = []).
    { intros B t Ht. apply rows_other. intros Hs. now apply (Ht s Hs). }
    unfold sort_ok.
    rewrite (rows_other _ attributes s H).
    rewrite (R _ enc_table), (R _ exclusive), (R _ enc_switch), (R _ dec_needs),
      (R _ required); try reflexivity;
      intros x Hx; apply N; rewrite ?in_app_iff; auto 10.
Qed.

Section Sort.
Variable s : string.

Lemma sort_parts :
  forallb (row_ok s) (rows attributes s) = true /\
  NoDup (map (fun r => fst (snd r)) (rows enc_table s)) /\
  (forall r, In r (rows enc_table s) -> written s (fst r) = true) /\
  (exists r, rows enc_switch s = (rows exclusive s ++ r)%list) /\
  (forall l, In l (rows enc_switch s) -> kept s l = true -> In l (rows exclusive s)) /\
  rows dec_needs s =
    map (fun l => match assoc l (rows enc_table s) with
                  | Some (wl, _) => wl | None => "" end) (rows required s) /\
  (forall l, In l (rows required s) -> kept s l = true /\
     exists s', In (l, SRec s') (rows attributes s)) /\
  NoDup (map fst (rows attributes s)).
Proof.
  assert (H := sort_ok_all s). unfold sort_ok in H.
  repeat rewrite andb_true_iff in H.
  destruct H as [[[[[[[H1 H2] H3] H4] H5] H6] H7] H8].
  split; [exact H1|]. split; [now apply nodupb_spec|].
  split; [exact (proj1 (forallb_forall _ _) H3)|].
  split; [now apply prefixb_spec|].
  split.
  { intros l Hl K. assert (X := proj1 (forallb_forall _ _) H5 l Hl). cbn beta in X.
    rewrite K in X. cbn [negb orb] in X. now apply mem_in. }
  split.
  { unfold strings_eqb in H6.
    destruct (list_eq_dec string_dec (rows dec_needs s) _) as [E|E]; [exact E|discriminate]. }
  split; [|now apply nodupb_spec].
  intros l Hl. assert (X := proj1 (forallb_forall _ _) H7 l Hl). cbn beta in X.
  apply andb_true_iff in X. destruct X as [K X]. split; [exact K|].
  destruct (assoc l (rows attributes s)) as [sh|] eqn:E; [|discriminate].
  destruct sh; try discriminate. apply assoc_in in E. eauto.
Qed.

Lemma attr_written : forall l, written s l = true ->
  exists sh, In (l, sh) (rows attributes s).
Proof.
  intros l H. unfold written, has_attribute in H. apply andb_true_iff in H.
  destruct H as [H _]. destruct (assoc l (rows attributes s)) as [sh|] eqn:E; [|discriminate].
  exists sh. now apply assoc_in.
Qed.

Lemma row_spec : forall l sh, In (l, sh) (rows attributes s) -> written s l = true ->
  exists wl e d,
    assoc l (rows enc_table s) = Some (wl, e) /\
    assoc wl (rows dec_table s) = Some (l, d) /\
    compat sh e d = true /\ only_id e = mem l (rows by_name s).
Proof.
  intros l sh H W. destruct sort_parts as (R & _).
  assert (X := proj1 (forallb_forall _ _) R (l, sh) H).
  cbn [row_ok] in X. rewrite W in X.
  destruct (assoc l (rows enc_table s)) as [[wl e]|] eqn:E; [|discriminate].
  destruct (assoc wl (rows dec_table s)) as [[l' d]|] eqn:D; [|discriminate].
  repeat rewrite andb_true_iff in X. destruct X as [[X1 X2] X3].
  apply String.eqb_eq in X1. subst l'. apply eqb_prop in X3.
  exists wl, e, d. auto.
Qed.

Lemma shape_unique : forall l sh sh', In (l, sh) (rows attributes s) ->
  In (l, sh') (rows attributes s) -> sh = sh'.
Proof.
  intros l sh sh' H H'. destruct sort_parts as (_ & _ & _ & _ & _ & _ & _ & ND).
  apply (in_assoc _ _ _ _ ND) in H. apply (in_assoc _ _ _ _ ND) in H'. congruence.
Qed.

(** A row of the encoder. *)
Lemma enc_row : forall l wl e, assoc l (rows enc_table s) = Some (wl, e) ->
  exists sh d, In (l, sh) (rows attributes s) /\ written s l = true /\
    assoc wl (rows dec_table s) = Some (l, d) /\ compat sh e d = true /\
    only_id e = mem l (rows by_name s).
Proof.
  intros l wl e H. destruct sort_parts as (_ & _ & W & _).
  assert (Wl := W _ (assoc_in _ _ _ _ H)). cbn [fst] in Wl.
  destruct (attr_written l Wl) as (sh & Hsh).
  destruct (row_spec l sh Hsh Wl) as (wl' & e' & d & E & D & C & O).
  rewrite H in E. inversion E; subst wl' e'. exists sh, d. auto.
Qed.

Lemma wire_labels_distinct : forall l1 l2 wl e1 e2,
  assoc l1 (rows enc_table s) = Some (wl, e1) ->
  assoc l2 (rows enc_table s) = Some (wl, e2) -> l1 = l2.
Proof.
  intros l1 l2 wl e1 e2 H1 H2.
  destruct (enc_row _ _ _ H1) as (_ & d1 & _ & _ & D1 & _).
  destruct (enc_row _ _ _ H2) as (_ & d2 & _ & _ & D2 & _). congruence.
Qed.

End Sort.

(** ** The inner loops *)

Fixpoint efs (h : heap) (s : string) (all l : fields nat) : list (string * wire) :=
  match l with
  | [] => []
  | (gl, v') :: r =>
      match assoc gl (rows enc_table s) with
      | Some (wl, m') =>
          if skipped s all gl then efs h s all r
          else (wl, enc_val h m' v') :: efs h s all r
      | None => efs h s all r
      end
  end.

Fixpoint erefs (s : string) (all l : fields nat) : list (string * nat) :=
  match l with
  | [] => []
  | (gl, v') :: r =>
      match assoc gl (rows enc_table s) with
      | Some (_, m') =>
          if skipped s all gl then erefs s all r
          else enc_refs m' v' ++ erefs s all r
      | None => erefs s all r
      end
  end%list.

Fixpoint dfs (s : string) (l : list (string * wire)) : fields string :=
  match l with
  | [] => []
  | (wl, w') :: r =>
      match assoc wl (rows dec_table s) with
      | Some (gl, m') => (gl, dec_val m' w') :: dfs s r
      | None => dfs s r
      end
  end.

Fixpoint drefs (s : string) (l : list (string * wire)) : list (string * string) :=
  match l with
  | [] => []
  | (wl, w') :: r =>
      match assoc wl (rows dec_table s) with
      | Some (_, m') => dec_refs m' w' ++ drefs s r
      | None => drefs s r
      end
  end%list.

Fixpoint doks (s : string) (l : list (string * wire)) : bool :=
  match l with
  | [] => true
  | (wl, w') :: r =>
      match assoc wl (rows dec_table s) with
      | Some (_, m') => dec_ok m' w' && doks s r
      | None => doks s r
      end
  end.

Definition into (e : emode) : option string :=
  match e with ERec s | EForce s => Some s | _ => None end.

Definition dinto (d : dmode) : option string :=
  match d with DRec s | DForce s => Some s | _ => None end.

Lemma enc_val_rec : forall h e s s0 fs, into e = Some s ->
  enc_val h e (VRec s0 fs) = WRec (efs h s fs fs).
Proof.
  intros h e s s0 fs H. destruct e; inversion H; subst; cbn [enc_val]; f_equal;
    generalize fs at 1 3 as all; intros all;
    induction fs as [|[gl v] r IH]; cbn [efs]; try reflexivity;
    destruct (assoc gl (rows enc_table s)) as [[wl m']|]; try exact IH;
    destruct (skipped s all gl); try exact IH; now rewrite IH.
Qed.

Lemma enc_refs_rec : forall e s s0 fs, into e = Some s ->
  enc_refs e (VRec s0 fs) = erefs s fs fs.
Proof.
  intros e s s0 fs H. destruct e; inversion H; subst; cbn [enc_refs];
    generalize fs at 1 3 as all; intros all;
    induction fs as [|[gl v] r IH]; cbn [erefs]; try reflexivity;
    destruct (assoc gl (rows enc_table s)) as [[wl m']|]; try exact IH;
    destruct (skipped s all gl); try exact IH; now rewrite IH.
Qed.

Lemma dec_val_rec : forall d s ws, dinto d = Some s ->
  dec_val d (WRec ws) = VRec s (dfs s ws).
Proof.
  intros d s ws H. destruct d; inversion H; subst; cbn [dec_val]; f_equal;
    induction ws as [|[wl w] r IH]; cbn [dfs]; try reflexivity;
    destruct (assoc wl (rows dec_table s)) as [[gl m']|]; try exact IH; now rewrite IH.
Qed.

Lemma dec_refs_rec : forall d s ws, dinto d = Some s ->
  dec_refs d (WRec ws) = drefs s ws.
Proof.
  intros d s ws H. destruct d; inversion H; subst; cbn [dec_refs];
    induction ws as [|[wl w] r IH]; cbn [drefs]; try reflexivity;
    destruct (assoc wl (rows dec_table s)) as [[gl m']|]; try exact IH; now rewrite IH.
Qed.

Lemma dec_ok_rec : forall d s ws, dinto d = Some s ->
  dec_ok d (WRec ws) = needs_met s ws && doks s ws.
Proof.
  intros d s ws H. destruct d; inversion H; subst; cbn [dec_ok]; f_equal;
    induction ws as [|[wl w] r IH]; cbn [doks]; try reflexivity;
    destruct (assoc wl (rows dec_table s)) as [[gl m']|]; try exact IH; now rewrite IH.
Qed.

(** A field of a struct that is written. *)
Lemma efs_in : forall h s all l wl w, In (wl, w) (efs h s all l) <->
  exists gl v e, In (gl, v) l /\ assoc gl (rows enc_table s) = Some (wl, e) /\
    skipped s all gl = false /\ w = enc_val h e v.
Proof.
  induction l as [|[gl v] l IH]; intros wl w; cbn [efs].
  - split; [intros []|]. intros (? & ? & ? & [] & _).
  - split.
    + intros H.
      assert (K : In (wl, w) (efs h s all l) \/
                  (exists e, assoc gl (rows enc_table s) = Some (wl, e) /\
                     skipped s all gl = false /\ w = enc_val h e v)).
      { destruct (assoc gl (rows enc_table s)) as [[wl' e]|] eqn:E; [|auto].
        destruct (skipped s all gl); [auto|].
        destruct H as [H|H]; [|auto]. inversion H; subst. right. now exists e. }
      destruct K as [K|(e & E & S & W)].
      * apply IH in K. destruct K as (gl' & v' & e & I & R).
        exists gl', v', e. split; [now right|exact R].
      * exists gl, v, e. split; [now left|auto].
    + intros (gl' & v' & e & [I|I] & E & S & W).
      * inversion I; subst. rewrite E, S. now left.
      * assert (K : In (wl, w) (efs h s all l)) by (apply IH; exists gl', v', e; auto).
        destruct (assoc gl (rows enc_table s)) as [[wl' e']|]; [|exact K].
        destruct (skipped s all gl); [exact K|now right].
Qed.

Lemma erefs_in : forall s all l x, In x (erefs s all l) <->
  exists gl v wl e, In (gl, v) l /\ assoc gl (rows enc_table s) = Some (wl, e) /\
    skipped s all gl = false /\ In x (enc_refs e v).
Proof.
  induction l as [|[gl v] l IH]; intros x; cbn [erefs].
  - split; [intros []|]. intros (? & ? & ? & ? & [] & _).
  - split.
    + intros H.
      assert (K : In x (erefs s all l) \/
                  (exists wl e, assoc gl (rows enc_table s) = Some (wl, e) /\
                     skipped s all gl = false /\ In x (enc_refs e v))).
      { destruct (assoc gl (rows enc_table s)) as [[wl' e]|] eqn:E; [|auto].
        destruct (skipped s all gl); [auto|].
        apply in_app_or in H. destruct H as [H|H]; [|auto].
        right. now exists wl', e. }
      destruct K as [K|(wl & e & E & S & W)].
      * apply IH in K. destruct K as (gl' & v' & wl & e & I & R).
        exists gl', v', wl, e. split; [now right|exact R].
      * exists gl, v, wl, e. split; [now left|auto].
    + intros (gl' & v' & wl & e & [I|I] & E & S & W).
      * inversion I; subst. rewrite E, S. apply in_or_app. now left.
      * assert (K : In x (erefs s all l)) by (apply IH; exists gl', v', wl, e; auto).
        destruct (assoc gl (rows enc_table s)) as [[wl' e']|]; [|exact K].
        destruct (skipped s all gl); [exact K|apply in_or_app; now right].
Qed.

Lemma drefs_in : forall s l x, In x (drefs s l) <->
  exists wl w gl d, In (wl, w) l /\ assoc wl (rows dec_table s) = Some (gl, d) /\
    In x (dec_refs d w).
Proof.
  induction l as [|[wl w] l IH]; intros x; cbn [drefs].
  - split; [intros []|]. intros (? & ? & ? & ? & [] & _).
  - split.
    + intros H.
      assert (K : In x (drefs s l) \/
                  (exists gl d, assoc wl (rows dec_table s) = Some (gl, d) /\
                     In x (dec_refs d w))).
      { destruct (assoc wl (rows dec_table s)) as [[gl d]|] eqn:E; [|auto].
        apply in_app_or in H. destruct H as [H|H]; [|auto].
        right. now exists gl, d. }
      destruct K as [K|(gl & d & E & W)].
      * apply IH in K. destruct K as (wl' & w' & gl & d & I & R).
        exists wl', w', gl, d. split; [now right|exact R].
      * exists wl, w, gl, d. split; [now left|auto].
    + intros (wl' & w' & gl & d & [I|I] & E & W).
      * inversion I; subst. rewrite E. apply in_or_app. now left.
      * assert (K : In x (drefs s l)) by (apply IH; exists wl', w', gl, d; auto).
        destruct (assoc wl (rows dec_table s)) as [[gl' d']|]; [|exact K].
        apply in_or_app; now right.
Qed.

Lemma doks_true : forall s l,
  (forall wl w gl d, In (wl, w) l -> assoc wl (rows dec_table s) = Some (gl, d) ->
     dec_ok d w = true) -> doks s l = true.
Proof.
  induction l as [|[wl w] l IH]; intros H; cbn [doks]; [reflexivity|].
  assert (K : doks s l = true).
  { apply IH. intros wl' w' gl d I E. apply (H wl' w' gl d); [now right|exact E]. }
  destruct (assoc wl (rows dec_table s)) as [[gl d]|] eqn:E; [|exact K].
  rewrite K, (H wl w gl d); auto. now left.
Qed.

(** Reading back what was written, field by field. *)
Lemma dfs_efs : forall h s all l,
  dfs s (efs h s all l)
  = flat_map (fun p : string * value nat =>
      match assoc (fst p) (rows enc_table s) with
      | Some (wl, e) =>
          if skipped s all (fst p) then []
          else match assoc wl (rows dec_table s) with
               | Some (_, d) => [(fst p, dec_val d (enc_val h e (snd p)))]
               | None => []
               end
      | None => []
      end) l.
Proof.
  induction l as [|[gl v] l IH]; cbn [efs flat_map fst snd]; [reflexivity|].
  destruct (assoc gl (rows enc_table s)) as [[wl e]|] eqn:E; [|exact IH].
  destruct (skipped s all gl); [exact IH|]. cbn [dfs].
  destruct (enc_row s _ _ _ E) as (sh & d & _ & _ & D & _). rewrite D, IH. reflexivity.
Qed.

Lemma assoc_flat : forall (f : string * value nat -> fields string) l gl v,
  (forall p q, In q (f p) -> fst q = fst p) ->
  NoDup (map fst l) -> In (gl, v) l ->
  assoc gl (flat_map f l) = assoc gl (f (gl, v)).
Proof.
  intros f l gl v Hf.
  assert (App : forall (a b : fields string),
    assoc gl (a ++ b)%list = match assoc gl a with Some x => Some x | None => assoc gl b end).
  { induction a as [|[l' x] a IH]; intros b; cbn; [reflexivity|].
    destruct (String.eqb gl l'); [reflexivity|apply IH]. }
  induction l as [|[l' v'] l IH]; intros ND H; [destruct H|].
  cbn [flat_map map fst] in *. inversion ND as [|? ? NI ND']; subst.
  rewrite App. destruct H as [H|H].
  - inversion H; subst l' v'.
    assert (N : assoc gl (flat_map f l) = None).
    { apply assoc_none. intros b Hb. apply in_flat_map in Hb.
      destruct Hb as (p & Hp & Hq). apply Hf in Hq. cbn [fst] in Hq.
      apply NI. apply in_map_iff. now exists p. }
    rewrite N. now destruct (assoc gl (f (gl, v))).
  - rewrite (assoc_none _ gl (f (l', v'))); [auto|].
    intros b Hb. apply Hf in Hb. cbn [fst] in Hb. subst l'. apply NI.
    apply in_map_iff. now exists (gl, v).
Qed.

Lemma field_back : forall h s fs gl v wl e d,
  NoDup (map fst fs) -> In (gl, v) fs ->
  assoc gl (rows enc_table s) = Some (wl, e) ->
  assoc wl (rows dec_table s) = Some (gl, d) ->
  field (dfs s (efs h s fs fs)) gl
  = if skipped s fs gl then VNil else dec_val d (enc_val h e v).
Proof.
  intros h s fs gl v wl e d ND I E D. unfold field. rewrite dfs_efs.
  rewrite (assoc_flat _ fs gl v); [|intros [l' v'] q; cbn [fst snd]| exact ND|exact I].
  - cbn [fst snd]. rewrite E. destruct (skipped s fs gl); [reflexivity|].
    rewrite D. cbn. now rewrite String.eqb_refl.
  - destruct (assoc l' (rows enc_table s)) as [[wl' e']|]; [|intros []].
    destruct (skipped s fs l'); [intros []|].
    destruct (assoc wl' (rows dec_table s)) as [[gl' d']|]; [|intros []].
    intros [<-|[]]. reflexivity.
Qed.

(** ** The switch leaves out only nil fields *)

Lemma chosen_spec : forall h s fs l v, fits_fields h s fs ->
  In l (rows exclusive s) -> In (l, v) fs -> v <> VNil -> skipped s fs l = false.
Proof.
  intros h s fs l v F L I N. inversion F as [s0 fs0 ND _ X _]; subst.
  destruct (sort_parts s) as (_ & _ & _ & (r & P) & _).
  unfold skipped. apply andb_false_iff. right.
  assert (C : chosen s fs = Some l).
  { unfold chosen. rewrite P.
    assert (G : forall p, incl p (rows exclusive s) -> In l p ->
       find (fun l0 => negb (is_nil (field fs l0))) (p ++ r)%list = Some l).
    { induction p as [|l0 p IH]; intros Inc Hl; [destruct Hl|].
      cbn [app find]. destruct (negb (is_nil (field fs l0))) eqn:E.
      - f_equal. destruct (string_dec l0 l) as [|Ne]; [assumption|exfalso].
        unfold field in E. destruct (assoc l0 fs) as [v0|] eqn:A; [|discriminate].
        apply assoc_in in A. apply negb_true_iff in E.
        apply Ne. apply (X l0 l v0 v); auto.
        + apply Inc. now left.
        + intros ->. discriminate.
      - destruct Hl as [->|Hl].
        + rewrite (field_in _ _ _ _ ND I) in E. apply negb_false_iff in E.
          apply is_nil_spec in E. contradiction.
        + apply IH; [|exact Hl]. intros y Hy. apply Inc. now right. }
    apply G; [apply incl_refl|exact L]. }
  rewrite C, String.eqb_refl. reflexivity.
Qed.

Lemma skipped_nil : forall h s fs l v, fits_fields h s fs -> kept s l = true ->
  In (l, v) fs -> skipped s fs l = true -> v = VNil.
Proof.
  intros h s fs l v F K I S.
  destruct (is_nil v) eqn:E; [now apply is_nil_spec|exfalso].
  assert (M : In l (rows enc_switch s)).
  { unfold skipped in S. apply andb_true_iff in S. destruct S as [S _]. now apply mem_in. }
  destruct (sort_parts s) as (_ & _ & _ & _ & X & _).
  rewrite (chosen_spec h s fs l v F (X l M K) I) in S; [discriminate|].
  intros ->. discriminate.
Qed.

Lemma kept_written : forall s l, kept s l = true -> written s l = true.
Proof. intros s l H. unfold kept in H. now apply andb_true_iff in H. Qed.

(** ** What the plugin reads *)

Lemma kinds_back : forall s, In s type_kinds -> dec_kind (enc_kind s) = s.
Proof.
  intros s H. cbn in H.
  repeat (destruct H as [<-|H]; [vm_compute; reflexivity|]). destruct H.
Qed.

Section Back.
Variable h : heap.

(** The value of the plugin stands for that of the generator. *)
Inductive stands : value nat -> value string -> Prop :=
| st_nil : stands VNil VNil
| st_force : forall s, mem s presence_lost = true -> stands VNil (VRec s [])
| st_atom : forall s, stands (VAtom s) (VAtom s)
| st_obj : forall k a, stands (VObj k a) (VObj k (id_of h k a))
| st_list : forall l l', Forall2 stands l l' -> stands (VList l) (VList l')
| st_rec : forall s fs fs',
    (forall l, kept s l = true -> stands (field fs l) (field fs' l)) ->
    stands (VRec s fs) (VRec s fs').

Lemma compat_into : forall s e d, compat (SRec s) e d = true ->
  into e = Some s /\ dinto d = Some s /\
  dec_val d (enc_val h e VNil) = VNil \/
  into e = Some s /\ dinto d = Some s /\
  mem s presence_lost = true /\ dec_val d (enc_val h e VNil) = VRec s [].
Proof.
  intros s e d H. destruct e, d; cbn in H; try discriminate;
    repeat rewrite andb_true_iff in H.
  - destruct H as [H1 H2]. apply String.eqb_eq in H1, H2. subst. left. auto.
  - destruct H as [[H1 H2] H3]. apply String.eqb_eq in H1, H2. subst. right. auto.
  - destruct H as [[H1 H2] H3]. apply String.eqb_eq in H1, H2. subst. right. auto.
Qed.

(** Pointers with ids that are not empty. *)
Definition named (v : value nat) : Prop :=
  forall k a, mentions written v k a -> id_of h k a <> "".

Lemma named_field : forall s fs l v, named (VRec s fs) -> written s l = true ->
  In (l, v) fs -> named v.
Proof. intros s fs l v N W I k a M. apply N. econstructor; eauto. Qed.

Lemma named_item : forall l v, named (VList l) -> In v l -> named v.
Proof. intros l v N I k a M. apply N. econstructor; eauto. Qed.

Lemma ids_map : forall k l,
  (forall v, In v l -> exists a, v = VObj k a /\ load h k a <> None) ->
  named (VList l) ->
  Forall2 stands l (filter (fun v => negb (is_nil v)) (map (ptr k) (ids h k l))).
Proof.
  intros k l. induction l as [|v l IH]; intros F N; [constructor|].
  destruct (F v (or_introl eq_refl)) as (a & -> & _).
  assert (Na : id_of h k a <> "").
  { apply (N k a). apply (mention_item _ _ (VObj k a)); [now left|constructor]. }
  unfold ids. cbn [flat_map app map filter]. fold (ids h k l). unfold ptr at 1.
  destruct (String.eqb_spec (id_of h k a) "") as [E|_]; [contradiction|].
  cbn [is_nil negb]. unfold ptr at 1.
  destruct (String.eqb_spec (id_of h k a) "") as [E|_]; [contradiction|].
  constructor; [constructor|]. apply IH.
  - intros w Hw. apply F. now right.
  - intros k' a' M. apply N. inversion M; subst.
    apply (mention_item _ _ v); [now right|assumption].
Qed.

Lemma fields_fit : forall s fs l v, fits_fields h s fs -> In (l, v) fs ->
  written s l = true -> exists sh, In (l, sh) (rows attributes s) /\ fits h sh v.
Proof.
  intros s fs l v F I W. inversion F as [s0 fs0 ND A _ _]; subst.
  destruct (attr_written s l W) as (sh & Hsh).
  destruct (A l sh Hsh W) as (v' & I' & Fv).
  assert (v' = v).
  { rewrite <- (field_in _ _ _ _ ND I'). now apply field_in. }
  subst. eauto.
Qed.

Lemma field_present : forall s fs l, fits_fields h s fs -> written s l = true ->
  exists v, In (l, v) fs.
Proof.
  intros s fs l F W. inversion F as [s0 fs0 ND A _ _]; subst.
  destruct (attr_written s l W) as (sh & Hsh).
  destruct (A l sh Hsh W) as (v' & I' & Fv). eauto.
Qed.

Lemma fits_nodup : forall s fs, fits_fields h s fs -> NoDup (map fst fs).
Proof. intros s fs F. now inversion F. Qed.

(** A value read back, given the claim for its fields. *)
Lemma back_fields : forall s fs,
  fits_fields h s fs -> named (VRec s fs) ->
  (forall l v, In (l, v) fs -> forall sh e d, fits h sh v -> named v ->
     compat sh e d = true -> stands v (dec_val d (enc_val h e v))) ->
  stands (VRec s fs) (VRec s (dfs s (efs h s fs fs))).
Proof.
  intros s fs F N IH. constructor. intros l K.
  assert (W := kept_written _ _ K).
  destruct (field_present s fs l F W) as (v & I).
  destruct (fields_fit s fs l v F I W) as (sh & Hsh & Fv).
  destruct (row_spec s l sh Hsh W) as (wl & e & d & E & D & C & _).
  rewrite (field_in _ _ _ _ (fits_nodup _ _ F) I).
  rewrite (field_back h s fs l v wl e d (fits_nodup _ _ F) I E D).
  destruct (skipped s fs l) eqn:S.
  - rewrite (skipped_nil h s fs l v F K I S). constructor.
  - apply (IH l v I sh e d Fv); [|exact C]. now apply (named_field s fs l).
Qed.

Lemma back : forall v sh e d, fits h sh v -> named v -> compat sh e d = true ->
  stands v (dec_val d (enc_val h e v)).
Proof.
  induction v as [|s|k a|l IH|s fs IH] using value_induction;
    intros sh e d F N C.
  - inversion F; subst; cbn in C.
    + destruct e, d; try discriminate. constructor.
    + destruct e, d; try discriminate; constructor.
    + destruct (compat_into _ _ _ C) as [(_ & _ & ->)|(_ & _ & P & ->)]; now constructor.
  - inversion F; subst; cbn in C; destruct e, d; try discriminate; cbn.
    + constructor.
    + rewrite kinds_back by assumption. constructor.
  - inversion F as [| | | |k0 a0 L| | | |]; subst; cbn in C.
    assert (Na : id_of h k a <> "") by (apply (N k a); constructor).
    destruct e, d; try discriminate; cbn;
      apply andb_true_iff in C; destruct C as [C1 C2];
      apply String.eqb_eq in C1, C2; subst; unfold ptr;
      (destruct (String.eqb_spec (id_of h k1 a) "") as [E|_]; [contradiction|constructor]).
  - inversion F as [| | | | |k0 l0 L| | |s0 l0 L]; subst; cbn in C;
      destruct e, d; try discriminate; cbn;
      apply andb_true_iff in C; destruct C as [C1 C2];
      apply String.eqb_eq in C1, C2; subst; constructor.
    + now apply ids_map.
    + now apply ids_map.
    + assert (G : forall l', incl l' l -> Forall2 stands l'
          (map (dec_val (DRec s1)) (map (enc_val h (ERec s1)) l'))).
      { induction l' as [|v l' IHl]; intros Inc; constructor.
        - assert (Iv : In v l) by (apply Inc; now left).
          destruct (L v Iv) as (fs & -> & Fv).
          apply (IH _ Iv (SRec s1)); [now constructor| |].
          + now apply (named_item l).
          + cbn. now rewrite String.eqb_refl.
        - apply IHl. intros y Hy. apply Inc. now right. }
      apply G, incl_refl.
  - inversion F as [| | | | | | |s0 fs0 L|]; subst.
    assert (X : into e = Some s /\ dinto d = Some s).
    { destruct (compat_into _ _ _ C) as [(X1 & X2 & _)|(X1 & X2 & _)]; auto. }
    destruct X as [X1 X2].
    rewrite (enc_val_rec h e s s fs X1), (dec_val_rec d s _ X2).
    now apply back_fields.
Qed.

(** No message is refused. *)
Lemma needs_back : forall s fs, fits_fields h s fs ->
  needs_met s (efs h s fs fs) = true.
Proof.
  intros s fs F. unfold needs_met.
  destruct (sort_parts s) as (_ & _ & _ & _ & _ & E & R & _).
  destruct (rows dec_needs s) as [|w0 ws0] eqn:EN; [reflexivity|].
  rewrite E. inversion F as [s0 fs0 ND A X Q]; subst.
  destruct Q as (l & v & Hl & Iv & Nv).
  { intros Z. rewrite Z in E. discriminate. }
  destruct (R l Hl) as (K & s' & Hs').
  assert (W := kept_written _ _ K).
  destruct (row_spec s l _ Hs' W) as (wl & e & d & Ee & Ed & C & _).
  apply existsb_exists. exists wl. split.
  { apply in_map_iff. exists l. rewrite Ee. auto. }
  destruct (fields_fit s fs l v F Iv W) as (sh & Hsh & Fv).
  rewrite (shape_unique s l sh (SRec s') Hsh Hs') in Fv.
  inversion Fv as [| | | | | | |s1 fs1 L1|]; subst; [contradiction|].
  assert (S : skipped s fs l = false).
  { destruct (skipped s fs l) eqn:S; [|reflexivity].
    assert (Z := skipped_nil h s fs l _ F K Iv S). discriminate. }
  assert (I : In (wl, enc_val h e (VRec s' fs1)) (efs h s fs fs)).
  { apply efs_in. exists l, (VRec s' fs1), e. auto. }
  assert (X1 : into e = Some s').
  { destruct (compat_into _ _ _ C) as [(X1 & _)|(X1 & _)]; auto. }
  rewrite (enc_val_rec h e s' s' fs1 X1) in I.
  unfold wfield.
  destruct (assoc wl (efs h s fs fs)) as [w|] eqn:Aw.
  - apply assoc_in in Aw. apply efs_in in Aw.
    destruct Aw as (gl' & v' & e' & I' & E' & _ & ->).
    assert (gl' = l) by (apply (wire_labels_distinct s _ _ wl e' e E' Ee)). subst gl'.
    rewrite Ee in E'. inversion E'; subst e'.
    assert (v' = VRec s' fs1).
    { rewrite <- (field_in _ _ _ _ ND I'). now apply field_in. }
    subst v'. rewrite (enc_val_rec h e s' s' fs1 X1). reflexivity.
  - exfalso. clear - I Aw. induction (efs h s fs fs) as [|[a b] r IH]; [destruct I|].
    cbn in Aw. destruct (String.eqb_spec wl a); [discriminate|].
    destruct I as [I|I]; [inversion I; congruence|auto].
Qed.

Lemma accepted : forall v sh e d, fits h sh v -> compat sh e d = true ->
  dec_ok d (enc_val h e v) = true.
Proof.
  induction v as [|s|k a|l IH|s fs IH] using value_induction; intros sh e d F C.
  - assert (Z : needs_met "VariableDefinitionSet" [] = true) by reflexivity.
    assert (Z' : needs_met "Env" [] = true) by reflexivity.
    destruct e; cbn [enc_val dec_ok]; try reflexivity.
    destruct sh; cbn in C; try discriminate. destruct d; try discriminate.
    repeat rewrite andb_true_iff in C. destruct C as [[C1 C2] C3].
    apply String.eqb_eq in C1, C2. subst.
    apply (mem_in _ presence_lost) in C3. cbn in C3.
    destruct C3 as [<-|[<-|[]]]; reflexivity.
  - destruct e; reflexivity.
  - destruct e; reflexivity.
  - inversion F as [| | | | |k0 l0 L| | |s0 l0 L]; subst; cbn in C;
      destruct e, d; try discriminate; cbn [enc_val dec_ok]; try reflexivity.
    apply andb_true_iff in C; destruct C as [C1 C2].
    apply String.eqb_eq in C1, C2; subst.
    apply forallb_forall. intros w Hw. apply in_map_iff in Hw.
    destruct Hw as (v & <- & Iv). destruct (L v Iv) as (fs & -> & Fv).
    apply (IH _ Iv (SRec s1)); [now constructor|]. cbn. now rewrite String.eqb_refl.
  - inversion F as [| | | | | | |s0 fs0 L|]; subst.
    assert (X : into e = Some s /\ dinto d = Some s).
    { destruct (compat_into _ _ _ C) as [(X1 & X2 & _)|(X1 & X2 & _)]; auto. }
    destruct X as [X1 X2].
    rewrite (enc_val_rec h e s s fs X1), (dec_ok_rec d s _ X2).
    rewrite (needs_back s fs L). cbn [andb]. apply doks_true.
    intros wl w gl d' I D. apply efs_in in I.
    destruct I as (gl' & v & e' & Iv & E & S & ->).
    destruct (enc_row s _ _ _ E) as (sh & d2 & Hsh & W & D2 & C2 & _).
    rewrite D in D2. inversion D2; subst d2 gl'.
    destruct (fields_fit s fs gl v L Iv W) as (sh' & Hsh' & Fv).
    rewrite (shape_unique s gl sh' sh Hsh' Hsh) in Fv.
    now apply (IH gl v Iv sh e' d' Fv).
Qed.

(** The ids that are looked up belong to pointers of the value. *)
Lemma ids_in : forall k l id, In id (ids h k l) ->
  exists a k', In (VObj k' a) l /\ id = id_of h k a.
Proof.
  intros k l id H. unfold ids in H. apply in_flat_map in H.
  destruct H as (v & Iv & Hv). destruct v; try destruct Hv.
  - subst. eauto.
  - destruct H.
Qed.

Lemma looked_up : forall v sh e d k id, fits h sh v -> compat sh e d = true ->
  In (k, id) (dec_refs d (enc_val h e v)) ->
  exists a, mentions written v k a /\ id = id_of h k a.
Proof.
  induction v as [|s|k0 a|l IH|s fs IH] using value_induction;
    intros sh e d k id F C H.
  - destruct e; cbn in H; try destruct H. destruct d; cbn in H; destruct H.
  - destruct e; cbn in H; destruct H.
  - inversion F as [| | | |k1 a1 L| | | |]; subst.
    assert (G : forall kk dd, compat (SObj k0) (EObj kk) dd = true \/
                compat (SObj k0) (EId kk) dd = true ->
              In (k, id) (dec_refs dd (WId (id_of h kk a))) ->
              exists a0, mentions written (VObj k0 a) k a0 /\ id = id_of h k a0).
    { intros kk dd [Z|Z] Hin; destruct dd; cbn in Z; try discriminate;
        apply andb_true_iff in Z; destruct Z as [Z1 Z2];
        apply String.eqb_eq in Z1, Z2; subst; cbn in Hin;
        (match type of Hin with context [if ?b then _ else _] => destruct b end;
         [destruct Hin|]); destruct Hin as [Hin|[]];
        inversion Hin; subst; exists a; split; constructor. }
    destruct e; cbn [enc_val] in H; try (destruct H; fail); eauto.
  - inversion F as [| | | | |k1 l1 L| | |s1 l1 L]; subst; cbn in C;
      destruct e, d; try discriminate; cbn [enc_val dec_refs] in H;
      apply andb_true_iff in C; destruct C as [C1 C2];
      apply String.eqb_eq in C1, C2; subst.
    1,2: apply in_flat_map in H; destruct H as (id' & I1 & I2);
         (destruct (id' =? ""); [destruct I2|]); destruct I2 as [I2|[]]; inversion I2; subst;
         apply ids_in in I1; destruct I1 as (a & k' & I1 & ->);
         destruct (L _ I1) as (a' & Ea & _); inversion Ea; subst;
         exists a'; split; [|reflexivity];
         apply (mention_item _ _ _ _ _ I1); constructor.
    apply in_flat_map in H. destruct H as (w & Iw & Hw). apply in_map_iff in Iw.
    destruct Iw as (v & <- & Iv). destruct (L v Iv) as (fs & -> & Fv).
    destruct (IH _ Iv (SRec s0) (ERec s0) (DRec s0) k id) as (a & M & Ea);
      [now constructor|cbn; now rewrite String.eqb_refl|exact Hw|].
    exists a. split; [|exact Ea]. now apply (mention_item _ _ _ _ _ Iv).
  - inversion F as [| | | | | | |s0 fs0 L|]; subst.
    assert (X : into e = Some s /\ dinto d = Some s).
    { destruct (compat_into _ _ _ C) as [(X1 & X2 & _)|(X1 & X2 & _)]; auto. }
    destruct X as [X1 X2].
    rewrite (enc_val_rec h e s s fs X1), (dec_refs_rec d s _ X2) in H.
    apply drefs_in in H. destruct H as (wl & w & gl & d' & I & D & Hx).
    apply efs_in in I. destruct I as (gl' & v & e' & Iv & E & S & ->).
    destruct (enc_row s _ _ _ E) as (sh & d2 & Hsh & W & D2 & C2 & _).
    rewrite D in D2. inversion D2; subst d2 gl'.
    destruct (fields_fit s fs gl v L Iv W) as (sh' & Hsh' & Fv).
    rewrite (shape_unique s gl sh' sh Hsh' Hsh) in Fv.
    destruct (IH gl v Iv sh e' d' k id Fv C2 Hx) as (a & M & Ea).
    exists a. split; [|exact Ea]. econstructor; eauto.
Qed.

(** Registering pointers are visited by the encoder and looked up by the decoder. *)
Definition by_id_only (e : emode) : bool := only_id e.

Lemma found : forall v sh e d k a, fits h sh v -> compat sh e d = true ->
  only_id e = false -> mentions registering v k a ->
  In (k, a) (enc_refs e v) /\
  (id_of h k a <> "" -> In (k, id_of h k a) (dec_refs d (enc_val h e v))).
Proof.
  induction v as [|s|k0 a0|l IH|s fs IH] using value_induction;
    intros sh e d k a F C O M; [inversion M|inversion M|..].
  - inversion M; subst. inversion F as [| | | |k1 a1 L| | | |]; subst.
    destruct e; cbn in O; try discriminate; cbn in C; try discriminate.
    destruct d; try discriminate. apply andb_true_iff in C. destruct C as [C1 C2].
    apply String.eqb_eq in C1, C2. subst. cbn. split; [now left|].
    intros N. destruct (String.eqb_spec (id_of h k1 a) ""); [contradiction|now left].
  - inversion M as [|l2 v2 k2 a2 H H0|]; subst.
    inversion F as [| | | | |k1 l1 L| | |s1 l1 L]; subst; cbn in C;
      destruct e, d; cbn in O; try discriminate; cbn [enc_val dec_refs enc_refs];
      apply andb_true_iff in C; destruct C as [C1 C2];
      apply String.eqb_eq in C1, C2; subst.
    + destruct (L _ H) as (a' & -> & _). inversion H0; subst. split.
      * unfold ptrs. apply in_flat_map. exists (VObj k a). split; [exact H|now left].
      * intros N. apply in_flat_map. exists (id_of h k a). split.
        -- unfold ids. apply in_flat_map. exists (VObj k a). split; [exact H|now left].
        -- destruct (String.eqb_spec (id_of h k a) ""); [contradiction|now left].
    + destruct (L _ H) as (fs & -> & Fv).
      destruct (IH _ H (SRec s0) (ERec s0) (DRec s0) k a) as (I1 & I2);
        [now constructor|cbn; now rewrite String.eqb_refl|reflexivity|exact H0|].
      split.
      * apply in_flat_map. eauto.
      * intros N. apply in_flat_map. exists (enc_val h (ERec s0) (VRec s0 fs)).
        split; [|auto]. apply in_map_iff. eauto.
  - inversion M as [| |s2 fs2 l v k2 a2 H3 H4 H5]; subst.
    inversion F as [| | | | | | |s0 fs0 L|]; subst.
    assert (X : into e = Some s /\ dinto d = Some s).
    { destruct (compat_into _ _ _ C) as [(X1 & X2 & _)|(X1 & X2 & _)]; auto. }
    destruct X as [X1 X2].
    assert (Kw : kept s l = true /\ mem l (rows by_name s) = false).
    { unfold registering in H4. apply andb_true_iff in H4. destruct H4 as [K B].
      now apply negb_true_iff in B. }
    destruct Kw as [K B]. assert (W := kept_written _ _ K).
    destruct (fields_fit s fs l v L H3 W) as (sh' & Hsh' & Fv).
    destruct (row_spec s l sh' Hsh' W) as (wl & e' & d' & E & D & C' & O').
    rewrite B in O'.
    assert (S : skipped s fs l = false).
    { destruct (skipped s fs l) eqn:S; [|reflexivity].
      assert (Z := skipped_nil h s fs l v L K H3 S). subst v. inversion H5. }
    destruct (IH l v H3 sh' e' d' k a Fv C' O' H5) as (I1 & I2).
    rewrite (enc_refs_rec e s s fs X1), (enc_val_rec h e s s fs X1),
      (dec_refs_rec d s _ X2). split.
    + apply erefs_in. exists l, v, wl, e'. auto.
    + intros N. apply drefs_in. exists wl, (enc_val h e' v), l, d'.
      split; [apply efs_in; exists l, v, e'; auto|]. auto.
Qed.

(** What the encoder visits is mentioned. *)
Lemma visited : forall v sh e d k a, fits h sh v -> compat sh e d = true ->
  In (k, a) (enc_refs e v) -> mentions written v k a /\ load h k a <> None.
Proof.
  induction v as [|s|k0 a0|l IH|s fs IH] using value_induction;
    intros sh e d k a F C H.
  - destruct e; cbn in H; destruct H.
  - destruct e; cbn in H; destruct H.
  - inversion F as [| | | |k1 a1 L| | | |]; subst.
    destruct e; cbn in H; try (destruct H; fail). destruct H as [H|[]]. inversion H; subst.
    cbn in C. destruct d; try discriminate. apply andb_true_iff in C.
    destruct C as [C1 _]. apply String.eqb_eq in C1. subst. split; [constructor|exact L].
  - inversion F as [| | | | |k1 l1 L| | |s1 l1 L]; subst; cbn in C;
      destruct e, d; try discriminate; cbn [enc_refs] in H; try (destruct H; fail);
      apply andb_true_iff in C; destruct C as [C1 C2];
      apply String.eqb_eq in C1, C2; subst.
    + unfold ptrs in H. apply in_flat_map in H. destruct H as (v & Iv & Hv).
      destruct (L v Iv) as (a' & -> & Ld). destruct Hv as [Hv|[]]. inversion Hv; subst.
      split; [|exact Ld]. apply (mention_item _ _ _ _ _ Iv). constructor.
    + apply in_flat_map in H. destruct H as (v & Iv & Hv).
      destruct (L v Iv) as (fs & -> & Fv).
      destruct (IH _ Iv (SRec s0) (ERec s0) (DRec s0) k a) as (M & Ld);
        [now constructor|cbn; now rewrite String.eqb_refl|exact Hv|].
      split; [|exact Ld]. now apply (mention_item _ _ _ _ _ Iv).
  - inversion F as [| | | | | | |s0 fs0 L|]; subst.
    assert (X : into e = Some s).
    { destruct (compat_into _ _ _ C) as [(X1 & X2 & _)|(X1 & X2 & _)]; auto. }
    rewrite (enc_refs_rec e s s fs X) in H. apply erefs_in in H.
    destruct H as (gl & v & wl & e' & Iv & E & S & Hx).
    destruct (enc_row s _ _ _ E) as (sh & d2 & Hsh & W & D2 & C2 & _).
    destruct (fields_fit s fs gl v L Iv W) as (sh' & Hsh' & Fv).
    rewrite (shape_unique s gl sh' sh Hsh' Hsh) in Fv.
    destruct (IH gl v Iv sh e' d2 k a Fv C2 Hx) as (M & Ld).
    split; [|exact Ld]. econstructor; eauto.
Qed.

End Back.
