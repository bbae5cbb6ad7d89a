(** * Deciding the hypotheses of the round trip for a given heap *)

From Coq Require Import Ascii String List Arith Bool.
From Verif.Base Require Import Text TextProofs.
From Verif.Codec Require Import Model Spec Proofs Visits Transfer.
Import ListNotations.
Local Open Scope string_scope.

Definition loaded (h : heap) (k : string) (a : nat) : bool :=
  match load h k a with Some _ => true | None => false end.

Fixpoint distinctb (l : list string) : bool :=
  match l with [] => true | x :: r => negb (mem x r) && distinctb r end.

Fixpoint fitsb (h : heap) (sh : shape) (v : value nat) {struct v} : bool :=
  match v with
  | VNil => match sh with SAtom | SObj _ | SRec _ => true | _ => false end
  | VAtom s => match sh with SAtom => true | SKind => mem s type_kinds | _ => false end
  | VObj k a => match sh with SObj k' => (k =? k') && loaded h k a | _ => false end
  | VList l =>
      match sh with
      | SObjs k =>
          forallb (fun x => match x with
                            | VObj k' a => (k' =? k) && loaded h k' a
                            | _ => false end) l
      | SRecs s =>
          forallb (fun x => match x with
                            | VRec _ _ => fitsb h (SRec s) x
                            | _ => false end) l
      | _ => false
      end
  | VRec s fs =>
      match sh with
      | SRec s' =>
          (s =? s') && distinctb (map fst fs) &&
          forallb (fun p => match assoc (fst p) (rows attributes s) with
                            | Some sh' => negb (written s (fst p)) || fitsb h sh' (snd p)
                            | None => true end) fs &&
          forallb (fun p => negb (written s (fst p)) || mem (fst p) (map fst fs))
                  (rows attributes s) &&
          forallb (fun l1 => forallb (fun l2 =>
                     is_nil (field fs l1) || is_nil (field fs l2) || (l1 =? l2))
                       (rows exclusive s)) (rows exclusive s) &&
          (match rows required s with [] => true | _ =>
             existsb (fun l => mem l (map fst fs) && negb (is_nil (field fs l)))
               (rows required s) end)
      | _ => false
      end
  end.

Definition well_typedb (h : heap) : bool :=
  forallb (fun p => match load h (fst (fst p)) (snd (fst p)) with
                    | Some fs => fitsb h (SRec (fst (fst p))) (VRec (fst (fst p)) fs)
                    | None => true end) h.

Lemma distinctb_ok : forall l, distinctb l = true -> NoDup l.
Proof.
  induction l as [|x l IH]; cbn; intros H; constructor.
  - apply andb_true_iff in H. destruct H as [H _]. apply negb_true_iff in H.
    intros I. apply (mem_in x l) in I. congruence.
  - apply andb_true_iff in H. now apply IH.
Qed.

Lemma loaded_ok : forall h k a, loaded h k a = true -> load h k a <> None.
Proof. unfold loaded. intros h k a H. now destruct (load h k a). Qed.

Lemma nodup_field : forall (fs : fields nat) l v, NoDup (map fst fs) -> In (l, v) fs ->
  field fs l = v.
Proof.
  induction fs as [|[l' v'] fs IH]; intros l v N I; [destruct I|].
  inversion N as [|? ? Nl Nt]; subst. unfold field. cbn [assoc].
  destruct I as [I|I].
  - inversion I; subst. now rewrite String.eqb_refl.
  - destruct (String.eqb_spec l l') as [->|Ne].
    + exfalso. apply Nl. apply in_map_iff. exists (l', v). auto.
    + exact (IH l v Nt I).
Qed.

Lemma is_nil_ok : forall v : value nat, is_nil v = true -> v = VNil.
Proof. now intros []. Qed.

Lemma fitsb_ok : forall h v sh, fitsb h sh v = true -> fits h sh v.
Proof.
  intros h. induction v as [|s|k0 a0|l IH|s fs IH] using value_induction; intros sh H.
  - destruct sh; try discriminate; constructor.
  - destruct sh; try discriminate; constructor. now apply (mem_in s type_kinds).
  - destruct sh; try discriminate. cbn [fitsb] in H. apply andb_true_iff in H.
    destruct H as [E H]. apply String.eqb_eq in E. subst. constructor. now apply loaded_ok.
  - destruct sh; try discriminate; cbn [fitsb] in H; rewrite forallb_forall in H; constructor;
      intros v I; specialize (H v I); destruct v; try discriminate.
    + apply andb_true_iff in H. destruct H as [E H]. apply String.eqb_eq in E. subst.
      eexists. split; [reflexivity|now apply loaded_ok].
    + specialize (IH _ I (SRec s) H). inversion IH; subst. eauto.
  - destruct sh as [| | | |s'|]; try discriminate. cbn [fitsb] in H.
    repeat (apply andb_true_iff in H; destruct H as [H ?]).
    apply String.eqb_eq in H. subst s'. constructor.
    match goal with X : distinctb _ = true |- _ => apply distinctb_ok in X; rename X into ND end.
    rename H3 into HF, H2 into HP, H1 into HE, H0 into HR.
    rewrite forallb_forall in HF, HP, HE.
    constructor.
    + exact ND.
    + intros l sh I W. specialize (HP _ I). cbn [fst] in HP. rewrite W in HP. cbn [negb orb] in HP.
      apply (mem_in l (map fst fs)) in HP. apply in_map_iff in HP.
      destruct HP as ([l' v] & E & Iv). cbn in E. subst l'. exists v. split; [exact Iv|].
      specialize (HF _ Iv). cbn [fst snd] in HF.
      destruct (assoc l (rows attributes s)) as [sh'|] eqn:Ea.
      * rewrite W in HF. cbn [negb orb] in HF.
        assert (sh' = sh) by (eapply shape_unique; [apply assoc_in; exact Ea|exact I]).
        subst. now apply (IH l v Iv).
      * exfalso. revert Ea. clear - I. induction (rows attributes s) as [|[l' x] r IHr];
          [destruct I|]. cbn. destruct (String.eqb_spec l l'); [discriminate|].
        destruct I as [I|I]; [inversion I; congruence|now apply IHr].
    + intros l1 l2 v1 v2 I1 I2 V1 V2 N1 N2.
      specialize (HE _ I1). rewrite forallb_forall in HE. specialize (HE _ I2).
      rewrite (nodup_field fs l1 v1 ND V1), (nodup_field fs l2 v2 ND V2) in HE.
      apply orb_true_iff in HE. destruct HE as [HE|HE]; [|now apply String.eqb_eq].
      apply orb_true_iff in HE. destruct HE as [HE|HE]; apply is_nil_ok in HE; contradiction.
    + intros NR. destruct (rows required s) as [|r0 rs] eqn:ER; [easy|].
      rewrite <- ER in HR |- *. apply existsb_exists in HR. destruct HR as (l & Il & Hl).
      apply andb_true_iff in Hl. destruct Hl as [Hm Hn].
      apply (mem_in l (map fst fs)) in Hm. apply in_map_iff in Hm.
      destruct Hm as ([l' v] & E & Iv). cbn in E. subst l'. exists l, v.
      split; [exact Il|]. split; [exact Iv|].
      rewrite (nodup_field fs l v ND Iv) in Hn. intros ->. discriminate.
Qed.

Lemma load_pair : forall h k a fs, load h k a = Some fs -> In ((k, a), fs) h.
Proof.
  induction h as [|[[k' a'] fs'] h IH]; cbn; intros k a fs H; [discriminate|].
  destruct (String.eqb_spec k k') as [->|N]; cbn [andb] in H; [|right; auto].
  destruct (Nat.eqb_spec a a') as [->|N]; [inversion H; now left|right; auto].
Qed.

Lemma well_typedb_ok : forall h, well_typedb h = true -> well_typed h.
Proof.
  intros h H k a fs L. unfold well_typedb in H. rewrite forallb_forall in H.
  specialize (H _ (load_pair _ _ _ _ L)). cbn [fst snd] in H. rewrite L in H.
  apply fitsb_ok in H. now inversion H.
Qed.

(** ** Objects that are listed *)

Fixpoint pointers (use : string -> string -> bool) (v : value nat) : list (string * nat) :=
  match v with
  | VObj k a => [(k, a)]
  | VList l => flat_map (pointers use) l
  | VRec s fs => flat_map (fun p => if use s (fst p) then pointers use (snd p) else []) fs
  | _ => []
  end.

Lemma pointers_ok : forall use v k a, In (k, a) (pointers use v) -> mentions use v k a.
Proof.
  intros use. induction v as [|s|k0 a0|l IH|s fs IH] using value_induction; intros k a H.
  - destruct H.
  - destruct H.
  - destruct H as [H|[]]. inversion H. constructor.
  - cbn [pointers] in H. apply in_flat_map in H. destruct H as (v & I & H).
    econstructor; eauto.
  - cbn [pointers] in H. apply in_flat_map in H. destruct H as ([l v] & I & H).
    cbn [fst snd] in H. destruct (use s l) eqn:U; [|destruct H].
    econstructor; eauto.
Qed.

Lemma pair_dec : forall a b : string * nat, {a = b} + {a <> b}.
Proof. decide equality; [apply Nat.eq_dec|apply string_dec]. Defined.

Definition grow (h : heap) (l : list (string * nat)) : list (string * nat) :=
  flat_map (fun p => match load h (fst p) (snd p) with
                     | Some fs => pointers registering (VRec (fst p) fs)
                     | None => [] end) l.

Fixpoint rounds (h : heap) (n : nat) (l : list (string * nat)) : list (string * nat) :=
  match n with
  | O => l
  | S n =>
      rounds h n (nodup pair_dec (l ++ grow h l))
  end.

Lemma rounds_ok : forall h roots n l,
  (forall k a, In (k, a) l -> listed h roots k a) ->
  forall k a, In (k, a) (rounds h n l) -> listed h roots k a.
Proof.
  intros h roots n. induction n as [|n IH]; intros l Hl k a; [apply Hl|].
  cbn [rounds]. apply IH. intros k' a' I. apply nodup_In, in_app_or in I.
  destruct I as [I|I]; [auto|]. unfold grow in I. apply in_flat_map in I.
  destruct I as ([k0 a0] & I & J). cbn [fst snd] in J.
  destruct (load h k0 a0) as [fs|] eqn:L; [|destruct J].
  eapply reached_step; [apply Hl; exact I|exact L|now apply pointers_ok].
Qed.

Definition all_listedb (h : heap) (roots : list nat) : bool :=
  let l := rounds h (length h) (map (fun a => ("File", a)) roots) in
  forallb (fun p => existsb (fun q => (fst q =? fst (fst p)) && (snd q =? snd (fst p))%nat) l) h.

Definition roots_ok (h : heap) (roots : list nat) : bool :=
  forallb (loaded h "File") roots.

Lemma roots_ok_ok : forall h roots, roots_ok h roots = true ->
  forall a, In a roots -> load h "File" a <> None.
Proof.
  intros h roots H a I. unfold roots_ok in H. rewrite forallb_forall in H.
  apply loaded_ok. auto.
Qed.

Lemma all_listedb_ok : forall h roots, well_typed h ->
  (forall a, In a roots -> load h "File" a <> None) ->
  all_listedb h roots = true -> all_listed h roots.
Proof.
  intros h roots T R H k a Rch.
  destruct (load h k a) as [fs|] eqn:L.
  - unfold all_listedb in H. rewrite forallb_forall in H.
    specialize (H _ (load_pair _ _ _ _ L)). cbn [fst snd] in H.
    apply existsb_exists in H. destruct H as ([k' a'] & I & E). cbn [fst snd] in E.
    apply andb_true_iff in E. destruct E as [E1 E2].
    apply String.eqb_eq in E1. apply Nat.eqb_eq in E2. subst.
    eapply rounds_ok; [|exact I]. intros k0 a0 J. apply in_map_iff in J.
    destruct J as (b & E & J). inversion E; subst. now constructor.
  - exfalso. revert L. apply (reached_loads h {| cf_type := ""; cf_proto_path := "";
      cf_out_dir := ""; cf_files := []; cf_roots := roots |} T R k a Rch).
Qed.

(** ** Names *)

Definition lexicalb (k : string) (names : list string) : bool :=
  if k =? "File" then negb (has_char ":" (hd "" names))
  else if (k =? "Field") || (k =? "Oneof") || (k =? "EnumValue") then
    negb (has_char "." (last names "")) &&
    match names with [x] => negb (x =? "") | _ => true end
  else if k =? "MessageDependencyGraph" then
    match names with [] => false | _ => forallb (fun n => negb (has_char ":" n)) names end
  else if k =? "VariableDefinitionGroup" then
    match tl names with [] => false | _ => forallb (fun n => negb (has_char ":" n)) names end
  else negb (hd "" names =? "").

Lemma lexicalb_ok : forall k names, lexicalb k names = true -> lexical k names.
Proof.
  intros k names H. unfold lexicalb, lexical in *.
  destruct (k =? "File"); [now apply negb_true_iff|].
  destruct ((k =? "Field") || (k =? "Oneof") || (k =? "EnumValue")).
  { apply andb_true_iff in H. destruct H as [H1 H2]. split; [now apply negb_true_iff|].
    intros ->. discriminate. }
  destruct (k =? "MessageDependencyGraph").
  { destruct names; [discriminate|]. split; [discriminate|].
    rewrite forallb_forall in H. intros n I. now apply negb_true_iff, H. }
  destruct (k =? "VariableDefinitionGroup").
  { destruct (tl names); [discriminate|]. split; [discriminate|].
    rewrite forallb_forall in H. intros n I. now apply negb_true_iff, H. }
  apply negb_true_iff in H. now apply String.eqb_neq.
Qed.

Definition well_namedb (h : heap) : bool :=
  forallb (fun p => lexicalb (fst (fst p)) (naming h (fst (fst p)) (snd (fst p)))) h.

Lemma listed_loads : forall h roots, well_typed h ->
  (forall a, In a roots -> load h "File" a <> None) ->
  forall k a, listed h roots k a -> exists fs, In ((k, a), fs) h.
Proof.
  intros h roots T R k a Rch.
  assert (L := reached_loads h {| cf_type := ""; cf_proto_path := "";
      cf_out_dir := ""; cf_files := []; cf_roots := roots |} T R k a).
  destruct (load h k a) as [fs|] eqn:E.
  - exists fs. now apply load_pair.
  - exfalso. apply L; [|reflexivity]. eapply reached_mono; [|exact Rch].
    apply registering_written.
Qed.

Lemma well_namedb_ok : forall h roots, well_typed h ->
  (forall a, In a roots -> load h "File" a <> None) ->
  well_namedb h = true -> well_named h roots.
Proof.
  intros h roots T R H k a Rch. destruct (listed_loads h roots T R k a Rch) as (fs & I).
  unfold well_namedb in H. rewrite forallb_forall in H. specialize (H _ I).
  now apply lexicalb_ok.
Qed.

Definition names_eqb (a b : list string) : bool :=
  if list_eq_dec string_dec a b then true else false.

Definition distinctly_namedb (kinds : string -> bool) (h : heap) : bool :=
  forallb (fun p => forallb (fun q =>
    let k := fst (fst p) in
    negb (kinds k) || negb (k =? fst (fst q)) || (snd (fst p) =? snd (fst q))%nat
    || negb (names_eqb (naming h k (snd (fst p))) (naming h k (snd (fst q))))) h) h.

Lemma distinctly_namedb_ok : forall kinds h roots, well_typed h ->
  (forall a, In a roots -> load h "File" a <> None) ->
  distinctly_namedb kinds h = true -> distinctly_named kinds h roots.
Proof.
  intros kinds h roots T R H k a b K Ra Rb E.
  destruct (listed_loads h roots T R k a Ra) as (fa & Ia).
  destruct (listed_loads h roots T R k b Rb) as (fb & Ib).
  unfold distinctly_namedb in H. rewrite forallb_forall in H. specialize (H _ Ia).
  rewrite forallb_forall in H. specialize (H _ Ib). cbn [fst snd] in H.
  rewrite K, String.eqb_refl in H. cbn [negb orb] in H. apply orb_true_iff in H.
  destruct H as [H|H]; [now apply Nat.eqb_eq|].
  unfold names_eqb in H. destruct (list_eq_dec string_dec _ _); [discriminate|contradiction].
Qed.
