(** Theorems about the generated conversions (C24). *)
From Coq Require Import String List Bool Arith ZArith Lia.
From Verif.Base Require Import Result.
From Verif.Cast Require Import Model Spec.
From Verif.Conv Require Import Enum Model Spec Proofs.
Import ListNotations.
Local Open Scope nat_scope.

Section Theorems.
  Variable enums : nat -> enum.
  Variable msgs : nat -> message.
  Variable other : kind -> kind -> value -> value.
  Notation cast := (cast enums msgs other).
  Hypothesis W : forall m, well_formed msgs m.
  (** [G]: the generated conversions, which can be written in Go and call only each other. *)
  Variable G : ty -> ty -> Prop.
  Hypothesis WG : all_writable enums msgs G.

  (** C24. The result of a conversion is the converted value: see [converts] in Spec.v. *)
  Theorem C24_result_is_converted : forall f t v w, G f t -> typed msgs f v -> cast f t v = Val w -> converts enums msgs other f t v w.
  Proof. intros f t v w H T E. pose proof (main enums msgs other W G WG v f t H T) as X. rewrite E in X. exact X. Qed.

  (** C24. A conversion fails exactly if the value contains, at any depth, a number the conversion of which fails. *)
  Theorem C24_fails_iff_part_fails : forall f t v, G f t -> typed msgs f v -> (cast f t v = Fail <-> breaks msgs f t v).
  Proof.
    intros f t v H T. pose proof (main enums msgs other W G WG v f t H T) as X. split.
    - intros E. rewrite E in X. exact X.
    - intros B. destruct (cast f t v) as [w| |] eqn:E; [|reflexivity|destruct X]. exfalso. destruct (WG f t H) as [NS _].
      exact (break_or_convert enums msgs other W v f t w NS T B X).
  Qed.

  (** C24. Every conversion of a value of the right type ends, with a value or an error. *)
  Theorem C24_never_stuck : forall f t v, G f t -> typed msgs f v -> cast f t v <> Stuck.
  Proof. intros f t v H T E. pose proof (main enums msgs other W G WG v f t H T) as X. rewrite E in X. exact X. Qed.

  (** C24. Fields: the field of the target holds the converted value of the source field; a field without a source is not set. *)
  Theorem C24_fields : forall f t a b fs w, G f t -> typed msgs f (VMsg (Some fs)) -> is_msg msgs f a -> is_msg msgs t b -> t_oneof t = false ->
    cast f t (VMsg (Some fs)) = Val w ->
    exists out, w = VMsg (Some out) /\
      forall tf, In tf (m_fields (msgs b)) -> t_oneof (f_type tf) = false ->
        (forall n ft, source_of msgs tf a n ft -> exists x y, value_of msgs n ft fs x /\ In (f_name tf, y) out /\ moved enums msgs other ft (f_type tf) x y) /\
        ((forall n ft, ~ source_of msgs tf a n ft) -> forall y, ~ In (f_name tf, y) out).
  Proof.
    intros f t a b fs w H T M Mt Ot E. apply C24_result_is_converted in E; [|exact H|exact T].
    inversion E as [| | |? ? a' b' ? out R M1 Et _ F1 F2 ND F3| | |? ? ? ? K|]; subst; try congruence.
    2:{ destruct M. contradiction. }
    assert (a' = a) as -> by (destruct M as (_ & E1 & _), M1 as (_ & E2 & _); congruence). assert (b' = b) as -> by (destruct Mt as (_ & E1 & _); congruence).
    exists out. split; [reflexivity|]. intros tf Hi Oo. split; [intros n ft; apply F1; assumption|]. intros NSr y Hy. destruct (F3 _ _ Hy) as (tf' & n & ft & Hi' & En & Hs & _).
    destruct (W b) as (NF & _). assert (tf' = tf) as -> by (eapply NoDup_name; [exact NF|exact Hi'|exact Hi|exact En]). exact (NSr n ft Hs).
  Qed.

  (** C24. nil becomes nil. *)
  Theorem C24_nil : forall f t, G f t -> typed msgs f (VMsg None) -> cast f t (VMsg None) = Val (VMsg None).
  Proof.
    intros f t H T. pose proof (main enums msgs other W G WG (VMsg None) f t H T) as X. destruct (cast f t (VMsg None)) as [w| |] eqn:E; [|inversion X|destruct X].
    inversion T as [| |? a R M| | |]; subst. rewrite cast_eq in E. unfold body in E. rewrite R in E. pose proof M as (K & Em & Mm).
    rewrite (not_map msgs f a M) in E. destruct (t_oneof f) eqn:Of.
    - destruct (t_oneof t); [congruence|discriminate E].
    - unfold is_message in E. rewrite K in E. congruence.
  Qed.

  (** C24. A list keeps its length and order. *)
  Theorem C24_lists : forall f t l w, G f t -> t_rep f = true -> typed msgs f (VList l) -> cast f t (VList l) = Val w ->
    exists l', w = VList l' /\ length l' = length l /\
      forall i x, nth_error l i = Some x -> exists y, nth_error l' i = Some y /\ moved enums msgs other (elem f) (elem t) x y.
  Proof.
    intros f t l w H R T E. apply C24_result_is_converted in E; [|exact H|exact T]. inversion E as [? ? ? l' _ F2| | | | | | |]; subst; try congruence.
    exists l'. split; [reflexivity|]. clear - F2. induction F2 as [|x y l l' M F IH]; [split; [reflexivity|intros [|i] x; discriminate]|]. destruct IH as [IHl IHn]. split; [cbn; congruence|].
    intros [|i] z Hz; cbn in *; [injection Hz as <-; exists y; auto|]. apply IHn, Hz.
  Qed.

  (** C24. A map keeps its keys, if the type of keys is the same. *)
  Theorem C24_map_keys : forall f t fk fv tk tv l w, G f t -> t_rep f = false -> is_map_of msgs f fk fv -> is_map_of msgs t tk tv -> same msgs fk tk ->
    NoDup (map fst l) -> cast f t (VMap l) = Val w -> t_oneof t = false -> exists l', w = VMap l' /\ map fst l' = map fst l.
  Proof.
    intros f t fk fv tk tv l w H R Mf Mt S N E Ot. apply map_of_spec in Mf, Mt. destruct Mf as (mf & Ef & Nf), Mt as (mt & Et & Nt).
    rewrite cast_eq in E. unfold body in E. rewrite R, Ef, Et, Nf, Nt in E. unfold wrap in E. rewrite Ot in E.
    destruct (cast_entries msgs cast fk tk fv tv l []) as [out| |] eqn:C; cbn in E; try discriminate E. injection E as <-. exists out. split; [reflexivity|].
    exact (entries_keys enums msgs other W fk tk fv tv l [] out S N C).
  Qed.
End Theorems.
Print Assumptions C24_result_is_converted.
Print Assumptions C24_fails_iff_part_fails.
Print Assumptions C24_never_stuck.
Print Assumptions C24_fields.
Print Assumptions C24_nil.
Print Assumptions C24_lists.
Print Assumptions C24_map_keys.

(** *** A case that meets the hypotheses: messages with a renamed field, a list, a map and a oneof *)
Definition num (k : kind) : ty := {| t_kind := k; t_rep := false; t_msg := None; t_enum := None; t_member := None |}.
Definition msg (m : nat) : ty := {| t_kind := Message; t_rep := false; t_msg := Some m; t_enum := None; t_member := None |}.
Definition msgs_ (m : nat) : ty := {| t_kind := Message; t_rep := true; t_msg := Some m; t_enum := None; t_member := None |}.
Definition mem (m : nat) (n : string) : ty := {| t_kind := Message; t_rep := false; t_msg := Some m; t_enum := None; t_member := Some n |}.
Definition fld (n : string) (t : ty) : field := {| f_name := n; f_type := t; f_aliases := [] |}.

(** Post and fed.Post *)
Definition ex_msgs (n : nat) : message :=
  match n with
  | 0 => {| m_map := false; m_fields := [fld "id" (num Int64); fld "title" (num String_); fld "tags" (msgs_ 1); fld "counts" (msg 4); fld "text" (mem 6 "Post.text")];
            m_oneofs := [[fld "text" (mem 6 "Post.text")]] |}
  | 1 => {| m_map := false; m_fields := [fld "name" (num String_)]; m_oneofs := [] |}
  | 2 => {| m_map := false;
            m_fields := [fld "id" (num Int32); {| f_name := "headline"; f_type := num String_; f_aliases := [(0, ("title", num String_))] |};
                         fld "tags" (msgs_ 3); fld "counts" (msg 5); fld "extra" (num String_); fld "text" (mem 7 "fed.Post.text")];
            m_oneofs := [[fld "text" (mem 7 "fed.Post.text")]] |}
  | 3 => {| m_map := false; m_fields := [fld "name" (num String_)]; m_oneofs := [] |}
  | 4 => {| m_map := true; m_fields := [fld "key" (num String_); fld "value" (num Int64)]; m_oneofs := [] |}
  | 5 => {| m_map := true; m_fields := [fld "key" (num String_); fld "value" (num Uint64)]; m_oneofs := [] |}
  | 6 => {| m_map := false; m_fields := [fld "body" (num String_)]; m_oneofs := [] |}
  | 7 => {| m_map := false; m_fields := [fld "body" (num String_)]; m_oneofs := [] |}
  | _ => {| m_map := false; m_fields := []; m_oneofs := [] |}
  end%string.
Definition ex_pairs : list (ty * ty) :=
  [(msg 0, msg 2); (num Int64, num Int32); (msgs_ 1, msgs_ 3); (msg 1, msg 3); (msg 4, msg 5); (num Int64, num Uint64);
   (mem 6 "Post.text", mem 7 "fed.Post.text"); (msg 6, msg 7)]%string.
Definition ex_G (f t : ty) : Prop := In (f, t) ex_pairs.
Definition no_enums (n : nat) : enum := {| e_fqdn := ""; e_pkg := ""; e_values := []; e_opt := None |}.

Ltac nodup := cbn; repeat (constructor; [cbn; intuition discriminate|]); constructor.
Ltac pick H := repeat (destruct H as [H|H]); try contradiction; try discriminate H.
Lemma ex_formed : forall m, well_formed ex_msgs m.
Proof.
  intros m. destruct m as [|[|[|[|[|[|[|[|m]]]]]]]]; unfold well_formed.
  9:{ cbn. split; [constructor|]. split; [constructor|]. split; [intros o tf []|]. split; [intros tf []|discriminate]. }
  all: split; [nodup|]; split; [nodup|]; cbn [ex_msgs m_oneofs m_fields m_map].
  all: split; [intros o tf Ho Ht; cbn in Ho; pick Ho; subst o; cbn in Ht; pick Ht; subst tf; (split; [cbn; intuition|reflexivity])|].
  all: split; [|intros M; try discriminate M; (do 2 eexists; split; [reflexivity|]; unfold is_map; cbn; repeat split; intros (? & K & _); discriminate K)].
  all: intros tf Ht; cbn in Ht; pick Ht; subst tf; (split; [nodup|]); intros a n ft Hi; cbn in Hi; pick Hi.
  injection Hi as <- <- <-. exists (fld "title" (num String_)). cbn. intuition.
Qed.
Ltac sources Hs := destruct Hs as [Hs|(Hs & -> & f' & Hf & En & <-)]; [cbn in Hs; pick Hs; try (injection Hs as <- <-)|cbn in Hf; pick Hf; subst f'; try discriminate En].
Lemma ex_writable : all_writable no_enums ex_msgs ex_G.
Proof.
  assert (NS : forall f t, requiredCast ex_msgs f t = true -> ~ same ex_msgs f t) by (intros f t H; apply (required_spec ex_msgs ex_formed); exact H).
  assert (YS : forall f t, requiredCast ex_msgs f t = false -> same ex_msgs f t) by (intros f t H; apply (same_spec ex_msgs ex_formed); exact H).
  intros f t H. unfold ex_G, ex_pairs in H. cbn [In] in H.
  destruct H as [H|[H|[H|[H|[H|[H|[H|[H|[]]]]]]]]]; injection H as <- <-; (split; [apply NS; vm_compute; reflexivity|]).
  - right. right. left. split; [reflexivity|]. exists 0, 2. split; [repeat split|]. split; [repeat split|]. split; [discriminate|].
    intros tf n ft Ht Hs. cbn in Ht. pick Ht; subst tf; cbn [f_type t_oneof t_member fld num msgs_ msg mem].
    + sources Hs. right. cbn. tauto.
    + sources Hs. left. apply YS. vm_compute. reflexivity.
    + sources Hs. right. cbn. tauto.
    + sources Hs. right. cbn. tauto.
    + sources Hs.
    + sources Hs. split; [cbn; tauto|]. split; [reflexivity|]. exists 6. repeat split.
  - right. right. right. split; [reflexivity|]. split; [reflexivity|]. split; [discriminate|]. cbn [num t_kind kind_gotype is_enum andb].
    intros z. unfold generated_int_cast. cbn. discriminate.
  - left. split; [reflexivity|]. split; [reflexivity|]. split; [reflexivity|]. right. cbn. tauto.
  - right. right. left. split; [reflexivity|]. exists 1, 3. split; [repeat split|]. split; [repeat split|]. split; [discriminate|].
    intros tf n ft Ht Hs. cbn in Ht. pick Ht; subst tf; cbn [f_type t_oneof t_member fld num msgs_ msg mem]. sources Hs. left. apply YS. vm_compute. reflexivity.
  - right. left. split; [reflexivity|]. exists (num String_), (num Int64), (num String_), (num Uint64). unfold is_map_of. cbn [msg t_kind t_msg].
    split; [do 4 eexists; repeat (split; [reflexivity|]); reflexivity|]. split; [do 4 eexists; repeat (split; [reflexivity|]); reflexivity|]. split; [reflexivity|].
    split; [left; apply YS; vm_compute; reflexivity|right; cbn; tauto].
  - right. right. right. split; [reflexivity|]. split; [reflexivity|]. split; [discriminate|]. cbn [num t_kind kind_gotype is_enum andb].
    intros z. unfold generated_int_cast. cbn. discriminate.
  - right. right. left. split; [reflexivity|]. exists 6, 7. split; [repeat split|]. split; [repeat split|]. split; [reflexivity|].
    intros tf n ft Ht Hs. cbn in Ht. pick Ht; subst tf; cbn [f_type t_oneof t_member fld num msgs_ msg mem]. sources Hs. left. apply YS. vm_compute. reflexivity.
  - right. right. left. split; [reflexivity|]. exists 6, 7. split; [repeat split|]. split; [repeat split|]. split; [discriminate|].
    intros tf n ft Ht Hs. cbn in Ht. pick Ht; subst tf; cbn [f_type t_oneof t_member fld num msgs_ msg mem]. sources Hs. left. apply YS. vm_compute. reflexivity.
Qed.
Definition ex_value : value := VMsg (Some
  [("id", VNum 7); ("title", VOther 3); ("tags", VList [VMsg (Some [("name", VOther 4)]); VMsg None]); ("counts", VMap [(VOther 9, VNum 1)]);
   ("text", VMsg (Some [("body", VOther 5)]))]%string).
Lemma ex_typed : typed ex_msgs (msg 0) ex_value.
Proof.
  unfold ex_value. eapply t_message with (a := 0); [reflexivity|repeat split|nodup|].
  repeat constructor; cbn [fst snd].
  - exists (fld "id" (num Int64)). split; [cbn; tauto|]. split; [reflexivity|]. eapply t_num; [reflexivity|reflexivity|]. unfold fits, lo, hi. lia.
  - exists (fld "title" (num String_)). split; [cbn; tauto|]. split; [reflexivity|]. apply t_other; [reflexivity|discriminate|reflexivity].
  - exists (fld "tags" (msgs_ 1)). split; [cbn; tauto|]. split; [reflexivity|]. apply t_list; [reflexivity|]. constructor; [|constructor; [|constructor]].
    + eapply t_message with (a := 1); [reflexivity|repeat split|nodup|]. constructor; [|constructor]. exists (fld "name" (num String_)). split; [cbn; tauto|]. split; [reflexivity|].
      apply t_other; [reflexivity|discriminate|reflexivity].
    + eapply t_nil with (a := 1); [reflexivity|repeat split].
  - exists (fld "counts" (msg 4)). split; [cbn; tauto|]. split; [reflexivity|]. eapply t_map with (k := num String_) (v := num Int64); [reflexivity| |].
    + unfold is_map_of. cbn [fld f_type msg t_kind t_msg]. do 4 eexists; repeat (split; [reflexivity|]); reflexivity.
    + constructor; [|constructor]. split; [apply t_other; [reflexivity|discriminate|reflexivity]|]. eapply t_num; [reflexivity|reflexivity|]. unfold fits, lo, hi; lia.
  - exists (fld "text" (mem 6 "Post.text")). split; [cbn; tauto|]. split; [reflexivity|]. eapply t_message with (a := 6); [reflexivity|repeat split|nodup|].
    constructor; [|constructor]. exists (fld "body" (num String_)). split; [cbn; tauto|]. split; [reflexivity|]. apply t_other; [reflexivity|discriminate|reflexivity].
Qed.
Example C24_sample : (forall m, well_formed ex_msgs m) /\ all_writable no_enums ex_msgs ex_G /\ ex_G (msg 0) (msg 2) /\ typed ex_msgs (msg 0) ex_value /\
  cast no_enums ex_msgs (fun _ _ v => v) (msg 0) (msg 2) ex_value = Val (VMsg (Some
    [("id", VNum 7); ("headline", VOther 3); ("tags", VList [VMsg (Some [("name", VOther 4)]); VMsg None]); ("counts", VMap [(VOther 9, VNum 1)]);
     ("text", VMsg (Some [("body", VOther 5)]))]%string)).
Proof. split; [exact ex_formed|]. split; [exact ex_writable|]. split; [left; reflexivity|]. split; [exact ex_typed|]. vm_compute. reflexivity. Qed.
(** A number too large for the target, in a field, fails the conversion of the message. *)
Example C24_fail_sample : cast no_enums ex_msgs (fun _ _ v => v) (msg 0) (msg 2) (VMsg (Some [("id", VNum 3000000000)]%string)) = Fail.
Proof. vm_compute. reflexivity. Qed.

(** The way back looks for fields by name only: the renamed field is dropped. *)
Definition C24_back_statement : Prop :=
  forall enums msgs other a b fs out, (forall m, well_formed msgs m) -> typed msgs (msg a) (VMsg (Some fs)) ->
    cast enums msgs other (msg b) (msg a) (VMsg (Some out)) <> Stuck ->
    cast enums msgs other (msg a) (msg b) (VMsg (Some fs)) = Val (VMsg (Some out)) ->
    forall n x, In (n, x) fs -> (exists tf ft, In tf (m_fields (msgs b)) /\ source_of msgs tf a n ft /\ f_type tf = ft /\ t_oneof ft = false) ->
    exists back, cast enums msgs other (msg b) (msg a) (VMsg (Some out)) = Val (VMsg (Some back)) /\ In (n, x) back.
Theorem C24_back_refuted : ~ C24_back_statement.
Proof.
  intros H. specialize (H no_enums ex_msgs (fun _ _ v => v) 0 2 [("title", VOther 3)]%string).
  set (out := [("id", VNum 0); ("headline", VOther 3); ("tags", VList []); ("counts", VMap [])]%string).
  assert (T : typed ex_msgs (msg 0) (VMsg (Some [("title", VOther 3)]%string))).
  { eapply t_message with (a := 0); [reflexivity|repeat split|nodup|]. constructor; [|constructor]. exists (fld "title" (num String_)). split; [cbn; tauto|]. split; [reflexivity|].
    apply t_other; [reflexivity|discriminate|reflexivity]. }
  specialize (H out ex_formed T). assert (N : cast no_enums ex_msgs (fun _ _ v => v) (msg 2) (msg 0) (VMsg (Some out)) <> Stuck) by (vm_compute; discriminate).
  specialize (H N). assert (E : cast no_enums ex_msgs (fun _ _ v => v) (msg 0) (msg 2) (VMsg (Some [("title", VOther 3)]%string)) = Val (VMsg (Some out))) by (vm_compute; reflexivity).
  specialize (H E "title"%string (VOther 3) (or_introl eq_refl)).
  destruct H as (back & Eb & Hb).
  { exists {| f_name := "headline"; f_type := num String_; f_aliases := [(0, ("title"%string, num String_))] |}, (num String_). split; [cbn; tauto|]. split; [left; left; reflexivity|]. split; reflexivity. }
  vm_compute in Eb. injection Eb as <-. cbn in Hb. pick Hb.
Qed.
Print Assumptions C24_back_refuted.
