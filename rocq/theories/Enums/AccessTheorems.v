(** * Attributes and accessors of enums (C60) *)

From Coq Require Import Ascii String List Bool Arith ZArith Lia.
From Verif.Base Require Import Text.
From Verif.Enums Require Import Model Proofs Access.
Import ListNotations.
Local Open Scope string_scope.

(** ** Specification *)

Definition int32 (z : Z) : Prop := (- 2 ^ 31 <= z < 2 ^ 31)%Z.

(** An enum protoc accepts: numbers fit, names are distinct. *)
Definition proto_enum (e : enum) : Prop :=
  (forall v, In v (values e) -> int32 (number v)) /\ NoDup (map vname (values e)).

(** [v] has the attribute [n] with the value [x]. *)
Definition has_attribute (v : value) (n x : string) : Prop := exists l, rule v = Some l /\ In (n, x) l.

(** An attribute some value has is one every value has. *)
Definition on_every_value (e : enum) : Prop :=
  forall v v' n x, In v (values e) -> In v' (values e) -> has_attribute v n x -> exists x', has_attribute v' n x'.

Definition attributes_once (e : enum) : Prop := forall v l, In v (values e) -> rule v = Some l -> NoDup (map fst l).
Definition no_alias (e : enum) : Prop := NoDup (map number (values e)).
Definition plain_text (s : string) : Prop :=
  forall c, In c (list_ascii_of_string s) -> c <> "`"%char /\ c <> "000"%char /\ c <> "013"%char.
Definition plain (e : enum) : Prop :=
  forall v n x, In v (values e) -> has_attribute v n x -> plain_text n /\ plain_text x.

(** The full statement: attributes of an accepted enum are on each of its values, what is
    generated is valid, and the accessor returns them. *)
Definition C60_statement : Prop := forall e, proto_enum e -> accepts e = true ->
  on_every_value e /\
  (forall v n x, In v (values e) -> has_attribute v n x ->
     exists l, generate e = Literal l /\ valid_go l = true /\ attr l (number v) n = Some x).

(** ** Proofs *)

Lemma attribute_in : forall v n x, has_attribute v n x <-> In (n, x) (attributes v).
Proof.
  intros v n x. unfold has_attribute, attributes. split.
  - intros [l [-> I]]. exact I.
  - destruct (rule v) as [l | ]; [intros I; exists l; split; [reflexivity | exact I] | intros []].
Qed.

Lemma once_attributes : forall e v, attributes_once e -> In v (values e) -> NoDup (map fst (attributes v)).
Proof.
  intros e v H I. unfold attributes. destruct (rule v) as [l | ] eqn:R; [exact (H v l I R) | constructor].
Qed.

Lemma occurrences_one : forall n l (v : value), NoDup (map fst l) ->
  List.length (flat_map (fun a : string * string => if String.eqb (fst a) n then [v] else []) l) =
  if existsb (String.eqb n) (map fst l) then 1 else 0.
Proof.
  intros n l v. induction l as [ | [k x] l IH]; intros N; [reflexivity | ]. cbn [flat_map map fst existsb] in *.
  inversion N as [ | ? ? N1 N2]; subst. rewrite app_length, (IH N2). rewrite (String.eqb_sym n k).
  destruct (String.eqb_spec k n) as [-> | NE]; cbn [List.length orb].
  - destruct (existsb (String.eqb n) (map fst l)) eqn:X; [ | reflexivity]. exfalso. apply N1.
    apply existsb_exists in X. destruct X as [y [I E]]. apply String.eqb_eq in E. subst. exact I.
  - reflexivity.
Qed.

Lemma has_name : forall n v, existsb (String.eqb n) (map fst (attributes v)) = true <-> exists x, has_attribute v n x.
Proof.
  intros n v. rewrite existsb_exists. split.
  - intros [y [I E]]. apply String.eqb_eq in E. subst y. apply in_map_iff in I. destruct I as [[k x] [E I]]. cbn in E. subst k.
    exists x. apply attribute_in. exact I.
  - intros [x H]. exists n. split; [ | apply String.eqb_refl]. apply in_map_iff. exists (n, x). split; [reflexivity | apply attribute_in; exact H].
Qed.

Lemma occurrences_count : forall n vs, (forall v, In v vs -> NoDup (map fst (attributes v))) ->
  List.length (occurrences n vs) <= List.length vs /\
  (List.length (occurrences n vs) = List.length vs <-> forall v, In v vs -> exists x, has_attribute v n x).
Proof.
  intros n vs. induction vs as [ | v vs IH]; intros N.
  - split; [cbn; lia | ]. split; [intros _ v [] | reflexivity].
  - destruct (IH (fun w I => N w (or_intror I))) as [L E]. unfold occurrences in *. cbn [flat_map List.length].
    rewrite app_length, (occurrences_one n (attributes v) v (N v (or_introl eq_refl))).
    pose proof (has_name n v) as H. destruct (existsb (String.eqb n) (map fst (attributes v))).
    + split; [lia | ]. split.
      * intros X w [<- | I]; [apply H; reflexivity | ]. apply E; [lia | exact I].
      * intros X. cbn [Nat.add]. apply f_equal. apply E. intros w I. apply X. right. exact I.
    + split; [lia | ]. split; [lia | ]. intros X. pose proof (proj2 H (X v (or_introl eq_refl))) as Y. discriminate Y.
Qed.

Lemma names_in : forall n vs, In n (attribute_names vs) <-> exists v x, In v vs /\ has_attribute v n x.
Proof.
  intros n vs. unfold attribute_names. rewrite in_flat_map. split.
  - intros [v [I J]]. apply in_map_iff in J. destruct J as [[k x] [E J]]. cbn in E. subst k. exists v, x. split; [exact I | apply attribute_in; exact J].
  - intros [v [x [I H]]]. exists v. split; [exact I | ]. apply in_map_iff. exists (n, x). split; [reflexivity | apply attribute_in; exact H].
Qed.

(** The check is right if no value has an attribute twice. *)
Theorem C60_checked_partial : forall e, attributes_once e ->
  (accepts e = true <-> on_every_value e /\ forall v x, In v (values e) -> ~ has_attribute v "" x).
Proof.
  intros e Once. unfold accepts. rewrite forallb_forall. split.
  - intros H. split.
    + intros v v' n x I I' A. specialize (H n (proj2 (names_in n (values e)) (ex_intro _ v (ex_intro _ x (conj I A))))).
      apply andb_true_iff in H. destruct H as [_ H]. apply Nat.eqb_eq in H.
      apply (occurrences_count n (values e) (fun w J => once_attributes e w Once J)); assumption.
    + intros v x I A. specialize (H "" (proj2 (names_in "" (values e)) (ex_intro _ v (ex_intro _ x (conj I A))))). discriminate H.
  - intros [H NE] n I. apply names_in in I. destruct I as [v [x [I A]]]. apply andb_true_iff. split.
    + destruct (String.eqb_spec n "") as [-> | _]; [destruct (NE v x I A) | reflexivity].
    + apply Nat.eqb_eq. apply (occurrences_count n (values e) (fun w J => once_attributes e w Once J)).
      intros w J. exact (H v w n x I J A).
Qed.
Print Assumptions C60_checked_partial.

Lemma to_int32_id : forall z, int32 z -> to_int32 z = z.
Proof. intros z H. unfold to_int32, int32 in *. rewrite Z.mod_small; lia. Qed.

Lemma entries_all : forall vs, (forall v, In v vs -> exists l, rule v = Some l) ->
  exists l, entries_of vs = Some l /\ l = map (fun v => (number v, attributes v)) vs.
Proof.
  induction vs as [ | v vs IH]; intros H; [exists []; split; reflexivity | ].
  destruct (H v (or_introl eq_refl)) as [a R]. destruct (IH (fun w I => H w (or_intror I))) as [l [E L]].
  exists ((number v, a) :: l). cbn. rewrite R, E. split; [reflexivity | ]. rewrite L. unfold attributes. rewrite R. reflexivity.
Qed.

Lemma distinct_nodup : forall (A : Type) (eqb : A -> A -> bool), (forall x y, eqb x y = true <-> x = y) ->
  forall l, distinct_b eqb l = true <-> NoDup l.
Proof.
  intros A eqb He. induction l as [ | x l IH]; cbn; [split; [constructor | reflexivity] | ].
  rewrite andb_true_iff, negb_true_iff, IH. split.
  - intros [E N]. constructor; [ | exact N]. intros I.
    assert (X : existsb (eqb x) l = true) by (apply existsb_exists; exists x; split; [exact I | apply He; reflexivity]). congruence.
  - intros N. inversion N as [ | ? ? N1 N2]; subst. split; [ | exact N2]. destruct (existsb (eqb x) l) eqn:X; [ | reflexivity].
    apply existsb_exists in X. destruct X as [y [I E]]. apply He in E. subst. contradiction.
Qed.

Lemma has_char_in : forall c s, has_char c s = true -> In c (list_ascii_of_string s).
Proof.
  intros c s. induction s as [ | d s IH]; cbn; [discriminate | ]. intros H. apply orb_true_iff in H.
  destruct H as [H | H]; [left; apply Ascii.eqb_eq; exact H | right; exact (IH H)].
Qed.

Lemma plain_raw : forall s, plain_text s -> raw s = true.
Proof.
  intros s H. unfold raw. apply andb_true_iff. split; apply negb_true_iff.
  - destruct (has_char "`" s) eqn:E; [ | reflexivity]. destruct (H _ (has_char_in _ _ E)) as [X _]. congruence.
  - destruct (has_char "000" s) eqn:E; [ | reflexivity]. destruct (H _ (has_char_in _ _ E)) as [_ [X _]]. congruence.
Qed.

Lemma plain_value : forall s, plain_text s -> go_value s = s.
Proof.
  induction s as [ | c s IH]; intros H; [reflexivity | ]. cbn [go_value].
  destruct (Ascii.eqb_spec c "013") as [E | _].
  - destruct (H c (or_introl eq_refl)) as [_ [_ X]]. congruence.
  - rewrite IH; [reflexivity | ]. intros d I. apply H. right. exact I.
Qed.

Lemma get_in : forall l n x, (forall k y, In (k, y) l -> plain_text k /\ plain_text y) -> NoDup (map fst l) -> In (n, x) l -> get n l = x.
Proof.
  induction l as [ | [k y] l IH]; intros n x P N I; [destruct I | ]. cbn in *. inversion N as [ | ? ? N1 N2]; subst.
  destruct (P k y (or_introl eq_refl)) as [P1 P2]. rewrite (plain_value k P1), (plain_value y P2).
  specialize (IH n x (fun k' y' J => P k' y' (or_intror J))).
  destruct I as [E | I]; [injection E as -> ->; rewrite String.eqb_refl; reflexivity | ].
  destruct (String.eqb_spec k n) as [-> | _]; [ | exact (IH N2 I)]. exfalso. apply N1. apply in_map_iff. exists (n, x). split; [reflexivity | exact I].
Qed.

Lemma get_entry_in : forall vs v, NoDup (map number vs) -> In v vs ->
  get_entry (number v) (map (fun v => (number v, attributes v)) vs) = Some (attributes v).
Proof.
  induction vs as [ | w vs IH]; intros v N I; [destruct I | ]. cbn in *. inversion N as [ | ? ? N1 N2]; subst.
  destruct I as [<- | I]; [rewrite Z.eqb_refl; reflexivity | ]. destruct (Z.eqb_spec (number w) (number v)) as [E | _]; [ | exact (IH v N2 I)].
  exfalso. apply N1. rewrite E. apply in_map. exact I.
Qed.

(** Attributes of an accepted enum are on every value, are generated as valid code and are
    returned, if no value has one twice, no number two names, and the texts have no backquote, NUL or carriage return. *)
Theorem C60_attributes_partial : forall e, proto_enum e -> accepts e = true ->
  attributes_once e -> no_alias e -> plain e ->
  on_every_value e /\
  (forall v n x, In v (values e) -> has_attribute v n x ->
     exists l, generate e = Literal l /\ valid_go l = true /\ attr l (number v) n = Some x).
Proof.
  intros e [Num _] Acc Once Al Bq. pose proof (proj1 (proj1 (C60_checked_partial e Once) Acc)) as Ev. split; [exact Ev | ].
  intros v n x I A.
  assert (Ha : has_attributes e = true).
  { apply has_attributes_spec. destruct A as [l [R J]]. destruct l as [ | a r]; [destruct J | ]. exists v, a, r. split; assumption. }
  assert (Hr : forall w, In w (values e) -> exists l, rule w = Some l).
  { intros w J. destruct (Ev v w n x I J A) as [x' [l [R _]]]. exists l. exact R. }
  destruct (entries_all (values e) Hr) as [l [E L]]. exists l. unfold generate. rewrite Ha, E. split; [reflexivity | ]. split.
  - unfold valid_go. apply andb_true_iff. split.
    + apply (distinct_nodup Z Z.eqb Z.eqb_eq). rewrite L, map_map. cbn. exact Al.
    + apply forallb_forall. intros [z a] J. rewrite L in J. apply in_map_iff in J. destruct J as [w [X J]]. injection X as <- <-. cbn [snd].
      apply andb_true_iff. split.
      * apply (distinct_nodup string String.eqb String.eqb_eq). rewrite (map_ext_in _ fst); [exact (once_attributes e w Once J) | ].
        intros [k y] K. apply attribute_in in K. apply plain_value. exact (proj1 (Bq w k y J K)).
      * apply forallb_forall. intros [k y] K. apply attribute_in in K. destruct (Bq w k y J K) as [B1 B2]. cbn [fst snd].
        rewrite (plain_raw k B1), (plain_raw y B2). reflexivity.
  - unfold attr. rewrite (to_int32_id _ (Num v I)), L, (get_entry_in _ v Al I). f_equal.
    apply get_in; [intros k y K; apply attribute_in in K; exact (Bq v k y I K) | exact (once_attributes e v Once I) | apply attribute_in; exact A].
Qed.
Print Assumptions C60_attributes_partial.

Lemma get_entry_none : forall vs z, ~ In z (map number vs) ->
  get_entry z (map (fun v => (number v, attributes v)) vs) = None.
Proof.
  induction vs as [ | v vs IH]; intros z N; [reflexivity | ]. cbn in *.
  destruct (Z.eqb_spec (number v) z) as [E | _]; [exfalso; apply N; left; exact E | ]. apply IH. intros I. apply N. right. exact I.
Qed.

Lemma entries_some : forall vs l, entries_of vs = Some l -> l = map (fun v => (number v, attributes v)) vs.
Proof.
  induction vs as [ | v vs IH]; intros l E; cbn in E; [injection E as <-; reflexivity | ].
  cbn [map]. destruct (rule v) as [a | ] eqn:R; [ | discriminate E].
  destruct (entries_of vs) as [r | ] eqn:X; [ | discriminate E]. injection E as <-. rewrite (IH r eq_refl). unfold attributes at 2. rewrite R. reflexivity.
Qed.

Lemma get_absent : forall l n, (forall k y, In (k, y) l -> plain_text k) -> ~ In n (map fst l) -> get n l = "".
Proof.
  induction l as [ | [k y] l IH]; intros n P N; [reflexivity | ]. cbn in *. rewrite (plain_value k (P k y (or_introl eq_refl))).
  destruct (String.eqb_spec k n) as [E | _]; [exfalso; apply N; left; exact E | ].
  apply IH; [intros k' y' I; apply (P k' y'); right; exact I | intros I; apply N; right; exact I].
Qed.

(** A number that is not declared is an error, and a name that is not an attribute is empty. *)
Theorem C60_attr_absent : forall e l, proto_enum e -> generate e = Literal l ->
  (forall z n, int32 z -> ~ In z (map number (values e)) -> attr l z n = None) /\
  (forall v n, no_alias e -> plain e -> In v (values e) -> (forall x, ~ has_attribute v n x) -> attr l (number v) n = Some "").
Proof.
  intros e l [Num _] G. unfold generate in G. destruct (has_attributes e); [ | discriminate G].
  destruct (entries_of (values e)) as [l' | ] eqn:E; [ | discriminate G]. injection G as <-. rewrite (entries_some _ _ E). unfold attr. split.
  - intros z n R N. rewrite (to_int32_id _ R), (get_entry_none _ _ N). reflexivity.
  - intros v n Al P I A. rewrite (to_int32_id _ (Num v I)), (get_entry_in _ v Al I). f_equal. apply get_absent.
    + intros k y J. apply attribute_in in J. exact (proj1 (P v k y I J)).
    + intros J. apply in_map_iff in J. destruct J as [[k y] [X J]]. cbn in X. subst k. apply (A y). apply attribute_in. exact J.
Qed.
Print Assumptions C60_attr_absent.

(** An attribute that is twice on one value makes up for one that is missing on another: the
    enum is accepted, and generating it crashes. *)
Definition twice : enum := {| fqdn := "t.E"; id := 0; values := [
  {| vname := "A"; number := 0; rule := Some [("label", "x"); ("label", "y")] |};
  {| vname := "B"; number := 1; rule := None |} ] |}.

Theorem C60_refuted : ~ C60_statement.
Proof.
  intros H. destruct (H twice) as [_ G].
  - split; [intros v I; cbn in I; destruct I as [<- | [<- | []]]; unfold int32; cbn; lia | ].
    cbn. repeat constructor; cbn; intuition discriminate.
  - vm_compute. reflexivity.
  - destruct (G {| vname := "A"; number := 0; rule := Some [("label", "x"); ("label", "y")] |} "label" "x") as [l [X _]].
    + left. reflexivity.
    + exists [("label", "x"); ("label", "y")]. split; [reflexivity | left; reflexivity].
    + vm_compute in X. discriminate X.
Qed.
Print Assumptions C60_refuted.

Theorem C60_crash : accepts twice = true /\ generate twice = Panic /\ ~ on_every_value twice.
Proof.
  split; [vm_compute; reflexivity | ]. split; [vm_compute; reflexivity | ]. intros H.
  destruct (H {| vname := "A"; number := 0; rule := Some [("label", "x"); ("label", "y")] |} {| vname := "B"; number := 1; rule := None |} "label" "x") as [x' [l [R _]]].
  - left. reflexivity.
  - right. left. reflexivity.
  - exists [("label", "x"); ("label", "y")]. split; [reflexivity | left; reflexivity].
  - discriminate R.
Qed.
Print Assumptions C60_crash.

(** A carriage return in the text of an attribute is not part of what the accessor returns. *)
Definition returning : enum := {| fqdn := "t.E"; id := 0; values := [ {| vname := "A"; number := 1; rule := Some [("label", String "a" (String "013" "b"))] |} ] |}.
Theorem C60_text_refuted : proto_enum returning /\ accepts returning = true /\ attributes_once returning /\ no_alias returning /\
  exists l, generate returning = Literal l /\ valid_go l = true /\ attr l 1 "label" = Some "ab".
Proof.
  split; [split | ].
  - intros v I. cbn in I. destruct I as [<- | []]; unfold int32; cbn; lia.
  - cbn. repeat constructor; intros [].
  - split; [vm_compute; reflexivity | ]. split; [ | split].
    + intros v l I R. cbn in I. destruct I as [<- | []]; cbn in R; injection R as <-; cbn; repeat constructor; intros [].
    + cbn. repeat constructor; intros [].
    + eexists. split; [vm_compute; reflexivity | split; vm_compute; reflexivity].
Qed.
Print Assumptions C60_text_refuted.

(** Two names of one number (allow_alias), or a backquote: what is generated is not Go. *)
Definition alias_enum : enum := {| fqdn := "t.E"; id := 0; values := [
  {| vname := "A"; number := 1; rule := Some [("label", "x")] |};
  {| vname := "B"; number := 1; rule := Some [("label", "y")] |} ] |}.
Definition quoted : enum := {| fqdn := "t.E"; id := 0; values := [ {| vname := "A"; number := 1; rule := Some [("label", "`")] |} ] |}.

Theorem C60_invalid_go_refuted :
  (proto_enum alias_enum /\ accepts alias_enum = true /\ attributes_once alias_enum /\ exists l, generate alias_enum = Literal l /\ valid_go l = false) /\
  (proto_enum quoted /\ accepts quoted = true /\ attributes_once quoted /\ no_alias quoted /\ exists l, generate quoted = Literal l /\ valid_go l = false).
Proof.
  split.
  - split; [split | ].
    + intros v I. cbn in I. destruct I as [<- | [<- | []]]; unfold int32; cbn; lia.
    + cbn. repeat constructor; cbn; intuition discriminate.
    + split; [vm_compute; reflexivity | ]. split.
      * intros v l I R. cbn in I. destruct I as [<- | [<- | []]]; cbn in R; injection R as <-; cbn; repeat constructor; intros [].
      * eexists. split; [vm_compute; reflexivity | vm_compute; reflexivity].
  - split; [split | ].
    + intros v I. cbn in I. destruct I as [<- | []]; unfold int32; cbn; lia.
    + cbn. repeat constructor; intros [].
    + split; [vm_compute; reflexivity | ]. split; [ | split].
      * intros v l I R. cbn in I. destruct I as [<- | []]; cbn in R; injection R as <-; cbn; repeat constructor; intros [].
      * cbn. repeat constructor; intros [].
      * eexists. split; [vm_compute; reflexivity | vm_compute; reflexivity].
Qed.
Print Assumptions C60_invalid_go_refuted.

(** ** name, value and from *)

Lemma number_of_in : forall vs v, NoDup (map vname vs) -> In v vs -> number_of (vname v) vs = number v.
Proof.
  induction vs as [ | w vs IH]; intros v N I; [destruct I | ]. cbn in *. inversion N as [ | ? ? N1 N2]; subst.
  destruct I as [<- | I]; [rewrite String.eqb_refl; reflexivity | ].
  destruct (String.eqb_spec (vname w) (vname v)) as [E | _]; [ | exact (IH v N2 I)]. exfalso. apply N1. rewrite E. apply in_map. exact I.
Qed.

(** A name is turned into its number and a number into the first of its names; what is not
    declared, into zero and the empty name. *)
Theorem C60_accessors : forall e, proto_enum e ->
  (forall v, In v (values e) -> value_accessor e (vname v) = number v) /\
  (forall before v after, values e = (before ++ v :: after)%list -> ~ In (number v) (map number before) ->
     name_accessor e (number v) = vname v) /\
  (forall n, ~ In n (map vname (values e)) -> value_accessor e n = 0%Z) /\
  (forall z, int32 z -> ~ In z (map number (values e)) -> name_accessor e z = "") /\
  (forall z, from_accessor z = z).
Proof.
  intros e [Num Names]. unfold value_accessor, name_accessor. split; [ | split; [ | split; [ | split]]].
  - intros v I. exact (number_of_in (values e) v Names I).
  - intros before v after E N.
    assert (R : int32 (number v)) by (apply Num; rewrite E; apply in_or_app; right; left; reflexivity).
    rewrite (to_int32_id _ R), E. clear - N. induction before as [ | w before IH]; cbn.
    + rewrite Z.eqb_refl. reflexivity.
    + destruct (Z.eqb_spec (number w) (number v)) as [X | _]; [exfalso; apply N; left; exact X | ]. apply IH. intros I. apply N. right. exact I.
  - intros n N. revert N. clear. generalize (values e) as vs. induction vs as [ | w vs IH]; intros N; [reflexivity | ]. cbn in *.
    destruct (String.eqb_spec (vname w) n) as [X | _]; [exfalso; apply N; left; exact X | ]. apply IH. intros I. apply N. right. exact I.
  - intros z R N. rewrite (to_int32_id _ R). revert N. clear. generalize (values e) as vs. induction vs as [ | w vs IH]; intros N; [reflexivity | ]. cbn in *.
    destruct (Z.eqb_spec (number w) z) as [X | _]; [exfalso; apply N; left; exact X | ]. apply IH. intros I. apply N. right. exact I.
  - reflexivity.
Qed.
Print Assumptions C60_accessors.

(** Without a second name for a number, names come back. *)
Theorem C60_round_trip : forall e v, proto_enum e -> no_alias e -> In v (values e) ->
  name_accessor e (value_accessor e (vname v)) = vname v /\ value_accessor e (name_accessor e (number v)) = number v.
Proof.
  intros e v P Al I. destruct (C60_accessors e P) as [V [N _]].
  apply in_split in I as S. destruct S as [before [after E]].
  assert (X : name_accessor e (number v) = vname v).
  { apply (N before v after E). unfold no_alias in Al. rewrite E, map_app in Al. cbn in Al. apply NoDup_remove_2 in Al.
    intros J. apply Al. apply in_or_app. left. exact J. }
  rewrite (V v I), X. split; [reflexivity | exact (V v I)].
Qed.
Print Assumptions C60_round_trip.

(** A number that does not fit is taken for one that does. *)
Definition small : enum := {| fqdn := "t.E"; id := 0; values := [ {| vname := "A"; number := 1; rule := None |} ] |}.
Theorem C60_out_of_range_refuted : exists e z, proto_enum e /\ ~ In z (map number (values e)) /\ name_accessor e z <> "".
Proof.
  exists small, (2 ^ 32 + 1)%Z. split; [split | split].
  - intros v [<- | []]. unfold int32. cbn. lia.
  - cbn. repeat constructor. intros [].
  - cbn. lia.
  - vm_compute. discriminate.
Qed.
Print Assumptions C60_out_of_range_refuted.

(** Example: an enum with two attributes on each of two values. *)
Definition colours : enum := {| fqdn := "t.Colour"; id := 0; values := [
  {| vname := "RED"; number := 0; rule := Some [("label", "red"); ("code", "f00")] |};
  {| vname := "BLUE"; number := -1; rule := Some [("code", "00f"); ("label", "blue")] |} ] |}.
Example C60_colours : proto_enum colours /\ accepts colours = true /\ attributes_once colours /\ no_alias colours /\ plain colours /\
  exists l, generate colours = Literal l /\ attr l (-1) "label" = Some "blue".
Proof.
  split; [split | ].
  - intros v I. cbn in I. destruct I as [<- | [<- | []]]; unfold int32; cbn; lia.
  - cbn. repeat constructor; cbn; intuition discriminate.
  - split; [vm_compute; reflexivity | ]. split; [ | split; [ | split]].
    + intros v l I R. cbn in I. destruct I as [<- | [<- | []]]; cbn in R; injection R as <-; cbn; repeat constructor; cbn; intuition discriminate.
    + unfold no_alias. cbn. repeat constructor; cbn; intuition discriminate.
    + intros v n x I [l [R J]]. cbn in I. destruct I as [<- | [<- | []]]; cbn in R; injection R as <-; cbn in J;
        destruct J as [J | [J | []]]; injection J as <- <-; split; intros c K; cbn in K;
        repeat (destruct K as [<- | K]; [repeat split; discriminate | ]); destruct K.
    + eexists. split; vm_compute; reflexivity.
Qed.
