From Coq Require Import Ascii String List Bool Arith Lia.
From Verif.Base Require Import Text TextProofs.
From Verif.Watch Require Import Model Spec.
Import ListNotations.
Local Open Scope string_scope.

(** * Filters *)
Lemma app_length_s a b : String.length (a ++ b) = (String.length a + String.length b)%nat.
Proof. induction a; cbn; congruence. Qed.
Lemma ext_suffix s : exists b, s = b ++ ext s.
Proof.
  induction s as [|c s [b IH]]; [exists ""; reflexivity|]. cbn. destruct (ext s) as [|d e] eqn:E.
  - destruct (Ascii.eqb c "." && negb (has_char "/" s)); [exists ""; reflexivity|]. exists (String c s). clear. cbn. f_equal. induction s; cbn; congruence.
  - exists (String c b). cbn. rewrite <- IH. reflexivity.
Qed.
Lemma ext_proto b : ext (b ++ ".proto") = ".proto".
Proof. induction b as [|c b IH]; [reflexivity|]. change (String c b ++ ".proto") with (String c (b ++ ".proto")). cbn [ext]. rewrite IH. reflexivity. Qed.
Lemma prefix1 c s : String.prefix (String c "") s = true <-> exists b, s = String c "" ++ b.
Proof.
  destruct s as [|d s]; cbn; [split; [discriminate|intros [b E]; discriminate]|]. destruct (ascii_dec c d) as [->|N]; cbn.
  - split; [intros _; exists s; reflexivity|]. destruct s; reflexivity.
  - split; [discriminate|]. intros [b E]. injection E as E _. congruence.
Qed.
Lemma ignore_iff p : ignoreFilePath p = false <-> (exists b, p = b ++ ".proto") /\ ~ (exists b, p = "#" ++ b) /\ ~ (exists b, p = "." ++ b).
Proof.
  unfold ignoreFilePath. rewrite <- (prefix1 "#"%char), <- (prefix1 "."%char). destruct (String.prefix "#" p); [split; [discriminate|intros (_ & N & _); congruence]|].
  destruct (String.prefix "." p); [split; [discriminate|intros (_ & _ & N); congruence]|]. destruct (String.eqb_spec (ext p) ".proto") as [E|N]; cbn.
  - split; [|reflexivity]. intros _. split; [|split; discriminate]. destruct (ext_suffix p) as [b H]. rewrite E in H. eauto.
  - split; [discriminate|]. intros ([b ->] & _). rewrite ext_proto in N. congruence.
Qed.
Lemma modified_iff o : isModified o = true <-> (o_write o = true \/ o_create o = true \/ o_remove o = true \/ o_rename o = true).
Proof. unfold isModified. destruct (o_write o), (o_create o), (o_remove o), (o_rename o); cbn; intuition discriminate. Qed.

(** * Loops *)
Definition pending (s : state) : list event :=
  (queue s ++ match sending s with Some e => [e] | None => [] end ++ match recv s with Got e | Running e => [e] | _ => [] end)%list.
Definition witness (s : state) (p : path) : Prop :=
  exists e, e_path e = p /\ e_version e = version s p /\ isModified (e_ops e) = true /\ ignoreFilePath p = false /\ (In e (pending s) \/ In e (missed s)).
Definition inv (s : state) : Prop := forall p, handled s p = version s p \/ witness s p.
Lemma inv_init : inv init. Proof. intros p. left. reflexivity. Qed.
Lemma inv_step a s s' : inv s -> proto_change a -> step a s = Some s' -> inv s'.
Proof.
  intros V PC E p. destruct a as [q o|q o| | | | |]; cbn [step] in E.
  - injection E as <-. cbn [handled version]. unfold bump. destruct (String.eqb_spec p q) as [->|N].
    + right. exists {| e_path := q; e_ops := o; e_version := S (version s q) |}. cbn. unfold bump. rewrite String.eqb_refl. destruct PC as [M I].
      split; [reflexivity|]. split; [reflexivity|]. split; [apply modified_iff; exact M|]. split; [apply ignore_iff; exact I|]. left. unfold pending. cbn. rewrite !in_app_iff. cbn. auto.
    + destruct (V p) as [H|(e & H1 & H2 & H3 & H4 & H5)]; [auto|]. right. exists e. cbn. unfold bump. destruct (String.eqb_spec p q); [congruence|].
      repeat (split; [assumption|]). destruct H5 as [H5|H5]; [|auto]. left. unfold pending in *. cbn. rewrite !in_app_iff in *. tauto.
  - injection E as <-. destruct (V p) as [H|(e & H1 & H2 & H3 & H4 & H5)]; [auto|]. right. exists e. cbn.
    repeat (split; [assumption|]). destruct H5 as [H5|H5]; [|auto]. left. unfold pending in *. cbn. rewrite !in_app_iff in *. tauto.
  - destruct (queue s) as [|e0 l] eqn:Q; [discriminate|]. destruct (sending s) eqn:SD; [discriminate|]. injection E as <-.
    assert (G : inv s) by exact V. clear V. specialize (G p). unfold witness, pending in G. rewrite Q, SD in G.
    destruct (working s); [|destruct (isModified (e_ops e0)) eqn:M; cbn [negb]; [destruct (ignoreFilePath (e_path e0)) eqn:IG|]];
      (destruct G as [H|(e & H1 & H2 & H3 & H4 & H5)]; [left; exact H|right; exists e]); cbn [version missed];
      (split; [exact H1|split; [exact H2|split; [exact H3|split; [exact H4|]]]]); unfold pending; cbn [queue sending recv]; cbn [app] in *;
      (destruct H5 as [H5|H5]; [|solve [right; exact H5|right; right; exact H5]]); rewrite ?in_app_iff in *; cbn in *.
    + destruct H5 as [->|H5]; [right; left; reflexivity|left; rewrite ?in_app_iff in *; cbn in *; tauto].
    + left. destruct H5 as [->|H5]; [congruence|rewrite ?in_app_iff in *; cbn in *; tauto].
    + left. destruct H5 as [->|H5]; rewrite ?in_app_iff in *; cbn in *; tauto.
    + left. destruct H5 as [->|H5]; [congruence|rewrite ?in_app_iff in *; cbn in *; tauto].
  - destruct (sending s) as [e0|] eqn:SD; [|discriminate]. destruct (recv s) eqn:R; try discriminate. injection E as <-.
    destruct (V p) as [H|(e & H1 & H2 & H3 & H4 & H5)]; [auto|]. right. exists e. cbn. repeat (split; [assumption|]). destruct H5 as [H5|H5]; [|auto]. left.
    unfold pending in *. cbn. rewrite SD, R in H5. rewrite !in_app_iff in *. cbn in *. tauto.
  - destruct (recv s) as [|e0|e0|e0] eqn:R; try discriminate. injection E as <-.
    destruct (V p) as [H|(e & H1 & H2 & H3 & H4 & H5)]; [auto|]. right. exists e. cbn. repeat (split; [assumption|]). destruct H5 as [H5|H5]; [|auto]. left.
    unfold pending in *. cbn. rewrite R in H5. exact H5.
  - destruct (recv s) as [|e0|e0|e0] eqn:R; try discriminate. injection E as <-. cbn [handled version]. unfold update.
    destruct (String.eqb_spec p (e_path e0)) as [->|N]; [left; reflexivity|].
    destruct (V p) as [H|(e & H1 & H2 & H3 & H4 & H5)]; [auto|]. right. exists e. cbn. repeat (split; [assumption|]). destruct H5 as [H5|H5]; [|auto]. left.
    unfold pending in *. cbn. rewrite R in H5. rewrite !in_app_iff in *. cbn in *. destruct H5 as [H5|[H5|[H5|[]]]]; [auto|auto|]. subst. congruence.
  - destruct (recv s) as [|e0|e0|e0] eqn:R; try discriminate. injection E as <-.
    destruct (V p) as [H|(e & H1 & H2 & H3 & H4 & H5)]; [auto|]. right. exists e. cbn. repeat (split; [assumption|]). destruct H5 as [H5|H5]; [|auto]. left.
    unfold pending in *. cbn. rewrite R in H5. exact H5.
Qed.
Lemma inv_run : forall l s s', inv s -> Forall proto_change l -> run l s = Some s' -> inv s'.
Proof.
  induction l as [|a l IH]; cbn; intros s s' V F E; [injection E as <-; exact V|]. inversion F; subst. destruct (step a s) as [s1|] eqn:S; [|discriminate].
  apply (IH s1); [eapply inv_step; eassumption|assumption|exact E].
Qed.
Lemma stopped_pending s : stopped s -> pending s = [] /\ recv s = Idle.
Proof.
  intros H. assert (R : recv s = Idle).
  { destruct (recv s) eqn:R; [reflexivity| | |].
    - specialize (H Start (fun x => x)). cbn in H. rewrite R in H. discriminate.
    - specialize (H Read (fun x => x)). cbn in H. rewrite R in H. discriminate.
    - specialize (H Finish (fun x => x)). cbn in H. rewrite R in H. discriminate. }
  assert (S : sending s = None).
  { destruct (sending s) eqn:S; [|reflexivity]. specialize (H Receive (fun x => x)). cbn in H. rewrite R, S in H. discriminate. }
  assert (Q : queue s = []).
  { destruct (queue s) eqn:Q; [reflexivity|]. specialize (H Take (fun x => x)). cbn in H. rewrite S, Q in H. discriminate. }
  unfold pending. rewrite Q, S, R. auto.
Qed.
Definition measure (s : state) : nat :=
  5 * List.length (queue s) + match sending s with Some _ => 4 | None => 0 end + match recv s with Idle => 0 | Got _ => 3 | Running _ => 2 | Ran _ => 1 end.
Lemma internal_decreases a s s' : ~ external a -> step a s = Some s' -> measure s' < measure s.
Proof.
  intros N E. unfold measure. destruct a as [q o|q o| | | | |]; cbn [external step] in *; try tauto.
  - destruct (queue s) as [|e0 l]; [discriminate|]. destruct (sending s); [discriminate|]. injection E as <-. cbn [List.length].
    destruct (working s); [|destruct (isModified _); cbn [negb]; [destruct (ignoreFilePath _)|]]; cbn [queue sending recv]; lia.
  - destruct (sending s); [|discriminate]. destruct (recv s); try discriminate. injection E as <-. cbn [queue sending recv]. lia.
  - destruct (recv s); try discriminate. injection E as <-. cbn [queue sending recv]. lia.
  - destruct (recv s); try discriminate. injection E as <-. cbn [queue sending recv]. lia.
  - destruct (recv s); try discriminate. injection E as <-. cbn [queue sending recv]. lia.
Qed.
Lemma internal_bounded : forall l s s', Forall (fun a => ~ external a) l -> run l s = Some s' -> List.length l + measure s' <= measure s.
Proof.
  induction l as [|a l IH]; cbn [run List.length]; intros s s' F E; [injection E as <-; lia|]. inversion F; subst. destruct (step a s) as [s1|] eqn:S; [|discriminate].
  apply internal_decreases in S; [|assumption]. apply IH in E; [lia|assumption].
Qed.
Lemma stops : forall n s, measure s <= n -> exists l s', Forall (fun a => ~ external a) l /\ run l s = Some s' /\ stopped s'.
Proof.
  induction n as [|n IH]; intros s M.
  - exists [], s. split; [constructor|]. split; [reflexivity|]. intros a N. destruct (step a s) as [s'|] eqn:E; [|reflexivity]. apply internal_decreases in E; [lia|exact N].
  - assert (D : (exists a s1, ~ external a /\ step a s = Some s1) \/ stopped s).
    { destruct (step Take s) eqn:E1; [left; exists Take; eauto|]. destruct (step Receive s) eqn:E2; [left; exists Receive; eauto|].
      destruct (step Start s) eqn:E3; [left; exists Start; eauto|]. destruct (step Read s) eqn:E4; [left; exists Read; eauto|].
      destruct (step Finish s) eqn:E5; [left; exists Finish; eauto|]. right. intros a N. destruct a; try assumption; destruct N; exact I. }
    destruct D as [(a & s1 & N & E)|D].
    + pose proof (internal_decreases a s s1 N E). destruct (IH s1 ltac:(lia)) as (l & s' & F & R & S). exists (a :: l), s'. cbn. rewrite E. auto.
    + exists [], s. split; [constructor|]. auto.
Qed.

(** * Why the generator runs, and one at a time *)
Definition caused (l : list action) (p : path) : Prop := exists o, In (Change p o) l \/ In (Noise p o) l.
Lemma runs_caused : forall l s, run l init = Some s -> (forall e, In e (pending s) -> caused l (e_path e)) /\ (forall p, In p (runs s) -> caused l p).
Proof.
  assert (RA : forall l a s, run (l ++ [a]) init = Some s -> exists s1, run l init = Some s1 /\ step a s1 = Some s).
  { intros l a. generalize init. induction l as [|b l IH]; cbn; intros s0 s E.
    - destruct (step a s0) as [s1|] eqn:E1; [|discriminate]. injection E as <-. eauto.
    - destruct (step b s0) as [s1|]; [|discriminate]. apply IH. exact E. }
  assert (MO : forall l a p, caused l p -> caused (l ++ [a]) p).
  { intros l a p [o [H|H]]; exists o; [left|right]; apply in_or_app; auto. }
  induction l as [|a l IH] using rev_ind; intros s E.
  - injection E as <-. split; intros x [].
  - apply RA in E. destruct E as (s1 & E1 & E2). destruct (IH s1 E1) as [P R]. 
    assert (K : forall x, caused l x -> caused (l ++ [a]) x) by auto.
    destruct a as [q o|q o| | | | |]; cbn [step] in E2.
    + injection E2 as <-. split; [|cbn; auto]. unfold pending in *. cbn. intros e I. rewrite !in_app_iff in *. cbn in I. destruct I as [[I|[<-|[]]]|I].
      * apply K, P. apply in_or_app. auto.
      * cbn. exists o. left. apply in_or_app. right. left. reflexivity.
      * apply K, P. apply in_or_app. right. apply in_or_app. exact I.
    + injection E2 as <-. split; [|cbn; auto]. unfold pending in *. cbn. intros e I. rewrite !in_app_iff in *. cbn in I. destruct I as [[I|[<-|[]]]|I].
      * apply K, P. apply in_or_app. auto.
      * cbn. exists o. right. apply in_or_app. right. left. reflexivity.
      * apply K, P. apply in_or_app. right. apply in_or_app. exact I.
    + unfold pending in *. destruct (queue s1) as [|e0 k] eqn:Q; [discriminate|]. destruct (sending s1) eqn:SD; [discriminate|]. injection E2 as <-.
      destruct (working s1); [|destruct (isModified (e_ops e0)); cbn [negb]; [destruct (ignoreFilePath (e_path e0))|]]; cbn [queue sending recv runs];
        (split; [|auto]); intros e I; apply K, P; cbn in *; rewrite ?in_app_iff in *; cbn in *; tauto.
    + unfold pending in *. destruct (sending s1) as [e0|] eqn:SD; [|discriminate]. destruct (recv s1) eqn:RV; try discriminate. injection E2 as <-. cbn.
      split; [|auto]. intros e I; apply K, P. rewrite ?in_app_iff in *; cbn in *; tauto.
    + unfold pending in *. destruct (recv s1) eqn:RV; try discriminate. injection E2 as <-. cbn. split; auto.
    + unfold pending in *. destruct (recv s1) as [|e0|e0|e0] eqn:RV; try discriminate. injection E2 as <-. cbn. split.
      * intros e I; apply K, P. rewrite ?in_app_iff in *; cbn in *; tauto.
      * intros p [<-|I]; [|auto]. apply K, P. rewrite !in_app_iff. cbn. auto.
    + unfold pending in *. destruct (recv s1) eqn:RV; try discriminate. injection E2 as <-. cbn. split; auto.
Qed.

(** * Trees *)
Definition starts (c : ascii) (s : string) : bool := match s with String d _ => Ascii.eqb d c | _ => false end.
Lemma prefix_starts c s : String.prefix (String c "") s = starts c s.
Proof. destruct s as [|d s]; cbn; [reflexivity|]. destruct (ascii_dec c d) as [->|N]; [rewrite Ascii.eqb_refl; destruct s; reflexivity|]. destruct (Ascii.eqb_spec d c); congruence. Qed.
Lemma join_starts c dir name : dir <> "" -> starts "." dir = false -> starts c (joinPath dir name) = starts c dir.
Proof.
  intros N S. unfold joinPath. destruct (String.eqb_spec dir ".") as [->|_]; [discriminate|]. destruct dir as [|d dir]; [congruence|]. cbn in S.
  assert (E : strip_dot (String d dir) = String d dir).
  { unfold strip_dot. destruct (Ascii.eqb_spec d ".") as [|H]; [discriminate|]. destruct d as [[] [] [] [] [] [] [] []]; try reflexivity. destruct H. reflexivity. }
  rewrite E. reflexivity.
Qed.
Lemma join_not_empty dir name : dir <> "" -> starts "." dir = false -> joinPath dir name <> "".
Proof.
  intros N S E. pose proof (fun c => join_starts c dir name N S) as H. rewrite E in H. destruct dir as [|d dir]; [congruence|]. specialize (H d). cbn in H. rewrite Ascii.eqb_refl in H. discriminate.
Qed.
Lemma below_watched p t dir file : below p t dir file -> p <> "" -> starts "." p = false -> In dir (walk p t) /\ dir <> "" /\ forall c, starts c dir = starts c p.
Proof.
  induction 1 as [p ch name I|p ch name t dir file I B IH]; intros N S; cbn [walk].
  - split; [|auto]. change "." with (String "." "") . rewrite prefix_starts, S. left. reflexivity.
  - destruct IH as (H1 & H2 & H3).
    + apply join_not_empty; assumption.
    + rewrite join_starts; assumption.
    + split; [|split; [exact H2|intros c; rewrite H3; apply join_starts; assumption]]. apply in_or_app. right. apply in_flat_map. exists (name, t). auto.
Qed.
