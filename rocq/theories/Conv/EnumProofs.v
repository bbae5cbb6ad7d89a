From Coq Require Import Ascii String List Bool Arith ZArith Lia.
From Verif.Base Require Import Text TextProofs.
From Verif.Conv Require Import Enum EnumSpec.
Import ListNotations.
Local Open Scope string_scope.

(** *** Strings *)
Lemma prefix_app : forall p s, String.prefix p (p ++ s) = true.
Proof. induction p as [|c p IH]; intros s; [destruct s; reflexivity|]. cbn. destruct (ascii_dec c c); [apply IH|contradiction]. Qed.
Lemma prefix_spec : forall p s, String.prefix p s = true -> s = p ++ substring (String.length p) (String.length s - String.length p) s.
Proof.
  induction p as [|c p IH]; intros s H; cbn [append String.length].
  - rewrite Nat.sub_0_r. clear H. induction s as [|c s IH]; [reflexivity|]. cbn. f_equal. exact IH.
  - destruct s as [|d s]; [discriminate H|]. cbn in H. destruct (ascii_dec c d) as [->|]; [|discriminate H]. cbn. f_equal. apply IH, H.
Qed.
Lemma substring_app : forall p s, substring (String.length p) (String.length (p ++ s) - String.length p) (p ++ s) = s.
Proof.
  induction p as [|c p IH]; intros s; cbn [append String.length].
  - rewrite Nat.sub_0_r. induction s as [|c s IH]; [reflexivity|]. cbn. f_equal. exact IH.
  - cbn. apply IH.
Qed.
Lemma app_inv_string : forall p a b, (p ++ a)%string = p ++ b -> a = b.
Proof. induction p as [|c p IH]; intros a b H; [exact H|]. cbn in H. injection H as H. apply IH, H. Qed.
Lemma app_assoc_string : forall a b c : string, (a ++ b) ++ c = a ++ (b ++ c).
Proof. induction a as [|x a IH]; intros b c; [reflexivity|]. cbn. f_equal. apply IH. Qed.
Lemma length_append : forall a b, String.length (a ++ b) = String.length a + String.length b.
Proof. induction a as [|c a IH]; intros b; [reflexivity|]. cbn. rewrite IH. reflexivity. Qed.
(** What stands after the last dot is determined. *)
Lemma last_part : forall a b x y, has_char "." x = false -> has_char "." y = false -> a ++ "." ++ x = b ++ "." ++ y -> x = y.
Proof.
  assert (N : forall s x, has_char "." x = false -> x = s ++ String "." "" ++ "" -> False).
  { intros s x H E. subst x. rewrite has_char_app in H. cbn in H. rewrite orb_true_r in H. discriminate H. }
  induction a as [|c a IH]; intros b x y Hx Hy E.
  - destruct b as [|d b]; cbn in E; [injection E as E; exact E|]. injection E as _ E. exfalso. rewrite E in Hx. rewrite has_char_app in Hx.
    cbn in Hx. rewrite orb_true_r in Hx. discriminate Hx.
  - destruct b as [|d b]; cbn in E.
    + injection E as _ E. exfalso. rewrite <- E in Hy. rewrite has_char_app in Hy. cbn in Hy. rewrite orb_true_r in Hy. discriminate Hy.
    + injection E as _ E. exact (IH b x y Hx Hy E).
Qed.
Lemma first_part : forall a b x y, has_char "." x = false -> has_char "." y = false -> a ++ "." ++ x = b ++ "." ++ y -> a = b.
Proof.
  intros a b x y Hx Hy E. pose proof (last_part _ _ _ _ Hx Hy E) as ->.
  assert (L : forall p q s, (p ++ s)%string = q ++ s -> p = q).
  { induction p as [|c p IH]; intros q s H.
    - destruct q as [|d q]; [reflexivity|]. exfalso. apply (f_equal String.length) in H. cbn in H. rewrite (length_append q s) in H. lia.
    - destruct q as [|d q]; [exfalso; apply (f_equal String.length) in H; cbn in H; rewrite (length_append p s) in H; lia|].
      cbn in H. injection H as -> H. f_equal. eapply IH; exact H. }
  eapply L; exact E.
Qed.

Section Proofs.
  Variable enums : nat -> enum.
  Notation Value e n := (Enum.Value (enums e) n).
  Notation well_named := (well_named enums). Notation names := (names enums). Notation declares := (declares enums).
  Notation values e := (e_values (enums e)).

  Lemma named_spec : forall e n w, well_named e -> (named (enums e) n = Some w <-> In w (values e) /\ v_name w = n).
  Proof.
    intros e n w (ND & _ & _). unfold named. induction (values e) as [|v l IH]; [split; [discriminate|intros [[] _]]|].
    cbn in *. inversion ND as [|? ? N1 N2]; subst. destruct (String.eqb (v_name v) n) eqn:E.
    - apply String.eqb_eq in E. subst n. split; [intros H; injection H as <-; auto|]. intros [[->|H] Hn]; [reflexivity|].
      exfalso. apply N1. rewrite <- Hn. apply in_map, H.
    - rewrite IH by assumption. split; [tauto|]. intros [[->|H] Hn]; [|auto]. subst n. rewrite String.eqb_refl in E. discriminate E.
  Qed.
  Lemma no_dot : forall e w, well_named e -> In w (values e) -> has_char "." (v_name w) = false.
  Proof. intros e w (_ & H & _) Hw. rewrite Forall_forall in H. apply H, Hw. Qed.

  Lemma Value_spec : forall e n w, well_named e ->
    (Value e n = Some w <-> In w (values e) /\ (n = v_name w \/ n = e_fqdn (enums e) ++ "." ++ v_name w)).
  Proof.
    intros e n w W. unfold Enum.Value. destruct (has_char "." n) eqn:D.
    - destruct (String.prefix (e_fqdn (enums e) ++ ".") n) eqn:P.
      + rewrite named_spec by exact W. apply prefix_spec in P. remember (substring _ _ n) as t. rewrite app_assoc_string in P. split.
        * intros [Hw Hn]. split; [exact Hw|right]. rewrite Hn. exact P.
        * intros [Hw [Hn|Hn]]; (split; [exact Hw|]).
          -- exfalso. rewrite Hn, (no_dot e w W Hw) in D. discriminate D.
          -- rewrite Hn in P. apply app_inv_string in P. apply app_inv_string in P. exact P.
      + split; [discriminate|]. intros [Hw [Hn|Hn]]; exfalso.
        * rewrite Hn, (no_dot e w W Hw) in D. discriminate D.
        * rewrite Hn, <- app_assoc_string, prefix_app in P. discriminate P.
    - rewrite named_spec by exact W. split; [intros [Hw Hn]; auto|]. intros [Hw [Hn|Hn]]; [auto|]. exfalso.
      rewrite Hn, !has_char_app in D. cbn in D. rewrite orb_true_r in D. discriminate D.
  Qed.

  (** What the alias lookups find. *)
  Lemma auto_spec : forall n aliases l, has_char "." n = false -> autoAlias enums n aliases = Some l -> (forall a, In a aliases -> well_named a) ->
    forall d ws, In (d, ws) l <-> exists w, ws = [w] /\ In d aliases /\ In w (values d) /\ v_name w = n.
  Proof.
    intros n aliases l Dn H W d ws. unfold autoAlias in H. destruct (Nat.eqb _ _); [|discriminate H].
    assert (E : l = flat_map (fun a => match Value a n with Some v => [(a, [v])] | None => [] end) aliases) by congruence. clear H. subst l.
    rewrite in_flat_map. split.
    - intros (a & Ha & H). destruct (Value a n) as [v|] eqn:V; [|destruct H]. destruct H as [H|[]]. injection H as <- <-.
      apply Value_spec in V; [|apply W, Ha]. destruct V as [Hv Hn]. exists v. repeat split; auto. destruct Hn as [Hn|Hn]; [symmetry; exact Hn|].
      exfalso. rewrite Hn, !has_char_app in Dn. cbn in Dn. rewrite orb_true_r in Dn. discriminate Dn.
    - intros (w & -> & Hd & Hw & Hn). exists d. split; [exact Hd|]. assert (V : Value d n = Some w) by (apply Value_spec; [apply W, Hd|auto]).
      rewrite V. left. reflexivity.
  Qed.
  Lemma explicit_spec : forall e n aliases l, n <> "" -> explicitAlias enums (e_pkg (enums e)) n aliases = Some l -> (forall a, In a aliases -> well_named a) ->
    forall d ws, In (d, ws) l <-> exists w, ws = [w] /\ In d aliases /\ names e d n w.
  Proof.
    intros e n aliases l Nn H W d ws. unfold explicitAlias in H. destruct (Nat.eqb _ 0); [discriminate H|].
    destruct (_ && _); [discriminate H|].
    assert (E : l = flat_map (fun a => match Value a n with Some v => [(a, [v])] | None =>
      match Value a (e_pkg (enums e) ++ "." ++ n) with Some v => [(a, [v])] | None => [] end end) aliases) by congruence. clear H. subst l.
    rewrite in_flat_map. split.
    - intros (a & Ha & H). destruct (Value a n) as [v|] eqn:V.
      + destruct H as [H|[]]. injection H as <- <-. apply Value_spec in V; [|apply W, Ha]. exists v. repeat split; auto; tauto.
      + destruct (Value a (e_pkg (enums e) ++ "." ++ n)) as [v|] eqn:V2; [|destruct H]. destruct H as [H|[]]. injection H as <- <-.
        apply Value_spec in V2; [|apply W, Ha]. destruct V2 as [Hv Hn]. exists v. split; [reflexivity|]. split; [exact Ha|]. split; [exact Hv|].
        destruct Hn as [Hn|Hn]; [|auto]. exfalso. pose proof (no_dot a v (W a Ha) Hv) as D. rewrite <- Hn, !has_char_app in D. cbn in D.
        rewrite orb_true_r in D. discriminate D.
    - intros (w & -> & Hd & Hw & Hn). exists d. split; [exact Hd|]. destruct (Value d n) as [v|] eqn:V.
      + apply Value_spec in V; [|apply W, Hd]. destruct V as [Hv Hvn].
        enough (v_name v = v_name w) as Ev.
        { assert (V' : named (enums d) (v_name v) = Some v) by (apply named_spec; [apply W, Hd|auto]).
          assert (W' : named (enums d) (v_name v) = Some w) by (apply named_spec; [apply W, Hd|auto]).
          left. congruence. }
        pose proof (no_dot d v (W d Hd) Hv) as Dv. pose proof (no_dot d w (W d Hd) Hw) as Dw.
        destruct Hvn as [Hvn|Hvn], Hn as [Hn|[Hn|Hn]]; try congruence.
        * exfalso. rewrite Hvn in Hn. rewrite Hn, !has_char_app in Dv. cbn in Dv. rewrite orb_true_r in Dv. discriminate Dv.
        * rewrite Hvn in Hn. exact (last_part _ _ _ _ Dv Dw Hn).
        * exfalso. rewrite Hvn in Hn. rewrite <- Hn, !has_char_app in Dw. cbn in Dw. rewrite orb_true_r in Dw. discriminate Dw.
        * apply (last_part (e_fqdn (enums d)) (e_fqdn (enums d))); [exact Dv|exact Dw|]. congruence.
        * rewrite Hvn in Hn. rewrite <- !app_assoc_string in Hn. rewrite (app_assoc_string _ "." (v_name v)) in Hn.
          rewrite (app_assoc_string _ "." (v_name w)) in Hn. rewrite (app_assoc_string _ (e_fqdn (enums d)) _) in Hn.
          apply (last_part (e_pkg (enums e) ++ "." ++ e_fqdn (enums d)) (e_fqdn (enums d))); [exact Dv|exact Dw|].
          rewrite !app_assoc_string in *. exact Hn.
      + destruct Hn as [Hn|[Hn|Hn]].
        * exfalso. assert (V' : Value d n = Some w) by (apply Value_spec; [apply W, Hd|auto]). congruence.
        * exfalso. assert (V' : Value d n = Some w) by (apply Value_spec; [apply W, Hd|auto]). congruence.
        * assert (V' : Value d (e_pkg (enums e) ++ "." ++ n) = Some w) by (apply Value_spec; [apply W, Hd|auto]). rewrite V'. left. reflexivity.
  Qed.
  Lemma aliases_spec : forall e vn ns aliases l, ~ In "" ns -> aliasesOf enums (e_pkg (enums e)) vn ns aliases = Some l -> (forall a, In a aliases -> well_named a) ->
    forall d ws, In (d, ws) l <-> exists w, ws = [w] /\ In d aliases /\ exists n, In n ns /\ names e d n w.
  Proof.
    intros e vn ns aliases. induction ns as [|n ns IH]; intros l Ne H W d ws; cbn [aliasesOf] in H.
    - injection H as <-. split; [intros []|]. intros (w & _ & _ & n & [] & _).
    - unfold resolveEnumValueAlias in H. destruct (String.eqb n "") eqn:En; [apply String.eqb_eq in En; exfalso; apply Ne; left; exact En|].
      destruct (explicitAlias enums (e_pkg (enums e)) n aliases) as [a|] eqn:Ea; [|discriminate H].
      destruct (aliasesOf enums (e_pkg (enums e)) vn ns aliases) as [b|] eqn:Eb; [|discriminate H].
      assert (l = (a ++ b)%list) as -> by congruence. rewrite in_app_iff.
      rewrite (explicit_spec e n aliases a) by (try assumption; intros ->; apply Ne; left; reflexivity).
      rewrite (IH b) by (try assumption; try reflexivity; intros X; apply Ne; right; exact X). split.
      + intros [(w & -> & Hd & Hn)|(w & -> & Hd & n' & Hi & Hn)]; exists w; (split; [reflexivity|]); (split; [exact Hd|]); [exists n|exists n']; split; auto with datatypes.
      + intros (w & -> & Hd & n' & [<-|Hi] & Hn); [left|right]; exists w; eauto.
  Qed.

  (** The rules of the values of an accepted enum. *)
  Definition aliases_of (e : nat) : list nat := match e_opt (enums e) with Some l => l | None => [] end.
  Lemma rule_spec : forall e v r, well_named e -> (forall a, In a (aliases_of e) -> well_named a) -> In v (values e) ->
    resolveEnumValueRule enums (enums e) v = Some (Some r) ->
    (vr_default r = true <-> is_default v) /\ (forall d ws, In (d, ws) (vr_aliases r) <-> exists w, ws = [w] /\ declares e v d w).
  Proof.
    intros e v r We Wa Hv H. pose proof (no_dot e v We Hv) as Dv. destruct We as (ND & Fn & Fe). rewrite Forall_forall in Fe. specialize (Fe v Hv).
    unfold resolveEnumValueRule in H. unfold EnumSpec.declares, explicit, is_default in *. unfold aliases_of in Wa.
    destruct (v_opt v) as [o|] eqn:Eo.
    - destruct (vo_alias o) as [|n ns] eqn:Al.
      + destruct (e_opt (enums e)) as [als|] eqn:Ee.
        * destruct (vo_default o) eqn:Do.
          -- injection H as <-. cbn. split; [split; [intros _; exists o; auto|reflexivity]|]. intros d ws. split; [intros []|].
             intros (w & _ & _ & N & _). exfalso. apply N. exists o. auto.
          -- destruct (autoAlias enums (v_name v) als) as [l|] eqn:Ea; [|discriminate H]. injection H as <-. cbn.
             split; [split; [discriminate|]; intros (o' & Eq & D); congruence|]. intros d ws. rewrite (auto_spec _ _ _ Dv Ea Wa). split.
             ++ intros (w & -> & Hd & Hw & Hn). exists w. split; [reflexivity|]. split; [exact Hv|]. split; [intros (o' & Eq & D); congruence|].
                split; [exists als; auto|]. right. rewrite ?Al. auto.
             ++ intros (w & -> & _ & _ & (l' & El & Hd) & [(n & Hn & _)|(_ & Hw & Hn)]); [rewrite ?Al in Hn; destruct Hn|]. injection El as <-.
                exists w. auto.
        * injection H as <-. cbn. split; [split; [intros D; exists o; auto|intros (o' & Eq & D); congruence]|]. intros d ws. split; [intros []|].
          intros (w & _ & _ & _ & (l & El & _) & _). discriminate El.
      + destruct (e_opt (enums e)) as [[|a als]|] eqn:Ee; [discriminate H| |discriminate H].
        destruct (vo_default o) eqn:Do.
        * injection H as <-. cbn. split; [split; [intros _; exists o; auto|reflexivity]|]. intros d ws. split; [intros []|].
             intros (w & _ & _ & N & _). exfalso. apply N. exists o. auto.
        * destruct (aliasesOf enums (e_pkg (enums e)) (v_name v) (n :: ns) (a :: als)) as [l|] eqn:Ea; [|discriminate H]. injection H as <-. cbn [vr_default vr_aliases].
          split; [split; [discriminate|]; intros (o' & Eq & D); congruence|]. intros d ws. rewrite ?Al in Fe. rewrite (aliases_spec _ _ _ _ _ Fe Ea Wa). split.
          -- intros (w & -> & Hd & n' & Hi & Hn). exists w. split; [reflexivity|]. split; [exact Hv|]. split; [intros (o' & Eq & D); congruence|].
             split; [exists (a :: als); auto|]. left. exists n'. rewrite ?Al. auto.
          -- intros (w & -> & _ & _ & (l' & El & Hd) & [(n' & Hn & Hs)|(Hn & _)]); [|rewrite ?Al in Hn; discriminate Hn]. injection El as <-.
             exists w. split; [reflexivity|]. split; [exact Hd|]. exists n'. rewrite ?Al in Hn. auto.
    - destruct (e_opt (enums e)) as [als|] eqn:Ee; [|discriminate H].
      destruct (autoAlias enums (v_name v) als) as [l|] eqn:Ea; [|discriminate H]. injection H as <-. cbn.
      split; [split; [discriminate|]; intros (o' & Eq & D); congruence|]. intros d ws. rewrite (auto_spec _ _ _ Dv Ea Wa). split.
      + intros (w & -> & Hd & Hw & Hn). exists w. split; [reflexivity|]. split; [exact Hv|]. split; [intros (o' & Eq & D); congruence|].
        split; [exists als; auto|]. right. auto.
      + intros (w & -> & _ & _ & (l' & El & Hd) & [(n & [] & _)|(_ & Hw & Hn)]). injection El as <-. exists w. auto.
  Qed.
  Lemma no_rule : forall e v d w, resolveEnumValueRule enums (enums e) v = Some None -> ~ is_default v /\ ~ declares e v d w.
  Proof.
    intros e v d w H. unfold resolveEnumValueRule in H. unfold is_default, EnumSpec.declares. destruct (v_opt v) as [o|] eqn:Eo.
    - exfalso. destruct (vo_alias o) as [|n ns]; destruct (e_opt (enums e)) as [[|a als]|]; try discriminate H;
        (destruct (vo_default o); try discriminate H); match type of H with context[match ?x with Some _ => _ | None => _ end] => destruct x; discriminate H end.
    - destruct (e_opt (enums e)) as [als|]; [destruct (autoAlias _ _ _); discriminate H|]. split; [intros (o & E & _); discriminate E|].
      intros (_ & _ & (l & E & _) & _). discriminate E.
  Qed.
  Lemma resolve_values_spec : forall e l rs, resolve_values enums (enums e) l = Some rs ->
    Forall2 (fun v vr => fst vr = v /\ resolveEnumValueRule enums (enums e) v = Some (snd vr)) l rs.
  Proof.
    intros e l. induction l as [|v l IH]; intros rs H; cbn in H; [injection H as <-; constructor|].
    destruct (resolveEnumValueRule enums (enums e) v) as [r|] eqn:E; [|discriminate H]. destruct (resolve_values enums (enums e) l); [|discriminate H].
    injection H as <-. constructor; [auto|apply IH; reflexivity].
  Qed.

  (** *** Tables *)
  Lemma distinct_spec : forall l, distinct l = true -> NoDup l.
  Proof.
    induction l as [|x l IH]; intros H; [constructor|]. cbn in H. apply andb_true_iff in H. destruct H as [N H]. constructor; [|apply IH, H].
    intros Hx. apply negb_true_iff in N. assert (existsb (Z.eqb x) l = true) by (apply existsb_exists; exists x; split; [exact Hx|apply Z.eqb_refl]). congruence.
  Qed.
  Lemma lookup_in : forall (t : list (Z * Z)) x y, NoDup (map fst t) -> In (x, y) t -> find (fun p => Z.eqb (fst p) x) t = Some (x, y).
  Proof.
    induction t as [|[a b] t IH]; intros x y ND H; [destruct H|]. cbn in *. inversion ND as [|? ? N1 N2]; subst. destruct H as [H|H].
    - injection H as -> ->. rewrite Z.eqb_refl. reflexivity.
    - destruct (Z.eqb a x) eqn:E; [apply Z.eqb_eq in E; subst; exfalso; apply N1; exact (in_map fst _ _ H)|]. apply IH; assumption.
  Qed.
  Lemma lookup_none : forall (t : list (Z * Z)) x, (forall y, ~ In (x, y) t) -> find (fun p => Z.eqb (fst p) x) t = None.
  Proof.
    intros t x H. destruct (find _ t) as [[a b]|] eqn:F; [|reflexivity]. apply find_some in F. destruct F as [F E]. cbn in E. apply Z.eqb_eq in E. subst a.
    destruct (H b F).
  Qed.

  Section Accepted.
    Variable e : nat.
    Hypotheses (We : well_named e) (Wa : forall a, In a (aliases_of e) -> well_named a) (Acc : resolve_enum enums (enums e) <> None).

    Lemma rules_in : forall v r, In (v, r) (rules enums e) -> In v (values e) /\ resolveEnumValueRule enums (enums e) v = Some r.
    Proof.
      clear Acc. intros v r H. unfold rules in H. destruct (resolve_enum enums (enums e)) as [rs|] eqn:E; [|destruct H]. apply resolve_values_spec in E.
      induction E as [|x y l l' [E1 E2] E IH]; [destruct H|]. destruct H as [->|H]; [cbn in *; subst; auto with datatypes|]. destruct (IH H) as [A B]. auto with datatypes.
    Qed.
    Lemma rules_all : forall v, In v (values e) -> exists r, In (v, r) (rules enums e).
    Proof.
      intros v H. unfold rules. destruct (resolve_enum enums (enums e)) as [rs|] eqn:E; [clear Acc|contradiction]. apply resolve_values_spec in E.
      induction E as [|x y l l' [E1 E2] E IH]; [destruct H|]. destruct H as [->|H].
      - exists (snd y). left. destruct y; cbn in *; subst; reflexivity.
      - destruct (IH H) as [r Hr]. exists r. right. exact Hr.
    Qed.

    Lemma forward_cases : forall d x y, In (x, y) (ce_cases (depToService (rules enums e) d)) <-> exists v w, declares e v d w /\ x = v_num w /\ y = v_num v.
    Proof.
      intros d x y. cbn [ce_cases depToService]. rewrite in_flat_map. split.
      - intros ([v [r|]] & Hr & H); [|destruct H]. cbn [fst snd] in H. apply rules_in in Hr. destruct Hr as [Hv Hr].
        apply in_flat_map in H. destruct H as ([d' ws] & Hal & H). cbn [fst snd] in H. destruct (Nat.eqb d' d) eqn:E; [|destruct H].
        apply Nat.eqb_eq in E. subst d'. apply (rule_spec e v r We Wa Hv Hr) in Hal. destruct Hal as (w & -> & D).
        destruct H as [H|[]]. injection H as <- <-. exists v, w. auto.
      - intros (v & w & D & -> & ->). pose proof D as (Hv & _). destruct (rules_all v Hv) as [r Hr]. exists (v, r). split; [exact Hr|].
        apply rules_in in Hr. destruct Hr as [_ Hr]. cbn [fst snd]. destruct r as [r|]; [|destruct (no_rule e v d w Hr) as [_ N]; contradiction].
        apply in_flat_map. exists (d, [w]). split; [apply (rule_spec e v r We Wa Hv Hr); exists w; auto|]. cbn. rewrite Nat.eqb_refl. left. reflexivity.
    Qed.
    Lemma forward_default : forall d, ce_default (depToService (rules enums e) d) =
      fold_left (fun d v => match v_opt v with Some o => if vo_default o then v_num v else d | None => d end) (values e) 0%Z.
    Proof.
      intros d. cbn [ce_default depToService]. unfold rules. destruct (resolve_enum enums (enums e)) as [rs|] eqn:E; [clear Acc|contradiction].
      apply resolve_values_spec in E. generalize 0%Z. induction E as [|x y l l' [E1 E2] E IH]; intros z; [reflexivity|]. cbn [fold_left].
      rewrite IH. f_equal. subst x. unfold resolveEnumValueRule in E2. destruct (v_opt (fst y)) as [o|].
      - destruct (vo_alias o) as [|n ns]; destruct (e_opt (enums e)) as [[|a als]|]; try discriminate E2; destruct (vo_default o) eqn:Do;
          try (injection E2 as <-; cbn; rewrite ?Do; reflexivity);
          match type of E2 with context[match ?x with Some _ => _ | None => _ end] => destruct x; [|discriminate E2] end; injection E2 as <-; cbn; rewrite ?Do; reflexivity.
      - destruct (e_opt (enums e)); [destruct (autoAlias _ _ _); [|discriminate E2]; injection E2 as <-; reflexivity|]. injection E2 as <-. reflexivity.
    Qed.

    Lemma backward_cases : forall d t, serviceToDep (rules enums e) d = Some t ->
      (forall v, In v (values e) -> ~ is_default v) /\ forall x y, In (x, y) t <-> exists v w, declares e v d w /\ x = v_num v /\ y = v_num w.
    Proof.
      intros d t H.
      assert (G : forall rs, (forall v r, In (v, r) rs -> In v (values e) /\ resolveEnumValueRule enums (enums e) v = Some r) ->
        forall t, serviceToDep rs d = Some t -> (forall v r, In (v, r) rs -> ~ is_default v) /\
          forall x y, In (x, y) t <-> exists v w r, In (v, r) rs /\ declares e v d w /\ x = v_num v /\ y = v_num w).
      { clear H t. induction rs as [|[v [r|]] rs IH]; intros Hrs t H; cbn [serviceToDep] in H.
        - injection H as <-. split; [intros ? ? []|]. intros x y. split; [intros []|intros (v & w & r & [] & _)].
        - destruct (forallb _ (vr_aliases r)); [|discriminate H]. destruct (vr_default r) eqn:Df; [discriminate H|].
          destruct (serviceToDep rs d) as [t'|] eqn:E; [|discriminate H].
          assert (Et : t = (flat_map (fun al : nat * list evalue => if Nat.eqb (fst al) d then match snd al with w :: _ => [(v_num v, v_num w)] | [] => [] end else []) (vr_aliases r) ++ t')%list) by congruence.
          clear H. destruct (Hrs v (Some r) (or_introl eq_refl)) as [Hv Hr]. destruct (rule_spec e v r We Wa Hv Hr) as [Dd Da].
          destruct (IH (fun v' r' Hi => Hrs v' r' (or_intror Hi)) t' eq_refl) as [ID IC]. split.
          + intros v' r' [Hi|Hi]; [|eapply ID; exact Hi]. injection Hi as <- _. rewrite <- Dd. congruence.
          + intros x y. rewrite Et, in_app_iff, IC, in_flat_map. split.
            * intros [([d' ws] & Hal & H)|(v' & w & r' & Hi & D & Ex & Ey)]; [|exists v', w, r'; auto with datatypes].
              cbn [fst snd] in H. destruct (Nat.eqb d' d) eqn:Ed; [|destruct H]. apply Nat.eqb_eq in Ed. subst d'. apply Da in Hal.
              destruct Hal as (w & -> & D). destruct H as [H|[]]. injection H as <- <-. exists v, w, (Some r). auto with datatypes.
            * intros (v' & w & r' & [Hi|Hi] & D & Ex & Ey).
              -- injection Hi as <- <-. left. exists (d, [w]). split; [apply Da; exists w; auto|]. cbn. rewrite Nat.eqb_refl. left. congruence.
              -- right. exists v', w, r'. auto.
        - destruct (Hrs v None (or_introl eq_refl)) as [Hv Hr]. destruct (IH (fun v' r' Hi => Hrs v' r' (or_intror Hi)) t H) as [ID IC]. split.
          + intros v' r' [Hi|Hi]; [|eapply ID; exact Hi]. injection Hi as <- _. apply (no_rule e v d v Hr).
          + intros x y. rewrite IC. split.
            * intros (v' & w & r' & Hi & D). exists v', w, r'. auto with datatypes.
            * intros (v' & w & r' & [Hi|Hi] & D & X); [|exists v', w, r'; auto]. injection Hi as <- _. destruct (no_rule e v d w Hr) as [_ N]. contradiction. }
      destruct (G (rules enums e) rules_in t H) as [GD GC]. split.
      - intros v Hv. destruct (rules_all v Hv) as [r Hr]. eapply GD. exact Hr.
      - intros x y. rewrite GC. split; [intros (v & w & r & _ & X); exists v, w; exact X|]. intros (v & w & D & X).
        destruct (rules_all v (proj1 D)) as [r Hr]. exists v, w, r. auto.
    Qed.
    Lemma backward_total : forall d, (forall v, In v (values e) -> ~ is_default v) -> serviceToDep (rules enums e) d <> None.
    Proof.
      intros d ND.
      assert (G : forall rs, (forall v r, In (v, r) rs -> In v (values e) /\ resolveEnumValueRule enums (enums e) v = Some r) -> serviceToDep rs d <> None).
      { induction rs as [|[v [r|]] rs IH]; intros Hrs; cbn [serviceToDep]; [discriminate| |].
        - destruct (Hrs v (Some r) (or_introl eq_refl)) as [Hv Hr]. destruct (rule_spec e v r We Wa Hv Hr) as [Dd Da].
          destruct (forallb _ (vr_aliases r)) eqn:F.
          + destruct (vr_default r) eqn:Df; [exfalso; apply (ND v Hv), Dd, eq_refl|].
            destruct (serviceToDep rs d) eqn:E; [discriminate|]. intros _. apply (IH (fun v' r' Hi => Hrs v' r' (or_intror Hi))). reflexivity.
          + intros _. assert (X : forallb (fun al : nat * list evalue => negb (Nat.eqb (fst al) d) || Nat.eqb (length (snd al)) 1) (vr_aliases r) = true); [|congruence].
            apply forallb_forall. intros [d' ws] Hal. apply Da in Hal. destruct Hal as (w & -> & _). cbn. apply orb_true_r.
        - apply IH. intros v' r' Hi. apply Hrs. right. exact Hi. }
      apply G, rules_in.
    Qed.
  End Accepted.
End Proofs.
