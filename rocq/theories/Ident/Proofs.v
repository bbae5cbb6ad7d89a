(** * Proofs about Go identifiers *)

From Coq Require Import Ascii String List Bool Arith Lia.
From Verif.Base Require Import Text TextProofs.
From Verif.Names Require Import Model.
From Verif.Names Require Proofs.
From Verif.Options Require Proofs.
From Verif.Ident Require Import Model Spec.
Import ListNotations.
Local Open Scope string_scope.

(** ** Strings *)

Lemma app_nil_s : forall s : string, s ++ "" = s.
Proof. induction s as [ | c s IH]; cbn; [reflexivity | rewrite IH; reflexivity]. Qed.

Lemma app_assoc_s : forall a b c : string, (a ++ b) ++ c = a ++ (b ++ c).
Proof. induction a as [ | x a IH]; intros b c; cbn; [reflexivity | rewrite IH; reflexivity]. Qed.

Lemma app_cancel_s : forall a b c : string, a ++ b = a ++ c -> b = c.
Proof. induction a as [ | x a IH]; intros b c E; cbn in E; [exact E | ]. injection E as E. apply IH, E. Qed.

Lemma concat_cons : forall x l, String.concat "" (x :: l) = x ++ String.concat "" l.
Proof. intros x l. destruct l as [ | y l]; cbn; [symmetry; apply app_nil_s | reflexivity]. Qed.

Lemma join_cons : forall sep x y l, join sep (x :: y :: l) = x ++ sep ++ join sep (y :: l).
Proof. reflexivity. Qed.

Lemma all_app : forall P a b, all P a -> all P b -> all P (a ++ b).
Proof.
  induction a as [ | c a IH]; intros b Ha Hb; cbn; [exact Hb | ]. destruct Ha as [H1 H2].
  split; [exact H1 | apply IH; assumption].
Qed.

Lemma all_imp : forall (P Q : ascii -> bool) s, (forall c, P c = true -> Q c = true) -> all P s -> all Q s.
Proof.
  intros P Q s H. induction s as [ | c s IH]; cbn; [auto | ]. intros [A B]. split; [apply H, A | apply IH, B].
Qed.

Lemma all_no_char : forall P x s, P x = false -> all P s -> has_char x s = false.
Proof.
  intros P x s H. induction s as [ | c s IH]; cbn; [reflexivity | ]. intros [A B].
  rewrite (IH B), orb_false_r. destruct (Ascii.eqb_spec c x) as [-> | N]; [congruence | reflexivity].
Qed.

(** ** Letters *)

Lemma lower_upper : forall c, is_lower c = true -> is_upper (upper c) = true.
Proof. intros [[] [] [] [] [] [] [] []]; vm_compute; congruence. Qed.

Lemma upper_upper : forall c, is_upper c = true -> upper c = c.
Proof. intros [[] [] [] [] [] [] [] []]; vm_compute; congruence. Qed.

Lemma upper_not_lower : forall c, is_upper c = true -> is_lower c = false.
Proof. intros [[] [] [] [] [] [] [] []]; vm_compute; congruence. Qed.

Lemma lower_not_upper : forall c, is_lower c = true -> is_upper c = false.
Proof. intros [[] [] [] [] [] [] [] []]; vm_compute; congruence. Qed.

Lemma digit_not_upper : forall c, is_digit c = true -> is_upper c = false.
Proof. intros [[] [] [] [] [] [] [] []]; vm_compute; congruence. Qed.

Lemma digit_not_lower : forall c, is_digit c = true -> is_lower c = false.
Proof. intros [[] [] [] [] [] [] [] []]; vm_compute; congruence. Qed.

Lemma upper_not_digit : forall c, is_upper c = true -> is_digit c = false.
Proof. intros [[] [] [] [] [] [] [] []]; vm_compute; congruence. Qed.

Lemma lower_not_digit : forall c, is_lower c = true -> is_digit c = false.
Proof. intros [[] [] [] [] [] [] [] []]; vm_compute; congruence. Qed.

Lemma upper_inj : forall c, is_lower c = true -> lower (upper c) = c.
Proof. intros [[] [] [] [] [] [] [] []]; vm_compute; congruence. Qed.

Lemma not_this : forall (P : ascii -> bool) c x, P c = true -> P x = false -> Ascii.eqb c x = false.
Proof. intros P c x H K. destruct (Ascii.eqb_spec c x) as [-> | N]; [congruence | reflexivity]. Qed.

(** ** GoCamelCase *)

Lemma camel_run : forall p s, lower_next s = false -> camel p true s = camel p false s.
Proof. intros p [ | c s] H; [reflexivity | ]. cbn in H. cbn [camel]. rewrite H. reflexivity. Qed.

Lemma camel_prev : forall x y r s, Ascii.eqb x "." = false -> Ascii.eqb y "." = false ->
  camel (Some x) r s = camel (Some y) r s.
Proof. intros x y r [ | c s] Hx Hy; [reflexivity | ]. cbn [camel]. rewrite Hx, Hy. reflexivity. Qed.

(** Lower case letters in a word begun. *)
Lemma camel_letters : forall ls p rest, Ascii.eqb p "." = false -> all is_lower ls ->
  camel (Some p) true (ls ++ rest) = ls ++ camel (Some "a"%char) true rest.
Proof.
  induction ls as [ | c ls IH]; intros p rest Hp H; cbn [append].
  - apply camel_prev; [exact Hp | reflexivity].
  - destruct H as [Hc Hl]. cbn [camel]. rewrite Hc. cbn [andb]. f_equal.
    apply IH; [apply (not_this is_lower); [exact Hc | reflexivity] | exact Hl].
Qed.

Lemma camel_digits : forall ds p r rest, Ascii.eqb p "." = false -> all is_digit ds -> lower_next rest = false ->
  camel (Some p) r (ds ++ rest) = ds ++ camel (Some "a"%char) false rest.
Proof.
  induction ds as [ | c ds IH]; intros p r rest Hp H L; cbn [append].
  - rewrite (camel_prev p "a"%char) by (exact Hp || reflexivity).
    destruct r; [apply camel_run, L | reflexivity].
  - destruct H as [Hc Hd]. cbn [camel]. rewrite (digit_not_lower c Hc), andb_false_r.
    rewrite (not_this is_digit c "."%char Hc eq_refl), (not_this is_digit c "_"%char Hc eq_refl).
    cbn [andb]. rewrite Hc. f_equal. apply IH; [apply (not_this is_digit); [exact Hc | reflexivity] | exact Hd | exact L].
Qed.

Lemma camel_tail : forall ls ds p rest, Ascii.eqb p "." = false -> all is_lower ls -> all is_digit ds ->
  lower_next rest = false ->
  camel (Some p) true ((ls ++ ds) ++ rest) = (ls ++ ds) ++ camel (Some "a"%char) false rest.
Proof.
  intros ls ds p rest Hp Hl Hd L. rewrite !app_assoc_s, camel_letters by assumption.
  rewrite camel_digits by (assumption || reflexivity). reflexivity.
Qed.

Lemma camel_word : forall w p rest, word w -> lower_next rest = false ->
  camel p false (w ++ rest) = capital w ++ camel (Some "a"%char) false rest.
Proof.
  intros w p rest [c [ls [ds [-> [Hc [Hl Hd]]]]]] L. cbn [append capital camel].
  rewrite (not_this is_lower c "."%char Hc eq_refl), (not_this is_lower c "_"%char Hc eq_refl).
  cbn [andb]. rewrite (lower_not_digit c Hc). f_equal.
  apply camel_tail; [apply (not_this is_lower); [exact Hc | reflexivity] | exact Hl | exact Hd | exact L].
Qed.

Lemma camel_capital : forall w p rest, word w -> lower_next rest = false ->
  camel p false (capital w ++ rest) = capital w ++ camel (Some "a"%char) false rest.
Proof.
  intros w p rest [c [ls [ds [-> [Hc [Hl Hd]]]]]] L. cbn [append capital camel].
  pose proof (lower_upper c Hc) as Hu.
  rewrite (not_this is_upper _ "."%char Hu eq_refl), (not_this is_upper _ "_"%char Hu eq_refl).
  cbn [andb]. rewrite (upper_not_digit _ Hu), (upper_upper _ Hu). f_equal.
  apply camel_tail; [apply (not_this is_upper); [exact Hu | reflexivity] | exact Hl | exact Hd | exact L].
Qed.

Lemma word_lower : forall w s, word w -> lower_next (w ++ s) = true.
Proof. intros w s [c [ls [ds [-> [Hc _]]]]]. exact Hc. Qed.

Lemma pascal_next : forall ws, Forall word ws -> lower_next (pascal_of ws) = false.
Proof.
  intros [ | w ws] H; [reflexivity | ]. inversion H as [ | ? ? Hw _]; subst. unfold pascal_of.
  cbn [map]. rewrite concat_cons. destruct Hw as [c [ls [ds [-> [Hc _]]]]]. cbn.
  apply upper_not_lower, lower_upper, Hc.
Qed.

Lemma camel_snake : forall ws p, Forall word ws -> camel p false (snake_of ws) = pascal_of ws.
Proof.
  induction ws as [ | w ws IH]; intros p F; [reflexivity | ]. inversion F as [ | ? ? Hw Fw]; subst.
  unfold snake_of, pascal_of. cbn [map]. rewrite concat_cons. destruct ws as [ | v ws].
  - cbn [join map String.concat]. rewrite <- (app_nil_s w) at 1. rewrite camel_word by (exact Hw || reflexivity).
    reflexivity.
  - rewrite join_cons, camel_word by (exact Hw || reflexivity). f_equal.
    change ("_" ++ join "_" (v :: ws)) with (String "_" (join "_" (v :: ws))).
    assert (L : lower_next (join "_" (v :: ws)) = true).
    { inversion Fw as [ | ? ? Hv _]; subst. destruct ws as [ | u ws].
      - cbn [join]. rewrite <- (app_nil_s v). apply word_lower, Hv.
      - rewrite join_cons. apply word_lower, Hv. }
    cbn [camel]. rewrite L. cbn. apply IH, Fw.
Qed.

Lemma camel_pascal : forall ws p, Forall word ws -> camel p false (pascal_of ws) = pascal_of ws.
Proof.
  induction ws as [ | w ws IH]; intros p F; [reflexivity | ]. inversion F as [ | ? ? Hw Fw]; subst.
  pose proof (pascal_next ws Fw) as L. specialize (IH (Some "a"%char) Fw). unfold pascal_of in *. cbn [map].
  rewrite concat_cons, camel_capital by assumption. f_equal. exact IH.
Qed.

Lemma to_public_pascal : forall ws, Forall word ws -> to_public (pascal_of ws) = pascal_of ws.
Proof.
  intros [ | w ws] F; [reflexivity | ]. inversion F as [ | ? ? Hw _]; subst. unfold pascal_of. cbn [map].
  rewrite concat_cons. destruct Hw as [c [ls [ds [-> [Hc _]]]]]. cbn.
  rewrite (upper_upper _ (lower_upper c Hc)). reflexivity.
Qed.

Lemma public_spells : forall ws s, words ws -> spells ws s -> public s = pascal_of ws.
Proof.
  intros ws s [_ F] [-> | ->]; unfold public, go_camel.
  - rewrite camel_snake by exact F. apply to_public_pascal, F.
  - rewrite camel_pascal by exact F. apply to_public_pascal, F.
Qed.

(** ** Words are read back *)

Definition no_upper (c : ascii) : bool := negb (is_upper c).

Definition upper_start (s : string) : Prop :=
  match s with EmptyString => True | String c _ => is_upper c = true end.

Lemma read_body : forall a a' r r', all no_upper a -> all no_upper a' -> upper_start r -> upper_start r' ->
  a ++ r = a' ++ r' -> a = a' /\ r = r'.
Proof.
  induction a as [ | c a IH]; intros a' r r' Ha Ha' Hr Hr' E; cbn in E.
  - destruct a' as [ | c' a']; [split; [reflexivity | exact E] | ]. cbn in E. subst r. cbn in Hr.
    destruct Ha' as [X _]. unfold no_upper in X. rewrite Hr in X. discriminate X.
  - destruct Ha as [X Ha]. destruct a' as [ | c' a']; cbn in E.
    + subst r'. cbn in Hr'. unfold no_upper in X. rewrite Hr' in X. discriminate X.
    + injection E as -> E. destruct Ha' as [_ Ha'].
      destruct (IH a' r r' Ha Ha' Hr Hr' E) as [-> ->]. split; reflexivity.
Qed.

Lemma body_no_upper : forall ls ds, all is_lower ls -> all is_digit ds -> all no_upper (ls ++ ds).
Proof.
  intros ls ds Hl Hd. apply all_app.
  - apply (all_imp is_lower); [ | exact Hl]. intros c H. unfold no_upper. rewrite (lower_not_upper c H). reflexivity.
  - apply (all_imp is_digit); [ | exact Hd]. intros c H. unfold no_upper. rewrite (digit_not_upper c H). reflexivity.
Qed.

Lemma pascal_start : forall ws, Forall word ws -> upper_start (pascal_of ws).
Proof.
  intros [ | w ws] F; [exact I | ]. inversion F as [ | ? ? Hw _]; subst. unfold pascal_of. cbn [map].
  rewrite concat_cons. destruct Hw as [c [ls [ds [-> [Hc _]]]]]. cbn. apply lower_upper, Hc.
Qed.

Lemma pascal_inj : forall ws ws', Forall word ws -> Forall word ws' -> pascal_of ws = pascal_of ws' -> ws = ws'.
Proof.
  induction ws as [ | w ws IH]; intros ws' F F' E.
  - destruct ws' as [ | w' ws']; [reflexivity | ]. exfalso. inversion F' as [ | ? ? Hw _]; subst.
    unfold pascal_of in E. cbn [map] in E. rewrite concat_cons in E.
    destruct Hw as [c [ls [ds [-> _]]]]. discriminate E.
  - inversion F as [ | ? ? Hw Fw]; subst. destruct ws' as [ | w' ws'].
    { exfalso. unfold pascal_of in E. cbn [map] in E. rewrite concat_cons in E.
      destruct Hw as [c [ls [ds [-> _]]]]. discriminate E. }
    inversion F' as [ | ? ? Hw' Fw']; subst.
    pose proof (pascal_start ws Fw) as S. pose proof (pascal_start ws' Fw') as S'.
    specialize (IH ws' Fw Fw'). unfold pascal_of in *. cbn [map] in E. rewrite !concat_cons in E.
    destruct Hw as [c [ls [ds [-> [Hc [Hl Hd]]]]]]. destruct Hw' as [c' [ls' [ds' [-> [Hc' [Hl' Hd']]]]]].
    cbn in E. injection E as Ec E.
    destruct (read_body (ls ++ ds) (ls' ++ ds') _ _ (body_no_upper _ _ Hl Hd) (body_no_upper _ _ Hl' Hd') S S' E)
      as [Eb Er].
    rewrite Eb, (IH Er). f_equal. f_equal. rewrite <- (upper_inj c Hc), <- (upper_inj c' Hc'), Ec. reflexivity.
Qed.

(** ** The characters of conventional names *)

Definition name_char (c : ascii) : bool := is_lower c || is_upper c || is_digit c || Ascii.eqb c "_".
Definition plain_char (c : ascii) : bool := is_lower c || is_upper c || is_digit c.

Lemma word_chars : forall w, word w -> all plain_char w.
Proof.
  intros w [c [ls [ds [-> [Hc [Hl Hd]]]]]]. split; [unfold plain_char; rewrite Hc; reflexivity | ].
  apply all_app.
  - apply (all_imp is_lower); [ | exact Hl]. intros x H. unfold plain_char. rewrite H. reflexivity.
  - apply (all_imp is_digit); [ | exact Hd]. intros x H. unfold plain_char. rewrite H. apply orb_true_r.
Qed.

Lemma capital_chars : forall w, word w -> all plain_char (capital w).
Proof.
  intros w Hw. pose proof (word_chars w Hw) as H. destruct Hw as [c [ls [ds [-> [Hc _]]]]]. destruct H as [_ H].
  split; [unfold plain_char; rewrite (lower_upper c Hc); rewrite orb_true_r; reflexivity | exact H].
Qed.

Lemma pascal_chars : forall ws, Forall word ws -> all plain_char (pascal_of ws).
Proof.
  induction ws as [ | w ws IH]; intros F; [exact I | ]. inversion F as [ | ? ? Hw Fw]; subst.
  unfold pascal_of in *. cbn [map]. rewrite concat_cons. apply all_app; [apply capital_chars, Hw | apply IH, Fw].
Qed.

Lemma plain_name : forall c, plain_char c = true -> name_char c = true.
Proof. intros c H. unfold name_char. unfold plain_char in H. rewrite H. reflexivity. Qed.

Lemma snake_chars : forall ws, Forall word ws -> all name_char (snake_of ws).
Proof.
  induction ws as [ | w ws IH]; intros F; [exact I | ]. inversion F as [ | ? ? Hw Fw]; subst.
  unfold snake_of in *. destruct ws as [ | v ws].
  - apply (all_imp plain_char); [apply plain_name | apply word_chars, Hw].
  - rewrite join_cons. apply all_app; [apply (all_imp plain_char); [apply plain_name | apply word_chars, Hw] | ].
    split; [reflexivity | apply IH, Fw].
Qed.

Lemma spells_chars : forall ws s, words ws -> spells ws s -> all name_char s.
Proof.
  intros ws s [_ F] [-> | ->]; [apply snake_chars, F | ].
  apply (all_imp plain_char); [apply plain_name | apply pascal_chars, F].
Qed.

Lemma pascal_no_underscore : forall ws, words ws -> has_char "_" (pascal_of ws) = false.
Proof. intros ws [_ F]. apply (all_no_char plain_char); [reflexivity | apply pascal_chars, F]. Qed.

Lemma pascal_not_empty : forall ws, words ws -> exists c r, pascal_of ws = String c r /\ is_upper c = true.
Proof.
  intros [ | w ws] [N F]; [congruence | ]. inversion F as [ | ? ? Hw _]; subst. unfold pascal_of. cbn [map].
  rewrite concat_cons. destruct Hw as [c [ls [ds [-> [Hc _]]]]]. cbn. eexists. eexists. split; [reflexivity | ].
  apply lower_upper, Hc.
Qed.

Lemma replace_none : forall a b s, has_char a s = false -> replace a b s = s.
Proof.
  intros a b s. induction s as [ | c s IH]; cbn; [reflexivity | ]. intros H. apply orb_false_iff in H.
  destruct H as [H1 H2]. rewrite H1, (IH H2). reflexivity.
Qed.

(** A part is of some words. *)
Lemma part_words : forall p, snake p \/ pascal p -> exists ws, words ws /\ spells ws p.
Proof.
  intros p [[ws [W E]] | [ws [W E]]]; exists ws; (split; [exact W | ]); [left | right]; exact E.
Qed.

Lemma public_part : forall p, snake p \/ pascal p ->
  exists ws, words ws /\ spells ws p /\ public (replace "-" "_" p) = pascal_of ws /\ public p = pascal_of ws.
Proof.
  intros p H. destruct (part_words p H) as [ws [W S]]. exists ws. split; [exact W | ]. split; [exact S | ].
  pose proof (public_spells ws p W S) as P. split; [ | exact P].
  rewrite replace_none; [exact P | ]. apply (all_no_char name_char); [reflexivity | apply (spells_chars ws p W S)].
Qed.

Lemma part_no_dot : forall p, snake p \/ pascal p -> has_char "." p = false.
Proof.
  intros p H. destruct (part_words p H) as [ws [W S]].
  apply (all_no_char name_char); [reflexivity | apply (spells_chars ws p W S)].
Qed.

Lemma public_no_underscore : forall p, snake p \/ pascal p -> has_char "_" (public p) = false.
Proof.
  intros p H. destruct (public_part p H) as [ws [W [S [_ ->]]]]. apply pascal_no_underscore, W.
Qed.

Lemma public_same_words : forall a b, (snake a \/ pascal a) -> (snake b \/ pascal b) ->
  (public a = public b <-> same_words a b).
Proof.
  intros a b Ha Hb. destruct (public_part a Ha) as [ws [W [S [_ P]]]].
  destruct (public_part b Hb) as [ws' [W' [S' [_ P']]]]. split.
  - intros E. rewrite P, P' in E. apply pascal_inj in E; [ | apply W | apply W']. subst ws'.
    exists ws. split; [exact W | split; assumption].
  - intros [us [Wu [A B]]]. rewrite (public_spells us a Wu A), (public_spells us b Wu B). reflexivity.
Qed.

(** ** Qualified names *)

Lemma split_qualified : forall ps, conventional ps -> split "." (qualified ps) = ps.
Proof.
  intros ps [N F]. unfold qualified. apply Options.Proofs.split_join_plain; [exact N | ].
  eapply Forall_impl; [ | exact F]. intros p H. apply part_no_dot, H.
Qed.

Lemma go_name_parts : forall ps, conventional ps -> go_name (qualified ps) = join "_" (map public ps).
Proof.
  intros ps C. unfold go_name. rewrite split_qualified by exact C. f_equal. apply map_ext_in. intros p I.
  destruct C as [_ F]. rewrite Forall_forall in F. destruct (public_part p (F p I)) as [ws [_ [_ [E1 E2]]]].
  rewrite E1, E2. reflexivity.
Qed.

Lemma split_go_name : forall ps, conventional ps -> split "_" (go_name (qualified ps)) = map public ps.
Proof.
  intros ps C. rewrite go_name_parts by exact C. destruct C as [N F]. apply Options.Proofs.split_join_plain.
  - intros E. apply N. destruct ps; [reflexivity | discriminate E].
  - apply Forall_forall. intros x I. apply in_map_iff in I. destruct I as [p [<- I]].
    rewrite Forall_forall in F. apply public_no_underscore, F, I.
Qed.

Lemma map_public_same : forall ps ps', Forall (fun p => snake p \/ pascal p) ps ->
  Forall (fun p => snake p \/ pascal p) ps' ->
  (map public ps = map public ps' <-> Forall2 same_words ps ps').
Proof.
  induction ps as [ | p ps IH]; intros ps' F F'; destruct ps' as [ | p' ps']; cbn; split; intros H;
    try discriminate H; try (inversion H; fail); try constructor.
  - inversion F as [ | ? ? A1 A2]; inversion F' as [ | ? ? B1 B2]; subst. injection H as E1 E2.
    apply public_same_words; assumption.
  - inversion F as [ | ? ? A1 A2]; inversion F' as [ | ? ? B1 B2]; subst. injection H as E1 E2.
    apply (IH ps' A2 B2). exact E2.
  - inversion F as [ | ? ? A1 A2]; inversion F' as [ | ? ? B1 B2]; inversion H as [ | ? ? ? ? C1 C2]; subst.
    f_equal; [apply public_same_words; assumption | apply (IH ps' A2 B2); exact C2].
Qed.

Lemma go_name_same : forall ps ps', conventional ps -> conventional ps' ->
  (go_name (qualified ps) = go_name (qualified ps') <-> Forall2 same_words ps ps').
Proof.
  intros ps ps' C C'. rewrite <- (map_public_same ps ps'); [ | apply C | apply C']. split.
  - intros E. rewrite <- (split_go_name ps C), <- (split_go_name ps' C'), E. reflexivity.
  - intros E. rewrite !go_name_parts by assumption. rewrite E. reflexivity.
Qed.

Lemma same_snake : forall a b, snake a -> snake b -> same_words a b -> a = b.
Proof.
  intros a b [wa [Wa Ea]] [wb [Wb Eb]] S.
  assert (P : public a = public b) by (apply public_same_words; [left; exists wa; auto | left; exists wb; auto | exact S]).
  rewrite (public_spells wa a Wa (or_introl Ea)), (public_spells wb b Wb (or_introl Eb)) in P.
  apply pascal_inj in P; [ | apply Wa | apply Wb]. congruence.
Qed.

Lemma same_pascal : forall a b, pascal a -> pascal b -> same_words a b -> a = b.
Proof.
  intros a b [wa [Wa Ea]] [wb [Wb Eb]] S.
  assert (P : public a = public b) by (apply public_same_words; [right; exists wa; auto | right; exists wb; auto | exact S]).
  rewrite (public_spells wa a Wa (or_intror Ea)), (public_spells wb b Wb (or_intror Eb)) in P.
  congruence.
Qed.

Lemma forall2_app_split : forall (A : Type) (R : A -> A -> Prop) a a' b b', List.length a = List.length a' ->
  Forall2 R (a ++ b)%list (a' ++ b')%list -> Forall2 R a a' /\ Forall2 R b b'.
Proof.
  induction a as [ | x a IH]; intros a' b b' L H; destruct a' as [ | x' a']; try discriminate L; cbn in *.
  - split; [constructor | exact H].
  - inversion H as [ | ? ? ? ? H1 H2]; subst. injection L as L. destruct (IH a' b b' L H2) as [A1 A2].
    split; [constructor; assumption | exact A2].
Qed.

Lemma forall2_eq : forall (P : string -> Prop) l l', (forall a b, P a -> P b -> same_words a b -> a = b) ->
  Forall P l -> Forall P l' -> Forall2 same_words l l' -> l = l'.
Proof.
  intros P l l' H F F' R. induction R as [ | a b l l' S R IH]; [reflexivity | ].
  inversion F; inversion F'; subst. f_equal; [apply H; assumption | apply IH; assumption].
Qed.

Lemma type_conventional : forall package types, type_name package types -> conventional (package ++ types)%list.
Proof.
  intros package types [N [Fp Ft]]. split.
  - intros E. apply N. destruct package; [exact E | discriminate E].
  - apply Forall_app. split; eapply Forall_impl; try eassumption; intros p H; [left | right]; exact H.
Qed.

(** ** Conversion functions *)

Fixpoint cast_parts (t : typ) : list string :=
  match t with
  | Scalar b k => (if b then ["repeated"] else []) ++ [go_scalar k]
  | Null b => (if b then ["repeated"] else []) ++ ["any"]
  | Message b n | Enum b n => (if b then ["repeated"] else []) ++ map public (split "." n)
  | Oneof b n c => (if b then ["repeated"] else []) ++ map public (split "." n) ++ (if c then [""] else [])
  | Map k v => ("map" :: cast_parts k ++ cast_parts v)%list
  end%list.

Lemma split_repeated : forall b s, split "_" (repeated_ b ++ s) = ((if b then ["repeated"] else []) ++ split "_" s)%list.
Proof. intros [] s; reflexivity. Qed.

Lemma split_scalar : forall k, split "_" (go_scalar k) = [go_scalar k].
Proof. intros []; reflexivity. Qed.

Lemma split_cast : forall t, usual t -> split "_" (cast_name t) = cast_parts t.
Proof.
  intros t H. induction H as [b k | b | t b ps c N C | k v H IH]; cbn [cast_name cast_parts].
  - rewrite split_repeated, split_scalar. reflexivity.
  - rewrite split_repeated. reflexivity.
  - destruct N as [b ps | b ps | b ps c]; cbn [cast_name cast_parts]; rewrite split_repeated, split_qualified by exact C; f_equal.
    + apply split_go_name, C.
    + apply split_go_name, C.
    + destruct c; [ | rewrite app_nil_s, app_nil_r; apply split_go_name, C].
      rewrite split_app_gen, split_go_name by exact C. reflexivity.
  - cbn [repeated_].
    change (split "_" ("map_" ++ ("" ++ go_scalar k) ++ "_" ++ cast_name v))
      with ("map" :: split "_" (go_scalar k ++ String "_" (cast_name v))).
    rewrite split_app_gen, IH, split_scalar. reflexivity.
Qed.

Lemma public_parts : forall ps, Forall (fun p => snake p \/ pascal p) ps ->
  Forall (fun s => exists c r, s = String c r /\ is_upper c = true) (map public ps).
Proof.
  intros ps F. apply Forall_forall. intros x I. apply in_map_iff in I. destruct I as [p [<- I]].
  rewrite Forall_forall in F. destruct (public_part p (F p I)) as [ws [W [_ [_ ->]]]]. apply pascal_not_empty, W.
Qed.

(** What may come first in the parts after "repeated". *)
Inductive body := BScalar (k : kind) | BNull | BNamed (ps : list string) (c : bool) | BMap (k : kind) (v : typ).

Definition parts_of (x : body) : list string :=
  match x with
  | BScalar k => [go_scalar k]
  | BNull => ["any"]
  | BNamed ps c => (map public ps ++ if c then [""] else [])%list
  | BMap k v => ("map" :: go_scalar k :: cast_parts v)%list
  end.

Definition body_ok (x : body) : Prop :=
  match x with BNamed ps _ => conventional ps | BMap _ v => usual v | BScalar _ | BNull => True end.

Lemma usual_body : forall t, usual t -> exists (b : bool) (x : body), body_ok x /\
  cast_parts t = ((if b then ["repeated"] else []) ++ parts_of x)%list /\
  match x with
  | BScalar k => t = Scalar b k
  | BNull => t = Null b
  | BNamed ps c => named t b ps c
  | BMap k v => t = Map (Scalar false k) v /\ b = false
  end.
Proof.
  intros t H. destruct H as [b k | b | t b ps c N C | k v H].
  - exists b, (BScalar k). split; [exact I | ]. split; reflexivity.
  - exists b, BNull. split; [exact I | ]. split; reflexivity.
  - exists b, (BNamed ps c). split; [exact C | ]. split; [ | exact N].
    destruct N; cbn [cast_parts parts_of]; rewrite split_qualified by exact C; rewrite ?app_nil_r; reflexivity.
  - exists false, (BMap k v). split; [exact H | ]. split; [reflexivity | split; reflexivity].
Qed.

Lemma first_named : forall ps c, conventional ps ->
  exists h r t, parts_of (BNamed ps c) = String h r :: t /\ is_upper h = true.
Proof.
  intros [ | p ps] c [N F]; [congruence | ]. pose proof (public_parts _ F) as G. cbn in *.
  inversion G as [ | ? ? [h [r [E U]]] _]; subst. exists h, r. eexists. split; [ | exact U]. rewrite <- E. reflexivity.
Qed.

Lemma first_not_repeated : forall x r, body_ok x -> parts_of x <> "repeated" :: r.
Proof.
  intros [k | | ps c | k v] r O E.
  - destruct k; discriminate E.
  - discriminate E.
  - destruct (first_named ps c O) as [h [s [t [E' U]]]]. rewrite E' in E. injection E as -> _ _. discriminate U.
  - discriminate E.
Qed.

Lemma named_parts : forall ps c ps' c', conventional ps -> conventional ps' ->
  parts_of (BNamed ps c) = parts_of (BNamed ps' c') -> Forall2 same_words ps ps' /\ c = c'.
Proof.
  intros ps c ps' c' [N F] [N' F'] E. cbn in E.
  assert (X : forall l, Forall (fun s => exists c r, s = String c r /\ is_upper c = true) l -> ~ In "" l).
  { intros l G I. rewrite Forall_forall in G. destruct (G "" I) as [h [r [A _]]]. discriminate A. }
  pose proof (X _ (public_parts ps F)) as X1. pose proof (X _ (public_parts ps' F')) as X2. clear X.
  destruct c, c'.
  - apply app_inj_tail in E. destruct E as [E _]. split; [apply (map_public_same ps ps' F F'), E | reflexivity].
  - exfalso. rewrite app_nil_r in E. apply X2. rewrite <- E. apply in_app_iff. right. left. reflexivity.
  - exfalso. rewrite app_nil_r in E. apply X1. rewrite E. apply in_app_iff. right. left. reflexivity.
  - rewrite !app_nil_r in E. split; [apply (map_public_same ps ps' F F'), E | reflexivity].
Qed.

Lemma go_scalar_type : forall k k', go_scalar k = go_scalar k' <-> one_go_type k k'.
Proof.
  intros k k'. split.
  - intros E. destruct k, k'; try discriminate E;
      first [ exists [Double]; cbn; tauto
            | exists [Float]; cbn; tauto
            | exists [Int32; Sint32; Sfixed32]; cbn; tauto
            | exists [Int64; Sint64; Sfixed64]; cbn; tauto
            | exists [Uint32; Fixed32]; cbn; tauto
            | exists [Uint64; Fixed64]; cbn; tauto
            | exists [Bool]; cbn; tauto
            | exists [Str]; cbn; tauto
            | exists [Bytes]; cbn; tauto ].
  - intros [g [I [A B]]]. cbn in I.
    repeat (destruct I as [<- | I];
      [ cbn in A, B; repeat (destruct A as [<- | A]; [ repeat (destruct B as [<- | B]; [reflexivity | ]); destruct B | ]); destruct A | ]).
    destruct I.
Qed.

Lemma cast_parts_alike : forall t t', usual t -> usual t' -> cast_parts t = cast_parts t' -> alike t t'.
Proof.
  induction t as [b k | b | b n | b n | b n c | k IHk v IHv]; intros t' U U' E;
    destruct (usual_body _ U) as [b1 [x [O [P M]]]]; destruct (usual_body _ U') as [b2 [x' [O' [P' M']]]];
    rewrite P, P' in E.
  all: assert (Eb : b1 = b2) by (destruct b1, b2; try reflexivity; exfalso; cbn in E;
         [apply (first_not_repeated x' (parts_of x) O'); symmetry; exact E
         | apply (first_not_repeated x (parts_of x') O); exact E]); subst b2.
  all: assert (Ex : parts_of x = parts_of x') by (destruct b1; cbn in E; [injection E as E | ]; exact E);
       clear E P P'.
  all: destruct x as [kx | | ps cx | kx vx]; destruct x' as [kx' | | ps' cx' | kx' vx'];
    try (destruct kx; discriminate Ex); try (destruct kx'; discriminate Ex); try discriminate Ex;
    try (exfalso; destruct (first_named ps cx O) as [h [s [u [E1 E2]]]]; rewrite E1 in Ex;
         (discriminate Ex || (injection Ex as Ex _; destruct kx'; injection Ex as Ex _; subst h; discriminate E2)
          || (injection Ex as Ex _ _; subst h; discriminate E2)));
    try (exfalso; destruct (first_named ps' cx' O') as [h [s [u [E1 E2]]]]; rewrite E1 in Ex;
         (discriminate Ex || (injection Ex as Ex _; destruct kx; injection Ex as Ex _; subst h; discriminate E2)
          || (injection Ex as Ex _ _; subst h; discriminate E2))).
  all: try (subst t'; try rewrite M; first [apply alike_null | apply alike_scalar; injection Ex as Ex; apply go_scalar_type; exact Ex]).
  all: try (destruct (named_parts ps cx ps' cx' O O' Ex) as [R ->]; apply (alike_named _ _ _ _ _ _ M M' R)).
  all: try (destruct M as [M _]; discriminate M).
  destruct M as [M _], M' as [-> _]. injection M as -> ->. cbn in Ex. injection Ex as Ek Ev.
  apply alike_map; [apply alike_scalar; apply go_scalar_type; exact Ek | ]. apply IHv; [exact O | exact O' | exact Ev].
Qed.

Lemma cast_name_parts : forall t, usual t -> cast_name t = join "_" (cast_parts t).
Proof. intros t U. rewrite <- (split_cast t U). symmetry. apply (join_split "_"). Qed.

Lemma join_dot : forall p q l, join "." (p :: q :: l) = p ++ String "." (join "." (q :: l)).
Proof. reflexivity. Qed.

(** The name of a type is that of its parts. *)
Lemma qualified_inj : forall ps ps', conventional ps -> conventional ps' -> qualified ps = qualified ps' -> ps = ps'.
Proof. intros ps ps' C C' E. rewrite <- (split_qualified ps C), <- (split_qualified ps' C'), E. reflexivity. Qed.

Lemma cast_func_parts : forall f t, usual f -> usual t ->
  split "_" (cast_func f t) = (("cast" :: cast_parts f) ++ "" :: "to" :: "" :: cast_parts t)%list.
Proof.
  intros f t Uf Ut. unfold cast_func.
  change (split "_" ("cast_" ++ cast_name f ++ "__to__" ++ cast_name t))
    with ("cast" :: split "_" (cast_name f ++ String "_" ("_to__" ++ cast_name t))).
  rewrite split_app_gen.
  change (split "_" ("_to__" ++ cast_name t)) with ("" :: "to" :: "" :: split "_" (cast_name t)).
  rewrite (split_cast f Uf), (split_cast t Ut). reflexivity.
Qed.

Lemma cast_no_to : forall t, usual t -> ~ In "to" (cast_parts t).
Proof.
  intros t U. induction U as [b k | b | t b ps c N C | k v H IH].
  - destruct b; cbn; intros X; destruct k; repeat (destruct X as [X | X]; [discriminate X | ]); destruct X.
  - destruct b; cbn; intros X; repeat (destruct X as [X | X]; [discriminate X | ]); destruct X.
  - destruct (usual_body t (usual_named t b ps c N C)) as [b' [x [_ [P M]]]].
    assert (Y : forall l : list string, Forall (fun s => exists c r, s = String c r /\ is_upper c = true) l -> ~ In "to" l).
    { intros l G I. rewrite Forall_forall in G. destruct (G "to" I) as [h [r [A B]]]. injection A as <- _. discriminate B. }
    assert (Q : cast_parts t = ((if b then ["repeated"] else []) ++ map public ps ++ (if c then [""] else []))%list).
    { destruct N; cbn [cast_parts]; rewrite split_qualified by exact C; rewrite ?app_nil_r; reflexivity. }
    rewrite Q, !in_app_iff. intros [X | [X | X]].
    + destruct b; [destruct X as [X | []]; discriminate X | destruct X].
    + apply (Y _ (public_parts ps (proj2 C)) X).
    + destruct c; [destruct X as [X | []]; discriminate X | destruct X].
  - cbn. intros [X | [X | X]]; [discriminate X | destruct k; discriminate X | apply (IH X)].
Qed.

Lemma first_to : forall a b (r r' : list string), ~ In "to" a -> ~ In "to" b ->
  (a ++ "to" :: r = b ++ "to" :: r')%list -> a = b /\ r = r'.
Proof.
  induction a as [ | x a IH]; intros b r r' Na Nb E; destruct b as [ | y b]; cbn in E.
  - injection E as E. split; [reflexivity | exact E].
  - exfalso. injection E as E _. apply Nb. left. symmetry. exact E.
  - exfalso. injection E as E _. apply Na. left. exact E.
  - injection E as -> E. destruct (IH b r r') as [-> ->]; [ | | exact E | split; reflexivity].
    + intros X. apply Na. right. exact X.
    + intros X. apply Nb. right. exact X.
Qed.

Lemma cast_func_inj : forall f t f' t', usual f -> usual t -> usual f' -> usual t' ->
  cast_func f t = cast_func f' t' -> alike f f' /\ alike t t'.
Proof.
  intros f t f' t' Uf Ut Uf' Ut' E.
  assert (S : split "_" (cast_func f t) = split "_" (cast_func f' t')) by (rewrite E; reflexivity).
  rewrite !cast_func_parts in S by assumption. cbn in S. injection S as S.
  change (cast_parts f ++ "" :: "to" :: "" :: cast_parts t)%list
    with (cast_parts f ++ [""] ++ "to" :: "" :: cast_parts t)%list in S.
  change (cast_parts f' ++ "" :: "to" :: "" :: cast_parts t')%list
    with (cast_parts f' ++ [""] ++ "to" :: "" :: cast_parts t')%list in S.
  rewrite !app_assoc in S.
  assert (N : forall u, usual u -> ~ In "to" (cast_parts u ++ [""])%list).
  { intros u U X. apply in_app_iff in X. destruct X as [X | [X | []]]; [apply (cast_no_to u U X) | discriminate X]. }
  destruct (first_to _ _ _ _ (N f Uf) (N f' Uf') S) as [A B].
  apply app_inj_tail in A. destruct A as [A _]. injection B as B.
  split; apply cast_parts_alike; assumption.
Qed.

Lemma named_fun : forall t b ps c b' ps' c', named t b ps c -> named t b' ps' c' ->
  b = b' /\ qualified ps = qualified ps' /\ c = c'.
Proof.
  intros t b ps c b' ps' c' H H'. destruct H; inversion H'; subst; split; try reflexivity; split; congruence.
Qed.

Lemma alike_parts : forall t t', usual t -> usual t' -> alike t t' -> cast_parts t = cast_parts t'.
Proof.
  intros t t' U U' A. induction A as [b k k' E | b | t t' b ps ps' c N N' R | k k' v v' A1 IH1 A2 IH2].
  - cbn [cast_parts]. rewrite (proj2 (go_scalar_type k k') E). reflexivity.
  - reflexivity.
  - assert (C : conventional ps /\ conventional ps').
    { assert (W : forall p q, same_words p q -> (snake p \/ pascal p) /\ (snake q \/ pascal q)).
      { intros p q [ws [W [[A | A] [B | B]]]]; split; ((left; exists ws; split; [exact W | assumption]) ||
          (right; exists ws; split; [exact W | assumption])). }
      assert (F : Forall (fun p => snake p \/ pascal p) ps /\ Forall (fun p => snake p \/ pascal p) ps').
      { clear - R W. induction R as [ | p q l l' S R [I1 I2]]; [split; constructor | ].
        destruct (W p q S) as [A B]. split; constructor; assumption. }
      assert (Z : ps <> []).
      { intros ->. inversion U as [ | | u ? qs d Nu Cu | ]; subst; try (inversion N; fail).
        destruct (named_fun _ _ _ _ _ _ _ N Nu) as [_ [Q _]]. destruct Cu as [Nz Fz].
        destruct qs as [ | q qs]; [congruence | ]. inversion Fz as [ | ? ? Hq _]; subst.
        destruct (part_words q Hq) as [ws [W1 S1]].
        assert (NE : q <> "").
        { intros ->. pose proof (public_spells ws "" W1 S1) as P. destruct (pascal_not_empty ws W1) as [h [r [X _]]].
          rewrite X in P. discriminate P. }
        unfold qualified in Q. destruct qs as [ | q2 qs]; cbn in Q; destruct q; cbn in Q; congruence. }
      split; split; try exact Z; try apply F. intros ->. inversion R; subst. congruence. }
    destruct C as [C C'].
    assert (Q : forall t ps, named t b ps c -> conventional ps ->
              cast_parts t = ((if b then ["repeated"] else []) ++ map public ps ++ (if c then [""] else []))%list).
    { clear. intros t ps N C. destruct N; cbn [cast_parts]; rewrite split_qualified by exact C; rewrite ?app_nil_r; reflexivity. }
    rewrite (Q t ps N C), (Q t' ps' N' C'). f_equal. f_equal.
    apply (map_public_same ps ps' (proj2 C) (proj2 C')), R.
  - inversion U as [ | | u ? ? ? Nu _ | k1 v1 U1]; subst; [inversion Nu | ].
    inversion U' as [ | | u ? ? ? Nu _ | k2 v2 U2]; subst; [inversion Nu | ].
    cbn [cast_parts]. f_equal. f_equal; [ | apply IH2; assumption].
    apply IH1; apply usual_scalar.
Qed.

(** ** Resolvers *)

Definition opt_list {A : Type} (o : option A) : list A := match o with Some x => [x] | None => [] end.

Lemma join_app1 : forall l x, l <> [] -> join "_" (l ++ [x])%list = join "_" l ++ "_" ++ x.
Proof.
  induction l as [ | a l IH]; intros x N; [congruence | ]. destruct l as [ | b l]; [reflexivity | ].
  change ((a :: b :: l) ++ [x])%list with (a :: b :: (l ++ [x]))%list. rewrite !join_cons.
  change (b :: (l ++ [x]))%list with ((b :: l) ++ [x])%list. rewrite IH by discriminate.
  rewrite !app_assoc_s. reflexivity.
Qed.

Lemma conventional_snoc : forall m f, conventional m -> (snake f \/ pascal f) -> conventional (m ++ [f])%list.
Proof.
  intros m f [N F] H. split; [intros E; destruct m; discriminate E | ].
  apply Forall_app. split; [exact F | constructor; [exact H | constructor]].
Qed.

Lemma resolver_parts : forall m f, conventional m -> (forall x, f = Some x -> snake x \/ pascal x) ->
  resolver_name (qualified m) f = "Resolve_" ++ go_name (qualified (m ++ opt_list f)%list).
Proof.
  intros m f C H. unfold resolver_name. f_equal. destruct f as [x | ]; cbn [opt_list].
  - rewrite !go_name_parts by (first [exact C | apply conventional_snoc; [exact C | apply H; reflexivity]]).
    rewrite map_app. cbn [map]. rewrite join_app1; [reflexivity | ].
    intros E. apply (proj1 C). destruct m; [reflexivity | discriminate E].
  - rewrite app_nil_s, app_nil_r. reflexivity.
Qed.

Lemma opt_conventional : forall m f, conventional m -> (forall x, f = Some x -> snake x \/ pascal x) ->
  conventional (m ++ opt_list f)%list.
Proof.
  intros m [x | ] C H; cbn [opt_list]; [apply conventional_snoc; [exact C | apply H; reflexivity] | ].
  rewrite app_nil_r. exact C.
Qed.

(** ** Oneof fields *)

Lemma qualified_snoc : forall m f, m <> [] -> qualified m ++ "." ++ f = qualified (m ++ [f])%list.
Proof.
  unfold qualified. induction m as [ | a m IH]; intros f N; [congruence | ]. destruct m as [ | b m]; [reflexivity | ].
  change ((a :: b :: m) ++ [f])%list with (a :: b :: (m ++ [f]))%list. rewrite !join_cons.
  change (b :: (m ++ [f]))%list with ((b :: m) ++ [f])%list. rewrite <- IH by discriminate.
  rewrite !app_assoc_s. reflexivity.
Qed.

Lemma oneof_not_nested : forall m f ns n, conventional m -> (snake f \/ pascal f) -> In n ns ->
  (snake n \/ pascal n) -> oneof_name (qualified m) f ns <> go_name (qualified (m ++ [n])%list).
Proof.
  intros m f ns n C Hf I Hn E. unfold oneof_name in E.
  rewrite qualified_snoc in E by apply C.
  pose proof (conventional_snoc m f C Hf) as Cf. pose proof (conventional_snoc m n C Hn) as Cn.
  destruct (conflicts f ns) eqn:K.
  - assert (S : split "_" (go_name (qualified (m ++ [f])%list) ++ String "_" "") = split "_" (go_name (qualified (m ++ [n])%list))).
    { rewrite <- E. reflexivity. }
    rewrite split_app_gen, !split_go_name in S by assumption.
    assert (X : In "" (map public (m ++ [n])%list)).
    { rewrite <- S. apply in_app_iff. right. left. reflexivity. }
    pose proof (public_parts _ (proj2 Cn)) as G. rewrite Forall_forall in G.
    destruct (G "" X) as [h [r [A _]]]. discriminate A.
  - rewrite app_nil_s in E. apply go_name_same in E; [ | exact Cf | exact Cn].
    apply forall2_app_split in E; [ | reflexivity]. destruct E as [_ E].
    inversion E as [ | ? ? ? ? S _]; subst. apply (public_same_words f n Hf Hn) in S.
    assert (X : conflicts f ns = true).
    { unfold conflicts. apply existsb_exists. exists n. split; [exact I | ]. rewrite S. apply String.eqb_refl. }
    congruence.
Qed.

(** ** Variables *)

Lemma memb_iff : forall x l, memb x l = true <-> In x l.
Proof.
  intros x l. unfold memb. rewrite existsb_exists. split.
  - intros [y [I E]]. apply String.eqb_eq in E. subst y. exact I.
  - intros I. exists x. split; [exact I | apply String.eqb_refl].
Qed.

Lemma distinct_in : forall l seen x, In x (distinct seen l) <-> In x l /\ ~ In x seen.
Proof.
  induction l as [ | y l IH]; intros seen x; cbn.
  - split; [intros [] | intros [[] _]].
  - destruct (memb y seen) eqn:M.
    + apply memb_iff in M. rewrite IH. split.
      * intros [A B]. split; [right; exact A | exact B].
      * intros [[<- | A] B]; [destruct (B M) | split; assumption].
    + assert (N : ~ In y seen) by (intros X; apply memb_iff in X; congruence). cbn. rewrite IH. split.
      * intros [<- | [A B]]; [split; [left; reflexivity | exact N] | ].
        split; [right; exact A | intros X; apply B; right; exact X].
      * intros [[<- | A] B]; [left; reflexivity | ].
        destruct (string_dec y x) as [<- | D]; [left; reflexivity | right; split; [exact A | ]].
        intros [X | X]; [apply D, X | apply B, X].
Qed.

Lemma distinct_nodup : forall l seen, NoDup (distinct seen l).
Proof.
  induction l as [ | y l IH]; intros seen; cbn; [constructor | ]. destruct (memb y seen); [apply IH | ].
  constructor; [ | apply IH]. rewrite distinct_in. intros [_ N]. apply N. left. reflexivity.
Qed.

Lemma nodup_map_inj : forall (A B : Type) (g : A -> B) l,
  (forall x y, In x l -> In y l -> g x = g y -> x = y) -> NoDup l -> NoDup (map g l).
Proof.
  intros A B g l. induction l as [ | x l IH]; intros H N; cbn; [constructor | ].
  inversion N as [ | ? ? N1 N2]; subst. constructor.
  - intros I. apply in_map_iff in I. destruct I as [y [E I]]. apply N1.
    rewrite (H x y); [exact I | left; reflexivity | right; exact I | symmetry; exact E].
  - apply IH; [ | exact N2]. intros a b Ia Ib. apply H; right; assumption.
Qed.

(** An underscore in front becomes an X. *)
Lemma public_auto : forall ws, words ws -> public ("_" ++ snake_of ws) = pascal_of ("x" :: ws).
Proof.
  intros ws [N F]. unfold public, go_camel. cbn [append camel]. cbn [is_lower andb].
  change (camel None false (String "_" (snake_of ws))) with (String "X" (camel (Some "_"%char) false (snake_of ws))).
  rewrite camel_snake by exact F. 
  change (pascal_of ("x" :: ws)) with (String.concat "" ("X" :: map capital ws)). rewrite concat_cons. reflexivity.
Qed.

Lemma word_x : word "x".
Proof. exists "x"%char, "", "". repeat split. Qed.

(** ** Plugin functions *)

Lemma dec_digits : forall n, all is_digit (dec n) /\ dec n <> "".
Proof.
  intros n. unfold dec.
  assert (X : forall u, all is_digit (DecimalString.NilEmpty.string_of_uint u)).
  { induction u; cbn; auto; split; auto. }
  destruct (Nat.to_uint n) eqn:E; cbn; (split; [try apply (X (Decimal.D0 _)); try (split; [reflexivity | apply X]); try (repeat split) | discriminate]).
Qed.

Lemma qualified_end : forall p n d, qualified (p ++ [n])%list ++ d = qualified (p ++ [(n ++ d)%string])%list.
Proof.
  intros [ | a p] n d; [reflexivity | ].
  rewrite <- !qualified_snoc by discriminate. rewrite !app_assoc_s. reflexivity.
Qed.

Lemma snake_end : forall ws w d, snake_of (ws ++ [w])%list ++ d = snake_of (ws ++ [(w ++ d)%string])%list.
Proof.
  unfold snake_of. intros [ | a ws] w d; [reflexivity | ].
  rewrite !join_app1 by discriminate. rewrite !app_assoc_s. reflexivity.
Qed.

Lemma word_number : forall w d, word w -> all is_lower w -> all is_digit d -> word (w ++ d).
Proof.
  intros w d [c [ls [ds [-> [Hc [Hl _]]]]]] A D. destruct A as [_ A]. exists c, (ls ++ ds), d. repeat split; assumption.
Qed.

Definition suffix (i : nat) : string := match i with O => "" | S _ => dec (S i) end.

Lemma suffix_digits : forall i, all is_digit (suffix i).
Proof. intros [ | i]; [exact I | apply dec_digits]. Qed.

Lemma suffix_inj : forall i j, suffix i = suffix j -> i = j.
Proof.
  intros [ | i] [ | j] E; cbn [suffix] in E.
  - reflexivity.
  - exfalso. apply (proj2 (dec_digits (S (S j)))). symmetry. exact E.
  - exfalso. apply (proj2 (dec_digits (S (S i)))). exact E.
  - apply Names.Proofs.dec_inj in E. congruence.
Qed.

Lemma numbered_suffix : forall n i, numbered n i = n ++ suffix i.
Proof. intros n [ | i]; cbn [numbered suffix]; [symmetry; apply app_nil_s | reflexivity]. Qed.

Lemma numbered_words : forall ws w i, words (ws ++ [w])%list -> all is_lower w ->
  words (ws ++ [(w ++ suffix i)%string])%list /\
  numbered (snake_of (ws ++ [w])%list) i = snake_of (ws ++ [(w ++ suffix i)%string])%list.
Proof.
  intros ws w i [N F] A. rewrite numbered_suffix, snake_end. split; [ | reflexivity].
  split; [intros E; destruct ws; discriminate E | ]. apply Forall_app in F. destruct F as [F1 F2].
  apply Forall_app. split; [exact F1 | constructor; [ | constructor]].
  inversion F2 as [ | ? ? H _]; subst. apply word_number; [exact H | exact A | apply suffix_digits].
Qed.

Lemma func_go_parts : forall f m n i, called f m n -> m <> [] ->
  func_go_name f i = go_name (qualified (m ++ [numbered n i])%list).
Proof.
  intros f m n i C N. destruct C as [m n args ret | p n args ret]; unfold func_go_name; cbn [f_receiver f_name].
  - rewrite qualified_snoc by exact N. reflexivity.
  - rewrite !numbered_suffix, qualified_end. reflexivity.
Qed.

(** Letters and then digits are read in one way. *)
Lemma letters_digits : forall a b d e, all is_lower a -> all is_lower b -> all is_digit d -> all is_digit e ->
  a ++ d = b ++ e -> a = b /\ d = e.
Proof.
  induction a as [ | c a IH]; intros b d e Ha Hb Hd He E; destruct b as [ | c' b]; cbn in E.
  - split; [reflexivity | exact E].
  - exfalso. subst d. destruct Hd as [X _]. destruct Hb as [Y _]. rewrite (lower_not_digit _ Y) in X. discriminate X.
  - exfalso. subst e. destruct He as [X _]. destruct Ha as [Y _]. rewrite (lower_not_digit _ Y) in X. discriminate X.
  - injection E as -> E. destruct Ha as [_ Ha], Hb as [_ Hb].
    destruct (IH b d e Ha Hb Hd He E) as [-> ->]. split; reflexivity.
Qed.

Lemma numbered_same : forall n n' i j, ends_in_letter n -> ends_in_letter n' ->
  same_words (numbered n i) (numbered n' j) -> n = n' /\ i = j.
Proof.
  intros n n' i j [ws [w [W [A ->]]]] [ws' [w' [W' [A' ->]]]] S.
  destruct (numbered_words ws w i W A) as [Wi E]. destruct (numbered_words ws' w' j W' A') as [Wj E'].
  rewrite E, E' in S.
  assert (X : snake_of (ws ++ [(w ++ suffix i)%string])%list = snake_of (ws' ++ [(w' ++ suffix j)%string])%list).
  { apply same_snake; [eexists; split; [exact Wi | reflexivity] | eexists; split; [exact Wj | reflexivity] | exact S]. }
  assert (Y : (ws ++ [(w ++ suffix i)%string] = ws' ++ [(w' ++ suffix j)%string])%list).
  { apply pascal_inj; [apply Wi | apply Wj | ]. rewrite <- (camel_snake _ None (proj2 Wi)), X.
    apply camel_snake, Wj. }
  apply app_inj_tail in Y. destruct Y as [-> Y].
  destruct (letters_digits _ _ _ _ A A' (suffix_digits i) (suffix_digits j) Y) as [-> Z].
  split; [reflexivity | apply suffix_inj, Z].
Qed.

Lemma forall2_length : forall (A : Type) (R : A -> A -> Prop) a b, Forall2 R a b -> List.length a = List.length b.
Proof. intros A R a b H. induction H as [ | x y a b _ _ IH]; cbn; [reflexivity | rewrite IH; reflexivity]. Qed.

Section Functions.
Variable all_funcs : list func.
Hypothesis Usual : forall f, In f all_funcs -> exists m n, called f m n /\ conventional m /\ ends_in_letter n.
(** Functions whose full names are of the same words have the same name. *)
Hypothesis Apart : forall f g m n m' n', In f all_funcs -> In g all_funcs -> called f m n -> called g m' n' ->
  Forall2 same_words (m ++ [n])%list (m' ++ [n'])%list -> f_name f = f_name g.

Lemma ends_snake : forall n i, ends_in_letter n -> snake (numbered n i).
Proof.
  intros n i [ws [w [W [A ->]]]]. destruct (numbered_words ws w i W A) as [Wi E]. eexists. split; [exact Wi | exact E].
Qed.

Lemma same_refl : forall p, snake p -> same_words p p.
Proof. intros p [ws [W E]]. exists ws. split; [exact W | split; left; exact E]. Qed.

Lemma func_same : forall f g i j, In f all_funcs -> In g all_funcs -> func_go_name f i = func_go_name g j ->
  f_name f = f_name g /\ i = j.
Proof.
  intros f g i j If Ig E. destruct (Usual f If) as [m [n [C [Cm L]]]]. destruct (Usual g Ig) as [m' [n' [C' [Cm' L']]]].
  rewrite (func_go_parts f m n i C (proj1 Cm)), (func_go_parts g m' n' j C' (proj1 Cm')) in E.
  apply go_name_same in E; [ | apply conventional_snoc; [exact Cm | left; apply ends_snake, L]
                             | apply conventional_snoc; [exact Cm' | left; apply ends_snake, L']].
  assert (Len : List.length m = List.length m').
  { apply forall2_length in E. rewrite !app_length in E. cbn in E. lia. }
  destruct (forall2_app_split _ _ _ _ _ _ Len E) as [E1 E2]. inversion E2 as [ | ? ? ? ? S _]; subst.
  destruct (numbered_same n n' i j L L' S) as [-> ->]. split; [ | reflexivity].
  apply (Apart f g m n' m' n' If Ig C C'). apply Forall2_app; [exact E1 | ].
  constructor; [ | constructor]. apply same_refl. apply (ends_snake n' 0 L').
Qed.

Definition count (x : string) (l : list string) : nat := List.length (filter (String.eqb x) l).

Lemma func_names_in : forall fs before x, In x (func_go_names before fs) ->
  exists g i, In g fs /\ x = func_go_name g i /\ count (f_name g) before <= i.
Proof.
  induction fs as [ | f fs IH]; intros before x H; [destruct H | ]. cbn [func_go_names] in H. destruct H as [<- | H].
  - exists f. eexists. split; [left; reflexivity | ]. split; [reflexivity | apply le_n].
  - destruct (IH _ _ H) as [g [i [I [E L]]]]. exists g, i. split; [right; exact I | ]. split; [exact E | ].
    unfold count in *. cbn [filter] in L. destruct (String.eqb (f_name g) (f_name f)); cbn in L; lia.
Qed.

Lemma func_names_nodup : forall fs before, incl fs all_funcs -> NoDup (func_go_names before fs).
Proof.
  induction fs as [ | f fs IH]; intros before I; cbn [func_go_names]; [constructor | ]. constructor.
  - intros H. destruct (func_names_in _ _ _ H) as [g [i [Ig [E L]]]].
    destruct (func_same f g _ i (I f (or_introl eq_refl)) (I g (or_intror Ig)) E) as [N X].
    unfold count in L. rewrite N in *. cbn [filter] in L. rewrite String.eqb_refl in L. cbn in L. lia.
  - apply IH. intros x X. apply I. right. exact X.
Qed.

End Functions.

(** ** Identifiers of functions *)

Lemma replace_app : forall a b s t, replace a b (s ++ t) = replace a b s ++ replace a b t.
Proof. intros a b s t. induction s as [ | c s IH]; cbn; [reflexivity | rewrite IH; reflexivity]. Qed.

Lemma replace_split : forall s, replace "." "_" s = join "_" (split "." s).
Proof.
  induction s as [ | c s IH]; [reflexivity | ]. cbn [replace split]. rewrite IH.
  pose proof (split_nonempty "." s) as N. destruct (Ascii.eqb c "."); destruct (split "." s) as [ | h t]; try congruence.
  - reflexivity.
  - destruct t; reflexivity.
Qed.

Lemma join_app : forall a b, a <> [] -> b <> [] -> join "_" (a ++ b)%list = join "_" a ++ "_" ++ join "_" b.
Proof.
  induction a as [ | x a IH]; intros b Na Nb; [congruence | ]. destruct a as [ | y a].
  - destruct b as [ | z b]; [congruence | reflexivity].
  - change ((x :: y :: a) ++ b)%list with (x :: y :: (a ++ b))%list. rewrite !join_cons.
    change (y :: (a ++ b))%list with ((y :: a) ++ b)%list. rewrite IH by (discriminate || exact Nb).
    rewrite !app_assoc_s. reflexivity.
Qed.

Lemma replace_join : forall l, replace "." "_" (join "_" l) = join "_" (flat_map (split ".") l).
Proof.
  induction l as [ | x l IH]; [reflexivity | ]. destruct l as [ | y l].
  - cbn [join flat_map]. rewrite app_nil_r. apply replace_split.
  - rewrite join_cons, !replace_app, IH, replace_split.
    change (flat_map (split ".") (x :: y :: l)) with (split "." x ++ flat_map (split ".") (y :: l))%list.
    rewrite (join_app (split "." x) (flat_map (split ".") (y :: l))).
    + reflexivity.
    + apply split_nonempty.
    + cbn [flat_map]. intros E. apply app_eq_nil in E. destruct E as [E _]. apply (split_nonempty _ _ E).
Qed.

Lemma id_signature : forall o n args ret, func_id o n args ret = join "_" (signature o n args ret).
Proof.
  intros o n args ret. unfold func_id, signature. rewrite <- replace_join. f_equal.
  destruct (map fqdn _) as [ | x l]; [reflexivity | ]. rewrite !join_cons, !app_assoc_s. reflexivity.
Qed.

Lemma split_no_other : forall sep c s, has_char c s = false -> Forall (fun p => has_char c p = false) (split sep s).
Proof.
  intros sep c s. induction s as [ | x s IH]; cbn; intros H; [repeat constructor | ].
  apply orb_false_iff in H. destruct H as [H1 H2]. specialize (IH H2).
  destruct (Ascii.eqb x sep); [constructor; [reflexivity | exact IH] | ].
  destruct (split sep s) as [ | h t]; [constructor; [cbn; rewrite H1; reflexivity | constructor] | ].
  inversion IH; subst. constructor; [cbn; rewrite H1; assumption | assumption].
Qed.

Lemma signature_plain : forall o n args ret,
  Forall (fun s => has_char "_" s = false) (o :: n :: map fqdn (args ++ match ret with Some t => [t] | None => [] end)%list) ->
  Forall (fun s => has_char "_" s = false) (signature o n args ret) /\ signature o n args ret <> [].
Proof.
  intros o n args ret F. split.
  - unfold signature. apply Forall_forall. intros x I. apply in_flat_map in I. destruct I as [y [Iy Ix]].
    rewrite Forall_forall in F. pose proof (split_no_other "." "_" y (F y Iy)) as G. rewrite Forall_forall in G.
    apply G, Ix.
  - unfold signature. cbn [flat_map]. intros E. apply app_eq_nil in E. destruct E as [E _]. apply (split_nonempty _ _ E).
Qed.

Lemma fqdn_scalar_inj : forall b k b' k', fqdn (Scalar b k) = fqdn (Scalar b' k') -> b = b' /\ k = k'.
Proof. intros [] [] [] [] E; split; solve [reflexivity | discriminate E]. Qed.

Lemma fqdn_scalar_plain : forall b k, has_char "." (fqdn (Scalar b k)) = false /\ has_char "_" (fqdn (Scalar b k)) = false.
Proof. intros [] []; split; reflexivity. Qed.
