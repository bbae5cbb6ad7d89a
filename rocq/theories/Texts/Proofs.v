(** * Proofs about texts in the generated code *)

From Coq Require Import Ascii String List Bool Arith.
From Verif.Texts Require Import Model Spec.
Import ListNotations.
Local Open Scope string_scope.

Lemma app_assoc_s : forall a b c : string, (a ++ b) ++ c = a ++ b ++ c.
Proof. induction a as [ | x a IH]; intros b c; cbn; [reflexivity | rewrite IH; reflexivity]. Qed.
Lemma app_nil_s : forall a : string, a ++ "" = a.
Proof. induction a as [ | x a IH]; cbn; [reflexivity | rewrite IH; reflexivity]. Qed.

(** ** Characters in texts *)

Lemma has_cons : forall c x s, has c (String x s) <-> x = c \/ has c s.
Proof.
  intros c x s. split.
  - intros [a [b H]]. destruct a as [ | y a]; cbn in H; injection H as -> ->; [left; reflexivity | right; exists a, b; reflexivity].
  - intros [-> | [a [b ->]]]; [exists "", s; reflexivity | exists (String x a), b; reflexivity].
Qed.
Lemma has_nil : forall c, ~ has c "".
Proof. intros c [a [b H]]. destruct a; discriminate H. Qed.
Lemma has_app : forall c a b, has c (a ++ b) <-> has c a \/ has c b.
Proof.
  intros c a b. induction a as [ | x a IH]; cbn.
  - split; [right; assumption | intros [H | H]; [destruct (has_nil c H) | exact H]].
  - rewrite !has_cons, IH. tauto.
Qed.
Fixpoint has_b (c : ascii) (s : string) : bool := match s with EmptyString => false | String x r => Ascii.eqb x c || has_b c r end.
Lemma has_b_iff : forall c s, has_b c s = true <-> has c s.
Proof.
  intros c s. induction s as [ | x s IH]; cbn.
  - split; [discriminate | intros H; destruct (has_nil c H)].
  - rewrite has_cons, orb_true_iff, IH, Ascii.eqb_eq. reflexivity.
Qed.
Lemma has_static : forall c s, has_b c s = false -> ~ has c s.
Proof. intros c s H K. apply has_b_iff in K. rewrite K in H. discriminate H. Qed.

Lemma quote_char_newline : forall c, has_b newline (quote_char c) = false.
Proof. intros [[] [] [] [] [] [] [] []]; reflexivity. Qed.
Lemma quote_newline : forall s, ~ has newline (quote s).
Proof.
  intros s H. unfold quote in H. apply has_app in H. destruct H as [H | H]; [revert H; apply has_static; reflexivity | ].
  apply has_app in H. destruct H as [H | H]; [ | revert H; apply has_static; reflexivity].
  induction s as [ | c s IH]; cbn in H; [destruct (has_nil _ H) | ]. apply has_app in H. destruct H as [H | H]; [ | exact (IH H)].
  revert H. apply has_static. apply quote_char_newline.
Qed.
Lemma concat_has : forall c sep l, has c (String.concat sep l) -> has c sep \/ exists x, In x l /\ has c x.
Proof.
  intros c sep. induction l as [ | x l IH]; intros H; [destruct (has_nil c H) | ]. cbn in H. destruct l as [ | y l].
  - right. exists x. split; [left; reflexivity | exact H].
  - apply has_app in H. destruct H as [H | H]; [right; exists x; split; [left; reflexivity | exact H] | ].
    apply has_app in H. destruct H as [H | H]; [left; exact H | ]. destruct (IH H) as [K | [z [I K]]]; [left; exact K | right; exists z; split; [right; exact I | exact K]].
Qed.
Lemma arg_newline : forall a r, ~ has newline (arg_format a r).
Proof.
  intros a r H. unfold arg_format in H. apply has_app in H. destruct H as [H | H]; [revert H; apply has_static; reflexivity | ].
  apply has_app in H. destruct H as [H | H]; [ | revert H; apply has_static; reflexivity].
  apply concat_has in H. destruct H as [H | [x [I H]]]; [revert H; apply has_static; reflexivity | ].
  apply in_app_or in I. destruct I as [I | I].
  - destruct (String.eqb (g_name a) ""); [destruct I | ]. destruct I as [<- | []].
    apply has_app in H. destruct H as [H | H]; [ | exact (quote_newline _ H)]. destruct r; revert H; apply has_static; reflexivity.
  - apply in_app_or in I. destruct I as [[<- | []] | I].
    + unfold value_format in H. destruct (g_inline a); apply has_app in H; (destruct H as [H | H]; [revert H; apply has_static; reflexivity | exact (quote_newline _ H)]).
    + destruct (g_if a); [ | destruct I]. destruct I as [<- | []]. apply has_app in H. destruct H as [H | H]; [revert H; apply has_static; reflexivity | exact (quote_newline _ H)].
Qed.

(** ** The end of a comment *)

(** [st]: the character before was a star. [None]: the end of a comment was found. *)
Fixpoint scan (st : bool) (s : string) : option bool :=
  match s with
  | EmptyString => Some st
  | String c r => if st && Ascii.eqb c "/" then None else scan (Ascii.eqb c "*") r
  end.
Definition hit (t : string) : bool := match scan false t with None => true | Some _ => false end.

Lemma scan_app : forall a b st, scan st (a ++ b) = match scan st a with None => None | Some st' => scan st' b end.
Proof.
  induction a as [ | c a IH]; intros b st; cbn; [reflexivity | ]. destruct (st && Ascii.eqb c "/"); [reflexivity | apply IH].
Qed.
Lemma scan_found : forall s st, scan st s = None <-> contains "*/" s \/ st = true /\ exists b, s = String "/" b.
Proof.
  induction s as [ | c s IH]; intros st; cbn [scan].
  - split; [discriminate | ]. intros [[a [b H]] | [_ [b H]]]; [destruct a; discriminate H | discriminate H].
  - destruct (st && Ascii.eqb c "/") eqn:K.
    + apply andb_true_iff in K. destruct K as [-> K]. apply Ascii.eqb_eq in K. subst c. split; [ | reflexivity]. intros _. right. split; [reflexivity | exists s; reflexivity].
    + rewrite IH. split.
      * intros [[a [b H]] | [E [b H]]].
        -- left. exists (String c a), b. rewrite H. reflexivity.
        -- apply Ascii.eqb_eq in E. subst c s. left. exists "", b. reflexivity.
      * intros [[a [b H]] | [E [b H]]].
        -- destruct a as [ | x a]; cbn in H; injection H as -> ->.
           ++ right. split; [reflexivity | exists b; reflexivity].
           ++ left. exists a, b. reflexivity.
        -- injection H as -> ->. subst st. discriminate K.
Qed.
Lemma hit_iff : forall t, hit t = true <-> contains "*/" t.
Proof.
  intros t. unfold hit. destruct (scan false t) as [st | ] eqn:S.
  - split; [discriminate | intros C]. assert (K : scan false t = None) by (apply scan_found; left; exact C). rewrite K in S. discriminate S.
  - apply scan_found in S. destruct S as [S | [X _]]; [ | discriminate X]. split; [intros _; exact S | reflexivity].
Qed.

Lemma scan_quote_char : forall c st r, scan st (quote_char c ++ r) = scan st (String c r).
Proof. intros [[] [] [] [] [] [] [] []] [] r; reflexivity. Qed.
Lemma scan_quote_chars : forall s st r, scan st (quote_chars s ++ r) = scan st (s ++ r).
Proof.
  induction s as [ | c s IH]; intros st r; cbn [quote_chars]; [reflexivity | ].
  rewrite app_assoc_s, scan_quote_char. cbn [append scan]. destruct (st && Ascii.eqb c "/"); [reflexivity | apply IH].
Qed.

(** A text that ends a comment exactly if one of [ts] does, and has no star at its end. *)
Definition fits (s : string) (ts : list string) : Prop := scan false s = if existsb hit ts then None else Some false.
Lemma fits_app : forall a b ts us, fits a ts -> fits b us -> fits (a ++ b) (ts ++ us).
Proof.
  unfold fits. intros a b ts us A B. rewrite scan_app, existsb_app, A. destruct (existsb hit ts); [reflexivity | exact B].
Qed.
Lemma fits_pre : forall a b us, fits a [] -> fits b us -> fits (a ++ b) us.
Proof. intros a b us A B. exact (fits_app a b [] us A B). Qed.
Lemma fits_static : forall s, scan false s = Some false -> fits s [].
Proof. intros s H. exact H. Qed.
Lemma fits_quote : forall t, fits (quote t) [t].
Proof.
  intros t. unfold fits, quote. rewrite scan_app. cbn [scan andb Ascii.eqb Bool.eqb existsb]. rewrite scan_quote_chars, scan_app, orb_false_r. unfold hit.
  destruct (scan false t) as [st | ]; [destruct st; reflexivity | reflexivity].
Qed.
Lemma fits_same : forall s ts us, fits s ts -> existsb hit ts = existsb hit us -> fits s us.
Proof. unfold fits. intros s ts us H <-. exact H. Qed.
Lemma fits_indent : forall n, fits (indent n) [].
Proof. induction n as [ | n IH]; [reflexivity | ]. cbn [indent]. apply (fits_pre "  " (indent n) []); [reflexivity | exact IH]. Qed.
Lemma fits_concat : forall sep l tss, fits sep [] -> Forall2 fits l tss -> fits (String.concat sep l) (List.concat tss).
Proof.
  intros sep l tss S F. induction F as [ | x ts l tss H F IH]; [reflexivity | ]. cbn [String.concat List.concat]. destruct F as [ | y us l' tss' H' F'].
  - cbn. rewrite app_nil_r. exact H.
  - apply fits_app; [exact H | ]. apply (fits_pre sep _ _ S). exact IH.
Qed.
Lemma fits_map : forall A sep (f : A -> string) (g : A -> list string) l, fits sep [] -> (forall x, fits (f x) (g x)) -> fits (String.concat sep (map f l)) (flat_map g l).
Proof.
  intros A sep f g l S H. rewrite flat_map_concat_map. apply fits_concat; [exact S | ]. induction l as [ | x l IH]; cbn; constructor; [apply H | exact IH].
Qed.

Lemma fits_line : forall n k t, fits k [] -> fits (line n k t) [t].
Proof.
  intros n k t K. unfold line. apply (fits_pre _ _ [t] (fits_indent n)). apply (fits_pre _ _ [t] K). apply (fits_pre ": " _ [t]); [reflexivity | apply fits_quote].
Qed.
Lemma fits_nl : fits nl [].
Proof. reflexivity. Qed.
Lemma fits_block : forall n k l tss, fits k [] -> Forall2 fits l tss -> fits (block n k l) (List.concat tss).
Proof.
  intros n k l tss K F. unfold block. apply (fits_pre _ _ _ (fits_indent n)). apply (fits_pre _ _ _ K). apply (fits_pre " {" _ _); [reflexivity | ].
  apply (fits_pre _ _ _ fits_nl). rewrite <- (app_nil_r (List.concat tss)). apply fits_app; [apply fits_concat; [exact fits_nl | exact F] | ].
  apply (fits_pre _ _ [] fits_nl). apply (fits_pre _ _ [] (fits_indent n)). reflexivity.
Qed.

Lemma fits_value : forall i e, fits (value_format i e) [e].
Proof. intros [] e; unfold value_format; (apply (fits_pre _ _ [e]); [reflexivity | apply fits_quote]). Qed.
Lemma fits_arg : forall a r, fits (arg_format a r) (arg_texts a).
Proof.
  intros a r. unfold arg_format, arg_texts. apply (fits_pre "{ " _ _); [reflexivity | ]. rewrite <- (app_nil_r ([g_name a; g_value a] ++ some (g_if a))%list).
  apply fits_app; [ | reflexivity].
  apply (fits_same _ (List.concat ((if String.eqb (g_name a) "" then [] else [[g_name a]]) ++ [[g_value a]] ++ map (fun t => [t]) (some (g_if a)))%list)).
  - apply fits_concat; [reflexivity | ]. apply Forall2_app; [ | apply Forall2_app].
    + destruct (String.eqb (g_name a) ""); constructor; [ | constructor]. apply (fits_pre _ _ [g_name a]); [destruct r; reflexivity | apply fits_quote].
    + constructor; [apply fits_value | constructor].
    + destruct (g_if a) as [e | ]; cbn [some map]; constructor; [ | constructor]. apply (fits_pre _ _ [e]); [reflexivity | apply fits_quote].
  - destruct (String.eqb (g_name a) "") eqn:N.
    + apply String.eqb_eq in N. rewrite N. destruct (g_if a); reflexivity.
    + destruct (g_if a); reflexivity.
Qed.
Lemma fits_args : forall n k r args, fits k [] -> exists tss, Forall2 fits (args_format n k r args) tss /\ List.concat tss = flat_map arg_texts args.
Proof.
  intros n k r [ | a [ | b l]] K; unfold args_format.
  - exists []. split; [constructor | reflexivity].
  - exists [arg_texts a]. split; [ | cbn; rewrite app_nil_r; reflexivity]. constructor; [ | constructor].
    apply (fits_pre _ _ _ (fits_indent n)). apply (fits_pre _ _ _ K). apply (fits_pre " " _ _); [reflexivity | apply fits_arg].
  - exists [flat_map arg_texts (a :: b :: l)]. split; [ | cbn; rewrite app_nil_r; reflexivity]. constructor; [ | constructor].
    apply (fits_pre _ _ _ (fits_indent n)). apply (fits_pre _ _ _ K). apply (fits_pre ": [" _ _); [reflexivity | ]. apply (fits_pre _ _ _ fits_nl).
    rewrite <- (app_nil_r (flat_map arg_texts (a :: b :: l))). apply fits_app.
    + apply fits_map; [reflexivity | ]. intros x. apply (fits_pre _ _ _ (fits_indent (S n))). apply fits_arg.
    + apply (fits_pre _ _ [] fits_nl). apply (fits_pre _ _ [] (fits_indent n)). reflexivity.
Qed.
Lemma fits_lines : forall n k t, fits k [] -> exists tss, Forall2 fits (lines n k t) tss /\ List.concat tss = some t.
Proof.
  intros n k [t | ] K; [exists [[t]] | exists []]; (split; [ | reflexivity]); [constructor; [apply fits_line; exact K | constructor] | constructor].
Qed.
Lemma fits_detail_list : forall n k m, fits k [] -> exists tss, Forall2 fits (detail_list n k m) tss /\ List.concat tss = [].
Proof.
  intros n k [ | [ | m]] K; unfold detail_list.
  - exists []. split; [constructor | reflexivity].
  - exists [[]]. split; [ | reflexivity]. constructor; [ | constructor]. apply (fits_pre _ _ [] (fits_indent n)). apply (fits_pre _ _ [] K). reflexivity.
  - exists [[]]. split; [ | reflexivity]. constructor; [ | constructor]. apply (fits_pre _ _ [] (fits_indent n)). apply (fits_pre _ _ [] K). apply (fits_pre ": [" _ []); [reflexivity | ].
    apply (fits_pre _ _ [] fits_nl). apply (fits_pre _ _ []).
    + generalize (S (S m)). intros q. assert (F : Forall2 fits (repeat (indent (S n) ++ "{...}") q) (repeat [] q)).
      { induction q as [ | q IH]; cbn [repeat]; constructor; [ | exact IH]. apply (fits_pre _ _ [] (fits_indent (S n))). reflexivity. }
      apply (fits_concat ("," ++ nl)) in F; [ | reflexivity]. apply (fits_same _ _ [] F). clear F. induction q as [ | q IH]; [reflexivity | exact IH].
    + apply (fits_pre _ _ [] fits_nl). apply (fits_pre _ _ [] (fits_indent n)). reflexivity.
Qed.
Lemma fits_detail : forall n d, fits (detail_format n d) [t_if d].
Proof.
  intros n d. unfold detail_format.
  destruct (fits_detail_list (S n) "message" (t_messages d) eq_refl) as [t1 [F1 E1]]. destruct (fits_detail_list (S n) "precondition_failure" (t_preconditions d) eq_refl) as [t2 [F2 E2]].
  destruct (fits_detail_list (S n) "bad_request" (t_bad_requests d) eq_refl) as [t3 [F3 E3]]. destruct (fits_detail_list (S n) "localized_message" (t_localized d) eq_refl) as [t4 [F4 E4]].
  apply (fits_same _ (List.concat ([[t_if d]] ++ t1 ++ t2 ++ t3 ++ t4)%list)).
  - apply fits_concat; [exact fits_nl | ]. apply Forall2_app; [constructor; [apply fits_line; reflexivity | constructor] | ].
    repeat (apply Forall2_app; [assumption | ]). exact F4.
  - rewrite !concat_app, E1, E2, E3, E4. reflexivity.
Qed.
Lemma fits_details : forall n ds, exists tss, Forall2 fits (details_format n ds) tss /\ List.concat tss = map t_if ds.
Proof.
  intros n [ | a [ | b l]]; unfold details_format.
  - exists []. split; [constructor | reflexivity].
  - exists [[t_if a]]. split; [ | reflexivity]. constructor; [ | constructor]. apply (fits_block n "details" [detail_format n a] [[t_if a]] eq_refl). constructor; [apply fits_detail | constructor].
  - exists [map t_if (a :: b :: l)]. split; [ | cbn; rewrite app_nil_r; reflexivity]. constructor; [ | constructor].
    apply (fits_pre _ _ _ (fits_indent n)). apply (fits_pre "details: [" _ _); [reflexivity | ]. apply (fits_pre _ _ _ fits_nl).
    rewrite <- (app_nil_r (map t_if (a :: b :: l))). apply fits_app.
    + assert (E : map t_if (a :: b :: l) = flat_map (fun d => [t_if d]) (a :: b :: l)) by (rewrite flat_map_concat_map; generalize (a :: b :: l); intros q; induction q as [ | x q IH]; cbn; [reflexivity | rewrite IH; reflexivity]).
      rewrite E. apply fits_map; [reflexivity | ]. intros d. apply (fits_pre _ _ _ (fits_indent (S n))). apply (fits_pre "{" _ _); [reflexivity | ]. apply (fits_pre _ _ _ fits_nl).
      rewrite <- (app_nil_r [t_if d]). apply fits_app; [apply fits_detail | ]. apply (fits_pre _ _ [] fits_nl). apply (fits_pre _ _ [] (fits_indent (S n))). reflexivity.
    + apply (fits_pre _ _ [] fits_nl). apply (fits_pre _ _ [] (fits_indent n)). reflexivity.
Qed.
Lemma fits_error : forall n e, fits (error_format n e) (some (e_if e) ++ some (e_message e) ++ map t_if (e_details e)).
Proof.
  intros n e. unfold error_format. destruct (fits_lines (S n) "if" (e_if e) eq_refl) as [t1 [F1 E1]]. destruct (fits_lines (S n) "message" (e_message e) eq_refl) as [t2 [F2 E2]].
  destruct (fits_details (S n) (e_details e)) as [t3 [F3 E3]]. rewrite <- E1, <- E2, <- E3, <- !concat_app.
  change (List.concat (t1 ++ t2 ++ t3)%list) with (List.concat ([[]] ++ t1 ++ t2 ++ t3)%list). apply fits_block; [reflexivity | ].
  apply Forall2_app; [ | apply Forall2_app; [exact F1 | apply Forall2_app; assumption]]. constructor; [ | constructor].
  apply (fits_pre _ _ [] (fits_indent (S n))). apply (fits_pre "code: " _ []); [reflexivity | destruct (e_code e); reflexivity].
Qed.
Lemma fits_message : forall n k args, fits (message_format n k args) (k :: flat_map arg_texts args).
Proof.
  intros n k args. unfold message_format. destruct (fits_args (S n) "args" false args eq_refl) as [tss [F E]].
  change (k :: flat_map arg_texts args) with ([k] ++ flat_map arg_texts args)%list. rewrite <- E. apply (fits_block n "message" _ ([k] :: tss) eq_refl).
  constructor; [apply fits_line; reflexivity | exact F].
Qed.
Lemma fits_named : forall n k, exists tss, Forall2 fits (named n k) tss /\ existsb hit (List.concat tss) = hit k.
Proof.
  intros n k. unfold named. destruct (String.eqb k "") eqn:K.
  - apply String.eqb_eq in K. subst k. exists []. split; [constructor | reflexivity].
  - exists [[k]]. split; [constructor; [apply fits_line; reflexivity | constructor] | cbn; apply orb_false_r].
Qed.
Lemma fits_expr : forall n e, fits (expr_format n e) (expr_texts e).
Proof.
  intros n [e | m args | k args | k e | i s e | k e]; cbn [expr_format expr_texts].
  - apply fits_line. reflexivity.
  - destruct (fits_args (S n) "request" true args eq_refl) as [tss [F E]].
    change (m :: flat_map arg_texts args) with ([m] ++ flat_map arg_texts args)%list. rewrite <- E. apply (fits_block n "call" _ ([m] :: tss) eq_refl).
    constructor; [apply fits_line; reflexivity | exact F].
  - apply fits_message.
  - apply (fits_block n "enum" _ [[k]; [e]] eq_refl). constructor; [apply fits_line; reflexivity | constructor; [apply fits_line; reflexivity | constructor]].
  - assert (I : fits (block (S n) "iterator" [line (S (S n)) "name" i; line (S (S n)) "src" s]) [i; s]).
    { apply (fits_block (S n) "iterator" _ [[i]; [s]] eq_refl). constructor; [apply fits_line; reflexivity | constructor; [apply fits_line; reflexivity | constructor]]. }
    destruct e as [e | k args | e].
    + apply (fits_block n "map" _ [[i; s]; [e]] eq_refl). constructor; [exact I | constructor; [apply fits_line; reflexivity | constructor]].
    + apply (fits_same _ (List.concat [[i; s]; k :: flat_map arg_texts args])).
      * apply (fits_block n "map" _ _ eq_refl). constructor; [exact I | constructor; [apply fits_message | constructor]].
      * cbn [List.concat]. rewrite app_nil_r. reflexivity.
    + apply (fits_block n "map" _ [[i; s]] eq_refl). constructor; [exact I | constructor].
  - destruct (fits_named (S n) k) as [tss [F E]].
    apply (fits_same _ (List.concat (tss ++ [some (e_if e) ++ some (e_message e) ++ map t_if (e_details e)])%list)).
    + apply fits_block; [reflexivity | ]. apply Forall2_app; [exact F | constructor; [apply fits_error | constructor]].
    + rewrite concat_app, existsb_app, E. cbn [List.concat]. rewrite app_nil_r. reflexivity.
Qed.
Lemma fits_def : forall d, fits (def_format d) (def_texts d).
Proof.
  intros d. unfold def_format, def_texts. destruct (fits_named 1 (d_name d)) as [t1 [F1 E1]]. destruct (fits_lines 1 "if" (d_if d) eq_refl) as [t2 [F2 E2]].
  apply (fits_same _ (List.concat (t1 ++ t2 ++ (if d_autobind d then [[]] else []) ++ [expr_texts (d_expr d)])%list)).
  - apply (fits_block 0); [reflexivity | ]. apply Forall2_app; [exact F1 | ]. apply Forall2_app; [exact F2 | ]. apply Forall2_app.
    + destruct (d_autobind d); constructor; [reflexivity | constructor].
    + constructor; [apply fits_expr | constructor].
  - rewrite !concat_app, !existsb_app, E1, E2. cbn [existsb]. rewrite existsb_app. destruct (d_autobind d); cbn [List.concat existsb app]; rewrite !app_nil_r; reflexivity.
Qed.

Lemma hits_iff : forall ts, existsb hit ts = true <-> exists t, In t ts /\ contains "*/" t.
Proof.
  intros ts. rewrite existsb_exists. split; intros [t [I H]]; exists t; (split; [exact I | apply hit_iff; exact H]).
Qed.

(** The comment of a definition ends early exactly if one of its texts ends a comment. *)
Lemma last_char : forall s, s <> "" -> exists t c, s = t ++ String c "".
Proof.
  induction s as [ | x s IH]; intros H; [contradiction | ]. destruct s as [ | y s].
  - exists "", x. reflexivity.
  - destruct IH as [t [c E]]; [discriminate | ]. exists (String x t), c. rewrite E. reflexivity.
Qed.
Lemma last_inj : forall s t c d, s ++ String c "" = t ++ String d "" -> s = t /\ c = d.
Proof.
  induction s as [ | x s IH]; intros t c d H; destruct t as [ | y t]; cbn in H.
  - injection H as ->. split; reflexivity.
  - injection H as -> H. destruct t; discriminate H.
  - injection H as -> H. destruct s; discriminate H.
  - injection H as -> H. apply IH in H. destruct H as [-> ->]. split; reflexivity.
Qed.
Lemma comment_exact : forall d, (exists a b, b <> "" /\ nl ++ def_format d ++ nl ++ "*/" = a ++ "*/" ++ b) <-> exists t, In t (def_texts d) /\ contains "*/" t.
Proof.
  intros d. rewrite <- hits_iff.
  assert (F : scan false (nl ++ def_format d ++ nl) = if existsb hit (def_texts d) then None else Some false).
  { apply (fits_pre nl _ _ fits_nl). rewrite <- (app_nil_r (def_texts d)). apply fits_app; [apply fits_def | exact fits_nl]. }
  assert (E : nl ++ def_format d ++ nl ++ "*/" = ((nl ++ def_format d ++ nl) ++ "*") ++ String "/" "") by (rewrite !app_assoc_s; reflexivity).
  split.
  - intros [a [b [Nb H]]]. rewrite E in H. destruct (last_char b Nb) as [b' [c ->]].
    assert (H' : ((nl ++ def_format d ++ nl) ++ "*") ++ String "/" "" = (a ++ "*/" ++ b') ++ String c "") by (rewrite H, !app_assoc_s; reflexivity).
    apply last_inj in H'. destruct H' as [H' _].
    assert (S : scan false ((nl ++ def_format d ++ nl) ++ "*") = None) by (apply scan_found; left; exists a, b'; exact H').
    rewrite scan_app, F in S. destruct (existsb hit (def_texts d)); [reflexivity | discriminate S].
  - intros H. rewrite H in F. apply scan_found in F. destruct F as [[a [b F]] | [X _]]; [ | discriminate X].
    exists a, (b ++ "*/"). split; [destruct b; discriminate | ]. rewrite E, F. rewrite !app_assoc_s. reflexivity.
Qed.

(** ** Reading *)

Fixpoint feed (m : mode) (s : string) : option (list token * mode) :=
  match s with
  | EmptyString => Some ([], m)
  | String c r =>
      match next m c with
      | None => None
      | Some (l, m') => match feed m' r with Some (l', m'') => Some (l ++ l', m'')%list | None => None end
      end
  end.
Lemma lex_app : forall a b m, lex m (a ++ b) = match feed m a with None => None | Some (l, m') => match lex m' b with Some l' => Some (l ++ l')%list | None => None end end.
Proof.
  induction a as [ | c a IH]; intros b m; cbn [append feed].
  - destruct (lex m b); reflexivity.
  - cbn [lex]. destruct (next m c) as [[l m'] | ]; [ | reflexivity]. rewrite IH. destruct (feed m' a) as [[l' m''] | ]; [ | reflexivity].
    destruct (lex m'' b); [rewrite app_assoc | ]; reflexivity.
Qed.
Lemma feed_app : forall a b m, feed m (a ++ b) = match feed m a with None => None | Some (l, m') => match feed m' b with Some (l', m'') => Some (l ++ l', m'')%list | None => None end end.
Proof.
  induction a as [ | c a IH]; intros b m; cbn [append feed].
  - destruct (feed m b) as [[l m'] | ]; reflexivity.
  - destruct (next m c) as [[l m'] | ]; [ | reflexivity]. rewrite IH. destruct (feed m' a) as [[l' m''] | ]; [ | reflexivity].
    destruct (feed m'' b) as [[l'' m'''] | ]; [rewrite app_assoc | ]; reflexivity.
Qed.

Fixpoint plain (s : string) : bool := match s with EmptyString => true | String c r => negb (Ascii.eqb c "`" || Ascii.eqb c "034" || Ascii.eqb c "/") && plain r end.
Lemma feed_code : forall s, plain s = true -> feed InCode s = Some (code_tokens s, InCode).
Proof.
  induction s as [ | c s IH]; intros H; [reflexivity | ]. cbn [plain] in H. apply andb_true_iff in H. destruct H as [H Hs]. apply negb_true_iff, orb_false_iff in H. destruct H as [H H3].
  apply orb_false_iff in H. destruct H as [H1 H2]. cbn [feed next]. unfold in_code. rewrite H1, H2, H3, (IH Hs). reflexivity.
Qed.
Lemma has_not : forall c x s, ~ has c (String x s) -> Ascii.eqb x c = false /\ ~ has c s.
Proof.
  intros c x s H. split; [ | intros K; apply H; apply has_cons; right; exact K].
  destruct (Ascii.eqb x c) eqn:E; [ | reflexivity]. apply Ascii.eqb_eq in E. exfalso. apply H. apply has_cons. left. exact E.
Qed.
Lemma feed_raw : forall s v, ~ has "`" s -> ~ has "013" s -> feed (InRaw v) s = Some ([], InRaw (v ++ s)).
Proof.
  induction s as [ | c s IH]; intros v H1 H2; cbn [feed next]; [rewrite app_nil_s; reflexivity | ].
  apply has_not in H1, H2. destruct H1 as [E1 H1], H2 as [E2 H2]. rewrite E1, E2, (IH _ H1 H2). unfold snoc. rewrite app_assoc_s. reflexivity.
Qed.
Lemma feed_quote : forall s v, ~ has "034" s -> ~ has "\" s -> ~ has "010" s -> feed (InQuote v) s = Some ([], InQuote (v ++ s)).
Proof.
  induction s as [ | c s IH]; intros v H1 H2 H3; cbn [feed next]; [rewrite app_nil_s; reflexivity | ].
  apply has_not in H1, H2, H3. destruct H1 as [E1 H1], H2 as [E2 H2], H3 as [E3 H3]. rewrite E1, E2, E3, (IH _ H1 H2 H3). unfold snoc. rewrite app_assoc_s. reflexivity.
Qed.
Lemma feed_line : forall s, ~ has newline s -> feed InLine s = Some ([], InLine).
Proof.
  induction s as [ | c s IH]; intros H; cbn [feed next]; [reflexivity | ]. apply has_not in H. destruct H as [E H]. unfold newline in E. rewrite E, (IH H). reflexivity.
Qed.
Lemma feed_block : forall s st st', scan st s = Some st' -> feed (if st then Star else InBlock) s = Some ([], if st' then Star else InBlock).
Proof.
  induction s as [ | c s IH]; intros st st' H; cbn [scan] in H; cbn [feed].
  - injection H as <-. reflexivity.
  - destruct (st && Ascii.eqb c "/") eqn:K; [discriminate H | ]. specialize (IH _ _ H). destruct st; cbn [next].
    + cbn in K. rewrite K. rewrite IH. reflexivity.
    + rewrite IH. reflexivity.
Qed.

(** A piece that is read as it is meant. *)
Definition reads (p : piece) : Prop := feed InCode (render1 p) = Some (means p, InCode).
Lemma reads_code : forall s, plain s = true -> reads (Code s).
Proof. intros s H. exact (feed_code s H). Qed.
Lemma reads_raw : forall s, ~ has "`" s /\ ~ has "013" s -> reads (Raw s).
Proof.
  intros s [H1 H2]. unfold reads. cbn [render1]. change ("`" ++ s ++ "`") with (String "`" (s ++ "`")). cbn [feed]. change (next InCode "`") with (Some ([] : list token, InRaw "")). cbv iota beta.
  rewrite feed_app, (feed_raw s "" H1 H2). reflexivity.
Qed.
Lemma reads_quoted : forall s, ~ has "034" s -> ~ has "\" s -> ~ has "010" s -> reads (Quoted s).
Proof.
  intros s H1 H2 H3. unfold reads. cbn [render1]. change ("""" ++ s ++ """") with (String "034" (s ++ """")). cbn [feed]. change (next InCode "034") with (Some ([] : list token, InQuote "")). cbv iota beta.
  rewrite feed_app, (feed_quote s "" H1 H2 H3). reflexivity.
Qed.
Lemma reads_line : forall s, ~ has newline s -> reads (Line s).
Proof.
  intros s H. unfold reads. cbn [render1]. rewrite feed_app. change (feed InCode "//") with (Some ([] : list token, InLine)). cbv iota beta. rewrite feed_app, (feed_line s H). reflexivity.
Qed.
Lemma reads_block : forall s, scan false s = Some false -> reads (Block s).
Proof.
  intros s H. unfold reads. cbn [render1]. rewrite feed_app. change (feed InCode "/*") with (Some ([] : list token, InBlock)). cbv iota beta. rewrite feed_app.
  change (feed InBlock nl) with (Some ([] : list token, InBlock)). cbv iota beta. rewrite feed_app, (feed_block s false false H). reflexivity.
Qed.
Lemma render_cons : forall p ps, render (p :: ps) = render1 p ++ render ps.
Proof. intros p [ | q ps]; unfold render; cbn; [rewrite app_nil_s; reflexivity | reflexivity]. Qed.
Lemma reads_all : forall ps, Forall reads ps -> go_tokens (render ps) = Some (flat_map means ps).
Proof.
  intros ps F. induction F as [ | p ps H F IH]; [reflexivity | ]. unfold go_tokens in *. rewrite render_cons, lex_app. unfold reads in H. rewrite H, IH. reflexivity.
Qed.

Lemma harmless_reads : forall i, harmless i -> Forall reads (pieces i).
Proof.
  intros i [R C].
  assert (Rw : forall t, In t (raw_texts i) -> reads (Raw t)) by (intros t I; apply reads_raw; apply R; exact I). clear R.
  destruct i as [d | a r | inline e | t s d | f d | l m | n v]; cbn [pieces] in *.
  - cbn [raw_texts] in Rw.
    assert (Bl : reads (Block (def_format d))).
    { apply reads_block. rewrite (fits_def d). destruct (existsb hit (def_texts d)) eqn:H; [ | reflexivity]. apply hits_iff in H. destruct H as [t [I H]]. destruct (C t I H). }
    apply Forall_app. split; [repeat constructor; exact Bl | ]. apply Forall_app. split.
    { destruct (d_if d) as [e | ]; [ | constructor]. repeat (constructor; [first [reflexivity | apply Rw; left; reflexivity] | ]). constructor. }
    apply Forall_app. split; [constructor; [reflexivity | constructor; [apply Rw; apply in_or_app; right; left; reflexivity | constructor; [reflexivity | constructor]]] | ].
    assert (Rw' : forall t, In t (match d_expr d with By e | Enum _ e => [e] | Map i _ (EachBy e | EachEnum e) => [i; e] | Map i _ _ => [i] | Validation _ e => some (e_if e) ++ some (e_message e) | _ => [] end)%list -> reads (Raw t)).
    { intros t I. apply Rw. apply in_or_app. right. right. exact I. }
    clear Rw C Bl. apply Forall_app. split; [ | repeat constructor].
    destruct (d_expr d) as [e | m args | k args | k e | i s e | k e]; try (constructor; fail).
    + constructor; [reflexivity | constructor; [apply Rw'; left; reflexivity | constructor; [reflexivity | constructor]]].
    + constructor; [reflexivity | constructor; [apply Rw'; left; reflexivity | constructor; [reflexivity | constructor]]].
    + destruct e as [e | k args | e]; cbn [app].
      * constructor; [reflexivity | constructor; [apply Rw'; left; reflexivity | constructor; [reflexivity | ]]].
        constructor; [reflexivity | constructor; [apply Rw'; right; left; reflexivity | constructor; [reflexivity | constructor]]].
      * constructor; [reflexivity | constructor; [apply Rw'; left; reflexivity | constructor; [reflexivity | constructor]]].
      * constructor; [reflexivity | constructor; [apply Rw'; left; reflexivity | constructor; [reflexivity | ]]].
        constructor; [reflexivity | constructor; [apply Rw'; right; left; reflexivity | constructor; [reflexivity | constructor]]].
    + apply Forall_app. split.
      * destruct (e_if e) as [c | ]; [ | constructor]. constructor; [reflexivity | constructor; [apply Rw'; left; reflexivity | constructor; [reflexivity | constructor]]].
      * destruct (e_message e) as [c | ]; [ | constructor]. constructor; [reflexivity | constructor; [apply Rw'; apply in_or_app; right; left; reflexivity | constructor; [reflexivity | constructor]]].
  - assert (L : reads (Line (" " ++ arg_format a r))).
    { apply reads_line. intros H. apply has_app in H. destruct H as [H | H]; [revert H; apply has_static; reflexivity | exact (arg_newline _ _ H)]. }
    constructor; [exact L | ]. cbn [raw_texts some] in Rw. destruct (g_if a) as [e | ].
    + repeat (constructor; [first [reflexivity | apply Rw; left; reflexivity | apply Rw; right; left; reflexivity] | ]). constructor.
    + repeat (constructor; [first [reflexivity | apply Rw; left; reflexivity] | ]). constructor.
  - constructor.
    + apply reads_line. intros H. apply has_app in H. destruct H as [H | H]; [revert H; apply has_static; reflexivity | ].
      apply has_app in H. destruct H as [H | H]; [destruct inline; revert H; apply has_static; reflexivity | exact (quote_newline _ H)].
    + repeat (constructor; [first [reflexivity | apply Rw; left; reflexivity] | ]). constructor.
  - repeat (constructor; [first [reflexivity | apply Rw; left; reflexivity | apply Rw; right; left; reflexivity | apply Rw; right; right; left; reflexivity] | ]). constructor.
  - repeat (constructor; [first [reflexivity | apply Rw; left; reflexivity | apply Rw; right; left; reflexivity] | ]). constructor.
  - destruct C as [C1 [C2 C3]]. repeat (constructor; [first [reflexivity | apply reads_quoted; assumption | apply Rw; left; reflexivity] | ]). constructor.
  - repeat (constructor; [first [reflexivity | apply Rw; left; reflexivity | apply Rw; right; left; reflexivity] | ]). constructor.
Qed.

(** The value of a raw literal has no backtick and no carriage return. *)
Lemma raw_value : forall s v t l, lex (InRaw v) s = Some (t :: l) -> ~ has "`" v -> ~ has "013" v -> exists v', t = Lit v' /\ ~ has "`" v' /\ ~ has "013" v'.
Proof.
  induction s as [ | c s IH]; intros v t l H H1 H2; cbn [lex next] in H; [discriminate H | ].
  destruct (Ascii.eqb c "`") eqn:E1.
  - destruct (lex InCode s) as [l' | ]; [ | discriminate H]. injection H as <- _. exists v. split; [reflexivity | split; assumption].
  - destruct (Ascii.eqb c "013") eqn:E2.
    + destruct (lex (InRaw v) s) as [[ | t' l'] | ] eqn:L; try discriminate H. cbn in H. injection H as <- <-. apply (IH _ _ _ L H1 H2).
    + destruct (lex (InRaw (snoc v c)) s) as [[ | t' l'] | ] eqn:L; try discriminate H. cbn in H. injection H as <- <-. apply (IH _ _ _ L).
      * intros K. apply has_app in K. destruct K as [K | K]; [exact (H1 K) | ]. apply has_cons in K. destruct K as [-> | K]; [discriminate E1 | exact (has_nil _ K)].
      * intros K. apply has_app in K. destruct K as [K | K]; [exact (H2 K) | ]. apply has_cons in K. destruct K as [-> | K]; [discriminate E2 | exact (has_nil _ K)].
Qed.
Lemma raw_exact : forall s rest, go_tokens rest <> None ->
  ((exists l, go_tokens ("`" ++ s ++ "`" ++ rest) = Some (Lit s :: l)) <-> ~ has "`" s /\ ~ has "013" s).
Proof.
  intros s rest Nr. unfold go_tokens in *. change ("`" ++ s ++ "`" ++ rest) with (String "`" (s ++ "`" ++ rest)). cbn [lex]. change (next InCode "`") with (Some ([] : list token, InRaw "")). cbv iota beta.
  split.
  - intros [l H]. destruct (lex (InRaw "") (s ++ "`" ++ rest)) as [[ | t l'] | ] eqn:L; try discriminate H. cbn in H. injection H as -> _.
    destruct (raw_value _ _ _ _ L (has_nil _) (has_nil _)) as [v [E K]]. injection E as ->. exact K.
  - intros [H1 H2]. rewrite lex_app, (feed_raw s "" H1 H2). cbv iota beta.
    change ("`" ++ rest) with (String "`" rest). cbn [lex]. change (next (InRaw ("" ++ s)) "`") with (Some ([Lit s], InCode)). cbv iota beta.
    destruct (lex InCode rest) as [l | ]; [ | contradiction]. exists l. reflexivity.
Qed.

(** The literals, in order. *)
Lemma values_app : forall a b, values (a ++ b) = (values a ++ values b)%list.
Proof. intros a b. apply flat_map_app. Qed.
Lemma values_code : forall s, values (code_tokens s) = [].
Proof. induction s as [ | c s IH]; [reflexivity | exact IH]. Qed.
Lemma values_pieces : forall ps qs, values (flat_map means (ps ++ qs)) = (values (flat_map means ps) ++ values (flat_map means qs))%list.
Proof. intros ps qs. rewrite flat_map_app. apply values_app. Qed.
Lemma values_item : forall i, values (flat_map means (pieces i)) = texts i.
Proof.
  intros [d | a r | inline e | t s d | f d | l m | n v]; unfold texts; cbn [pieces raw_texts].
  - destruct (d_if d), (d_expr d) as [ | | | | i0 s0 [ | | ] | k0 [c0 [ | ] [ | ] ds0]]; reflexivity.
  - destruct (g_if a); reflexivity.
  - reflexivity.
  - reflexivity.
  - reflexivity.
  - reflexivity.
  - reflexivity.
Qed.
Lemma values_meaning : forall items, values (meaning items) = flat_map texts items.
Proof.
  unfold meaning. induction items as [ | i items IH]; [reflexivity | ]. cbn [flat_map]. rewrite values_pieces, IH, values_item. reflexivity.
Qed.
