(** * Lemmas about quoted strings, struct tags and their loading *)

From Coq Require Import Ascii String List Bool Arith Lia.
From Verif.Base Require Import Text TextProofs.
From Verif.Ident Require Import Model.
From Verif.Env Require Import Model Spec.
Import ListNotations.
Local Open Scope string_scope.

Lemma app_assoc_s : forall a b c : string, (a ++ b) ++ c = a ++ b ++ c.
Proof. induction a as [ | x a IH]; intros b c; [reflexivity | cbn; rewrite IH; reflexivity]. Qed.

Lemma app_empty : forall s, s ++ "" = s.
Proof. induction s as [ | c s IH]; [reflexivity | cbn; rewrite IH; reflexivity]. Qed.

(** ** Quoting *)

Lemma unquote_char : forall c r, unquote (quote_char c ++ r) = option_map (String c) (unquote r).
Proof. intros [[] [] [] [] [] [] [] []] r; vm_compute quote_char; cbn [append unquote Ascii.eqb Bool.eqb bslash]; reflexivity. Qed.

Lemma unquote_quote : forall s, unquote (quote_body s) = Some s.
Proof.
  induction s as [ | c s IH]; [reflexivity | ]. cbn [quote_body]. rewrite unquote_char, IH. reflexivity.
Qed.

Lemma scan_char : forall c r q t, scan r = Some (q, t) -> scan (quote_char c ++ r) = Some (quote_char c ++ q, t).
Proof.
  intros c r q t H. destruct c as [[] [] [] [] [] [] [] []]; vm_compute quote_char; cbn [append scan]; cbn; rewrite H; reflexivity.
Qed.

Lemma scan_quote : forall s t, scan (quote_body s ++ String dquote t) = Some (quote_body s, t).
Proof.
  induction s as [ | c s IH]; intros t; [reflexivity | ]. cbn [quote_body]. rewrite app_assoc_s. apply scan_char. apply IH.
Qed.

(** ** Tags *)

(** One key of a tag and the rest. *)
Definition keys : list string := ["envconfig"; "default"; "required"; "ignored"].

Lemma span_known : forall k r, In k keys -> span_key (skip_spaces (k ++ String ":" r)) = (k, String ":" r) /\ k <> "".
Proof. intros k r [<- | [<- | [<- | [<- | []]]]]; (split; [reflexivity | discriminate]). Qed.

Lemma lookup_space : forall fuel key t, lookup fuel key (String " " t) = lookup fuel key t.
Proof. intros [ | fuel] key t; reflexivity. Qed.

Lemma lookup_key : forall fuel key k v t, In k keys ->
  lookup (S fuel) key (k ++ ":" ++ quote v ++ t) = if String.eqb key k then Some v else lookup fuel key t.
Proof.
  intros fuel key k v t I. cbn [lookup]. unfold quote.
  change (k ++ ":" ++ String dquote (quote_body v ++ String dquote "") ++ t) with (k ++ String ":" (String dquote ((quote_body v ++ String dquote "") ++ t))).
  destruct (span_known k (String dquote ((quote_body v ++ String dquote "") ++ t)) I) as [E N]. rewrite E. destruct k as [ | c k]; [congruence | ].
  replace (Ascii.eqb ":" ":" && Ascii.eqb dquote dquote) with true by reflexivity.
  rewrite app_assoc_s. cbn [append]. rewrite scan_quote. rewrite unquote_quote. reflexivity.
Qed.

(** The tag of some keys and values. *)
Definition item (p : string * string) : string := fst p ++ ":" ++ quote (snd p).

Lemma item_length : forall p, 0 < String.length (item p).
Proof. intros [k v]. unfold item. destruct k; cbn; lia. Qed.

Lemma length_app : forall a b, String.length (a ++ b) = String.length a + String.length b.
Proof. induction a as [ | c a IH]; intros b; [reflexivity | cbn; rewrite IH; reflexivity]. Qed.

Lemma join_cons : forall p q l, join " " (map item (p :: q :: l)) = item p ++ String " " (join " " (map item (q :: l))).
Proof. reflexivity. Qed.

Lemma lookup_items : forall l fuel key, Forall (fun p => In (fst p) keys) l -> List.length l <= fuel ->
  lookup fuel key (join " " (map item l)) = assoc key l.
Proof.
  induction l as [ | [k v] l IH]; intros fuel key F L.
  - cbn [map join]. destruct fuel; reflexivity.
  - destruct fuel as [ | fuel]; [cbn in L; lia | ]. inversion F as [ | ? ? Hk Fl]; subst. cbn [fst] in Hk. cbn [assoc]. cbn [List.length] in L.
    destruct l as [ | q l].
    + cbn [map join]. unfold item. cbn [fst snd]. rewrite <- (app_empty (quote v)). rewrite lookup_key by exact Hk.
      destruct (String.eqb key k); [reflexivity | ]. destruct fuel; reflexivity.
    + rewrite join_cons. unfold item at 1. cbn [fst snd]. rewrite !app_assoc_s, lookup_key by exact Hk.
      destruct (String.eqb key k); [reflexivity | ]. rewrite lookup_space. apply IH; [exact Fl | lia].
Qed.

Lemma join_length : forall l, List.length l <= String.length (join " " (map item l)).
Proof.
  induction l as [ | p [ | q l] IH]; [cbn; lia | cbn [map join]; pose proof (item_length p); cbn [List.length]; lia | ].
  rewrite join_cons, length_app. cbn [String.length List.length] in *. lia.
Qed.

Lemma tag_get_items : forall l key, Forall (fun p => In (fst p) keys) l ->
  tag_get (join " " (map item l)) key = match assoc key l with Some v => v | None => "" end.
Proof. intros l key F. unfold tag_get. rewrite lookup_items; [reflexivity | exact F | apply join_length]. Qed.

Section Values.
  Context {type value : Type}.
  Variable parse : type -> string -> option value.
  Variable zero : type -> value.

  (** The keys and values of the tag of a variable. *)
  Definition pairs (v : var type) : list (string * string) :=
    match v_option v with
    | None => [("envconfig", to_upper (v_name v))]
    | Some o => List.concat [[("envconfig", if String.eqb (alternate o) "" then to_upper (v_name v) else alternate o)];
                  if String.eqb (default o) "" then [] else [("default", default o)];
                  if required o then [("required", "true")] else [];
                  if ignored o then [("ignored", "true")] else []]
    end.

  Lemma tag_pairs : forall v, tag v = join " " (map item (pairs v)).
  Proof using.
    intros v. unfold tag, pairs. destruct (v_option v) as [o | ]; [ | reflexivity].
    destruct (String.eqb (default o) ""), (required o), (ignored o); reflexivity.
  Qed.

  Lemma pairs_keys : forall v, Forall (fun p => In (fst p) keys) (pairs v).
  Proof using.
    intros v. unfold pairs, keys. destruct (v_option v) as [o | ]; [ | constructor; [left; reflexivity | constructor]].
    destruct (String.eqb (default o) ""), (required o), (ignored o); cbn [List.concat app];
      repeat (apply Forall_cons; [cbn [fst In]; tauto | ]); apply Forall_nil.
  Qed.

  Lemma tag_get_spec : forall v key, tag_get (tag v) key = match assoc key (pairs v) with Some s => s | None => "" end.
  Proof using. intros v key. rewrite tag_pairs. apply tag_get_items. apply pairs_keys. Qed.

  Definition chosen (v : var type) : string :=
    match v_option v with
    | None => to_upper (v_name v)
    | Some o => if String.eqb (alternate o) "" then to_upper (v_name v) else alternate o
    end.

  Lemma get_envconfig : forall v : var type, tag_get (tag v) "envconfig" = chosen v.
  Proof using.
    intros v. rewrite tag_get_spec. unfold pairs, chosen. destruct (v_option v) as [o | ]; [ | reflexivity].
    cbn [List.concat app assoc]. rewrite String.eqb_refl. reflexivity.
  Qed.

  Lemma get_default : forall v : var type, tag_get (tag v) "default" = match v_option v with Some o => default o | None => "" end.
  Proof using.
    intros v. rewrite tag_get_spec. unfold pairs. destruct (v_option v) as [o | ]; [ | reflexivity].
    destruct (String.eqb (default o) "") eqn:E; [apply String.eqb_eq in E; rewrite E | ]; destruct (required o), (ignored o); reflexivity.
  Qed.

  Lemma get_required : forall v : var type, is_true (tag_get (tag v) "required") = match v_option v with Some o => required o | None => false end.
  Proof using.
    intros v. rewrite tag_get_spec. unfold pairs. destruct (v_option v) as [o | ]; [ | reflexivity].
    destruct (String.eqb (default o) ""), (required o), (ignored o); reflexivity.
  Qed.

  Lemma get_ignored : forall v : var type, is_true (tag_get (tag v) "ignored") = match v_option v with Some o => ignored o | None => false end.
  Proof using.
    intros v. rewrite tag_get_spec. unfold pairs. destruct (v_option v) as [o | ]; [ | reflexivity].
    destruct (String.eqb (default o) ""), (required o), (ignored o); reflexivity.
  Qed.

  (** ** Options *)

  Lemma flag_spec : forall f (v : var type), has_flag f v <-> match v_option v with Some o => f o | None => false end = true.
  Proof using.
    intros f v. unfold has_flag. destruct (v_option v) as [o | ]; split.
    - intros [o' [E H]]. injection E as ->. exact H.
    - intros H. exists o. split; [reflexivity | exact H].
    - intros [o' [E _]]. discriminate E.
    - discriminate.
  Qed.

  Lemma text_spec : forall f (v : var type) s, has_text f v s <-> s <> "" /\ match v_option v with Some o => f o | None => "" end = s.
  Proof using.
    intros f v s. unfold has_text. destruct (v_option v) as [o | ]; split.
    - intros [N [o' [E H]]]. injection E as ->. split; [exact N | exact H].
    - intros [N H]. split; [exact N | exists o; split; [reflexivity | exact H]].
    - intros [_ [o' [E _]]]. discriminate E.
    - intros [N <-]. congruence.
  Qed.

  Lemma no_text : forall f (v : var type), (forall s, ~ has_text f v s) <-> match v_option v with Some o => f o | None => "" end = "".
  Proof using.
    intros f v. split.
    - intros H. destruct (string_dec (match v_option v with Some o => f o | None => "" end) "") as [E | N]; [exact E | ].
      exfalso. apply (H (match v_option v with Some o => f o | None => "" end)). apply text_spec. split; [exact N | reflexivity].
    - intros E s H. apply text_spec in H. destruct H as [N H]. congruence.
  Qed.

  Lemma upper_table : forall s, to_upper s = upper_case s.
  Proof using.
    induction s as [ | c s IH]; [reflexivity | ]. cbn [to_upper upper_case]. rewrite IH. f_equal.
    destruct c as [[] [] [] [] [] [] [] []]; vm_compute; reflexivity.
  Qed.

  Lemma upper_twice : forall s, upper_case (upper_case s) = upper_case s.
  Proof using.
    induction s as [ | c s IH]; [reflexivity | ]. cbn [upper_case]. rewrite IH. f_equal.
    destruct c as [[] [] [] [] [] [] [] []]; vm_compute; reflexivity.
  Qed.

  Lemma reads_spec : forall (v : var type) key, reads v key <-> chosen v = key.
  Proof using.
    intros v key. unfold reads. rewrite text_spec, no_text. unfold chosen. destruct (v_option v) as [o | ].
    - destruct (String.eqb (alternate o) "") eqn:E.
      + apply String.eqb_eq in E. rewrite E, upper_table. split; [intros [[N <-] | [_ ->]]; congruence | intros ->; right; split; reflexivity].
      + apply String.eqb_neq in E. split; [intros [[_ H] | [H _]]; congruence | intros <-; left; split; [exact E | reflexivity]].
    - rewrite upper_table. split; [intros [[N <-] | [_ ->]]; congruence | intros ->; right; split; reflexivity].
  Qed.

  Lemma upper_empty : forall s, upper_case s = "" -> s = "".
  Proof using. intros [ | c s] H; [reflexivity | discriminate H]. Qed.

  Lemma process_field_spec : forall env v key, v_name v <> "" -> reads v key ->
    forall r, value_of parse zero env (upper_case key) v r <-> process_field parse zero env (field_of v) = r.
  Proof using.
    intros env v key N R r. apply reads_spec in R. unfold process_field. cbn [field_of f_tag f_type f_name].
    rewrite get_envconfig, get_default, get_required, get_ignored, R, !upper_table.
    assert (K : String.eqb (upper_case key) "" = false).
    { apply String.eqb_neq. intros E. apply upper_empty in E. subst key. unfold chosen in E. destruct (v_option v) as [o | ].
      - destruct (String.eqb (alternate o) "") eqn:A; [rewrite upper_table in E; apply upper_empty in E; congruence | apply String.eqb_neq in A; congruence].
      - rewrite upper_table in E. apply upper_empty in E. congruence. }
    rewrite K, upper_twice.
    set (ig := match v_option v with Some o => ignored o | None => false end).
    set (rq := match v_option v with Some o => required o | None => false end).
    set (df := match v_option v with Some o => default o | None => "" end).
    assert (Fi : has_flag ignored v <-> ig = true) by apply flag_spec.
    assert (Fr : has_flag required v <-> rq = true) by apply flag_spec.
    assert (Td : forall s, has_text default v s <-> s <> "" /\ df = s) by (intros s; apply text_spec).
    assert (Tn : (forall s, ~ has_text default v s) <-> df = "") by apply no_text.
    clearbody ig rq df. split.
    - intros H. inversion H as [I | s I E | s I E D | I E D Q | I E D Q]; subst.
      + rewrite (proj1 Fi I). reflexivity.
      + destruct ig; [exfalso; apply I; apply Fi; reflexivity | ]. rewrite E. reflexivity.
      + destruct ig; [exfalso; apply I; apply Fi; reflexivity | ]. rewrite E. apply Td in D. destruct D as [D1 D2]. subst s.
        apply String.eqb_neq in D1. rewrite D1. reflexivity.
      + destruct ig; [exfalso; apply I; apply Fi; reflexivity | ]. rewrite E. rewrite (proj1 Tn D), (proj1 Fr Q). reflexivity.
      + destruct ig; [exfalso; apply I; apply Fi; reflexivity | ]. rewrite E. rewrite (proj1 Tn D).
        destruct rq; [exfalso; apply Q; apply Fr; reflexivity | reflexivity].
    - intros <-. destruct ig.
      + apply Of_ignored. apply Fi. reflexivity.
      + assert (I : ~ has_flag ignored v) by (rewrite Fi; discriminate). destruct (env (upper_case key)) as [s | ] eqn:E.
        * apply Of_env; assumption.
        * destruct (String.eqb df "") eqn:D.
          -- apply String.eqb_eq in D. destruct rq.
             ++ apply Of_missing; [exact I | exact E | apply Tn; exact D | apply Fr; reflexivity].
             ++ apply Of_zero; [exact I | exact E | apply Tn; exact D | rewrite Fr; discriminate].
          -- apply Of_default; [exact I | exact E | ]. apply Td. split; [apply String.eqb_neq; exact D | reflexivity].
  Qed.

  Lemma process_spec : forall env fs vs, process parse zero env fs = Some vs <-> Forall2 (fun f r => process_field parse zero env f = Some r) fs vs.
  Proof using.
    induction fs as [ | f fs IH]; intros vs; cbn [process].
    - split; [intros E; injection E as <-; constructor | intros H; inversion H; reflexivity].
    - destruct (process_field parse zero env f) as [x | ] eqn:E.
      + destruct (process parse zero env fs) as [xs | ] eqn:P.
        * split; [intros H; injection H as <-; constructor; [exact E | apply IH; reflexivity] | ].
          intros H. inversion H as [ | ? y ? ys H1 H2]; subst. apply IH in H2. congruence.
        * split; [discriminate | ]. intros H. inversion H as [ | ? y ? ys H1 H2]; subst. apply IH in H2. discriminate H2.
      + split; [discriminate | ]. intros H. inversion H; subst. congruence.
  Qed.

  (** ** The struct *)

  Lemma distinct_spec : forall l, distinct l = true <-> NoDup l.
  Proof using.
    induction l as [ | x l IH]; cbn [distinct]; [split; [constructor | reflexivity] | ].
    rewrite andb_true_iff, negb_true_iff, IH. split.
    - intros [A B]. constructor; [ | exact B]. intros I. assert (X : existsb (String.eqb x) l = true); [ | congruence].
      apply existsb_exists. exists x. split; [exact I | apply String.eqb_refl].
    - intros H. inversion H as [ | ? ? H1 H2]; subst. split; [ | exact H2].
      destruct (existsb (String.eqb x) l) eqn:E; [ | reflexivity]. exfalso. apply existsb_exists in E. destruct E as [y [I E]].
      apply String.eqb_eq in E. subst y. exact (H1 I).
  Qed.

  Lemma bq_char : forall c, has_char "`" (quote_char c) = Ascii.eqb c "`".
  Proof using. intros [[] [] [] [] [] [] [] []]; vm_compute; reflexivity. Qed.

  Lemma bq_quote : forall s, has_char "`" (quote s) = has_char "`" s.
  Proof using.
    intros s. unfold quote. cbn [has_char]. rewrite has_char_app. cbn [has_char]. replace (Ascii.eqb dquote "`") with false by reflexivity.
    cbn [orb]. rewrite orb_false_r. induction s as [ | c s IH]; [reflexivity | ].
    cbn [quote_body has_char]. rewrite has_char_app, bq_char, IH. reflexivity.
  Qed.

  Lemma has_char_in : forall c s, has_char c s = true <-> In c (list_ascii_of_string s).
  Proof using.
    induction s as [ | d s IH]; cbn; [split; [discriminate | intros []] | ]. rewrite orb_true_iff, Ascii.eqb_eq, IH. reflexivity.
  Qed.

  Lemma bq_items : forall l, Forall (fun p => In (fst p) keys) l ->
    has_char "`" (join " " (map item l)) = existsb (fun p => has_char "`" (snd p)) l.
  Proof using.
    assert (I : forall p, In (fst p) keys -> has_char "`" (item p) = has_char "`" (snd p)).
    { intros [k v] H. unfold item. cbn [fst snd] in *. rewrite !has_char_app, bq_quote.
      destruct H as [<- | [<- | [<- | [<- | []]]]]; reflexivity. }
    induction l as [ | p [ | q l] IH]; intros F; [reflexivity | | ]; inversion F; subst.
    - cbn [map join existsb]. rewrite I by assumption. rewrite orb_false_r. reflexivity.
    - rewrite join_cons, has_char_app. cbn [has_char]. replace (Ascii.eqb " " "`") with false by reflexivity. cbn [orb].
      rewrite IH by assumption. rewrite I by assumption. reflexivity.
  Qed.

  Lemma bq_upper : forall s, has_char "`" (upper_case s) = has_char "`" s.
  Proof using.
    induction s as [ | c s IH]; [reflexivity | ]. cbn [upper_case has_char]. rewrite IH. f_equal.
    destruct c as [[] [] [] [] [] [] [] []]; vm_compute; reflexivity.
  Qed.

  Lemma bq_name : forall v : var type, name_ok v -> has_char "`" (v_name v) = false.
  Proof using.
    intros v [_ H]. destruct (has_char "`" (v_name v)) eqn:E; [ | reflexivity]. exfalso. apply has_char_in in E. apply H in E.
    apply has_char_in in E. vm_compute in E. discriminate E.
  Qed.

  Lemma bq_tag : forall v : var type, name_ok v -> (has_char "`" (tag v) = false <-> plain_options v).
  Proof using.
    intros v Nm. pose proof (bq_name v Nm) as B. rewrite tag_pairs, bq_items by apply pairs_keys.
    assert (P : plain_options v <-> has_char "`" (match v_option v with Some o => alternate o | None => "" end) = false /\
                                   has_char "`" (match v_option v with Some o => default o | None => "" end) = false).
    { unfold plain_options. split.
      - intros H. split.
        + destruct (has_char "`" (match v_option v with Some o => alternate o | None => "" end)) eqn:E; [ | reflexivity]. exfalso.
          apply (H (match v_option v with Some o => alternate o | None => "" end)); [left; apply text_spec; split; [ | reflexivity] | apply has_char_in; exact E].
          intros X. rewrite X in E. discriminate E.
        + destruct (has_char "`" (match v_option v with Some o => default o | None => "" end)) eqn:E; [ | reflexivity]. exfalso.
          apply (H (match v_option v with Some o => default o | None => "" end)); [right; apply text_spec; split; [ | reflexivity] | apply has_char_in; exact E].
          intros X. rewrite X in E. discriminate E.
      - intros [A D] s [H | H] I; apply text_spec in H; destruct H as [_ <-]; apply has_char_in in I; congruence. }
    rewrite P. unfold pairs. destruct (v_option v) as [o | ].
    - assert (X : has_char "`" (if String.eqb (alternate o) "" then to_upper (v_name v) else alternate o) = has_char "`" (alternate o)).
      { destruct (String.eqb (alternate o) "") eqn:E; [ | reflexivity]. apply String.eqb_eq in E. rewrite E, upper_table, bq_upper, B. reflexivity. }
      destruct (String.eqb (default o) "") eqn:D.
      + apply String.eqb_eq in D. rewrite D. destruct (required o), (ignored o); cbn [List.concat app existsb snd]; rewrite X;
          destruct (has_char "`" (alternate o)); cbn; split; (tauto || intuition discriminate).
      + destruct (required o), (ignored o); cbn [List.concat app existsb snd]; rewrite X;
          destruct (has_char "`" (alternate o)), (has_char "`" (default o)); cbn; split; (tauto || intuition discriminate).
    - cbn [existsb snd]. rewrite upper_table, bq_upper, B. cbn. split; [intros _; split; reflexivity | reflexivity].
  Qed.

  Lemma struct_spec : forall vars, (forall v, In v vars -> name_ok v) ->
    (struct_ok (map (@field_of type) vars) = true <-> fields_distinct vars /\ forall v, In v vars -> plain_options v).
  Proof using.
    intros vars Nm. unfold struct_ok, fields_distinct. rewrite andb_true_iff, distinct_spec, map_map, forallb_forall. cbn [field_of f_name].
    split; intros [A B]; (split; [exact A | ]).
    - intros v I. apply bq_tag; [exact (Nm v I) | ]. apply negb_true_iff. exact (B _ (in_map (@field_of type) vars v I)).
    - intros f I. apply in_map_iff in I. destruct I as [v [<- I]]. cbn [field_of f_tag]. apply negb_true_iff. apply bq_tag; [exact (Nm v I) | exact (B v I)].
  Qed.
End Values.
