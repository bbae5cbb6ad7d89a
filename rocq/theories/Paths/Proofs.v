(** * Lemmas about paths *)

From Coq Require Import Ascii String List Bool Arith Lia.
From Verif.Base Require Import Text TextProofs.
From Verif.Paths Require Import Model Spec.
Import ListNotations.
Local Open Scope string_scope.

Definition proper (n : string) : Prop := n <> "" /\ n <> "." /\ n <> ".." /\ has_char slash n = false.

Lemma is_abs_spec : forall s, is_abs s = true <-> absolute s.
Proof.
  intros [ | c s]; cbn; split.
  - discriminate.
  - intros [t E]. discriminate E.
  - intros E. apply Ascii.eqb_eq in E. subst. exists s. reflexivity.
  - intros [t E]. cbn in E. injection E as -> _. reflexivity.
Qed.

Lemma is_abs_not : forall s, is_abs s = false <-> ~ absolute s.
Proof. intros s. rewrite <- is_abs_spec. destruct (is_abs s); split; congruence. Qed.

Lemma has_char_in : forall c s, has_char c s = true <-> In c (list_ascii_of_string s).
Proof.
  induction s as [ | d s IH]; cbn; [split; [discriminate | intros []] | ].
  rewrite orb_true_iff, Ascii.eqb_eq, IH. reflexivity.
Qed.

Lemma has_char_not : forall c s, has_char c s = false <-> ~ In c (list_ascii_of_string s).
Proof. intros c s. rewrite <- has_char_in. destruct (has_char c s); split; congruence. Qed.

Lemma concat_join : forall l, String.concat "/" l = join "/" l.
Proof. induction l as [ | x [ | y l] IH]; [reflexivity | reflexivity | ]. cbn [String.concat join] in *. rewrite IH. reflexivity. Qed.

(** ** Cleaning *)

Lemma push_spec : forall r acc e, proper e -> push r acc e = e :: acc.
Proof.
  intros r acc e [A [B [C _]]]. unfold push.
  apply String.eqb_neq in A. apply String.eqb_neq in B. apply String.eqb_neq in C. rewrite A, B, C. reflexivity.
Qed.

Lemma fold_push : forall r l acc, Forall proper l -> fold_left (push r) l acc = (rev l ++ acc)%list.
Proof.
  intros r l. induction l as [ | e l IH]; intros acc F; [reflexivity | ]. inversion F; subst. cbn [fold_left rev].
  rewrite push_spec by assumption. rewrite IH by assumption. rewrite <- app_assoc. reflexivity.
Qed.

Lemma removelast_snoc : forall (A : Type) (l : list A) x, removelast (l ++ [x]) = l.
Proof. intros A l x. rewrite removelast_app by discriminate. cbn. apply app_nil_r. Qed.

(** From the root. *)
Lemma push_root : forall l acc, Forall (fun e => e <> "..") acc ->
  rev (fold_left (push true) l acc) = fold_left go l (rev acc) /\ Forall (fun e => e <> "..") (fold_left (push true) l acc).
Proof.
  induction l as [ | e l IH]; intros acc F; cbn [fold_left]; [split; [reflexivity | exact F] | ].
  unfold push at 2 4, go at 2.
  destruct (String.eqb e "" || String.eqb e ".") eqn:N; [apply IH; exact F | ].
  destruct (String.eqb e "..") eqn:U.
  - destruct acc as [ | x acc].
    + exact (IH [] (Forall_nil _)).
    + inversion F as [ | ? ? H1 H2]; subst. apply String.eqb_neq in H1. rewrite H1. cbn [rev].
      rewrite removelast_snoc. apply IH. exact H2.
  - apply (IH (e :: acc)). constructor; [ | exact F]. apply String.eqb_neq. exact U.
Qed.

Lemma elems_root : forall s, is_abs s = true -> elems s = walk [] s.
Proof. intros s A. unfold elems, walk. rewrite A. apply (push_root (split slash s) [] (Forall_nil _)). Qed.

(** From a directory: up some times, then down. *)
Definition up (k : nat) (d : list string) : list string := Nat.iter k (@removelast string) d.

Lemma up_nil : forall k, up k [] = [].
Proof. induction k as [ | k IH]; [reflexivity | ]. change (up (S k) []) with (removelast (up k [])). rewrite IH. reflexivity. Qed.

Lemma up_one : forall k x, up (S k) [x] = [].
Proof.
  intros k x. induction k as [ | k IH]; [reflexivity | ]. change (up (S (S k)) [x]) with (removelast (up (S k) [x])). rewrite IH. reflexivity.
Qed.

Lemma push_dir : forall l k ps, Forall (fun e => e <> "..") ps ->
  exists k' ps', fold_left (push false) l (ps ++ repeat ".." k)%list = (ps' ++ repeat ".." k')%list /\
    Forall (fun e => e <> "..") ps' /\
    forall d, fold_left go l (up k d ++ rev ps)%list = (up k' d ++ rev ps')%list.
Proof.
  induction l as [ | e l IH]; intros k ps F; cbn [fold_left].
  - exists k, ps. split; [reflexivity | split; [exact F | reflexivity]].
  - unfold push at 2. unfold go at 2.
    destruct (String.eqb e "" || String.eqb e ".") eqn:N; [apply IH; exact F | ].
    destruct (String.eqb e "..") eqn:U.
    + destruct ps as [ | x ps].
      * destruct (IH (S k) [] F) as [k' [ps' [E [F' W]]]]. exists k', ps'. split; [ | split; [exact F' | ]].
        -- rewrite <- E. destruct k; reflexivity.
        -- intros d. rewrite <- W. cbn [rev]. rewrite !app_nil_r. reflexivity.
      * inversion F as [ | ? ? H1 H2]; subst. destruct (IH k ps H2) as [k' [ps' [E [F' W]]]].
        exists k', ps'. split; [ | split; [exact F' | ]].
        -- cbn [app]. apply String.eqb_neq in H1. rewrite H1. exact E.
        -- intros d. rewrite <- W. cbn [rev]. rewrite app_assoc, removelast_snoc. reflexivity.
    + destruct (IH k (e :: ps)) as [k' [ps' [E [F' W]]]]; [constructor; [apply String.eqb_neq; exact U | exact F] | ].
      exists k', ps'. split; [exact E | split; [exact F' | ]].
      intros d. rewrite <- W. cbn [rev]. rewrite app_assoc. reflexivity.
Qed.

Lemma elems_dir : forall s, is_abs s = false ->
  exists k ps, elems s = (repeat ".." k ++ ps)%list /\ Forall (fun e => e <> "..") ps /\ forall d, walk d s = (up k d ++ ps)%list.
Proof.
  intros s A. unfold elems, walk. rewrite A.
  destruct (push_dir (split slash s) 0 [] (Forall_nil _)) as [k [ps [E [F W]]]].
  exists k, (rev ps). cbn [app repeat] in E. rewrite E, rev_app_distr. split; [ | split].
  - f_equal. clear. induction k as [ | k IH]; [reflexivity | ]. cbn [repeat rev]. rewrite IH. symmetry. apply repeat_cons.
  - apply Forall_rev. exact F.
  - intros d. specialize (W d). cbn in W. rewrite app_nil_r in W. exact W.
Qed.

Lemma elems_clean : forall s, Forall (fun e => e <> "" /\ e <> "." /\ has_char slash e = false) (elems s).
Proof.
  intros s. unfold elems. apply Forall_rev.
  assert (G : forall l acc, Forall (fun e => has_char slash e = false) l ->
     Forall (fun e => e <> "" /\ e <> "." /\ has_char slash e = false) acc ->
     Forall (fun e => e <> "" /\ e <> "." /\ has_char slash e = false) (fold_left (push (is_abs s)) l acc)).
  { induction l as [ | e l IH]; intros acc Fl Fa; [exact Fa | ]. inversion Fl; subst. cbn [fold_left]. apply IH; [assumption | ].
    unfold push. destruct (String.eqb e "" || String.eqb e ".") eqn:N; [exact Fa | ].
    apply orb_false_iff in N. destruct N as [N1 N2]. apply String.eqb_neq in N1. apply String.eqb_neq in N2.
    assert (U : ".." <> "" /\ ".." <> "." /\ has_char slash ".." = false) by (split; [discriminate | split; [discriminate | reflexivity]]).
    destruct (String.eqb e "..") eqn:E.
    - destruct acc as [ | x acc]; [destruct (is_abs s); [constructor | constructor; [exact U | constructor]] | ].
      destruct (String.eqb x ".."); [constructor; [exact U | exact Fa] | inversion Fa; assumption].
    - constructor; [ | exact Fa]. split; [exact N1 | split; [exact N2 | assumption]]. }
  apply G; [apply split_parts_no_sep | constructor].
Qed.

(** ** A path that leads down *)

Lemma leads_elems : forall b s ns, leads b s ns -> is_abs s = b /\ elems s = ns /\ Forall proper ns.
Proof.
  intros [] s ns H; cbn in H.
  - destruct H as [A W]. apply is_abs_spec in A. rewrite (elems_root s A). split; [exact A | split; [exact W | ]].
    rewrite <- W, <- (elems_root s A). pose proof (elems_clean s) as C.
    assert (U : Forall (fun e => e <> "..") (elems s)).
    { unfold elems. rewrite A. apply Forall_rev. apply (push_root (split slash s) [] (Forall_nil _)). }
    rewrite Forall_forall in *. intros e I. destruct (C e I) as [C1 [C2 C3]].
    split; [exact C1 | split; [exact C2 | split; [exact (U e I) | exact C3]]].
  - destruct H as [A W]. apply is_abs_not in A. destruct (elems_dir s A) as [k [ps [E [F G]]]].
    assert (P : ps = ns). { pose proof (G []) as H. rewrite W, up_nil in H. symmetry. exact H. }
    destruct k as [ | k].
    + split; [exact A | ]. rewrite E. cbn [repeat app]. split; [exact P | ]. subst ns. pose proof (elems_clean s) as C. rewrite E in C. cbn in C.
      rewrite Forall_forall in *. intros e I. destruct (C e I) as [C1 [C2 C3]].
      split; [exact C1 | split; [exact C2 | split; [exact (F e I) | exact C3]]].
    + exfalso. pose proof (G ["x"]) as H. rewrite W, up_one in H. subst ps. cbn [app] in H.
      apply (f_equal (@List.length string)) in H. cbn in H. lia.
Qed.

(** A path that does not lead down starts by going up. *)
Lemma not_leads : forall s, is_abs s = false -> leads false s (elems s) \/ exists l, elems s = ".." :: l.
Proof.
  intros s A. destruct (elems_dir s A) as [[ | k] [ps [E [F G]]]].
  - left. rewrite E. cbn [repeat app]. split; [apply is_abs_not; exact A | ]. intros d. rewrite G. reflexivity.
  - right. rewrite E. cbn. eexists. reflexivity.
Qed.

Lemma leads_root : forall s, is_abs s = true -> leads true s (elems s).
Proof. intros s A. split; [apply is_abs_spec; exact A | symmetry; apply elems_root; exact A]. Qed.

(** ** Names with slashes between them *)

Lemma proper_head : forall n r, proper n -> is_abs (n ++ r) = false.
Proof.
  intros [ | c n] r [A [_ [_ B]]]; [congruence | ]. cbn in *. apply orb_false_iff in B. apply B.
Qed.

Lemma is_abs_join : forall ns, Forall proper ns -> is_abs (join "/" ns) = false.
Proof.
  intros [ | n [ | m ns]] F; [reflexivity | | ]; inversion F; subst; cbn [join].
  - rewrite <- (proper_head n ""); [ | assumption]. f_equal. induction n as [ | c n IH]; [reflexivity | ].
    destruct n; [reflexivity | ]. clear. set (t := String c _). clearbody t. induction t as [ | d t IH]; [reflexivity | cbn; rewrite <- IH; reflexivity].
  - apply proper_head. assumption.
Qed.

Lemma app_empty : forall s, s ++ "" = s.
Proof. induction s as [ | c s IH]; [reflexivity | cbn; rewrite IH; reflexivity]. Qed.

Lemma app_assoc_s : forall a b c, (a ++ b) ++ c = a ++ b ++ c.
Proof. induction a as [ | x a IH]; intros b c; [reflexivity | cbn; rewrite IH; reflexivity]. Qed.

Lemma split_join : forall ns, ns <> [] -> Forall (fun n => has_char slash n = false) ns -> split slash (join "/" ns) = ns.
Proof.
  induction ns as [ | n [ | m ns] IH]; intros N F; [congruence | | ]; inversion F; subst.
  - apply split_no_sep. assumption.
  - change (split slash (n ++ String slash (join "/" (m :: ns))) = n :: m :: ns).
    rewrite split_app by assumption. f_equal. apply IH; [discriminate | assumption].
Qed.

Lemma proper_no_slash : forall ns, Forall proper ns -> Forall (fun n => has_char slash n = false) ns.
Proof. intros ns F. eapply Forall_impl; [ | exact F]. intros n [_ [_ [_ H]]]. exact H. Qed.

Lemma elems_join : forall ns, Forall proper ns -> elems (join "/" ns) = ns.
Proof.
  intros ns F. unfold elems. rewrite is_abs_join by assumption. destruct ns as [ | n ns]; [reflexivity | ].
  rewrite split_join; [ | discriminate | apply proper_no_slash; assumption].
  rewrite fold_push by assumption. rewrite app_nil_r, rev_involutive. reflexivity.
Qed.

Lemma Clean_join : forall ns, ns <> [] -> Forall proper ns -> Clean (join "/" ns) = join "/" ns.
Proof. intros [ | n ns] N F; [congruence | ]. unfold Clean. rewrite is_abs_join, elems_join by assumption. reflexivity. Qed.

Lemma is_abs_app : forall a b, a <> "" -> is_abs (a ++ b) = is_abs a.
Proof. intros [ | c a] b N; [congruence | reflexivity]. Qed.

Lemma elems_snoc : forall d n, d <> "" -> proper n -> elems (d ++ "/" ++ n) = (elems d ++ [n])%list.
Proof.
  intros d n N P. unfold elems. rewrite is_abs_app by assumption.
  change (d ++ "/" ++ n) with (d ++ String slash n). rewrite split_app_gen.
  rewrite (split_no_sep slash n) by apply P. rewrite fold_left_app. cbn [fold_left]. rewrite push_spec by assumption. reflexivity.
Qed.

Lemma Join_spec : forall d n, proper n -> Join d n = render (is_abs d) (elems d ++ [n]).
Proof.
  intros d n P. unfold Join. cbn [filter].
  assert (Nn : String.eqb n "" = false) by (apply String.eqb_neq; apply P). rewrite Nn. cbn [negb].
  destruct (String.eqb d "") eqn:D.
  - apply String.eqb_eq in D. subst d. cbn [negb join]. unfold Clean.
    rewrite <- (app_empty n) at 1. rewrite (proper_head n "" P). cbn [is_abs].
    pose proof (elems_join [n] (Forall_cons _ P (Forall_nil _))) as E. cbn [join] in E. rewrite E. reflexivity.
  - cbn [negb join]. apply String.eqb_neq in D. unfold Clean. rewrite elems_snoc by assumption. rewrite is_abs_app by assumption. reflexivity.
Qed.

Lemma Join_dir : forall d n ns, is_abs d = false -> elems d = ns -> proper n -> Join d n = join "/" (ns ++ [n]).
Proof.
  intros d n ns A E P. rewrite Join_spec by assumption. rewrite A, E. unfold render. destruct (ns ++ [n])%list eqn:X; [ | reflexivity].
  destruct ns; discriminate X.
Qed.

(** ** Relative paths *)

Lemma strip_prefix : forall a b, strip a (a ++ b) = ([], b).
Proof. induction a as [ | x a IH]; intros b; [destruct b; reflexivity | ]. cbn [strip app]. rewrite String.eqb_refl. apply IH. Qed.

Lemma strip_spec : forall a b, exists c, a = (c ++ fst (strip a b))%list /\ b = (c ++ snd (strip a b))%list.
Proof.
  induction a as [ | x a IH]; intros [ | y b]; cbn [strip]; try (exists []; split; reflexivity).
  destruct (String.eqb x y) eqn:E; [ | exists []; split; reflexivity].
  apply String.eqb_eq in E. subst y. destruct (IH b) as [c [A B]]. exists (x :: c). cbn [app]. rewrite <- A, <- B. split; reflexivity.
Qed.

Lemma cut_spec : forall p s r, cut p s = Some r <-> s = p ++ r.
Proof.
  induction p as [ | c p IH]; intros s r; cbn [cut].
  - split; [intros E; injection E as ->; reflexivity | intros ->; reflexivity].
  - destruct s as [ | d s]; [split; discriminate | ]. destruct (Ascii.eqb c d) eqn:E.
    + apply Ascii.eqb_eq in E. subst d. rewrite IH. cbn. split; [intros ->; reflexivity | intros X; injection X as ->; reflexivity].
    + split; [discriminate | ]. cbn. intros X. injection X as -> _. rewrite Ascii.eqb_refl in E. discriminate E.
Qed.

Lemma HasPrefix_spec : forall s p, HasPrefix s p = true <-> exists r, s = p ++ r.
Proof.
  intros s p. unfold HasPrefix. destruct (cut p s) as [r | ] eqn:E.
  - split; [intros _; exists r; apply cut_spec; exact E | reflexivity].
  - split; [discriminate | ]. intros [r X]. apply cut_spec in X. congruence.
Qed.

Lemma HasPrefix_join : forall ns, ns <> [] -> Forall proper ns -> (forall t, hd "" ns <> ".." ++ t) -> HasPrefix (join "/" ns) ".." = false.
Proof.
  intros [ | n ns] N F H; [congruence | ]. cbn [hd] in H. inversion F as [ | ? ? P _]; subst.
  destruct (HasPrefix (join "/" (n :: ns)) "..") eqn:E; [ | reflexivity]. exfalso. apply HasPrefix_spec in E. destruct E as [r E].
  destruct n as [ | a [ | b n]]; [destruct P; congruence | | ].
  - destruct ns; cbn in E; [discriminate E | ]. injection E as -> E. destruct P as [_ [P _]]. apply P. reflexivity.
  - apply (H n). destruct ns; cbn in E |- *; injection E as -> -> _; reflexivity.
Qed.

Lemma Rel_below : forall b i f root rest, leads b i root -> leads b f (root ++ rest)%list -> rest <> [] -> Rel i f = Some (join "/" rest).
Proof.
  intros b i f root rest Hi Hf N. apply leads_elems in Hi. apply leads_elems in Hf. destruct Hi as [Ai [Ei _]], Hf as [Af [Ef _]].
  unfold Rel. rewrite Ai, Af, Bool.eqb_reflx, Ei, Ef. cbn [negb]. rewrite strip_prefix. destruct rest; [congruence | reflexivity].
Qed.

Lemma join_up : forall k l, HasPrefix (join "/" (repeat ".." (S k) ++ l)) ".." = true.
Proof.
  intros k l. apply HasPrefix_spec. cbn [repeat app]. destruct (repeat ".." k ++ l)%list as [ | x r].
  - exists "". reflexivity.
  - cbn [join]. eexists. reflexivity.
Qed.

Lemma Rel_outside : forall b p f ns, leads b f ns -> ns <> [] -> ~ holds b p ns ->
  match Rel p f with None => True | Some r => HasPrefix r ".." = true end.
Proof.
  intros b p f ns Hf N H. pose proof (leads_elems b f ns Hf) as [Af [Ef Pf]]. unfold Rel. rewrite Af, Ef.
  destruct (Bool.eqb (is_abs p) b) eqn:B; cbn [negb]; [ | exact I]. apply Bool.eqb_prop in B.
  destruct (strip (elems p) ns) as [[ | e l] t] eqn:S.
  - exfalso. apply H. destruct (strip_spec (elems p) ns) as [c [C1 C2]]. rewrite S in C1, C2. cbn in C1, C2. rewrite app_nil_r in C1. subst c.
    destruct b.
    + exists (elems p), t. split; [apply leads_root; exact B | exact C2].
    + destruct (not_leads p B) as [L | [l' E]]; [exists (elems p), t; split; assumption | ].
      rewrite E in C2. cbn in C2. rewrite C2 in Pf. inversion Pf as [ | ? ? [_ [_ [P _]]] _]; subst. congruence.
  - destruct (String.eqb e ".."); [exact I | ]. apply join_up.
Qed.

Lemma relative_path_skip : forall b pre rest f ns, leads b f ns -> ns <> [] -> (forall p, In p pre -> ~ holds b p ns) ->
  relative_path (pre ++ rest) f = relative_path rest f.
Proof.
  intros b pre rest f ns Hf N. induction pre as [ | p pre IH]; intros H; [reflexivity | ]. cbn [app relative_path].
  pose proof (Rel_outside b p f ns Hf N (H p (or_introl eq_refl))) as R.
  destruct (Rel p f) as [r | ]; [rewrite R | ]; apply IH; intros q I; apply H; right; exact I.
Qed.

(** ** Names of files *)

Lemma split_last : forall p n, last_element p n -> exists l, split slash p = (l ++ [n])%list.
Proof.
  intros p n [S [-> | [d ->]]]; apply has_char_not in S.
  - exists []. apply split_no_sep. exact S.
  - exists (split slash d). change (d ++ "/" ++ n) with (d ++ String slash n). rewrite split_app_gen, (split_no_sep slash n S). reflexivity.
Qed.

Lemma last_snoc : forall (A : Type) (l : list A) x d, last (l ++ [x]) d = x.
Proof. intros A l x d. apply last_last. Qed.

Lemma Base_spec : forall p n, last_element p n -> n <> "" -> Base p = n.
Proof.
  intros p n L N. destruct (split_last p n L) as [l E]. unfold Base. rewrite E, filter_app. cbn [filter].
  apply String.eqb_neq in N. rewrite N. cbn [negb]. destruct (filter _ l ++ [n])%list eqn:X; [destruct (filter _ l); discriminate X | ].
  rewrite <- X. apply last_snoc.
Qed.

Lemma stem_proto : forall b, stem (b ++ ".proto") = b.
Proof.
  induction b as [ | c b IH]; [reflexivity | ]. cbn [append stem].
  assert (H : has_char "." (b ++ ".proto") = true) by (rewrite has_char_app; apply orb_true_r).
  rewrite H, andb_false_r, IH. reflexivity.
Qed.

Lemma ext_not_empty : forall b, b ++ ".proto" <> "".
Proof. intros [ | c b]; discriminate. Qed.

Lemma lower_table : forall s, ToLower s = lower_case s.
Proof.
  induction s as [ | c s IH]; [reflexivity | ]. cbn [ToLower lower_case]. rewrite IH. f_equal.
  destruct c as [[] [] [] [] [] [] [] []]; vm_compute; reflexivity.
Qed.

Lemma FileName_spec : forall f base, proto_base f base -> FileName f = generated_name base.
Proof. intros f base H. unfold FileName. rewrite (Base_spec _ _ H (ext_not_empty base)), stem_proto, lower_table. reflexivity. Qed.

Lemma lower_slash : forall c, Ascii.eqb (lower_char c) slash = Ascii.eqb c slash.
Proof. intros [[] [] [] [] [] [] [] []]; reflexivity. Qed.

Lemma lower_no_slash : forall s, has_char slash (ToLower s) = has_char slash s.
Proof. induction s as [ | c s IH]; [reflexivity | ]. cbn. rewrite lower_slash, IH. reflexivity. Qed.

Lemma suffix_length : forall s t, String.length (s ++ t) = String.length s + String.length t.
Proof. induction s as [ | c s IH]; intros t; [reflexivity | cbn; rewrite IH; reflexivity]. Qed.

Lemma generated_proper : forall f base, proto_base f base -> proper (generated_name base).
Proof.
  intros f base [S _]. apply has_char_not in S. rewrite has_char_app in S. apply orb_false_iff in S.
  assert (L : forall n, String.length n < 22 -> generated_name base <> n).
  { intros n H E. apply (f_equal String.length) in E. unfold generated_name in E. rewrite suffix_length in E. cbn [String.length] in E. lia. }
  split; [apply L; cbn; lia | split; [apply L; cbn; lia | split; [apply L; cbn; lia | ]]].
  unfold generated_name. rewrite has_char_app, <- lower_table, lower_no_slash. unfold slash. rewrite (proj1 S). reflexivity.
Qed.

Lemma app_same_suffix : forall a b s, a ++ s = b ++ s -> a = b.
Proof.
  assert (N : forall c a s, String c (a ++ s) <> s).
  { intros c a s E. apply (f_equal String.length) in E. cbn in E. rewrite suffix_length in E. lia. }
  induction a as [ | x a IH]; intros [ | y b] s E; cbn in E; [reflexivity | | | ].
  - exfalso. exact (N y b s (eq_sym E)).
  - exfalso. exact (N x a s E).
  - injection E as -> E. rewrite (IH b s E). reflexivity.
Qed.

(** ** The directory *)

Lemma join_nil : forall l, l <> [] -> join "/" l = "" -> l = [""].
Proof.
  intros [ | x [ | y l]] N E; [congruence | cbn in E; subst; reflexivity | ]. exfalso. cbn [join] in E. destruct x; discriminate E.
Qed.

Lemma join_snoc : forall l n, l <> [] -> join "/" (l ++ [n])%list = join "/" l ++ "/" ++ n.
Proof.
  induction l as [ | x [ | y l] IH]; intros n N; [congruence | reflexivity | ].
  specialize (IH n ltac:(discriminate)). cbn [app] in *. cbn [join] in *. rewrite IH, !app_assoc_s. reflexivity.
Qed.

Lemma Dir_last : forall p n dirs, last_element p n -> proper n -> is_abs p = false -> elems p = (dirs ++ [n])%list -> Forall proper dirs ->
  is_abs (Dir p) = false /\ elems (Dir p) = dirs.
Proof.
  intros p n dirs L P A E F. destruct (split_last p n L) as [l S].
  assert (Ed : rev (fold_left (push false) l []) = dirs).
  { unfold elems in E. rewrite A, S, fold_left_app in E. cbn [fold_left] in E. rewrite push_spec in E by assumption. cbn [rev] in E.
    apply app_inj_tail in E. apply E. }
  unfold Dir. rewrite S, removelast_snoc. destruct l as [ | x l]; [cbn in Ed; subst dirs; split; reflexivity | ].
  assert (NE : x :: l <> []) by discriminate. set (k := x :: l) in *. clearbody k. clear x l.
  assert (Ep : p = join "/" k ++ "/" ++ n).
  { rewrite <- join_snoc by exact NE. rewrite <- S. change "/" with (String slash ""). rewrite join_split. reflexivity. }
  assert (NJ : join "/" k <> "").
  { intros X. rewrite X in Ep. subst p. cbn in A. discriminate A. }
  assert (AJ : is_abs (join "/" k) = false). { rewrite Ep, is_abs_app in A by exact NJ. exact A. }
  assert (SJ : split slash (join "/" k) = k).
  { apply split_join; [exact NE | ]. pose proof (split_parts_no_sep slash p) as Q. rewrite S in Q. apply Forall_app in Q. apply Q. }
  assert (X : elems (join "/" k ++ "/") = dirs).
  { unfold elems. rewrite is_abs_app, AJ by exact NJ. change "/" with (String slash "") at 2. rewrite split_app_gen, SJ, fold_left_app. exact Ed. }
  assert (Y : Clean (join "/" k ++ "/") = match dirs with [] => "." | _ => join "/" dirs end).
  { unfold Clean. rewrite X, is_abs_app, AJ by exact NJ. reflexivity. }
  destruct k; [congruence | ]. rewrite Y. destruct dirs as [ | y dirs]; [split; reflexivity | ].
  split; [apply is_abs_join; exact F | apply elems_join; exact F].
Qed.

Lemma Dir_join : forall ns n, Forall proper ns -> proper n ->
  is_abs (Dir (join "/" (ns ++ [n]))) = false /\ elems (Dir (join "/" (ns ++ [n]))) = ns.
Proof.
  intros ns n F P. assert (G : Forall proper (ns ++ [n])) by (apply Forall_app; split; [exact F | constructor; [exact P | constructor]]).
  apply (Dir_last _ n); [ | exact P | apply is_abs_join; exact G | apply elems_join; exact G | exact F].
  split; [apply has_char_not; apply P | ]. destruct ns as [ | m ns]; [left; reflexivity | right; exists (join "/" (m :: ns))].
  apply join_snoc. discriminate.
Qed.

Lemma OutputDir_spec : forall c f dirs, goes_to c f dirs ->
  exists d, OutputDir c (p_name f) (p_gopkg f) = Some d /\ is_abs d = false /\ elems d = dirs /\ Forall proper dirs.
Proof.
  intros c f dirs H. unfold OutputDir. destruct H as [i dirs M G L | i rest dirs M G E L | M G | b pre i post root dirs n M E I Li Lf O U | dirs n M E L LE O].
  - rewrite M, G. exists i. split; [reflexivity | exact (leads_elems _ _ _ L)].
  - rewrite M, G. exists rest. split; [ | exact (leads_elems _ _ _ L)]. do 2 f_equal. unfold TrimPrefix at 2.
    rewrite (proj2 (cut_spec (c_prefix c) i ("/" ++ rest)) E). unfold TrimPrefix. rewrite (proj2 (cut_spec "/" ("/" ++ rest) rest) eq_refl). reflexivity.
  - rewrite M, G. exists "". split; [ | split; [reflexivity | split; [reflexivity | constructor]]]. do 2 f_equal.
    unfold TrimPrefix at 2. rewrite (proj2 (cut_spec (c_prefix c) (c_prefix c) "")); [reflexivity | ]. rewrite app_empty. reflexivity.
  - rewrite M, E, I. cbn [String.eqb].
    assert (NE : (dirs ++ [n])%list <> []) by (destruct dirs; discriminate).
    assert (NR : (root ++ dirs ++ [n])%list <> []) by (destruct root; [exact NE | discriminate]).
    rewrite (relative_path_skip b pre (i :: post) (p_name f) _ Lf NR O). cbn [relative_path].
    rewrite (Rel_below b i (p_name f) root (dirs ++ [n])%list Li Lf NE).
    destruct (leads_elems _ _ _ Lf) as [_ [_ P]]. apply Forall_app in P. destruct P as [_ P].
    rewrite (HasPrefix_join (dirs ++ [n])%list NE P U). apply Forall_app in P. destruct P as [Pd Pn]. inversion Pn; subst.
    destruct (Dir_join dirs n Pd) as [A B]; [assumption | ]. eexists. split; [reflexivity | split; [exact A | split; [exact B | exact Pd]]].
  - rewrite M, E. cbn [String.eqb].
    assert (NE : (dirs ++ [n])%list <> []) by (destruct dirs; discriminate).
    pose proof (relative_path_skip false (c_imports c) [] (p_name f) _ L NE O) as R. rewrite app_nil_r in R. rewrite R. cbn [relative_path].
    destruct (leads_elems _ _ _ L) as [A [B P]]. apply Forall_app in P. destruct P as [Pd Pn]. inversion Pn; subst.
    destruct (Dir_last (p_name f) n dirs LE) as [X Y]; try assumption.
    eexists. split; [reflexivity | split; [exact X | split; [exact Y | exact Pd]]].
Qed.
