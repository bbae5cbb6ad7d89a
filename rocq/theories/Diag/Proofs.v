(** Proofs for Diag. *)

From Coq Require Import Ascii String List Arith NArith Bool Sorted Permutation Lia DecimalString.
From Verif.Base Require Import Text TextProofs.
From Verif.Diag Require Import Model Spec.
Import ListNotations.
Local Open Scope list_scope.
Local Open Scope string_scope.

(** * Sorting *)

Lemma insert_perm key x l : Permutation (x :: l) (insert_by key x l).
Proof.
  induction l as [| y r IH]; cbn; [constructor; constructor |].
  destruct (key x <=? key y)%nat; [reflexivity |].
  etransitivity; [apply perm_swap |]. constructor. exact IH.
Qed.

Lemma sort_perm key l : Permutation l (stable_sort key l).
Proof.
  induction l as [| x r IH]; cbn; [constructor |].
  etransitivity; [constructor; exact IH | apply insert_perm].
Qed.

Definition key_le (key : output -> nat) (a b : output) : Prop := (key a <= key b)%nat.

(** A relation that sorting by a key keeps among elements of equal key. *)
Lemma insert_sorted (R : output -> output -> Prop) key x l :
  (forall y, In y l -> key x = key y -> R x y) ->
  StronglySorted (fun a b => key a < key b \/ (key a = key b /\ R a b))%nat l ->
  StronglySorted (fun a b => key a < key b \/ (key a = key b /\ R a b))%nat (insert_by key x l).
Proof.
  induction l as [| y r IH]; intros HR HS; cbn.
  - constructor; [constructor | constructor].
  - destruct (key x <=? key y)%nat eqn:E.
    + apply Nat.leb_le in E. constructor; [exact HS |].
      rewrite Forall_forall. intros z Hz.
      destruct (Nat.eq_dec (key x) (key z)) as [Q | Q].
      * right. split; [exact Q | apply HR; assumption].
      * left. inversion HS as [| ? ? HS' HF]; subst. destruct Hz as [<- | Hz]; [lia |].
        rewrite Forall_forall in HF. specialize (HF z Hz). destruct HF as [H | [H _]]; lia.
    + apply Nat.leb_gt in E. inversion HS as [| ? ? HS' HF]; subst. constructor.
      * apply IH; [intros z Hz; apply HR; right; exact Hz | exact HS'].
      * rewrite Forall_forall in *. intros z Hz.
        apply (Permutation_in _ (Permutation_sym (insert_perm key x r))) in Hz.
        destruct Hz as [<- | Hz]; [left; exact E | apply HF, Hz].
Qed.

Lemma sort_sorted (R : output -> output -> Prop) key l :
  StronglySorted R l ->
  StronglySorted (fun a b => key a < key b \/ (key a = key b /\ R a b))%nat (stable_sort key l).
Proof.
  induction l as [| x r IH]; intro HS; cbn; [constructor |].
  inversion HS as [| ? ? HS' HF]; subst. apply insert_sorted; [| apply IH, HS'].
  intros y Hy _. rewrite Forall_forall in HF. apply HF.
  apply (Permutation_in _ (Permutation_sym (sort_perm key r))). exact Hy.
Qed.

Lemma sorted_weak (R S : output -> output -> Prop) l :
  (forall a b, R a b -> S a b) -> StronglySorted R l -> StronglySorted S l.
Proof.
  intros H HS. induction HS as [| x r HS IH HF]; constructor; [exact IH |].
  rewrite Forall_forall in *. intros y Hy. apply H, HF, Hy.
Qed.

Lemma all_sorted (l : list output) : StronglySorted (fun _ _ => True) l.
Proof.
  induction l; constructor; [assumption |]. rewrite Forall_forall. auto.
Qed.

Lemma insert_filter key (P : output -> bool) x l :
  (forall y, P x = true -> P y = true -> key x = key y) ->
  filter P (insert_by key x l) = if P x then x :: filter P l else filter P l.
Proof.
  intro H. induction l as [| y r IH]; [reflexivity |].
  cbn [insert_by]. destruct (key x <=? key y)%nat eqn:E.
  - cbn [filter]. destruct (P x), (P y); reflexivity.
  - cbn [filter]. rewrite IH. destruct (P y) eqn:Py; [| reflexivity].
    destruct (P x) eqn:Px; [| reflexivity].
    exfalso. apply Nat.leb_gt in E. rewrite (H y eq_refl Py) in E. lia.
Qed.

Lemma sort_filter key (P : output -> bool) l :
  (forall x y, P x = true -> P y = true -> key x = key y) ->
  filter P (stable_sort key l) = filter P l.
Proof.
  intro H. induction l as [| x r IH]; [reflexivity |].
  cbn [stable_sort filter]. rewrite insert_filter; [| intros y; apply H].
  rewrite IH. reflexivity.
Qed.

Lemma at_pos_same l c x y : at_pos l c x = true -> at_pos l c y = true ->
  line (o_start x) = line (o_start y) /\ col (o_start x) = col (o_start y).
Proof.
  unfold at_pos. rewrite !andb_true_iff, !Nat.eqb_eq. lia.
Qed.

(** * Texts *)

Lemma app_nil_s s : s ++ "" = s.
Proof. induction s as [| x s IH]; cbn; [reflexivity | rewrite IH; reflexivity]. Qed.

Lemma app_assoc_s a b c : (a ++ b) ++ c = a ++ (b ++ c).
Proof. induction a; cbn; [reflexivity | rewrite IHa; reflexivity]. Qed.

Lemma get_app_r a b k : String.get (String.length a + k) (a ++ b) = String.get k b.
Proof. induction a; cbn; [reflexivity | exact IHa]. Qed.

Lemma get_app_l a b k : k < String.length a -> String.get k (a ++ b) = String.get k a.
Proof.
  revert k. induction a as [| x a IH]; intros k H; cbn in *; [lia |].
  destruct k; [reflexivity | apply IH; lia].
Qed.

Lemma length_app a b : String.length (a ++ b) = String.length a + String.length b.
Proof. induction a; cbn; [reflexivity | rewrite IHa; reflexivity]. Qed.

Lemma length_spaces n : String.length (spaces n) = n.
Proof. induction n; cbn; congruence. Qed.

Lemma get_spaces n k x : String.get k (spaces n ++ "^") = Some x -> k < n /\ x = " "%char \/ k = n /\ x = "^"%char.
Proof.
  revert k. induction n as [| n IH]; intros k; cbn [spaces append].
  - destruct k as [| k]; cbn; intro H; [right; injection H as <-; auto | destruct k; discriminate H].
  - destruct k as [| k]; cbn; intro H.
    + left. injection H as <-. split; [lia | reflexivity].
    + destruct (IH k H) as [[A B] | [A B]]; [left; split; [lia | exact B] | right; split; [lia | exact B]].
Qed.

Lemma no_newline_has s : (forall k, String.get k s <> Some newline) <-> has_char newline s = false.
Proof.
  induction s as [| x s IH]; cbn [has_char].
  - split; [reflexivity | intros _ k; destruct k; discriminate].
  - split.
    + intro H. apply orb_false_iff. split.
      * destruct (Ascii.eqb_spec x newline) as [-> |]; [exfalso; apply (H 0); reflexivity | reflexivity].
      * apply IH. intro k. apply (H (S k)).
    + intros H. apply orb_false_iff in H. destruct H as [H1 H2]. intros [| k]; cbn.
      * intro X. injection X as ->. rewrite Ascii.eqb_refl in H1. discriminate H1.
      * apply IH; exact H2.
Qed.

Lemma nth_line_split n s l :
  nth_line n s l <-> (1 <= n /\ nth_error (split newline s) (n - 1) = Some l).
Proof.
  split.
  - intro H. induction H as [s H | s rest H | n s rest l H HL [IH1 IH2]].
    + apply no_newline_has in H. rewrite (split_no_sep _ _ H). split; [lia | reflexivity].
    + apply no_newline_has in H. rewrite (split_app _ _ _ H). split; [lia | reflexivity].
    + apply no_newline_has in H. rewrite (split_app _ _ _ H). split; [lia |].
      replace (S n - 1) with (S (n - 1)) by lia. exact IH2.
  - revert s l. induction n as [| n IH]; intros s l [H1 H2]; [lia |]. clear H1.
    pose proof (join_split newline s) as J. pose proof (split_parts_no_sep newline s) as P.
    destruct (split newline s) as [| x xs] eqn:E; [destruct (S n - 1); discriminate H2 |].
    pose proof (Forall_inv P) as P1. cbn beta in P1.
    assert (Cases : (xs = [] /\ s = x) \/ exists rest, s = x ++ String newline rest /\ split newline rest = xs).
    { destruct xs as [| y ys].
      - left. split; [reflexivity |]. cbn in J. symmetry; exact J.
      - right. exists (join (String newline "") (y :: ys)). split.
        + rewrite <- J. cbn [join]. reflexivity.
        + assert (Q : s = x ++ String newline (join (String newline "") (y :: ys))) by (rewrite <- J; reflexivity).
          rewrite Q in E. rewrite (split_app _ _ _ P1) in E. injection E as E. exact E. }
    replace (S n - 1) with n in H2 by lia.
    destruct n as [| n].
    + cbn in H2. injection H2 as ->. pose proof (proj2 (no_newline_has _) P1) as P2.
      destruct Cases as [[-> ->] | [rest [-> _]]]; [apply line_last | apply line_first]; exact P2.
    + destruct Cases as [[-> ->] | [rest [-> E']]]; [destruct n; discriminate H2 |].
      apply line_next; [apply no_newline_has; exact P1 |].
      apply IH. split; [lia |]. cbn in H2. rewrite E'. replace (S n - 1) with n by lia. exact H2.
Qed.

Lemma source_line_spec text n l :
  nth_line n text l ->
  source_line text n = (if Nat.ltb n (List.length (split newline text)) then l else "").
Proof.
  intro H. apply nth_line_split in H. destruct H as [H1 H2].
  unfold source_line. destruct (Nat.ltb n (List.length (split newline text))) eqn:E; cbn [andb].
  - replace (Nat.ltb 0 n) with true by (symmetry; apply Nat.ltb_lt; lia).
    apply (nth_error_nth _ _ "" H2).
  - reflexivity.
Qed.

Lemma source_line_shown text n :
  source_line text n = "" \/ nth_line n text (source_line text n).
Proof.
  unfold source_line. destruct (Nat.ltb n (List.length (split newline text))) eqn:E; cbn [andb]; [| auto].
  destruct (Nat.ltb 0 n) eqn:Z; [| auto]. right. apply nth_line_split.
  apply Nat.ltb_lt in E, Z. split; [lia |]. apply nth_error_nth'. lia.
Qed.

Lemma source_line_followed text n l next :
  nth_line n text l -> nth_line (S n) text next -> source_line text n = l.
Proof.
  intros H1 H2. rewrite (source_line_spec _ _ _ H1).
  apply nth_line_split in H2. destruct H2 as [_ H2]. replace (S n - 1) with n in H2 by lia.
  assert (L : n < List.length (split newline text)) by (apply nth_error_Some; rewrite H2; discriminate).
  apply Nat.ltb_lt in L. rewrite L. reflexivity.
Qed.

(** * The outputs *)

Section Outputs.
  Variable location file : Type.
  Variable read : string -> string -> option string.
  Variable parse : string -> string -> option file.
  Variable content : file -> string.
  Variable node_info : file -> location -> option (pos * pos).

  Definition cands (imports : list string) (path : string) : list (option file) :=
    map (fun i => match read i path with Some s => parse path s | None => None end) ("" :: imports).

  Lemma load_first imports path :
    load file read parse imports path =
    first_some (map (fun i => match read i path with Some s => parse path s | None => None end) imports).
  Proof.
    induction imports as [| i r IH]; cbn; [reflexivity |].
    destruct (read i path) as [s |]; [| exact IH]. destruct (parse path s); [reflexivity | exact IH].
  Qed.

  Definition good (imports : list string) (c : cache file) : Prop :=
    forall path f, cached file c path = Some f -> first_some (cands imports path) = Some f.

  Lemma get_file_spec imports c path :
    good imports c ->
    fst (get_file file read parse imports c path) = first_some (cands imports path) /\
    good imports (snd (get_file file read parse imports c path)).
  Proof.
    intro H. unfold get_file. destruct (cached file c path) as [f |] eqn:E.
    - cbn. split; [symmetry; apply H, E | exact H].
    - rewrite load_first. unfold cands.
      destruct (first_some (map _ ("" :: imports))) as [f |] eqn:Q; cbn [fst snd]; [| auto].
      split; [reflexivity |]. intros p g. cbn [cached].
      destruct (String.eqb_spec path p) as [<- |]; [| apply H].
      intro X; injection X as <-. exact Q.
  Qed.

  Lemma to_output_spec imports c path l msg w :
    good imports c ->
    let r := to_output location file read parse content node_info imports c path l msg in
    says location file (cands imports) content node_info
         {| p_warning := w; p_where := Some (path, l); p_text := msg |}
         {| o_warning := w; o_path := o_path (fst r); o_start := o_start (fst r);
            o_end := o_end (fst r); o_msg := o_msg (fst r); o_line := o_line (fst r) |} /\
    o_warning (fst r) = false /\ good imports (snd r).
  Proof.
    intro H. unfold to_output. cbv zeta.
    destruct (get_file_spec imports c path H) as [G1 G2].
    destruct (get_file file read parse imports c path) as [[f |] c']; cbn [fst snd] in *.
    - unfold says, place; cbn [p_where]. rewrite <- G1.
      destruct (node_info f l) as [[s e] |]; cbn; [| auto 10].
      split; [| auto]. split; [reflexivity |]. split; [reflexivity |]. split; [reflexivity |].
      split; [reflexivity |]. split; [reflexivity |].
      split; [apply source_line_shown | intros x next; apply source_line_followed].
    - unfold says, place; cbn [p_where]. rewrite <- G1. cbn; auto 10.
  Qed.

  Lemma output_eta o w : o_warning o = w ->
    {| o_warning := w; o_path := o_path o; o_start := o_start o; o_end := o_end o;
       o_msg := o_msg o; o_line := o_line o |} = o.
  Proof. intros <-. destruct o; reflexivity. Qed.

  Lemma warnings_spec imports ws : forall c,
    good imports c ->
    let r := warning_outputs location file read parse content node_info imports c ws in
    Forall2 (says location file (cands imports) content node_info)
      (map (fun w => {| p_warning := true; p_where := Some (w_path _ w, w_loc _ w); p_text := w_msg _ w |}) ws)
      (fst r) /\ good imports (snd r).
  Proof.
    induction ws as [| w ws IH]; intros c H; cbn [warning_outputs map]; cbv zeta.
    - split; [constructor | exact H].
    - destruct (to_output_spec imports c (w_path _ w) (w_loc _ w) (w_msg _ w) true H) as [A [_ B]].
      destruct (to_output location file read parse content node_info imports c
                  (w_path location w) (w_loc location w) (w_msg location w)) as [o c1].
      cbn [fst snd] in *. specialize (IH c1 B). cbv zeta in IH.
      destruct (warning_outputs location file read parse content node_info imports c1 ws) as [os c2].
      cbn [fst snd] in *. destruct IH as [I1 I2].
      split; [constructor; [exact A | exact I1] | exact I2].
  Qed.

  Lemma errors_spec imports es : forall c,
    good imports c ->
    let r := error_outputs location file read parse content node_info imports c es in
    Forall2 (says location file (cands imports) content node_info)
      (map (fun e => match e with
                     | RLoc p l m => {| p_warning := false; p_where := Some (p, l); p_text := m |}
                     | RPlain m => {| p_warning := false; p_where := None; p_text := m |}
                     end) es)
      (fst r) /\ good imports (snd r).
  Proof.
    induction es as [| e es IH]; intros c H; cbn [error_outputs map]; cbv zeta.
    - split; [constructor | exact H].
    - destruct e as [p l m | m].
      + destruct (to_output_spec imports c p l m false H) as [A [W B]].
        destruct (to_output location file read parse content node_info imports c p l m) as [o c1].
        cbn [fst snd] in *. rewrite (output_eta o false W) in A. specialize (IH c1 B). cbv zeta in IH.
        destruct (error_outputs location file read parse content node_info imports c1 es) as [os c2].
        cbn [fst snd] in *. destruct IH as [I1 I2].
        split; [constructor; [exact A | exact I1] | exact I2].
      + specialize (IH c H). cbv zeta in IH.
        destruct (error_outputs location file read parse content node_info imports c es) as [os c2].
        cbn [fst snd] in *. destruct IH as [I1 I2].
        split; [constructor; [| exact I1] | exact I2].
        unfold says, place; cbn; auto 10.
  Qed.

  (** The outputs before they are sorted. *)
  Definition unsorted (imports : list string) (result : option (list (warning location)))
             (err : failure location) : list output :=
    let r := match result with
             | Some w => warning_outputs location file read parse content node_info imports [] w
             | None => ([], [])
             end in
    (fst r ++ fst (error_outputs location file read parse content node_info imports (snd r)
                                 (individual location err)))%list.

  Lemma outputs_eq imports result err :
    outputs location file read parse content node_info imports result err =
    stable_sort (fun o => line (o_start o))
      (stable_sort (fun o => col (o_start o)) (unsorted imports result err)).
  Proof.
    unfold outputs, unsorted.
    destruct result as [ws |].
    - destruct (warning_outputs location file read parse content node_info imports [] ws) as [os c].
      cbn [fst snd].
      destruct (error_outputs location file read parse content node_info imports c (individual location err)).
      reflexivity.
    - cbn [fst snd].
      destruct (error_outputs location file read parse content node_info imports [] (individual location err)).
      reflexivity.
  Qed.

  Definition typed_failure (err : failure location) : Prop :=
    match err with FPlain _ => False | _ => True end.

  Lemma unsorted_spec imports result err :
    typed_failure err ->
    Forall2 (says location file (cands imports) content node_info)
      (found location result err) (unsorted imports result err).
  Proof.
    intro T. unfold found, unsorted.
    assert (G0 : good imports []) by (intros p f X; discriminate X).
    set (r := match result with
              | Some w => warning_outputs location file read parse content node_info imports [] w
              | None => ([], [])
              end).
    assert (A : Forall2 (says location file (cands imports) content node_info)
                  (map (fun w => {| p_warning := true; p_where := Some (w_path _ w, w_loc _ w);
                                    p_text := w_msg _ w |})
                     (match result with Some ws => ws | None => [] end)) (fst r) /\ good imports (snd r)).
    { subst r. destruct result as [ws |]; [apply (warnings_spec imports ws [] G0) |].
      split; [constructor | exact G0]. }
    destruct A as [A1 A2]. apply Forall2_app; [exact A1 |].
    destruct err as [ | es | m]; cbn [individual].
    - constructor.
    - apply (errors_spec imports es (snd r) A2).
    - contradiction.
  Qed.

  Lemma exists_error_spec os :
    exists_error os = true <-> exists o, In o os /\ o_warning o = false.
  Proof.
    induction os as [| o r IH]; cbn.
    - split; [discriminate | intros [o [[] _]]].
    - destruct (o_warning o) eqn:W.
      + rewrite IH. split.
        * intros [x [I Q]]. exists x. auto.
        * intros [x [[<- | I] Q]]; [rewrite W in Q; discriminate Q | exists x; auto].
      + split; [intros _; exists o; auto | reflexivity].
  Qed.

  Lemma forall2_in_r {A B} (R : A -> B -> Prop) l m y :
    Forall2 R l m -> In y m -> exists x, In x l /\ R x y.
  Proof.
    intro H. induction H as [| a b l m H1 H2 IH]; [intros [] |].
    intros [<- | I]; [exists a; split; [left; reflexivity | exact H1] |].
    destruct (IH I) as [x [I' R']]. exists x; split; [right; exact I' | exact R'].
  Qed.

  Lemma forall2_in_l {A B} (R : A -> B -> Prop) l m x :
    Forall2 R l m -> In x l -> exists y, In y m /\ R x y.
  Proof.
    intro H. induction H as [| a b l m H1 H2 IH]; [intros [] |].
    intros [<- | I]; [exists b; split; [left; reflexivity | exact H1] |].
    destruct (IH I) as [y [I' R']]. exists y; split; [right; exact I' | exact R'].
  Qed.

  Lemma outputs_perm imports result err :
    Permutation (unsorted imports result err)
      (outputs location file read parse content node_info imports result err).
  Proof.
    rewrite outputs_eq. etransitivity; apply sort_perm.
  Qed.

  Lemma outputs_exists_error imports result err :
    typed_failure err ->
    exists_error (outputs location file read parse content node_info imports result err) = true <->
    exists p, In p (found location result err) /\ p_warning p = false.
  Proof.
    intro T. rewrite exists_error_spec. pose proof (unsorted_spec imports result err T) as F.
    split.
    - intros [o [I W]]. apply (Permutation_in _ (Permutation_sym (outputs_perm imports result err))) in I.
      destruct (forall2_in_r _ _ _ _ F I) as [p [Ip [S _]]]. exists p. rewrite <- S. auto.
    - intros [p [I W]]. destruct (forall2_in_l _ _ _ _ F I) as [o [Io [S _]]]. exists o.
      split; [apply (Permutation_in _ (outputs_perm imports result err)), Io | rewrite S; exact W].
  Qed.
End Outputs.
