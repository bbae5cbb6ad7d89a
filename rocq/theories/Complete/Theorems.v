(** C80: completion proposes what may be written at the place of the cursor, and choosing
    a proposal writes it. *)

From Coq Require Import Ascii String List Arith ZArith Bool Lia Permutation Sorted.
From Verif.Base Require Import Text Sort SortProofs.
From Verif.Goto Require Import Model Spec Proofs.
From Verif.Complete Require Import Model Spec Proofs.
Import ListNotations.
Local Open Scope string_scope.
Local Open Scope list_scope.

(** The full property of expressions: what is proposed may be used there, *)
Definition C80_usable_statement : Prop :=
  forall methods messages m v n,
    good_message m -> In n (candidates methods messages m (place_of v)) ->
    exists t, usable m (before m v) n t.

(** and what may be used and has the type that is expected is proposed. *)
Definition C80_complete_statement : Prop :=
  forall methods messages m v n t,
    good_message m -> before m v <= List.length (defs_of m) -> m_rule m <> None ->
    usable m (before m v) n t ->
    (forall b, expected m v b -> exists a, t = Some a /\ accepted a b) ->
    (match v with VField f => In f (map fst (m_fields m)) | _ => True end) ->
    In n (candidates methods messages m (place_of v)).

(** For the value of a definition: the arguments, and the variable of the definition just
    before. *)
Theorem C80_def_exact :
  forall methods messages m i n,
    In n (candidates methods messages m (place_of (VDef i))) <->
    exists t, argument m n t \/
              exists j d, i = S j /\ nth_error (defs_of m) j = Some d /\ gives d n t.
Proof.
  intros methods messages m i n. cbn [place_of candidates at_def p_name p_by p_idx].
  rewrite unique_names. unfold names. rewrite in_map_iff. split.
  - intros ([x t] & <- & I). apply value_candidates_in in I. cbn in I. exists t.
    destruct I as [I | [P (d & E & G)]]; [left; exact I |]. right. exists (i - 1), d.
    split; [lia |]. split; [| exact G]. replace (i - 1) with (Z.to_nat (Z.of_nat i - 1)) by lia. exact E.
  - intros (t & H). exists (n, t). split; [reflexivity |]. apply value_candidates_in. cbn.
    destruct H as [H | (j & d & -> & E & G)]; [left; exact H |]. right. split; [lia |]. exists d.
    split; [| exact G]. replace (Z.to_nat (Z.of_nat (S j) - 1)) with j by lia. exact E.
Qed.
Print Assumptions C80_def_exact.

(** These may be used. *)
Theorem C80_def_usable :
  forall methods messages m i n,
    In n (candidates methods messages m (place_of (VDef i))) -> exists t, usable m i n t.
Proof.
  intros methods messages m i n H. apply C80_def_exact in H. destruct H as (t & [A | (j & d & -> & E & G)]); exists t.
  - left. exact A.
  - right. exists j, d. split; [lia | auto].
Qed.
Print Assumptions C80_def_usable.

(** For an argument of a message: the arguments, and the variable of the definition that
    is being written, which has no value yet. *)
Theorem C80_arg_exact :
  forall methods messages m i b n,
    In n (candidates methods messages m (place_of (VArg i b))) <->
    exists t, argument m n t \/ exists d, nth_error (defs_of m) i = Some d /\ gives d n t.
Proof.
  intros methods messages m i b n.
  assert (E : candidates methods messages m (place_of (VArg i b)) = names (unique (value_candidates m (Z.of_nat i)))).
  { destruct b; reflexivity. }
  rewrite E, unique_names. unfold names. rewrite in_map_iff. split.
  - intros ([x t] & <- & I). apply value_candidates_in in I. cbn in I. exists t.
    destruct I as [I | [P (d & F & G)]]; [left; exact I |]. right. exists d.
    rewrite Nat2Z.id in F. auto.
  - intros (t & H). exists (n, t). split; [reflexivity |]. apply value_candidates_in. cbn.
    destruct H as [H | (d & F & G)]; [left; exact H |]. right. split; [lia |]. exists d.
    rewrite Nat2Z.id. auto.
Qed.
Print Assumptions C80_arg_exact.

(** For a field: of the arguments and the variable of the last definition those that fit. *)
Theorem C80_field_exact :
  forall methods messages m f n,
    good_message m ->
    (In n (candidates methods messages m (place_of (VField f))) <->
     exists b t, expected m (VField f) b /\ fits t (Some b) /\
                 (argument m n t \/
                  exists d ds, defs_of m = ds ++ [d] /\ gives d n t)).
Proof.
  intros methods messages m f n G. cbn [place_of candidates]. unfold at_field.
  assert (X : match find (fun x => String.eqb (fst x) f) (m_fields m) with
              | Some p => fst p = f /\ forall b, expected m (VField f) b <-> b = snd p
              | None => forall b, ~ expected m (VField f) b
              end).
  { cbn [expected]. induction (m_fields m) as [| [g y] l IH]; cbn [find fst].
    - intros b (a & c & E & _). destruct a; discriminate E.
    - destruct (String.eqb_spec g f) as [-> | N].
      + split; [reflexivity |]. intro b. split.
        * intros ([| [h z] a] & c & E & Q); [injection E as -> _; reflexivity |].
          injection E as <- <- _. exfalso. apply Q. left. reflexivity.
        * intros ->. exists [], l. split; [reflexivity | intros []].
      + assert (S : forall b, (exists a c, (g, y) :: l = a ++ (f, b) :: c /\ ~ In f (map fst a)) <->
                              (exists a c, l = a ++ (f, b) :: c /\ ~ In f (map fst a))).
        { intro b. split.
          - intros ([| h a] & c & E & Q); [injection E as E _; congruence |].
            injection E as <- E. exists a, c. split; [exact E |]. intro I. apply Q. right. exact I.
          - intros (a & c & -> & Q). exists ((g, y) :: a), c. split; [reflexivity |]. intros [I | I]; [exact (N I) | exact (Q I)]. }
        destruct (find _ l) as [[h z] |].
        * destruct IH as [F IH]. split; [exact F |]. intro b. rewrite S. apply IH.
        * intros b H. apply S in H. exact (IH b H). }
  destruct (find _ (m_fields m)) as [[g y] |].
  - destruct X as [Xf X]. cbn [fst snd] in *. subst g.
    assert (R : forall u, (exists ds, m_rule m = Some ds) ->
      (In (n, u) (value_candidates m (Z.of_nat (List.length (defs_of m)) - 1)) <->
       argument m n u \/ exists d ds, defs_of m = ds ++ [d] /\ gives d n u)).
    { intros u _. rewrite value_candidates_in. cbn [fst snd]. split.
      - intros [A | [P (d & E & H)]]; [left; exact A |]. right.
        destruct (defs_of m) as [| e l] eqn:D using rev_ind; [cbn in P; lia |]. clear IHl.
        exists d, l. split; [| exact H]. rewrite app_length in E. cbn in E.
        replace (Z.to_nat _) with (List.length l) in E by lia.
        rewrite nth_error_app2, Nat.sub_diag in E by lia. cbn in E. congruence.
      - intros [A | (d & ds & D & H)]; [left; exact A |]. right. rewrite D, app_length. cbn.
        split; [lia |]. exists d. split; [| exact H].
        replace (Z.to_nat _) with (List.length ds) by lia.
        rewrite nth_error_app2, Nat.sub_diag by lia. reflexivity. }
    destruct (m_rule m) as [[ds args] |] eqn:M.
    + assert (L : List.length ds = List.length (defs_of m)) by (unfold defs_of; rewrite M; reflexivity).
      rewrite L, filtered_in by (apply value_candidates_functional, G). split.
      * intros (u & I & K). exists y, u. split; [apply X; reflexivity |]. split; [exact K |]. apply R; eauto.
      * intros (b & u & E & K & H). apply X in E. subst b. exists u. split; [apply R; eauto | exact K].
    + split; [intros [] |]. intros (b & u & _ & _ & [(ds & args & h & x & E & _) | (d & ds & E & _)]).
      * rewrite M in E. discriminate E.
      * unfold defs_of in E. rewrite M in E. destruct ds; discriminate E.
  - split; [intros [] |]. intros (b & u & E & _). exact (X b E).
Qed.
Print Assumptions C80_field_exact.

(** What is proposed for a field has a type that the resolver accepts. *)
Theorem C80_types_accepted :
  forall a b, good_type a -> good_type b -> (ty_ptr a = ty_ptr b -> a = b) ->
    fits (Some a) (Some b) -> accepted a b.
Proof.
  intros a b [Ma Ea] [Mb Eb] P F. unfold accepted.
  inversion F as [| | x y A B C | x y A | x y p q A B | x y i A B | x y i A B]; subst.
  - left. exact C.
  - left. rewrite (P A). reflexivity.
  - right. left. eauto.
  - left. rewrite Ma, Mb by congruence. reflexivity.
  - left. rewrite Ea, Eb by congruence. reflexivity.
Qed.
Print Assumptions C80_types_accepted.

(** For a field of a request: of the arguments and of the variable that is being
    written, those that fit the type of the field with the same number. *)
Theorem C80_request_exact :
  forall methods messages m i r n,
    good_message m ->
    (In n (candidates methods messages m (place_of (VRequest i r))) <->
     exists t b, fits t b /\
       (argument m n t \/ exists d, nth_error (defs_of m) i = Some d /\ gives d n t) /\
       ((exists d fs f x, nth_error (defs_of m) i = Some d /\ d_request d = Some fs /\
                          nth_error fs r = Some (f, x) /\ b = Some x) \/
        (b = None /\ forall d fs, nth_error (defs_of m) i = Some d -> d_request d = Some fs -> List.length fs <= r))).
Proof.
  intros methods messages m i r n G. cbn [place_of candidates at_def p_name p_by p_map p_call p_idx at_call c_method c_request at_request rq_field rq_by rq_idx].
  rewrite filtered_in by (apply value_candidates_functional, G).
  assert (V : forall u, In (n, u) (value_candidates m (Z.of_nat i)) <->
                        argument m n u \/ exists d, nth_error (defs_of m) i = Some d /\ gives d n u).
  { intro u. rewrite value_candidates_in. cbn [fst snd]. rewrite Nat2Z.id. split.
    - intros [A | [_ A]]; auto.
    - intros [A | A]; [auto | right; split; [lia | exact A]]. }
  assert (T : forall b, b = request_type m i r <->
     ((exists d fs f x, nth_error (defs_of m) i = Some d /\ d_request d = Some fs /\
                        nth_error fs r = Some (f, x) /\ b = Some x) \/
      (b = None /\ forall d fs, nth_error (defs_of m) i = Some d -> d_request d = Some fs -> List.length fs <= r))).
  { intro b. unfold request_type, request_of. destruct (nth_error (defs_of m) i) as [d |].
    - destruct (d_request d) as [fs |] eqn:Q.
      + destruct (nth_error fs r) as [[f x] |] eqn:N; cbn [option_map snd].
        * split.
          -- intros ->. left. exists d, fs, f, x. auto.
          -- intros [(d' & fs' & f' & x' & A & B & C & ->) | [-> H]]; [congruence |].
             specialize (H d fs eq_refl Q). apply nth_error_None in H. congruence.
        * split.
          -- intros ->. right. split; [reflexivity |]. intros d' fs' A B. apply nth_error_None. congruence.
          -- intros [(d' & fs' & f' & x' & A & B & C & ->) | [-> H]]; [congruence | reflexivity].
      + split.
        * intros ->. right. split; [reflexivity |]. intros d' fs' A B. congruence.
        * intros [(d' & fs' & f' & x' & A & B & C & ->) | [-> H]]; [congruence | reflexivity].
    - split.
      + intros ->. right. split; [reflexivity |]. intros d' fs' A B. discriminate A.
      + intros [(d' & fs' & f' & x' & A & B & C & ->) | [-> H]]; [discriminate A | reflexivity]. }
  split.
  - intros (u & I & K). exists u, (request_type m i r). split; [exact K |]. split; [apply V, I | apply T; reflexivity].
  - intros (u & b & K & I & B). apply T in B. subst b. exists u. split; [apply V, I | exact K].
Qed.
Print Assumptions C80_request_exact.

(** No value is proposed twice. *)
Theorem C80_distinct :
  forall methods messages m v, NoDup (candidates methods messages m (place_of v)).
Proof.
  intros methods messages m [i | i r | i b | f].
  - apply unique_from_nodup.
  - apply filtered_nodup.
  - destruct b; apply unique_from_nodup.
  - cbn [place_of candidates]. unfold at_field. destruct (find _ _) as [p |]; [| constructor].
    destruct (m_rule m) as [[ds args] |]; [apply filtered_nodup | constructor].
Qed.
Print Assumptions C80_distinct.

(** Methods: in order, those whose name does not begin with the own package. *)
Theorem C80_methods_exact :
  forall methods messages m i,
    StronglySorted (fun a b => str_leb a b = true) (candidates methods messages m (at_method_name i)) /\
    (NoDup methods -> NoDup (candidates methods messages m (at_method_name i))) /\
    forall n, In n (candidates methods messages m (at_method_name i)) <->
              In n methods /\ ~ begins n (m_pkg m ++ ".").
Proof.
  intros methods messages m i. cbn [at_method_name candidates at_def p_name p_by p_map p_call p_idx at_call c_method].
  unfold method_candidates. split; [apply (sort_by_sorted (fun s => s)) |]. split.
  - intro N. eapply Permutation_NoDup; [symmetry; apply sort_by_perm |]. apply NoDup_filter, N.
  - intro n. rewrite sort_by_In, filter_In, negb_true_iff, prefix_not_begins. reflexivity.
Qed.
Print Assumptions C80_methods_exact.

(** Messages: in order, all but the own one and those of the options, without the own
    package. *)
Theorem C80_messages_exact :
  forall methods messages m i,
    StronglySorted (fun a b => str_leb a b = true) (candidates methods messages m (at_message_name i)) /\
    forall n, In n (candidates methods messages m (at_message_name i)) <->
              exists k, In k messages /\ k <> (m_pkg m ++ "." ++ m_name m)%string /\
                        ~ begins k "grpc.federation." /\
                        (k = (m_pkg m ++ "." ++ n)%string \/ (k = n /\ ~ begins n (m_pkg m ++ "."))).
Proof.
  intros methods messages m i.
  cbn [at_message_name candidates at_def p_name p_by p_map p_call p_message p_idx at_message_expr me_name].
  unfold message_candidates. split; [apply (sort_by_sorted (fun s => s)) |].
  intro n. rewrite sort_by_In, in_map_iff. split.
  - intros (k & E & I). apply filter_In in I. destruct I as [I F].
    rewrite andb_true_iff, !negb_true_iff, String.eqb_neq, prefix_not_begins in F. destruct F as [A B].
    exists k. split; [exact I |]. split; [exact A |]. split; [exact B |].
    destruct (begins_dec k (m_pkg m ++ ".")) as [[r ->] | N].
    + left. rewrite trim_begins in E. subst r. rewrite append_assoc. reflexivity.
    + right. rewrite (trim_other _ _ N) in E. subst n. auto.
  - intros (k & I & A & B & E). exists k. split.
    + destruct E as [-> | [-> N]]; [| exact (trim_other _ _ N)].
      replace (m_pkg m ++ "." ++ n)%string with ((m_pkg m ++ ".") ++ n)%string by apply append_assoc.
      apply trim_begins.
    + apply filter_In. split; [exact I |].
      rewrite andb_true_iff, !negb_true_iff, String.eqb_neq, prefix_not_begins. auto.
Qed.
Print Assumptions C80_messages_exact.

(** The fields of the request of the method that is called. *)
Theorem C80_request_fields :
  forall methods messages m i r d fs,
    nth_error (defs_of m) i = Some d -> d_request d = Some fs ->
    candidates methods messages m (at_request_field i r) = map fst fs.
Proof.
  intros methods messages m i r d fs D R.
  cbn [at_request_field candidates at_def p_name p_by p_map p_call p_idx at_call c_method c_request at_request rq_field].
  unfold request_fields, request_of. rewrite D, R. reflexivity.
Qed.
Print Assumptions C80_request_fields.

(** The message is that of the first file whose name ends the path and that has it. *)
Theorem C80_message_of :
  forall methods cached files path name p pkg m,
    NoDup (map fst cached) ->
    (exists fname, In (fname, pkg) files /\ ends path fname) ->
    In ((pkg ++ "." ++ name)%string, m) cached ->
    (forall fname pkg', In (fname, pkg') files -> ends path fname ->
                        In (pkg' ++ "." ++ name)%string (map fst cached) -> pkg' = pkg) ->
    candidates_in methods cached files path name p = candidates methods (map fst cached) m p.
Proof.
  intros methods cached files path name p pkg m N (fname & I & E) C U.
  assert (F : forall k x, In (k, x) cached -> find (fun e => String.eqb (fst e) k) cached = Some (k, x)).
  { clear -N. induction cached as [| [h y] l IH]; intros k x J; [destruct J |]. cbn in N. inversion N as [| ? ? A B]; subst.
    cbn [find fst]. destruct (String.eqb_spec h k) as [-> | Q].
    - destruct J as [J | J]; [congruence |]. exfalso. apply A. apply in_map_iff. exists (k, x). auto.
    - destruct J as [J | J]; [congruence |]. apply IH; assumption. }
  induction files as [| [g q] r IH]; [destruct I |]. cbn [candidates_in].
  destruct (has_suffix path g) eqn:H.
  - apply has_suffix_ends in H.
    destruct (find (fun e => String.eqb (fst e) (q ++ "." ++ name)) cached) as [[k x] |] eqn:Q.
    + apply find_some in Q. destruct Q as [Q Z]. cbn [fst] in Z. apply String.eqb_eq in Z. subst k.
      assert (q = pkg) as ->.
      { apply (U g q); [left; reflexivity | exact H |]. apply in_map_iff. exists ((q ++ "." ++ name)%string, x). auto. }
      pose proof (F _ _ Q) as Q'. rewrite (F _ _ C) in Q'. injection Q' as ->. reflexivity.
    + destruct I as [I | I].
      * injection I as -> ->. rewrite (F _ _ C) in Q. discriminate Q.
      * apply IH; [exact I |]. intros f' p' J. apply U. right. exact J.
  - destruct I as [I | I].
    + injection I as -> ->. apply has_suffix_ends in E. rewrite E in H. discriminate H.
    + apply IH; [exact I |]. intros f' p' J. apply U. right. exact J.
Qed.
Print Assumptions C80_message_of.

(** * The list that is shown *)

(** If a proposal begins with the text of the node, those that do are shown; if none
    does, all are, without an edit.  They are numbered in order. *)
Theorem C80_items :
  forall unquote raw e c,
    let text := match unquote raw with Some s => s | None => raw end in
    let l := items unquote raw e c in
    map i_data l = seq 0 (List.length l) /\
    ((exists x, In x c /\ begins x text) ->
     (forall x, In x (map i_label l) <-> In x c /\ begins x text) /\
     (forall it, In it l -> i_edit it <> None)) /\
    (~ (exists x, In x c /\ begins x text) ->
     map i_label l = c /\ forall it, In it l -> i_edit it = None).
Proof.
  intros unquote raw e c text l.
  change (match unquote raw with Some s => s | None => raw end) with (current unquote raw) in text.
  pose proof (matching_labels text e 0 c) as ML. pose proof (matching_data text e 0 c) as MD.
  pose proof (matching_edit text e 0 c) as ME.
  unfold l, items. fold text. destruct (matching text e 0 c) as [| it0 r] eqn:M.
  - split; [|split].
    + rewrite plain_data. f_equal. rewrite <- (map_length i_label), plain_labels. reflexivity.
    + intros (x & I & B). exfalso. assert (J : In x (filter (fun x => starts_with x text) c)).
      { apply filter_In. split; [exact I | apply prefix_begins, B]. }
      rewrite <- ML in J. exact J.
    + intros _. split; [apply plain_labels | intros it I; exact (plain_edit _ _ _ I)].
  - split; [exact MD |]. split.
    + intros _. split.
      * intro x. rewrite ML, filter_In, prefix_begins. reflexivity.
      * intros it I. destruct (ME it I) as (rest & _ & ->). discriminate.
    + intro N. exfalso. apply N. exists (i_label it0).
      assert (J : In (i_label it0) (filter (fun x => starts_with x text) c)) by (rewrite <- ML; left; reflexivity).
      apply filter_In in J. split; [apply J | apply prefix_begins, J].
Qed.
Print Assumptions C80_items.

Lemma some_eq {A} (x y : A) : Some x = Some y -> x = y.
Proof. congruence. Qed.

(** Choosing a proposal in a quoted text writes it there. *)
Theorem C80_edit_partial :
  forall unquote pre body post c it ed,
    unquote (quoted body) = Some body ->
    In it (items unquote (quoted body) (S (String.length (pre ++ quoted body))) c) ->
    i_edit it = Some ed ->
    apply_edit (pre ++ quoted body ++ post) ed = (pre ++ quoted (i_label it) ++ post)%string.
Proof.
  intros unquote pre body post c it ed U I E. unfold items in I.
  destruct (matching (current unquote (quoted body)) (S (String.length (pre ++ quoted body))) 0 c) as [| x r] eqn:M.
  - apply plain_edit in I. rewrite I in E. discriminate E.
  - rewrite <- M in I. apply matching_edit in I. destruct I as (rest & L & D). rewrite D in E. apply some_eq in E. subst ed.
    unfold current in L. rewrite U in L. rewrite L. unfold quoted.
    assert (S1 : S (String.length (pre ++ quote ++ body ++ quote)) - 2 = String.length (pre ++ quote ++ body)).
    { rewrite !length_append. unfold quote. cbn [String.length]. lia. }
    rewrite S1.
    replace (pre ++ (quote ++ body ++ quote) ++ post)%string with ((pre ++ quote ++ body) ++ (quote ++ post))%string
      by (rewrite !append_assoc; reflexivity).
    rewrite apply_edit_at, !append_assoc. reflexivity.
Qed.
Print Assumptions C80_edit_partial.

(** Choosing a proposal for a word that is not quoted puts the rest of it before the last
    character of the word. *)
Definition C80_edit_statement : Prop :=
  forall unquote pre raw post c it ed,
    unquote raw = None ->
    In it (items unquote raw (S (String.length (pre ++ raw))) c) ->
    i_edit it = Some ed ->
    apply_edit (pre ++ raw ++ post) ed = (pre ++ i_label it ++ post)%string.

Theorem C80_edit_word :
  forall unquote pre word x post c it ed,
    let raw := (word ++ String x "")%string in
    unquote raw = None ->
    In it (items unquote raw (S (String.length (pre ++ raw))) c) ->
    i_edit it = Some ed ->
    exists rest, i_label it = (raw ++ rest)%string /\
      apply_edit (pre ++ raw ++ post) ed = (pre ++ word ++ rest ++ String x "" ++ post)%string.
Proof.
  intros unquote pre word x post c it ed raw U I E. unfold items in I.
  destruct (matching (current unquote raw) (S (String.length (pre ++ raw))) 0 c) as [| y r] eqn:M.
  - apply plain_edit in I. rewrite I in E. discriminate E.
  - rewrite <- M in I. apply matching_edit in I. destruct I as (rest & L & D). rewrite D in E. apply some_eq in E. subst ed.
    unfold current in L. rewrite U in L. exists rest. split; [exact L |]. unfold raw.
    assert (S1 : S (String.length (pre ++ word ++ String x "")) - 2 = String.length (pre ++ word)).
    { rewrite !length_append. cbn [String.length]. lia. }
    rewrite S1.
    replace (pre ++ (word ++ String x "") ++ post)%string with ((pre ++ word) ++ (String x "" ++ post))%string
      by (rewrite !append_assoc; reflexivity).
    rewrite apply_edit_at, !append_assoc. reflexivity.
Qed.
Print Assumptions C80_edit_word.

Theorem C80_edit_refuted : ~ C80_edit_statement.
Proof.
  intro H.
  specialize (H (fun _ => None) "  " "de" ": 1" ["def"] {| i_label := "def"; i_data := 0; i_edit := Some (3, "f") |} (3, "f")
                eq_refl (or_introl eq_refl) eq_refl).
  discriminate H.
Qed.
Print Assumptions C80_edit_refuted.

(** * A message: the cases, and where the property fails *)

Definition t_string : typ := {| ty_ptr := 1; ty_kind := KOther 9; ty_msg := None; ty_enum := None |}.
Definition t_int : typ := {| ty_ptr := 2; ty_kind := KNumber 3; ty_msg := None; ty_enum := None |}.
Definition t_enum : typ := {| ty_ptr := 3; ty_kind := KEnum; ty_msg := None; ty_enum := Some 7 |}.
Definition t_user : typ := {| ty_ptr := 4; ty_kind := KMessage; ty_msg := Some 5; ty_enum := None |}.
Definition post : message :=
  {| m_pkg := "org"; m_name := "Post"; m_fields := [("id", t_string); ("kind", t_int)];
     m_rule := Some ([{| d_name := "res"; d_expr := Some (Some t_user);
                         d_request := Some [("name", t_string); ("count", t_int)]; d_items := ["count"] |};
                      {| d_name := "user"; d_expr := Some (Some t_user); d_request := None; d_items := [] |};
                      {| d_name := "state"; d_expr := Some (Some t_enum); d_request := None; d_items := [] |}],
                     Some [("id", t_string); ("size", t_int)]) |}.

Lemma post_good : good_message post.
Proof.
  split.
  - intros ds args E. injection E as _ <-. repeat constructor; cbn; intuition discriminate.
  - intros d I [r E]. repeat (destruct I as [<- | I]; [discriminate E |]). destruct I.
Qed.

Local Notation at_ := (candidates [] [] post).

(** The variable that is being written is proposed for its own arguments. *)
Theorem C80_usable_refuted : ~ C80_usable_statement.
Proof.
  intro H. destruct (H [] [] post (VArg 1 false) "user" post_good) as [t U]; [left; reflexivity |].
  destruct U as [(ds & args & f & x & _ & _ & E & _) | (i & d & L & E & G & _)]; [discriminate E |].
  cbn [before] in L. assert (i = 0) as -> by lia. injection E as <-. discriminate G.
Qed.
Print Assumptions C80_usable_refuted.

(** Of the variables before a definition only the last is proposed. *)
Theorem C80_complete_refuted : ~ C80_complete_statement.
Proof.
  intro H. specialize (H [] [] post (VDef 2) "res" (Some t_user) post_good).
  assert (X : In "res" (at_ (place_of (VDef 2)))).
  { apply H; [cbn; lia | discriminate | | intros b [] | exact I].
    right. exists 0, (nth 0 (defs_of post) {| d_name := ""; d_expr := None; d_request := None; d_items := [] |}).
    split; [cbn; lia |]. split; [reflexivity |]. split; [reflexivity |]. split; [discriminate |].
    split; [intros [r E]; discriminate E | reflexivity]. }
  cbn in X. repeat (destruct X as [X | X]; [discriminate X |]). destruct X.
Qed.
Print Assumptions C80_complete_refuted.

(** An enum is not proposed for a number, although the resolver accepts it; and the type
    for a field of a request is that of another field. *)
Theorem C80_types_refuted :
  at_ (place_of (VField "kind")) = ["$.size"] /\ accepted t_enum t_int /\
  usable post 3 "state" (Some t_enum) /\ expected post (VField "kind") t_int /\
  at_ (place_of (VRequest 0 0)) = ["$.id"] /\ expected post (VRequest 0 0) t_int /\ ~ accepted t_string t_int.
Proof.
  split; [reflexivity |]. split; [right; right; split; [reflexivity | exists 3; reflexivity] |].
  split.
  { right. exists 2, (nth 2 (defs_of post) {| d_name := ""; d_expr := None; d_request := None; d_items := [] |}).
    split; [lia |]. split; [reflexivity |]. split; [reflexivity |]. split; [discriminate |].
    split; [intros [r E]; discriminate E | reflexivity]. }
  split.
  { exists [("id", t_string)], []. split; [reflexivity |]. intros [E | []]. discriminate E. }
  split; [reflexivity |]. split.
  { exists (nth 0 (defs_of post) {| d_name := ""; d_expr := None; d_request := None; d_items := [] |}),
      [("name", t_string); ("count", t_int)], "count".
    split; [reflexivity |]. split; [reflexivity |]. split; [reflexivity |]. right. left. reflexivity. }
  intros [E | [(x & y & E & _) | [E _]]]; discriminate E.
Qed.
Print Assumptions C80_types_refuted.

(** Methods of packages below the own one are left out. *)
Theorem C80_methods_refuted :
  candidates ["org.post.PostService/GetPost"; "user.UserService/GetUser"] [] post (at_method_name 0)
  = ["user.UserService/GetUser"].
Proof. reflexivity. Qed.
Print Assumptions C80_methods_refuted.

(** The cases that work. *)
Example C80_example :
  at_ (place_of (VDef 1)) = ["res"; "$.id"; "$.size"] /\
  at_ (place_of (VDef 0)) = ["$.id"; "$.size"] /\
  at_ (place_of (VField "id")) = ["$.id"] /\
  candidates [] ["org.Post"; "user.User"; "org.Item"; "grpc.federation.FieldRule"] post (at_message_name 1)
    = ["Item"; "user.User"] /\
  candidates_in [] [("org.Post", post)] [("st.proto", "x"); ("post.proto", "org")] "/w/post.proto" "Post" (place_of (VDef 1))
    = ["res"; "$.id"; "$.size"] /\
  (let l := items (fun s => if String.eqb s (quoted "$.i") then Some "$.i" else None) (quoted "$.i") 6 ["res"; "$.id"; "$.size"] in
   map i_label l = ["$.id"] /\ map i_edit l = [Some (4, "d")]) /\
  apply_edit (quoted "$.i") (4, "d") = quoted "$.id".
Proof. repeat split; reflexivity. Qed.
