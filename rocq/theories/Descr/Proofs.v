From Coq Require Import Ascii String List Bool Arith Lia.
From Verif.Descr Require Import Model Spec.
Import ListNotations.
Local Open Scope string_scope.

(** * Names *)
Lemma upper_capital : forall c d, capital c d <-> d = upper c.
Proof.
  intros c d. unfold capital, upper, is_lower. cbn zeta. destruct (Nat.leb 97 (nat_of_ascii c) && Nat.leb (nat_of_ascii c) 122) eqn:E.
  - apply andb_true_iff in E. destruct E as [A B]. apply Nat.leb_le in A. apply Nat.leb_le in B. split.
    + intros [[_ H]|[H _]]; [|elim H; split; assumption]. rewrite <- H. symmetry. apply ascii_nat_embedding.
    + intros ->. left. split; [split; assumption|]. apply nat_ascii_embedding. lia.
  - apply andb_false_iff in E. split.
    + intros [[[A B] _]|[_ H]]; [|exact H]. apply Nat.leb_le in A. apply Nat.leb_le in B. rewrite A, B in E. destruct E; discriminate.
    + intros ->. right. split; [|reflexivity]. intros [A B]. apply Nat.leb_le in A. apply Nat.leb_le in B. rewrite A, B in E. destruct E; discriminate.
Qed.
Lemma lower_same : forall c, lower c = c <-> ~ is_upper c.
Proof.
  intros c. unfold lower, is_upper. cbn zeta. destruct (Nat.leb 65 (nat_of_ascii c) && Nat.leb (nat_of_ascii c) 90) eqn:E.
  - apply andb_true_iff in E. destruct E as [A B]. apply Nat.leb_le in A. apply Nat.leb_le in B. split.
    + intros H. exfalso. apply (f_equal nat_of_ascii) in H. rewrite nat_ascii_embedding in H by lia. lia.
    + intros H. elim H. split; assumption.
  - apply andb_false_iff in E. split; [|reflexivity]. intros _ [A B]. apply Nat.leb_le in A. apply Nat.leb_le in B. rewrite A, B in E. destruct E; discriminate.
Qed.

Definition up (s : string) : string := match s with EmptyString => EmptyString | String c r => String (upper c) r end.
Lemma capitalised_up : forall s t, capitalised s t <-> t = up s.
Proof.
  intros s t. split.
  - intros H. destruct H as [|c d r C]; [reflexivity|]. cbn. f_equal. apply upper_capital, C.
  - intros ->. destruct s as [|c r]; constructor. apply upper_capital. reflexivity.
Qed.
Lemma capitalised_all : forall l l', Forall2 capitalised l l' <-> l' = map up l.
Proof.
  intros l l'. split.
  - intros F. induction F as [|s t l l' C F IH]; [reflexivity|]. cbn. f_equal; [apply capitalised_up, C | exact IH].
  - intros ->. induction l as [|s l IH]; constructor; [apply capitalised_up; reflexivity | exact IH].
Qed.
Lemma parts_nonempty : forall s, parts s <> [].
Proof. intros [|c r]; cbn; [discriminate|]. destruct (Ascii.eqb c "_"); [discriminate|]. destruct (parts r); discriminate. Qed.
Lemma concat_cons : forall x l, String.concat "" (x :: l) = x ++ String.concat "" l.
Proof. intros x [|y l]; cbn; [|reflexivity]. induction x as [|c x IH]; cbn; [reflexivity | f_equal; exact IH]. Qed.
Lemma camel_parts : forall s, camel true s = String.concat "" (map up (parts s)) /\
  camel false s = match parts s with [] => "" | p :: l => p ++ String.concat "" (map up l) end.
Proof.
  induction s as [|c s [IHt IHf]]; [split; reflexivity|]. cbn [camel parts]. destruct (Ascii.eqb c "_").
  - cbn [map]. rewrite concat_cons. cbn [up append]. rewrite IHt. split; reflexivity.
  - rewrite IHf. pose proof (parts_nonempty s) as N. destruct (parts s) as [|p l]; [congruence|]. cbn [map]. rewrite concat_cons. cbn [up append]. split; reflexivity.
Qed.
Lemma entry_name : forall s n, implicit_name s n <-> n = to_map_entry_name s.
Proof.
  intros s n. unfold implicit_name, to_map_entry_name. rewrite (proj1 (camel_parts s)). split.
  - intros [l [F ->]]. apply capitalised_all in F. subst l. reflexivity.
  - intros ->. exists (map up (parts s)). split; [apply capitalised_all; reflexivity | reflexivity].
Qed.

Lemma app_length : forall a b, String.length (a ++ b) = String.length a + String.length b.
Proof. induction a as [|c a IH]; intros b; cbn; [reflexivity | rewrite IH; reflexivity]. Qed.
Lemma app_cancel_same : forall a b x, String.length a = String.length b -> a ++ x = b ++ x -> a = b.
Proof.
  induction a as [|c a IH]; intros [|d b] x L E; try discriminate L; [reflexivity|]. cbn in E. injection E as -> E. f_equal. apply (IH b x); [injection L as L; exact L | exact E].
Qed.
Lemma app_cancel : forall a b x, a ++ x = b ++ x -> a = b.
Proof. intros a b x E. apply (app_cancel_same a b x); [|exact E]. apply (f_equal String.length) in E. rewrite !app_length in E. lia. Qed.
Lemma app_cancel_l : forall x a b, x ++ a = x ++ b -> a = b.
Proof. induction x as [|c x IH]; intros a b E; [exact E|]. cbn in E. injection E as E. apply IH, E. Qed.
Lemma map_string_length : forall f s, String.length (map_string f s) = String.length s.
Proof. induction s as [|c s IH]; cbn; [reflexivity | rewrite IH; reflexivity]. Qed.
Lemma camel_short : forall s b, String.length (camel b s) <= String.length s.
Proof. induction s as [|c s IH]; intros b; cbn; [lia|]. destruct (Ascii.eqb c "_"); [specialize (IH true); lia|]. destruct b; cbn; specialize (IH false); lia. Qed.
Lemma lower_camel : forall r, map_string lower r = camel false r <-> forall d, In d (chars r) -> d <> "_"%char /\ ~ is_upper d.
Proof.
  induction r as [|c r IH]; [split; [intros _ d [] | reflexivity]|]. cbn [map_string camel chars]. destruct (Ascii.eqb_spec c "_") as [->|N].
  - split.
    + intros E. exfalso. apply (f_equal String.length) in E. cbn in E. rewrite map_string_length in E. pose proof (camel_short r true). lia.
    + intros H. exfalso. destruct (H "_"%char (or_introl eq_refl)) as [A _]. congruence.
  - split.
    + intros E. injection E as E1 E2. intros d [<-|I]; [split; [exact N | apply lower_same, E1] | apply IH; [exact E2 | exact I]].
    + intros H. f_equal; [apply lower_same; apply (H c); left; reflexivity | apply IH; intros d I; apply H; right; exact I].
Qed.
Lemma title_entry : forall c r, c <> "_"%char -> (title (String c r) ++ "Entry" = to_map_entry_name (String c r) <-> forall d, In d (chars r) -> d <> "_"%char /\ ~ is_upper d).
Proof.
  intros c r N. unfold to_map_entry_name. cbn [title camel]. destruct (Ascii.eqb_spec c "_") as [E|_]; [congruence|]. rewrite <- lower_camel. split.
  - intros E. apply app_cancel in E. injection E as E. exact E.
  - intros ->. reflexivity.
Qed.

(** * Messages *)
Lemma fields_names : forall fq fs i, map f_name (fields_from fq i fs) = map fst fs.
Proof. intros fq. induction fs as [|[n t] fs IH]; intros i; cbn; [reflexivity | rewrite IH; reflexivity]. Qed.
Lemma fields_numbers : forall fq fs i, map f_number (fields_from fq i fs) = seq (i + 1) (List.length fs).
Proof. intros fq. induction fs as [|[n t] fs IH]; intros i; cbn; [reflexivity|]. f_equal. apply IH. Qed.
Lemma fields_In : forall fq fs i f, In f (fields_from fq i fs) -> exists n t j, In (n, t) fs /\ f = field_desc fq j n t (entry_of n t).
Proof.
  intros fq. induction fs as [|[n t] fs IH]; intros i f I; [destruct I|]. destruct I as [<-|I]; [exists n, t, i; split; [left; reflexivity | reflexivity]|].
  destruct (IH _ _ I) as [n' [t' [j [J E]]]]. exists n', t', j. split; [right; exact J | exact E].
Qed.
Lemma In_fields : forall fq fs i n t, In (n, t) fs -> exists j, In (field_desc fq j n t (entry_of n t)) (fields_from fq i fs).
Proof.
  intros fq. induction fs as [|[m u] fs IH]; intros i n t I; [destruct I|]. destruct I as [E|I]; [injection E as -> ->; exists i; left; reflexivity|].
  destruct (IH (S i) n t I) as [j J]. exists j. right. exact J.
Qed.
Lemma nth_fields : forall fq fs i k n t, nth_error fs k = Some (n, t) -> nth_error (fields_from fq i fs) k = Some (field_desc fq (i + k) n t (entry_of n t)).
Proof.
  intros fq. induction fs as [|[m u] fs IH]; intros i k n t E; [destruct k; discriminate E|]. destruct k as [|k].
  - injection E as -> ->. cbn. rewrite Nat.add_0_r. reflexivity.
  - cbn. rewrite (IH (S i) k n t E). rewrite Nat.add_succ_r. reflexivity.
Qed.
Definition entry_label (field : string) (t : ty) : string := match t with Map n _ _ _ => if n =? "" then to_map_entry_name field else n | _ => "" end.
Lemma nested_In : forall fs e, In e (flat_map (fun f => opt (entry_of (fst f) (snd f))) fs) <-> exists n t, In (n, t) fs /\ entry_of n t = Some e.
Proof.
  intros fs e. rewrite in_flat_map. split.
  - intros [[n t] [I J]]. cbn [fst snd] in J. exists n, t. split; [exact I|]. destruct (entry_of n t) as [d|]; cbn in J; [destruct J as [->|[]]; reflexivity | destruct J].
  - intros [n [t [I E]]]. exists (n, t). split; [exact I|]. cbn [fst snd]. rewrite E. left. reflexivity.
Qed.
Lemma nested_names : forall fs, map d_name (flat_map (fun f => opt (entry_of (fst f) (snd f))) fs) = map (fun f => entry_label (fst f) (snd f)) (map_fields fs).
Proof. induction fs as [|[n [k r|q r|m q k v]] fs IH]; cbn [flat_map fst snd entry_of opt app map map_fields filter]; try exact IH; [reflexivity|]. f_equal. exact IH. Qed.
Lemma entry_some : forall n t e, entry_of n t = Some e -> exists m q k v, t = Map m q k v /\ d_name e = entry_label n t.
Proof. intros n [k r|q r|m q k v] e E; try discriminate E. injection E as <-. exists m, q, k, v. auto. Qed.
Lemma single_none : forall n t, single t -> entry_of n t = None /\ repeated t = false.
Proof. intros n t [[k ->]|[q ->]]; auto. Qed.
Lemma entry_message_iff : forall n m q k v e, entry_of n (Map m q k v) = Some e -> (entry_message e <-> single k /\ single v).
Proof.
  intros n m q k v e E. injection E as <-. split.
  - intros H. inversion H; subst. repeat match goal with X : f_repeated _ = false |- _ => cbn in X end. split.
    + destruct k as [kk [|]|kq [|]|? ? ? ?]; try discriminate; [left | right]; eauto.
    + destruct v as [kk [|]|kq [|]|? ? ? ?]; try discriminate; [left | right]; eauto.
  - intros [Sk Sv]. destruct (single_none "key" k Sk) as [A B], (single_none "value" v Sv) as [C D]. rewrite A, C. cbn. constructor; cbn; try reflexivity; assumption.
Qed.
Lemma NoDup_map_inj : forall A B (g : A -> B) l, NoDup (map g l) -> forall x y, In x l -> In y l -> g x = g y -> x = y.
Proof.
  intros A B g. induction l as [|a l IH]; intros ND x y I J E; [destruct I|]. inversion ND as [|? ? NI ND']; subst. destruct I as [<-|I], J as [<-|J].
  - reflexivity.
  - elim NI. rewrite E. apply in_map, J.
  - elim NI. rewrite <- E. apply in_map, I.
  - apply (IH ND' x y I J E).
Qed.
Definition right_map (f : string * ty) : Prop := match snd f with Map m _ k v => single k /\ single v /\ (m = "" \/ implicit_name (fst f) m) | _ => True end.
Lemma label_right : forall n m q k v, (m = "" \/ implicit_name n m) <-> implicit_name n (entry_label n (Map m q k v)).
Proof.
  intros n m q k v. cbn. rewrite !entry_name. destruct (String.eqb_spec m "") as [->|N]; [tauto|]. split; [intros [H|H]; [contradiction | exact H] | auto].
Qed.
Lemma map_fields_In : forall fs n m q k v, In (n, Map m q k v) fs <-> In (n, Map m q k v) (map_fields fs).
Proof. intros. unfold map_fields. rewrite filter_In. cbn. tauto. Qed.
Lemma describe_valid : forall fq name fs, outside fq fs ->
  (valid fq (describe fq name fs) <-> NoDup (map fst fs) /\ NoDup (map (fun f => entry_label (fst f) (snd f)) (map_fields fs)) /\ forall f, In f fs -> right_map f).
Proof.
  intros fq name fs O. unfold describe. split.
  - intros H. inversion H as [n' fs' nested' A B C D X]. subst. rewrite fields_names in A. rewrite nested_names in C. split; [exact A|]. split; [exact C|].
    intros [n t] I. unfold right_map. cbn [fst snd]. destruct t as [k r|q r|m q k v]; try exact Logic.I.
    destruct (entry_of n (Map m q k v)) as [e|] eqn:E; [|discriminate E]. assert (J : In e (flat_map (fun f => opt (entry_of (fst f) (snd f))) fs)) by (apply nested_In; eauto).
    destruct (D e J) as [M [_ U]]. apply (entry_message_iff _ _ _ _ _ _ E) in M. destruct M as [Sk Sv]. split; [exact Sk|]. split; [exact Sv|].
    destruct (In_fields fq fs 0 _ _ I) as [j F]. rewrite E in F. destruct (U _ F eq_refl) as [_ P]. cbn [f_name field_desc] in P.
    destruct (entry_some _ _ _ E) as [m' [q' [k' [v' [_ L]]]]]. rewrite L in P. apply label_right in P. exact P.
  - intros [A [B R]]. constructor.
    + rewrite fields_names. exact A.
    + rewrite fields_numbers. apply seq_NoDup.
    + rewrite nested_names. exact B.
    + intros e J. apply nested_In in J. destruct J as [n [t [I E]]]. destruct (entry_some _ _ _ E) as [m [q [k [v [-> L]]]]]. specialize (R _ I). unfold right_map in R. cbn [fst snd] in R.
      destruct R as [Sk [Sv P]]. split; [apply (entry_message_iff _ _ _ _ _ _ E); auto|]. split.
      * destruct (In_fields fq fs 0 _ _ I) as [j F]. rewrite E in F. eexists. split; [exact F|]. reflexivity.
      * intros f F T. apply fields_In in F. destruct F as [n' [t' [j [I' ->]]]]. cbn [f_name f_type f_repeated field_desc] in *.
        destruct (entry_of n' t') as [e'|] eqn:E'.
        -- split; [reflexivity|]. destruct (entry_some _ _ _ E') as [m' [q' [k' [v' [-> L']]]]]. apply app_cancel_l in T. cbn in T. injection T as T. rewrite <- T, L'.
           assert (G : (n', Map m' q' k' v') = (n, Map m q k v)).
           { apply (NoDup_map_inj _ _ (fun f => entry_label (fst f) (snd f)) (map_fields fs) B); [exact (proj1 (map_fields_In _ _ _ _ _ _) I') | exact (proj1 (map_fields_In _ _ _ _ _ _) I) | cbn [fst snd]; congruence]. }
           injection G as -> -> -> -> ->. apply label_right, P.
        -- exfalso. destruct t' as [k' r'|q' r'|? ? ? ?]; [| |discriminate E']; cbn in T.
           ++ apply (f_equal String.length) in T. rewrite app_length in T. cbn in T. lia.
           ++ apply (O n' q' r' (d_name e) I' T).
Qed.
Lemma labelled_iff : forall n m q k v s, labelled (n, Map m q k v) s <-> s = entry_label n (Map m q k v).
Proof.
  intros n m q k v s. cbn. split.
  - intros H. inversion H as [? ? ? ? ? N|? ? ? ? ? P]; subst.
    + destruct (String.eqb_spec s "") as [->|_]; [congruence | reflexivity].
    + cbn. apply entry_name, P.
  - intros ->. destruct (String.eqb_spec m "") as [->|N]; [apply labelled_implicit, entry_name; reflexivity | apply labelled_given, N].
Qed.
Lemma labelled_map : forall f s, labelled f s -> exists n m q k v, f = (n, Map m q k v).
Proof. intros f s H. destruct H; eauto 8. Qed.
Lemma NoDup_map_of : forall A B (g : A -> B) l, NoDup l -> (forall x y, In x l -> In y l -> g x = g y -> x = y) -> NoDup (map g l).
Proof.
  intros A B g. induction l as [|a l IH]; intros ND H; cbn; [constructor|]. inversion ND as [|? ? NI ND']; subst. constructor.
  - intros I. apply in_map_iff in I. destruct I as [x [E I]]. apply NI. rewrite <- (H x a); [exact I | right; exact I | left; reflexivity | exact E].
  - apply IH; [exact ND'|]. intros x y I J. apply H; right; assumption.
Qed.
Lemma distinct_labels : forall fs, NoDup (map fst fs) -> (NoDup (map (fun f => entry_label (fst f) (snd f)) (map_fields fs)) <-> distinct_maps fs).
Proof.
  intros fs ND. split.
  - intros H f f' s I J L L'. destruct (labelled_map _ _ L) as [n [m [q [k [v ->]]]]], (labelled_map _ _ L') as [n' [m' [q' [k' [v' ->]]]]].
    apply labelled_iff in L. apply labelled_iff in L'. apply (NoDup_map_inj _ _ _ _ H); [exact (proj1 (map_fields_In _ _ _ _ _ _) I) | exact (proj1 (map_fields_In _ _ _ _ _ _) J) | cbn [fst snd]; congruence].
  - intros D. apply NoDup_map_of.
    + unfold map_fields. apply NoDup_filter. apply NoDup_map_inv in ND. exact ND.
    + intros [n t] [n' t'] I J E. unfold map_fields in I, J. apply filter_In in I. apply filter_In in J. destruct I as [I T], J as [J T']. cbn [fst snd] in *.
      destruct t as [| |m q k v]; try discriminate T. destruct t' as [| |m' q' k' v']; try discriminate T'.
      apply (D _ _ (entry_label n (Map m q k v)) I J); apply labelled_iff; [reflexivity | exact E].
Qed.

Lemma field_described : forall t n fq nested i, (forall e, entry_of n t = Some e -> In e nested) -> field_for fq nested n t (field_desc fq i n t (entry_of n t)).
Proof.
  induction t as [k r|q r|m q k IHk v IHv]; intros n fq nested i H.
  - apply field_plain.
  - apply field_named.
  - cbn [entry_of] in *. specialize (H _ eq_refl). eapply field_map; [|exact H| | | |].
    + apply labelled_iff. reflexivity.
    + apply IHk. intros e E. apply in_or_app. left. rewrite E. left. reflexivity.
    + apply IHv. intros e E. apply in_or_app. right. rewrite E. left. reflexivity.
    + reflexivity.
    + reflexivity.
Qed.

(** * Environment variables *)
Lemma resolve_map : forall t rep m q a b, resolve_env_type t rep = Map m q a b <-> m = "" /\ q = "." /\ exists k v, is_map t k v /\ a = resolve_env_type k false /\ b = resolve_env_type v false.
Proof.
  induction t as [k|t IH|k _ v _]; intros rep m q a b; cbn [resolve_env_type].
  - split; [discriminate|]. intros [_ [_ [k' [v' [H _]]]]]. inversion H.
  - rewrite IH. split; intros [A [B [k [v [H C]]]]]; (split; [exact A|]); (split; [exact B|]); exists k, v; (split; [|exact C]).
    + constructor. exact H.
    + inversion H; subst. assumption.
  - split.
    + intros E. injection E as <- <- <- <-. split; [reflexivity|]. split; [reflexivity|]. exists k, v. split; [constructor | auto].
    + intros [-> [-> [k' [v' [H [-> ->]]]]]]. inversion H; subst. reflexivity.
Qed.
Lemma resolve_not_named : forall t rep q r, resolve_env_type t rep <> Named q r.
Proof. induction t as [k|t IH|k _ v _]; intros rep q r; cbn; [discriminate | apply IH | discriminate]. Qed.
Lemma resolve_single : forall t, single (resolve_env_type t false) <-> exists a, t = EKind a.
Proof.
  assert (R : forall t, ~ single (resolve_env_type t true)).
  { induction t as [k|t IH|k _ v _]; cbn; [intros [[a E]|[a E]]; discriminate E | exact IH | intros [[a E]|[a E]]; discriminate E]. }
  intros [k|t|k v]; cbn; split.
  - intros _. eauto.
  - intros _. left. eauto.
  - intros H. elim (R t H).
  - intros [a E]. discriminate E.
  - intros [[a E]|[a E]]; discriminate E.
  - intros [a E]. discriminate E.
Qed.
Lemma env_In : forall p vars n m q a b, In (n, Map m q a b) (map (fun v => env_var p (fst v) (snd v)) vars) <->
  exists t k v, In (n, t) vars /\ is_map t k v /\ m = title n ++ "Entry" /\ q = p ++ "." ++ title n ++ "Entry" /\ a = resolve_env_type k false /\ b = resolve_env_type v false.
Proof.
  intros p vars n m q a b. rewrite in_map_iff. split.
  - intros [[n' t] [E I]]. cbn [fst snd] in E. unfold env_var in E. destruct (resolve_env_type t false) as [? ?|? ?|m' q' a' b'] eqn:R; try discriminate E.
    injection E as -> <- <- <- <-. apply resolve_map in R. destruct R as [_ [_ [k [v [H [-> ->]]]]]]. exists t, k, v. auto 8.
  - intros [t [k [v [I [H [-> [-> [-> ->]]]]]]]]. exists (n, t). split; [|exact I]. cbn [fst snd]. unfold env_var.
    rewrite (proj2 (resolve_map t false "" "." (resolve_env_type k false) (resolve_env_type v false))); [reflexivity|]. eauto 10.
Qed.
Lemma env_names : forall p vars, map fst (map (fun v => env_var p (fst v) (snd v)) vars) = map fst vars.
Proof. intros p. induction vars as [|v vars IH]; cbn; [reflexivity | rewrite IH; reflexivity]. Qed.
Lemma env_outside : forall p fq vars, outside fq (map (fun v => env_var p (fst v) (snd v)) vars).
Proof.
  intros p fq vars n q r s I _. apply in_map_iff in I. destruct I as [[n' t] [E _]]. cbn [fst snd] in E. unfold env_var in E.
  destruct (resolve_env_type t false) as [? ?|? ?|? ? ? ?] eqn:R; try discriminate E. elim (resolve_not_named _ _ _ _ R).
Qed.
Lemma valid_first : forall n, valid_name n -> exists c r, n = String c r /\ c <> "_"%char.
Proof.
  intros n [c [r [-> [L _]]]]. exists c, r. split; [reflexivity|]. intros ->. destruct L as [[A B]|[A B]]; cbn in A, B; lia.
Qed.
Lemma title_nonempty : forall n, title n ++ "Entry" <> "".
Proof. intros [|c r]; discriminate. Qed.
Lemma env_name_right : forall n, valid_name n -> (title n ++ "Entry" = "" \/ implicit_name n (title n ++ "Entry") <-> one_word n).
Proof.
  intros n V. destruct (valid_first n V) as [c [r [-> N]]]. rewrite entry_name. split.
  - intros [H|H]; [elim (title_nonempty _ H)|]. exists c, r. split; [reflexivity|]. apply (title_entry c r N), H.
  - intros [c' [r' [E H]]]. injection E as <- <-. right. apply (title_entry c r N), H.
Qed.
Lemma resolve_shape : forall t rep, env_shape rep t (resolve_env_type t rep).
Proof. induction t as [k|t IH|k IHk v IHv]; intros rep; cbn; constructor; auto. Qed.
Lemma shape_rename : forall rep t m q a b m' q', env_shape rep t (Map m q a b) -> env_shape rep t (Map m' q' a b).
Proof. intros rep t. revert rep. induction t as [k|t IH|k _ v _]; intros rep m q a b m' q' H; inversion H; subst; constructor; eauto. Qed.
Lemma env_var_shape : forall p n t, env_shape false t (snd (env_var p n t)).
Proof.
  intros p n t. pose proof (resolve_shape t false) as H. unfold env_var. cbn [snd]. destruct (resolve_env_type t false) as [? ?|? ?|m q a b] eqn:R; try exact H.
  apply (shape_rename _ _ _ _ _ _ _ _ H).
Qed.
