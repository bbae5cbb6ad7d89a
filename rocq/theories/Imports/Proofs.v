From Coq Require Import String Ascii List Arith Bool Lia.
From Coq Require DecimalString.
From Verif.Base Require Import Text Sort SortProofs.
From Verif.Names Require Import Model.
From Verif.Names Require Proofs.
From Verif.Imports Require Import Model Spec.
Import ListNotations.
Local Open Scope string_scope.

Lemma mem_In x l : mem x l = true <-> In x l.
Proof.
  unfold mem. rewrite existsb_exists. split.
  - intros [y [I E]]. apply String.eqb_eq in E. subst y. exact I.
  - intros I. exists x. split; [exact I|]. apply String.eqb_refl.
Qed.
Lemma mem_false x l : mem x l = false <-> ~ In x l.
Proof. rewrite <- mem_In. destruct (mem x l); split; congruence. Qed.

(** * Decimal numbers are digits *)
Lemma dec_digits k : digits (dec k).
Proof.
  unfold dec. generalize (Nat.to_uint k). intros u. split.
  - destruct u; discriminate.
  - assert (H : forall v, Forall digit (list_ascii_of_string (DecimalString.NilEmpty.string_of_uint v))).
    { induction v; cbn; constructor; auto;
        match goal with |- digit ?c => exists (nat_of_ascii c - 48); split; [vm_compute; lia|reflexivity] end. }
    destruct u; cbn [DecimalString.NilZero.string_of_uint]; try apply H. repeat constructor. exists 0. split; [lia|reflexivity].
Qed.
Lemma app_cases : forall s1 t1 s2 t2, s1 ++ t1 = s2 ++ t2 ->
  exists u, (s1 = s2 ++ u /\ t2 = u ++ t1) \/ (s2 = s1 ++ u /\ t1 = u ++ t2).
Proof.
  induction s1 as [|c s1 IH]; intros t1 s2 t2 E.
  - exists s2. right. auto.
  - destruct s2 as [|d s2].
    + exists (String c s1). left. auto.
    + cbn in E. injection E as <- E. destruct (IH _ _ _ E) as [u [[-> ->]|[-> ->]]]; exists u; [left|right]; auto.
Qed.
Lemma app_nil_eq : forall s t, s ++ t = s -> t = "".
Proof. induction s as [|c s IH]; cbn; intros t E; [exact E|]. injection E as E. auto. Qed.
Lemma append_nil : forall s, s ++ "" = s.
Proof. induction s; cbn; congruence. Qed.
Lemma append_inj_l : forall s a b, s ++ a = s ++ b -> a = b.
Proof. induction s as [|c s IH]; cbn; intros a b E; [exact E|]. injection E as E. auto. Qed.
Lemma list_ascii_app : forall s t, list_ascii_of_string (s ++ t) = (list_ascii_of_string s ++ list_ascii_of_string t)%list.
Proof. induction s; cbn; intros; [|rewrite IHs]; reflexivity. Qed.
Lemma digits_prefix s t : digits (s ++ t) -> s <> "" -> digits s.
Proof. intros [_ F] N. split; [exact N|]. rewrite list_ascii_app in F. apply Forall_app in F. tauto. Qed.
Lemma suffix_clash a j b k : a ++ dec j = b ++ dec k -> a = b \/ (exists s, digits s /\ a = b ++ s) \/ (exists s, digits s /\ b = a ++ s).
Proof.
  intros E. destruct (app_cases _ _ _ _ E) as [u [[Ea Ed]|[Eb Ed]]]; destruct (string_dec u "") as [->|N].
  - rewrite append_nil in Ea. auto.
  - right; left. exists u. split; [|exact Ea]. apply (digits_prefix u (dec j)); [|exact N]. rewrite <- Ed. apply dec_digits.
  - rewrite append_nil in Eb. auto.
  - right; right. exists u. split; [|exact Eb]. apply (digits_prefix u (dec k)); [|exact N]. rewrite <- Ed. apply dec_digits.
Qed.

(** The generator's own names do not end in a digit. *)
Fixpoint last_char (s : string) : option ascii := match s with "" => None | String c "" => Some c | String _ s' => last_char s' end.
Lemma last_char_app : forall s t, t <> "" -> last_char (s ++ t) = last_char t.
Proof.
  induction s as [|c s IH]; cbn [append]; intros t N; [reflexivity|]. cbn [last_char]. rewrite <- (IH t N).
  destruct (s ++ t) eqn:E; [|reflexivity]. destruct s; [|discriminate]. cbn in E. contradiction.
Qed.
Lemma last_char_digits : forall t, digits t -> exists c, last_char t = Some c /\ digit c.
Proof.
  intros t [N F]. induction t as [|c t IH]; [contradiction|]. cbn in F. inversion F as [|x l Hc Ht]; subst x l.
  destruct t as [|d t]; [exists c; auto|]. apply IH; [discriminate|exact Ht].
Qed.
Definition ends_in_digit (s : string) : bool :=
  match last_char s with Some c => (48 <=? nat_of_ascii c)%nat && (nat_of_ascii c <=? 57)%nat | None => false end.
Lemma ends_in_digit_app s t : digits t -> ends_in_digit (s ++ t) = true.
Proof.
  intros D. unfold ends_in_digit. rewrite last_char_app; [|apply (proj1 D)]. destruct (last_char_digits t D) as [c [-> [d [L ->]]]].
  do 10 (destruct d as [|d]; [reflexivity|]). lia.
Qed.
Lemma reserved_no_digit n p : In (n, p) reserved -> ends_in_digit n = false.
Proof.
  assert (H : forallb (fun np => negb (ends_in_digit (fst np))) reserved = true) by (vm_compute; reflexivity).
  rewrite forallb_forall in H. intros I. apply H in I. cbn in I. apply negb_true_iff. exact I.
Qed.

(** * A free number is found *)
Lemma free_suffix_none : forall fuel name k l, free_suffix fuel name k l = None -> forall i, i < fuel -> In (name ++ dec (k + i)) l.
Proof.
  induction fuel as [|fuel IH]; intros name k l E i L; [lia|]. cbn in E.
  destruct (mem (name ++ dec k) l) eqn:M; [|discriminate]. destruct i as [|i].
  - rewrite Nat.add_0_r. apply mem_In. exact M.
  - replace (k + S i) with (S k + i) by lia. apply IH; [exact E|lia].
Qed.
Lemma free_suffix_some : forall fuel name k l a, free_suffix fuel name k l = Some a -> (exists j, k <= j /\ a = name ++ dec j) /\ ~ In a l.
Proof.
  induction fuel as [|fuel IH]; intros name k l a E; [discriminate|]. cbn in E. destruct (mem (name ++ dec k) l) eqn:M.
  - destruct (IH _ _ _ _ E) as [[j [L ->]] N]. split; [exists j; split; [lia|reflexivity]|exact N].
  - injection E as <-. split; [eauto|apply mem_false; exact M].
Qed.
Lemma free_suffix_total name k l : free_suffix (S (length l)) name k l <> None.
Proof.
  intros E. pose proof (free_suffix_none _ _ _ _ E) as H.
  assert (N : NoDup (map (fun i => name ++ dec (k + i)) (seq 0 (S (length l))))).
  { apply FinFun.Injective_map_NoDup; [|apply seq_NoDup]. intros x y Exy. apply append_inj_l, Proofs.dec_inj in Exy. lia. }
  apply NoDup_incl_length with (l' := l) in N.
  - rewrite map_length, seq_length in N. lia.
  - intros s I. apply in_map_iff in I. destruct I as [i [<- I]]. apply in_seq in I. apply H. lia.
Qed.
Lemma choose_total name l : choose_alias name l <> None.
Proof. unfold choose_alias. destruct (mem name l); [apply free_suffix_total|discriminate]. Qed.
Lemma choose_cases name l a : choose_alias name l = Some a ->
  (a = name /\ ~ In name l) \/ (exists k, a = name ++ dec k /\ In name l).
Proof.
  unfold choose_alias. destruct (mem name l) eqn:M.
  - intros E. apply free_suffix_some in E. destruct E as [[k [_ ->]] _]. right. exists k. split; [reflexivity|apply mem_In; exact M].
  - intros E. injection E as <-. left. split; [reflexivity|apply mem_false; exact M].
Qed.
Lemma addImports_total cur : forall l st, addImports cur st l <> None.
Proof.
  induction l as [|p l IH]; cbn; intros st; [discriminate|]. unfold addImport.
  destruct (String.prefix "google." (gname p)); [apply IH|]. destruct (gpath p =? cur); [apply IH|].
  destruct (mem (gpath p) (paths st)); [apply IH|]. destruct (choose_alias (gname p) (used st)) eqn:E; [apply IH|].
  destruct (choose_total _ _ E).
Qed.
Theorem aliasMap_total f cur pkgs : aliasMap f cur pkgs <> None.
Proof.
  unfold aliasMap. destruct (addImports _ _ _) eqn:E; [discriminate|]. destruct (addImports_total _ _ _ E).
Qed.

(** * What the loop keeps *)
Section Loop.
  Variables (cur : string) (P0 U0 : list string).
  Record inv (st : istate) (done : list gopkg) : Prop := {
    i_paths : paths st = (rev (map (fun pa => gpath (fst pa)) (aliases st)) ++ P0)%list;
    i_used : forall n, In n (used st) -> In n U0 \/ exists r, In (r, n) (aliases st) /\ gname r = n;
    i_name : forall p a, In (p, a) (aliases st) -> In (gname p) (used st) /\ In p done /\ gpath p <> cur /\ ~ In (gpath p) P0;
    i_nodup : NoDup (map (fun pa => gpath (fst pa)) (aliases st));
    i_plain : forall p q, In (p, gname p) (aliases st) -> In (q, gname q) (aliases st) -> gname p = gname q -> p = q;
    i_shape : forall p a, In (p, a) (aliases st) ->
      a = gname p \/ exists k, a = gname p ++ dec k /\ (In (gname p) U0 \/ exists r, In (r, gname r) (aliases st) /\ gname r = gname p);
    i_done : forall p, In p done -> String.prefix "google." (gname p) = false -> gpath p <> cur -> In (gpath p) (paths st)
  }.
  Lemma inv_start : inv {| paths := P0; used := U0; aliases := [] |} [].
  Proof. constructor; cbn; try tauto; try constructor; auto. Qed.

  Lemma inv_skip st done p : inv st done -> (String.prefix "google." (gname p) = true \/ gpath p = cur \/ In (gpath p) (paths st)) -> inv st (done ++ [p]).
  Proof.
    intros I C. destruct I. constructor; auto.
    - intros q a Iq. destruct (i_name0 q a Iq) as (A & B & D & E). repeat split; auto. apply in_or_app; auto.
    - intros q Iq Nd Nc. apply in_app_or in Iq. destruct Iq as [Iq|[<-|[]]]; [auto|]. destruct C as [C|[C|C]]; [congruence|contradiction|exact C].
  Qed.

  Lemma inv_add st done p a : inv st done -> gpath p <> cur -> ~ In (gpath p) (paths st) -> choose_alias (gname p) (used st) = Some a ->
    inv {| paths := gpath p :: paths st; used := gname p :: used st; aliases := aliases st ++ [(p, a)] |} (done ++ [p]).
  Proof.
    intros I Nc Np E. destruct I. pose proof (choose_cases _ _ _ E) as C.
    assert (NU : forall q, In (q, gname q) (aliases st) -> In (gname q) (used st)) by (intros q Iq; apply (i_name0 q _ Iq)).
    constructor; cbn [paths used aliases].
    - rewrite i_paths0, map_app, rev_app_distr. reflexivity.
    - intros n [<-|In_].
      + destruct C as [[-> _]|[k [-> Iu]]].
        * right. exists p. split; [apply in_or_app; right; left|]; reflexivity.
        * destruct (i_used0 _ Iu) as [D|[r [Ir Er]]]; [left; exact D|right]. exists r. split; [apply in_or_app; left; exact Ir|exact Er].
      + destruct (i_used0 _ In_) as [D|[r [Ir Er]]]; [left; exact D|right]. exists r. split; [apply in_or_app; left; exact Ir|exact Er].
    - intros q b Iq. apply in_app_or in Iq. destruct Iq as [Iq|[Eq|[]]].
      + destruct (i_name0 q b Iq) as (A & B & D & F). repeat split; auto; [right; exact A|apply in_or_app; auto].
      + injection Eq as <- <-. split; [left; reflexivity|]. split; [apply in_or_app; right; left; reflexivity|]. split; [exact Nc|].
        intros X. apply Np. rewrite i_paths0. apply in_or_app. right. exact X.
    - rewrite map_app. cbn. apply NoDup_Add with (a := gpath p) (l := map (fun pa => gpath (fst pa)) (aliases st)).
      + rewrite <- (app_nil_r (map _ (aliases st))) at 1. apply Add_app.
      + split; [exact i_nodup0|]. intros X. apply Np. rewrite i_paths0. apply in_or_app. left. apply -> in_rev. exact X.
    - assert (K : forall q, In (p, gname p) [(p, a)] -> In (q, gname q) (aliases st) -> gname p = gname q -> p = q).
      { intros q Ip Iq Eq. destruct Ip as [Ip|[]]. injection Ip as Ea. destruct C as [[-> Nu]|[k [-> _]]].
        - destruct Nu. rewrite Eq. apply NU, Iq.
        - apply app_nil_eq in Ea. destruct (dec_digits k) as [X _]. contradiction. }
      intros q r Iq Ir Eqr. apply in_app_or in Iq. apply in_app_or in Ir. destruct Iq as [Iq|Iq], Ir as [Ir|Ir].
      + apply i_plain0; auto.
      + assert (r = p) by (destruct Ir as [Ir|[]]; congruence). subst r. symmetry. apply K; auto.
      + assert (q = p) by (destruct Iq as [Iq|[]]; congruence). subst q. apply K; auto.
      + destruct Iq as [Iq|[]], Ir as [Ir|[]]. congruence.
    - intros q b Iq. apply in_app_or in Iq.
      assert (M : forall n, (In n U0 \/ exists r, In (r, gname r) (aliases st) /\ gname r = n) ->
                            In n U0 \/ exists r, In (r, gname r) (aliases st ++ [(p, a)]) /\ gname r = n).
      { intros n [D|[r [Ir Er]]]; [left; exact D|right]. exists r. split; [apply in_or_app; left; exact Ir|exact Er]. }
      destruct Iq as [Iq|[Eq|[]]].
      + destruct (i_shape0 q b Iq) as [->|[k [-> X]]]; [left; reflexivity|right; exists k; auto].
      + injection Eq as <- <-. destruct C as [[-> _]|[k [-> Iu]]]; [left; reflexivity|right]. exists k. split; [reflexivity|]. apply M.
        destruct (i_used0 _ Iu) as [D|[r [Ir Er]]]; [left; exact D|right]. exists r. rewrite Er. auto.
    - intros q Iq Nd Nq. apply in_app_or in Iq. destruct Iq as [Iq|[<-|[]]]; [right; auto|left; reflexivity].
  Qed.

  Lemma inv_loop : forall l st done st', inv st done -> addImports cur st l = Some st' -> inv st' (done ++ l).
  Proof.
    induction l as [|p l IH]; cbn; intros st done st' I E; [injection E as <-; rewrite app_nil_r; exact I|].
    destruct (addImport cur st p) as [st1|] eqn:E1; [|discriminate].
    replace (done ++ p :: l)%list with ((done ++ [p]) ++ l)%list by (rewrite <- app_assoc; reflexivity).
    apply (IH st1); [|exact E]. unfold addImport in E1.
    destruct (String.prefix "google." (gname p)) eqn:Pf; [injection E1 as <-; apply inv_skip; auto|].
    destruct (String.eqb_spec (gpath p) cur) as [Ec|Nc]; [injection E1 as <-; apply inv_skip; auto|].
    destruct (mem (gpath p) (paths st)) eqn:Mp; [injection E1 as <-; apply inv_skip; auto; right; right; apply mem_In; exact Mp|].
    destruct (choose_alias (gname p) (used st)) as [a|] eqn:Ea; [|discriminate]. injection E1 as <-.
    apply inv_add; auto. apply mem_false. exact Mp.
  Qed.
End Loop.

Lemma aliasMap_inv f cur pkgs al : aliasMap f cur pkgs = Some al ->
  exists st, aliases st = al /\ inv cur (map ipath (defaultImports f pkgs)) (map ialias (defaultImports f pkgs)) st (sort_by gpath pkgs).
Proof.
  unfold aliasMap. destruct (addImports _ _ _) as [st|] eqn:E; [|discriminate]. intros H. injection H as <-. exists st. split; [reflexivity|].
  apply (inv_loop cur _ _ _ _ [] st (inv_start cur _ _) E).
Qed.

(** * Lists *)
Lemma nodup_map_filter {A B} (f : A -> B) (g : A -> bool) : forall l, NoDup (map f l) -> NoDup (map f (filter g l)).
Proof.
  induction l as [|x l IH]; cbn; intros N; [constructor|]. inversion N as [|y m Nx Nl]; subst y m. destruct (g x); cbn; auto.
  constructor; auto. intros I. apply Nx. apply in_map_iff in I. destruct I as [z [Ez Iz]]. apply filter_In in Iz. rewrite <- Ez. apply in_map, Iz.
Qed.
Lemma nodup_map_inj {A B} (f : A -> B) : forall l x y, NoDup (map f l) -> In x l -> In y l -> f x = f y -> x = y.
Proof.
  induction l as [|z l IH]; cbn; intros x y N Ix Iy E; [destruct Ix|]. inversion N as [|w m Nz Nl]; subst w m.
  destruct Ix as [<-|Ix], Iy as [<-|Iy]; auto.
  - destruct Nz. rewrite E. apply in_map. exact Iy.
  - destruct Nz. rewrite <- E. apply in_map. exact Ix.
Qed.
Lemma nodup_map_on {A B} (f : A -> B) : forall l, NoDup l -> (forall x y, In x l -> In y l -> f x = f y -> x = y) -> NoDup (map f l).
Proof.
  induction l as [|z l IH]; cbn; intros N H; [constructor|]. inversion N as [|w m Nz Nl]; subst w m. constructor.
  - intros I. apply in_map_iff in I. destruct I as [y [E Iy]]. rewrite (H y z) in Iy by auto. contradiction.
  - apply IH; auto.
Qed.
Lemma nodup_app {A} (l1 l2 : list A) : NoDup l1 -> NoDup l2 -> (forall x, In x l1 -> In x l2 -> False) -> NoDup (l1 ++ l2).
Proof.
  induction l1 as [|x l1 IH]; cbn; intros N1 N2 D; [exact N2|]. inversion N1 as [|y m Nx Nl]; subst y m. constructor.
  - intros I. apply in_app_or in I. destruct I; [contradiction|]. eauto.
  - apply IH; eauto.
Qed.

(** * The generator's own imports *)
Lemma std_reserved f i : In i (standardImports f) -> In (declared i, ipath i) reserved /\ In i (map fst (std_table all_flags)).
Proof.
  unfold standardImports. intros I. apply in_map_iff in I. destruct I as [[j b] [<- I]]. apply filter_In in I. destruct I as [I _].
  assert (H : In j (map fst (std_table all_flags))).
  { apply (in_map fst) in I. exact I. }
  split; [|exact H]. unfold reserved. apply in_map_iff in H. destruct H as [x [E H]]. apply in_map_iff. exists x. split; [cbn in *; rewrite E; reflexivity|].
  apply in_or_app. left. exact H.
Qed.
Lemma default_reserved f pkgs i : In i (defaultImports f pkgs) -> In (declared i, ipath i) reserved.
Proof.
  unfold defaultImports. intros I. apply in_map_iff in I. destruct I as [[j b] [<- I]]. apply filter_In in I. destruct I as [I _].
  assert (H : In j (map fst (default_table all_flags))).
  { apply (in_map fst) in I. exact I. }
  unfold reserved. apply in_map_iff in H. destruct H as [x [E H]]. apply in_map_iff. exists x. split; [cbn in *; rewrite E; reflexivity|].
  apply in_or_app. right. exact H.
Qed.
Lemma default_used f pkgs p n : In p pkgs -> In (n, gpath p) reserved -> (forall i, In i (map fst (std_table all_flags)) -> gpath p <> ipath i) ->
  exists i, In i (defaultImports f pkgs) /\ ipath i = gpath p /\ declared i = n.
Proof.
  intros Ip R NS. unfold reserved in R. apply in_map_iff in R. destruct R as [[i b] [E R]]. injection E as En Ep. apply in_app_or in R.
  destruct R as [R|R]; [destruct (NS i); [apply (in_map fst) in R; exact R|auto]|].
  apply (in_map fst) in R. change (map fst (default_table all_flags)) with (map fst (default_table f)) in R. cbn [fst] in R.
  apply in_map_iff in R. destruct R as [[j c] [Ej R]]. cbn in Ej. subst j. exists i. split; [|auto]. unfold defaultImports.
  apply in_map_iff. exists (i, c). split; [reflexivity|]. apply filter_In. split; [exact R|]. apply orb_true_iff. right.
  apply existsb_exists. exists p. split; [exact Ip|]. cbn. apply String.eqb_eq. exact Ep.
Qed.
Fixpoint nodupb (l : list string) : bool := match l with [] => true | x :: l' => negb (mem x l') && nodupb l' end.
Lemma nodupb_iff l : nodupb l = true <-> NoDup l.
Proof.
  induction l as [|x l IH]; cbn; [split; [constructor|reflexivity]|]. rewrite andb_true_iff, negb_true_iff, mem_false, IH.
  split; [intros [A B]; constructor; auto|]. intros N. inversion N; auto.
Qed.
Lemma nodup_app_inv {A} : forall (l1 l2 : list A), NoDup (l1 ++ l2) -> NoDup l1 /\ NoDup l2 /\ (forall x, In x l1 -> In x l2 -> False).
Proof.
  induction l1 as [|x l1 IH]; cbn; intros l2 N; [repeat split; [constructor|exact N|tauto]|].
  inversion N as [|y m Nx Nl]; subst y m. destruct (IH l2 Nl) as (A1 & A2 & A3). rewrite in_app_iff in Nx. split; [constructor; tauto|].
  split; [exact A2|]. intros y [<-|I] J; [tauto|eauto].
Qed.
Lemma own_nodup_gen (g : import -> string) f pkgs :
  nodupb (map g (map fst (std_table all_flags ++ default_table all_flags))) = true -> NoDup (map g (standardImports f ++ defaultImports f pkgs)).
Proof.
  intros E. apply nodupb_iff in E. rewrite !map_app in *. apply nodup_app.
  - unfold standardImports. rewrite map_map. apply nodup_map_filter. rewrite <- map_map.
    change (map fst (std_table f)) with (map fst (std_table all_flags)). apply nodup_app_inv in E. apply E.
  - unfold defaultImports. rewrite map_map. apply nodup_map_filter. rewrite <- map_map.
    change (map fst (default_table f)) with (map fst (default_table all_flags)). apply nodup_app_inv in E. apply E.
  - intros x I1 I2. apply in_map_iff in I1, I2. destruct I1 as [i [E1 I1]], I2 as [k [E2 I2]].
    apply std_reserved in I1. destruct I1 as [_ I1].
    assert (I3 : In k (map fst (default_table all_flags))).
    { unfold defaultImports in I2. apply in_map_iff in I2. destruct I2 as [[k' b] [<- I2]]. apply filter_In in I2. destruct I2 as [I2 _].
      apply (in_map fst) in I2. exact I2. }
    apply (in_map g) in I1, I3. rewrite E1 in I1. rewrite E2 in I3.
    apply nodup_app_inv in E. destruct E as (_ & _ & D). eauto.
Qed.
Lemma own_nodup f pkgs : NoDup (map declared (standardImports f ++ defaultImports f pkgs)).
Proof. apply own_nodup_gen. vm_compute. reflexivity. Qed.
Lemma own_paths_nodup f pkgs : NoDup (map ipath (standardImports f ++ defaultImports f pkgs)).
Proof. apply own_nodup_gen. vm_compute. reflexivity. Qed.

(** * The theorems *)
Section Results.
  Variables (f : flags) (cur : string) (pkgs : list gopkg) (al : list (gopkg * string)).
  Hypothesis WF : well_formed pkgs.
  Hypothesis RUN : aliasMap f cur pkgs = Some al.

  Lemma in_sorted p : In p (sort_by gpath pkgs) <-> In p pkgs.
  Proof. apply sort_by_In. Qed.

  Lemma entry p a : In (p, a) al -> In p pkgs /\ gpath p <> cur /\ ~ In (gpath p) (map ipath (defaultImports f pkgs)).
  Proof.
    destruct (aliasMap_inv _ _ _ _ RUN) as [st [<- I]]. intros Ip. destruct (i_name _ _ _ _ _ I p a Ip) as (_ & B & C & D).
    split; [apply in_sorted; exact B|]. auto.
  Qed.
  Lemma entry_not_reserved p a n : In (p, a) al -> ~ In (n, gpath p) reserved.
  Proof.
    intros Ip R. destruct (entry p a Ip) as (I & _ & N). destruct (default_used f pkgs p n I R) as (i & Ii & E & _).
    - intros i Ii. apply (not_standard _ WF); auto.
    - apply N. rewrite <- E. apply in_map. exact Ii.
  Qed.

  Lemma in_scope a path : In (a, path) (scope f pkgs al) <->
    (exists i, In i (standardImports f ++ defaultImports f pkgs) /\ declared i = a /\ ipath i = path) \/
    (exists p b, In (p, b) al /\ gpath p = path /\ declared {| ipath := gpath p; ialias := b |} = a).
  Proof.
    unfold scope. rewrite in_map_iff. split.
    - intros [i [E I]]. injection E as Ea Ep. rewrite app_assoc in I. apply in_app_or in I. destruct I as [I|I]; [left; eauto|right].
      unfold imports in I. apply sort_by_In in I. apply in_map_iff in I. destruct I as [[p b] [<- I]]. cbn in *. eauto 6.
    - intros [[i [I [Ea Ep]]]|[p [b [I [Ep Ea]]]]].
      + exists i. split; [congruence|]. rewrite app_assoc. apply in_or_app. left. exact I.
      + exists {| ipath := gpath p; ialias := b |}. split; [rewrite Ea; cbn; congruence|]. apply in_or_app. right. apply in_or_app. right.
        unfold imports. apply sort_by_In. apply in_map_iff. exists (p, b). auto.
  Qed.
  Lemma shape p a : In (p, a) al ->
    a = gname p \/ exists k, a = gname p ++ dec k /\ (In (gname p) (map ialias (defaultImports f pkgs)) \/ exists r, In (r, gname r) al /\ gname r = gname p).
  Proof. destruct (aliasMap_inv _ _ _ _ RUN) as [st [<- I]]. apply (i_shape _ _ _ _ _ I). Qed.
  Lemma alias_nonempty p a : In (p, a) al -> a <> "".
  Proof.
    intros I. destruct (entry p a I) as (Ip & _ & _). destruct (shape p a I) as [->|[k [-> _]]]; [apply (named _ WF); exact Ip|].
    pose proof (named _ WF p Ip). destruct (gname p); [contradiction|discriminate].
  Qed.
  Lemma declared_alias p a : In (p, a) al -> declared {| ipath := gpath p; ialias := a |} = a.
  Proof. intros I. unfold declared. cbn. destruct (String.eqb_spec a "") as [E|]; [destruct (alias_nonempty p a I E)|reflexivity]. Qed.

  Lemma paths_once : NoDup (map snd (scope f pkgs al)).
  Proof.
    unfold scope. rewrite map_map. cbn [snd]. rewrite app_assoc, map_app. apply nodup_app.
    - apply own_paths_nodup.
    - destruct (aliasMap_inv _ _ _ _ RUN) as [st [<- I]]. pose proof (i_nodup _ _ _ _ _ I) as N.
      unfold imports. apply (Permutation.Permutation_NoDup (l := map (fun pa => gpath (fst pa)) (aliases st))); [|exact N].
      replace (map (fun pa => gpath (fst pa)) (aliases st))
        with (map ipath (map (fun pa : gopkg * string => {| ipath := gpath (fst pa); ialias := snd pa |}) (aliases st))) by (rewrite map_map; reflexivity).
      apply Permutation.Permutation_map. apply Permutation.Permutation_sym, sort_by_perm.
    - intros x I1 I2. apply in_map_iff in I2. destruct I2 as [i [<- I2]]. unfold imports in I2. apply sort_by_In in I2. apply in_map_iff in I2.
      destruct I2 as [[p a] [<- I2]]. cbn [ipath fst] in I1. apply in_map_iff in I1. destruct I1 as [i [E I1]].
      destruct (entry p a I2) as (Ip & _ & N). apply in_app_or in I1. destruct I1 as [I1|I1].
      + apply std_reserved in I1. destruct I1 as [_ I1]. exact (not_standard _ WF p i Ip I1 (eq_sym E)).
      + apply N. rewrite <- E. apply in_map. exact I1.
  Qed.

  Hypothesis NOT_RESERVED : forall p n path, In p pkgs -> In (n, path) reserved -> gname p = n -> gpath p = path.
  Lemma name_not_default p a : In (p, a) al -> ~ In (gname p) (map ialias (defaultImports f pkgs)).
  Proof.
    intros I X. destruct (entry p a I) as (Ip & _ & _). apply in_map_iff in X. destruct X as [i [E X]].
    pose proof (named _ WF p Ip) as Np. pose proof (default_reserved f pkgs i X) as R.
    assert (Ed : declared i = gname p).
    { unfold declared. rewrite E. destruct (String.eqb_spec (gname p) ""); [contradiction|reflexivity]. }
    rewrite Ed in R. apply (entry_not_reserved p a (gname p) I). rewrite (NOT_RESERVED p _ _ Ip R eq_refl). exact R.
  Qed.

  Section Distinct.
    Hypothesis NO_DIGITS : forall p q s, In p pkgs -> In q pkgs -> digits s -> gname p <> gname q ++ s.
    Hypothesis TWO : forall p q r, In p pkgs -> In q pkgs -> In r pkgs -> gname p = gname q -> gname q = gname r ->
      gpath p = gpath q \/ gpath q = gpath r \/ gpath p = gpath r.
    Lemma same_path p a q b : In (p, a) al -> In (q, b) al -> gpath p = gpath q -> (p, a) = (q, b).
    Proof.
      destruct (aliasMap_inv _ _ _ _ RUN) as [st [<- I]]. intros Ip Iq E.
      exact (nodup_map_inj (fun pa => gpath (fst pa)) (aliases st) (p, a) (q, b) (i_nodup _ _ _ _ _ I) Ip Iq E).
    Qed.
    Lemma aliases_distinct p q a : In (p, a) al -> In (q, a) al -> p = q.
    Proof.
      intros Ip Iq. destruct (entry p a Ip) as (Pp & _ & _). destruct (entry q a Iq) as (Pq & _ & _).
      assert (PL : forall x y, In (x, gname x) al -> In (y, gname y) al -> gname x = gname y -> x = y).
      { destruct (aliasMap_inv _ _ _ _ RUN) as [st [<- I]]. apply (i_plain _ _ _ _ _ I). }
      destruct (shape p a Ip) as [Ea|[k [Ea Ca]]], (shape q a Iq) as [Eb|[j [Eb Cb]]].
      - apply PL; congruence.
      - exfalso. apply (NO_DIGITS p q (dec j) Pp Pq (dec_digits j)). congruence.
      - exfalso. apply (NO_DIGITS q p (dec k) Pq Pp (dec_digits k)). congruence.
      - destruct (suffix_clash (gname p) k (gname q) j) as [E|[[s [Ds E]]|[s [Ds E]]]].
        + congruence.
        + destruct Ca as [D|[r [Ir Er]]]; [destruct (name_not_default p a Ip D)|].
          destruct (entry r _ Ir) as (Pr & _ & _).
          destruct (TWO r p q Pr Pp Pq Er E) as [X|[X|X]].
          * pose proof (same_path _ _ _ _ Ir Ip X) as Y. injection Y as -> Y. rewrite Y in Ea. symmetry in Ea. apply app_nil_eq in Ea.
            destruct (dec_digits k); contradiction.
          * pose proof (same_path _ _ _ _ Ip Iq X) as Y. injection Y as ->. reflexivity.
          * pose proof (same_path _ _ _ _ Ir Iq X) as Y. injection Y as -> Y. rewrite Y in Eb. symmetry in Eb. apply app_nil_eq in Eb.
            destruct (dec_digits j); contradiction.
        + destruct (NO_DIGITS p q s Pp Pq Ds E).
        + destruct (NO_DIGITS q p s Pq Pp Ds E).
    Qed.
    Lemma names_once : NoDup (map fst (scope f pkgs al)).
    Proof.
      unfold scope. rewrite map_map. cbn [fst]. rewrite app_assoc, map_app. apply nodup_app.
      - apply own_nodup.
      - unfold imports. apply (Permutation.Permutation_NoDup
          (l := map declared (map (fun pa : gopkg * string => {| ipath := gpath (fst pa); ialias := snd pa |}) al))).
        { apply Permutation.Permutation_map. apply Permutation.Permutation_sym, sort_by_perm. }
        rewrite map_map. apply nodup_map_on.
        + destruct (aliasMap_inv _ _ _ _ RUN) as [st [<- I]]. apply (NoDup_map_inv _ _ (i_nodup _ _ _ _ _ I)).
        + intros [p a] [q b] Ip Iq E. cbn [fst snd] in E. rewrite (declared_alias p a Ip), (declared_alias q b Iq) in E. subst b.
          rewrite (aliases_distinct p q a Ip Iq). reflexivity.
      - intros x I1 I2. apply in_map_iff in I2. destruct I2 as [i [<- I2]]. unfold imports in I2. apply sort_by_In in I2. apply in_map_iff in I2.
        destruct I2 as [[p a] [<- I2]]. cbn [fst snd] in I1. rewrite (declared_alias p a I2) in I1.
        apply in_map_iff in I1. destruct I1 as [i [E I1]].
        assert (R : In (a, ipath i) reserved).
        { apply in_app_or in I1. rewrite <- E. destruct I1 as [I1|I1]; [apply std_reserved in I1; apply I1|apply default_reserved in I1; exact I1]. }
        destruct (entry p a I2) as (Ip & _ & _). destruct (shape p a I2) as [->|[k [-> _]]].
        + apply (entry_not_reserved p _ (gname p) I2). rewrite (NOT_RESERVED p _ _ Ip R eq_refl). exact R.
        + apply reserved_no_digit in R. rewrite (ends_in_digit_app _ _ (dec_digits k)) in R. discriminate.
    Qed.
  End Distinct.

  Section Resolves.
    Hypothesis ONE : forall p q, In p pkgs -> In q pkgs -> gpath p = gpath q ->
      p = q \/ (forall r, In r pkgs -> gname r = gname p -> gpath r = gpath p).
    Lemma find_alias p a : In (p, a) al -> getAlias al p = a.
    Proof.
      intros I. unfold getAlias. destruct (find _ al) as [[q b]|] eqn:F.
      - apply find_some in F. destruct F as [Iq E]. cbn in E. apply Nat.eqb_eq in E.
        destruct (entry p a I) as (Pp & _ & _). destruct (entry q b Iq) as (Pq & _ & _). pose proof (by_id _ WF q p Pq Pp E) as X. subst q.
        pose proof (same_path p a p b I Iq eq_refl) as Y. injection Y as <-. reflexivity.
      - apply (find_none _ _ F) in I. cbn in I. rewrite Nat.eqb_refl in I. discriminate.
    Qed.
    Lemma no_alias p : (forall a, ~ In (p, a) al) -> In p pkgs -> getAlias al p = gname p.
    Proof.
      intros N Pp. unfold getAlias. destruct (find _ al) as [[q b]|] eqn:F; [|reflexivity]. apply find_some in F. destruct F as [Iq E]. cbn in E.
      apply Nat.eqb_eq in E. destruct (entry q b Iq) as (Pq & _ & _). rewrite (by_id _ WF q p Pq Pp E) in Iq. destruct (N b Iq).
    Qed.
    Lemma resolves p : In p pkgs -> gpath p <> cur -> In (getAlias al p, gpath p) (scope f pkgs al).
    Proof.
      intros Pp Nc. destruct (aliasMap_inv _ _ _ _ RUN) as [st [Est I]].
      pose proof (i_done _ _ _ _ _ I p (proj2 (in_sorted p) Pp) (no_dot _ WF p Pp) Nc) as D. rewrite (i_paths _ _ _ _ _ I) in D.
      apply in_app_or in D. destruct D as [D|D].
      - apply in_rev in D. apply in_map_iff in D. destruct D as [[q a] [E Iq]]. cbn in E. rewrite Est in Iq.
        destruct (entry q a Iq) as (Pq & _ & _). apply in_scope. right. exists q, a. split; [exact Iq|]. split; [exact E|].
        rewrite (declared_alias q a Iq). destruct (ONE q p Pq Pp E) as [<-|U]; [symmetry; apply find_alias; exact Iq|].
        assert (Ea : a = gname q).
        { destruct (shape q a Iq) as [Ea|[k [Ea [Dn|[r [Ir Er]]]]]]; [exact Ea|destruct (name_not_default q a Iq Dn)|].
          destruct (entry r _ Ir) as (Pr & _ & _). pose proof (same_path r (gname r) q a Ir Iq (U r Pr Er)) as Y. injection Y as _ Y. congruence. }
        destruct (in_dec gopkg_dec p (map fst al)) as [Ip|Np].
        + apply in_map_iff in Ip. destruct Ip as [[p' b] [Ep' Ip]]. cbn in Ep'. subst p'. rewrite (find_alias p b Ip).
          pose proof (same_path q a p b Iq Ip E) as Y. injection Y as _ Y. exact Y.
        + rewrite no_alias; [|intros b X; apply Np; apply (in_map fst) in X; exact X|exact Pp]. rewrite Ea. apply (one_name _ WF); auto.
      - apply in_map_iff in D. destruct D as [i [E Ii]]. apply in_scope. left. exists i.
        split; [apply in_or_app; right; exact Ii|]. split; [|exact E].
        pose proof (default_reserved f pkgs i Ii) as R. rewrite E in R. rewrite no_alias; [|
          intros a X; exact (entry_not_reserved p a _ X R)|exact Pp]. symmetry. apply (known _ WF p _ Pp R).
    Qed.
  End Resolves.
End Results.

Lemma in_pkgMap refs p : In p (pkgMap refs) <-> exists r, In r refs /\ rkind r = TypeRef /\ rpkg r = p.
Proof.
  unfold pkgMap. rewrite nodup_In, in_map_iff. split.
  - intros [r [E I]]. apply filter_In in I. destruct I as [I K]. exists r. destruct (rkind r); try discriminate. auto.
  - intros [r [I [K E]]]. exists r. split; [exact E|]. apply filter_In. rewrite K. auto.
Qed.
