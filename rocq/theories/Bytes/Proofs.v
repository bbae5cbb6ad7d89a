(** * Proofs about bytes *)

From Coq Require Import Ascii List Arith Lia.
From Verif.Base Require Import Slice SliceProofs.
From Verif.Bytes Require Import Model Spec.
Import ListNotations.

Lemma read_some : forall xs, read (map Some xs) = xs.
Proof. induction xs as [ | x xs IH]; [reflexivity | ]. change (read (map Some (x :: xs))) with (x :: read (map Some xs)). rewrite IH. reflexivity. Qed.
Lemma alloc_view : forall h xs room, Slice.view (fst (alloc h xs room)) (snd (alloc h xs room)) = map Some xs.
Proof.
  intros h xs room. unfold alloc, Slice.view, cells. cbn [fst snd arr len]. rewrite app_nth2 by lia. rewrite Nat.sub_diag. cbn [nth].
  rewrite firstn_app, map_length, Nat.sub_diag, firstn_O, app_nil_r. apply firstn_all2. rewrite map_length. lia.
Qed.
Lemma alloc_other : forall h xs room t, arr t < length h -> Slice.view (fst (alloc h xs room)) t = Slice.view h t.
Proof. intros h xs room t H. unfold alloc, Slice.view, cells. cbn [fst]. rewrite app_nth1 by exact H. reflexivity. Qed.
Lemma alloc_cells : forall h xs room a, a < length h -> cells (fst (alloc h xs room)) a = cells h a.
Proof. intros h xs room a H. unfold alloc, cells. cbn [fst]. apply app_nth1, H. Qed.

(** Slices that lie in the heap. *)
Definition ok (h : heap ascii) (s : slice) : Prop := valid h s /\ arr s < length h.
Lemma alloc_ok : forall h xs room, ok (fst (alloc h xs room)) (snd (alloc h xs room)).
Proof.
  intros h xs room. unfold alloc, ok, valid, cap, cells. cbn [fst snd arr len]. rewrite app_nth2 by lia. rewrite Nat.sub_diag. cbn [nth]. rewrite !app_length, map_length. cbn. lia.
Qed.
Lemma append_arr_in : forall r (h : heap ascii) s xs, arr s < length h -> arr (snd (Slice.append r h s xs)) < length (fst (Slice.append r h s xs)).
Proof.
  intros r h s xs H. unfold Slice.append. destruct (_ <=? _); cbn; [rewrite set_nth_length; exact H | rewrite app_length; cbn; lia].
Qed.
Lemma append_arr : forall r (h : heap ascii) s xs, arr (snd (Slice.append r h s xs)) = arr s \/ length h <= arr (snd (Slice.append r h s xs)).
Proof. intros r h s xs. unfold Slice.append. destruct (_ <=? _); cbn; [left; reflexivity | right; lia]. Qed.
Lemma append_len : forall r (h : heap ascii) s xs, len s <= len (snd (Slice.append r h s xs)).
Proof. intros r h s xs. unfold Slice.append. destruct (_ <=? _); cbn; lia. Qed.
Lemma append_caps : forall r (h : heap ascii) s xs a, valid h s -> a < length h -> length (cells (fst (Slice.append r h s xs)) a) = length (cells h a).
Proof.
  intros r h s xs a V H. unfold Slice.append. destruct (len s + length xs <=? cap h s) eqn:E; cbn [fst].
  - apply Nat.leb_le in E. unfold cells, cap, valid, cells in *. destruct (Nat.eq_dec (arr s) a) as [<- | N].
    + rewrite nth_set_same by exact H. rewrite !app_length, firstn_length, skipn_length. lia.
    + rewrite nth_set_other by exact N. reflexivity.
  - unfold cells. rewrite app_nth1 by exact H. reflexivity.
Qed.

(** Appending in pieces. *)
Lemma append_all_facts : forall ps h s, ok h s ->
  let h' := fst (append_all h s ps) in let s' := snd (append_all h s ps) in
  ok h' s' /\ Slice.view h' s' = Slice.view h s ++ map Some (concat (map fst ps)) /\ length h <= length h' /\
  (arr s' = arr s \/ length h <= arr s') /\ len s <= len s' /\
  (forall t, ok h t -> ok h' t) /\
  (forall t, ok h t -> arr t <> arr s \/ len t <= len s -> Slice.view h' t = Slice.view h t).
Proof.
  induction ps as [ | [xs room] ps IH]; intros h s K; cbn [append_all].
  - cbn. rewrite app_nil_r. repeat split; try apply K; try lia; try (left; reflexivity); try (intros t H; exact H); try (intros; reflexivity); apply H.
  - destruct K as [V A]. pose proof (append_view room h s (map Some xs) V) as Vw. pose proof (append_valid room h s (map Some xs) V) as V'. pose proof (append_arr_in room h s (map Some xs) A) as A'.
    pose proof (append_grows room h s (map Some xs)) as G. pose proof (append_arr room h s (map Some xs)) as R. pose proof (append_len room h s (map Some xs)) as L.
    pose proof (fun a => append_caps room h s (map Some xs) a V) as Cp. pose proof (fun t => append_other room h s (map Some xs) t V) as O.
    destruct (Slice.append room h s (map Some xs)) as [h1 s1]. cbn [fst snd] in *. specialize (IH h1 s1 (conj V' A')). cbn zeta in IH. destruct IH as [K' [Vw' [G' [R' [L' [Ok' O']]]]]].
    cbn zeta. split; [exact K' | ]. split.
    { rewrite Vw', Vw. cbn [map fst concat]. rewrite map_app, app_assoc. reflexivity. }
    split; [lia | ]. split.
    { destruct R' as [R' | R']; [rewrite R'; exact R | right; lia]. }
    split; [lia | ].
    assert (Ok1 : forall t, ok h t -> ok h1 t).
    { intros t [Vt At]. split; [unfold valid, cap in *; rewrite (Cp (arr t) At); exact Vt | lia]. }
    split; [intros t Ht; apply Ok', Ok1, Ht | ].
    intros t Ht D. rewrite (O' t (Ok1 t Ht)); [apply O; [apply Ht | exact D] | ].
    destruct Ht as [_ At]. destruct R as [R | R]; [ | left; lia]. destruct D as [D | D]; [left; rewrite R; exact D | right; lia].
Qed.

(** ** Programs *)

Lemma nth_error_app_new : forall X (l : list X) x i v, nth_error (l ++ [x]) i = Some v -> nth_error l i = Some v \/ i = length l /\ v = x.
Proof.
  intros X l x i v H. destruct (Nat.lt_ge_cases i (length l)) as [L | L].
  - left. rewrite nth_error_app1 in H by exact L. exact H.
  - rewrite nth_error_app2 in H by exact L. destruct (i - length l) as [ | k] eqn:E; cbn in H.
    + injection H as <-. right. split; [lia | reflexivity].
    + destruct k; discriminate H.
Qed.

(** Between calls: slices lie in the heap; [used] are the values appended to; a slice that was not appended to is the longest of its array,
    and the only one of its array that was not appended to. *)
Record inv (st : state) (vs : list plain) (used : list nat) : Prop := {
  i_contents : contents st = vs;
  i_ok : forall i s, nth_error (values st) i = Some (Bytes s) -> ok (heap_ st) s;
  i_full : forall i s, nth_error (values st) i = Some (Bytes s) -> exists xs, Slice.view (heap_ st) s = map Some xs;
  i_longest : forall i s j t, ~ In i used -> nth_error (values st) i = Some (Bytes s) -> nth_error (values st) j = Some (Bytes t) -> arr t = arr s -> len t <= len s;
  i_only : forall i s j t, ~ In i used -> ~ In j used -> nth_error (values st) i = Some (Bytes s) -> nth_error (values st) j = Some (Bytes t) -> arr t = arr s -> j = i }.

Lemma contents_app : forall h h' vs v, (forall i s, nth_error vs i = Some (Bytes s) -> Slice.view h' s = Slice.view h s) ->
  map (shown h') (vs ++ [v]) = map (shown h) vs ++ [shown h' v].
Proof.
  intros h h' vs v H. rewrite map_app. f_equal. apply map_ext_in. intros x I. destruct x as [s | t]; [ | reflexivity]. apply In_nth_error in I. destruct I as [i I]. cbn [shown]. rewrite (H i s I). reflexivity.
Qed.
Lemma inv_extend : forall st vs used used' h' v, inv st vs used -> incl used used' ->
  (forall i s, nth_error (values st) i = Some (Bytes s) -> ok h' s /\ Slice.view h' s = Slice.view (heap_ st) s) ->
  (forall s, v = Bytes s -> ok h' s /\ (exists xs, Slice.view h' s = map Some xs) /\
     (forall j t, nth_error (values st) j = Some (Bytes t) -> arr t = arr s -> len t <= len s /\ In j used')) ->
  inv {| heap_ := h'; values := values st ++ [v] |} (vs ++ [shown h' v]) used'.
Proof.
  intros st vs used used' h' v [C Ok Fu Lo On] U Old New. split; cbn [heap_ values].
  - unfold contents. cbn [heap_ values]. rewrite (contents_app (heap_ st)); [ | intros i s H; apply (Old i s H)]. fold (contents st). rewrite C. reflexivity.
  - intros i s H. apply nth_error_app_new in H. destruct H as [H | [_ E]]; [apply (Old i s H) | apply New; symmetry; exact E].
  - intros i s H. apply nth_error_app_new in H. destruct H as [H | [_ E]]; [ | destruct (New s (eq_sym E)) as [_ [K _]]; exact K]. destruct (Old i s H) as [_ E]. rewrite E. apply (Fu i s H).
  - intros i s j t N H H' E. apply nth_error_app_new in H. apply nth_error_app_new in H'. destruct H as [H | [Ei Es]], H' as [H' | [Ej Et]].
    + apply (Lo i s j t); try assumption. intros I. apply N, U, I.
    + destruct (New t (eq_sym Et)) as [_ [_ K]]. destruct (K i s H (eq_sym E)) as [_ I]. contradiction.
    + destruct (New s (eq_sym Es)) as [_ [_ K]]. apply (K j t H' E).
    + rewrite <- Et in Es. injection Es as ->. lia.
  - intros i s j t N N' H H' E. apply nth_error_app_new in H. apply nth_error_app_new in H'. destruct H as [H | [Ei Es]], H' as [H' | [Ej Et]].
    + apply (On i s j t); try assumption; intros I; [apply N, U, I | apply N', U, I].
    + destruct (New t (eq_sym Et)) as [_ [_ K]]. destruct (K i s H (eq_sym E)) as [_ I]. contradiction.
    + destruct (New s (eq_sym Es)) as [_ [_ K]]. destruct (K j t H' E) as [_ I]. contradiction.
    + lia.
Qed.

Lemma nth_contents : forall st vs used i, inv st vs used -> nth_error vs i = option_map (shown (heap_ st)) (nth_error (values st) i).
Proof. intros st vs used i I. rewrite <- (i_contents _ _ _ I). unfold contents. apply nth_error_map. Qed.

Definition target1 (vs : list plain) (c : call) : list nat := match c with Append i _ _ => match nth_error vs i with Some (true, _) => [i] | _ => [] end | _ => [] end.
Lemma step_inv : forall st vs used c, inv st vs used -> (forall i, In i (target1 vs c) -> ~ In i used) -> inv (step st c) (means1 vs c) (target1 vs c ++ used).
Proof.
  intros st vs used c I N. pose proof I as [C Ok Fu Lo On]. destruct c as [xs room | xs | i room ps]; cbn [step means1 target1].
  - pose proof (alloc_ok (heap_ st) xs room) as K. pose proof (alloc_view (heap_ st) xs room) as V. pose proof (fun t => alloc_other (heap_ st) xs room t) as O. pose proof (fun a => alloc_cells (heap_ st) xs room a) as Cl.
    assert (A : arr (snd (alloc (heap_ st) xs room)) = length (heap_ st)) by reflexivity. assert (G : length (heap_ st) <= length (fst (alloc (heap_ st) xs room))) by (cbn; rewrite app_length; lia).
    destruct (alloc (heap_ st) xs room) as [h' s']. cbn [fst snd app] in *.
    replace (vs ++ [(true, xs)]) with (vs ++ [shown h' (Bytes s')]) by (cbn [shown]; rewrite V, read_some; reflexivity).
    apply (inv_extend st vs used); [exact I | apply incl_refl | | ].
    + intros j t H. destruct (Ok j t H) as [Vt At]. split; [split; [unfold valid, cap in *; rewrite (Cl _ At); exact Vt | lia] | apply O, At].
    + intros s E. injection E as <-. split; [exact K | ]. split; [exists xs; exact V | ]. intros j t H E. destruct (Ok j t H) as [_ At]. lia.
  - cbn [app]. change (vs ++ [(false, xs)]) with (vs ++ [shown (heap_ st) (Text xs)]). apply (inv_extend st vs used); [exact I | apply incl_refl | | ].
    + intros j t H. split; [apply (Ok j t H) | reflexivity].
    + intros s E. discriminate E.
  - cbn [target1] in N. rewrite (nth_contents _ _ _ i I) in *. destruct (nth_error (values st) i) as [[s | t] | ] eqn:Ei; cbn [option_map shown] in *.
    + assert (Ni : ~ In i used) by (apply N; cbn; left; reflexivity). pose proof (append_all_facts ps (heap_ st) s (Ok i s Ei)) as F. destruct (append_all (heap_ st) s ps) as [h' s']. cbn [fst snd] in F. cbn zeta in F.
      destruct F as [K [V [G [R [L [Okt O]]]]]]. destruct (Fu i s Ei) as [ys Vs].
      replace (vs ++ [(true, read (Slice.view (heap_ st) s) ++ concat (map fst ps))]) with (vs ++ [shown h' (Bytes s')]) by (cbn [shown]; rewrite V, Vs, <- map_app, !read_some; reflexivity).
      apply (inv_extend st vs used); [exact I | apply incl_appr, incl_refl | | ].
      * intros j t H. split; [apply Okt, (Ok j t H) | ]. apply O; [apply (Ok j t H) | ]. destruct (Nat.eq_dec (arr t) (arr s)) as [E | E]; [right; apply (Lo i s j t Ni Ei H E) | left; exact E].
      * intros s0 E. injection E as <-. split; [exact K | ]. split; [exists (ys ++ concat (map fst ps)); rewrite V, Vs, map_app; reflexivity | ].
        intros j t H E. destruct R as [R | R]; [ | destruct (Ok j t H) as [_ At]; lia]. split; [pose proof (Lo i s j t Ni Ei H) as X; rewrite <- R in X; specialize (X E); lia | ].
        destruct (Nat.eq_dec j i) as [-> | Nj]; [left; reflexivity | ]. right. destruct (in_dec Nat.eq_dec j used) as [Y | Y]; [exact Y | ].
        exfalso. apply Nj, (On i s j t Ni Y Ei H). rewrite <- R. exact E.
    + cbn [app]. pose proof (alloc_ok (heap_ st) t room) as K. pose proof (alloc_view (heap_ st) t room) as V. pose proof (fun x => alloc_other (heap_ st) t room x) as O. pose proof (fun a => alloc_cells (heap_ st) t room a) as Cl.
      assert (A : arr (snd (alloc (heap_ st) t room)) = length (heap_ st)) by reflexivity. assert (G : length (heap_ st) <= length (fst (alloc (heap_ st) t room))) by (cbn; rewrite app_length; lia).
      destruct (alloc (heap_ st) t room) as [h s]. cbn [fst snd] in *. pose proof (append_all_facts ps h s K) as F. destruct (append_all h s ps) as [h' s']. cbn [fst snd] in F. cbn zeta in F.
      destruct F as [K' [V' [_ [_ [_ [Okt O']]]]]]. rewrite V', V, <- map_app, read_some.
      change (vs ++ [(false, t ++ concat (map fst ps))]) with (vs ++ [shown h' (Text (t ++ concat (map fst ps)))]). apply (inv_extend st vs used); [exact I | apply incl_refl | | ].
      * intros j x H. destruct (Ok j x H) as [Vx Ax]. assert (Kx : ok h x) by (split; [unfold valid, cap in *; rewrite (Cl _ Ax); exact Vx | lia]).
        split; [apply Okt, Kx | ]. rewrite (O' x Kx) by (left; lia). apply O, Ax.
      * intros x E. discriminate E.
    + cbn [app]. exact I.
Qed.

Lemma run_inv : forall calls st vs used, inv st vs used -> NoDup (targets vs calls) -> (forall i, In i (targets vs calls) -> ~ In i used) ->
  exists used', inv (fold_left step calls st) (fold_left means1 calls vs) used'.
Proof.
  induction calls as [ | c calls IH]; intros st vs used I ND D; cbn [fold_left targets] in *; [exists used; exact I | ].
  fold (target1 vs c) in *. apply (IH _ _ (target1 vs c ++ used)).
  - apply step_inv; [exact I | ]. intros i Hi. apply D, in_or_app. left. exact Hi.
  - clear -ND. induction (target1 vs c) as [ | x l IHl]; [exact ND | ]. cbn in ND. apply NoDup_cons_iff in ND. apply IHl, ND.
  - intros i Hi Hu. apply in_app_or in Hu. destruct Hu as [Hu | Hu]; [ | apply (D i); [apply in_or_app; right; exact Hi | exact Hu]].
    clear -ND Hi Hu. induction (target1 vs c) as [ | x l IHl]; [destruct Hu | ]. cbn in ND. apply NoDup_cons_iff in ND. destruct ND as [N ND].
    destruct Hu as [-> | Hu]; [apply N, in_or_app; right; exact Hi | apply IHl; assumption].
Qed.
Lemma inv_init : inv init [] [].
Proof. split; [reflexivity | | | | ]; intros i; try (intros s j t N H; destruct i; discriminate H); try (intros s H; destruct i; discriminate H). intros s j t N N' H. destruct i; discriminate H. Qed.
Lemma once_means : forall calls, NoDup (targets [] calls) -> contents (run calls) = means calls.
Proof. intros calls ND. destruct (run_inv calls init [] [] inv_init ND (fun i _ H => H)) as [u I]. apply (i_contents _ _ _ I). Qed.

(** Without calls that append to bytes. *)
Lemma means1_grows : forall vs c, exists l, means1 vs c = vs ++ l.
Proof. intros vs [xs r | xs | i r ps]; cbn; try (eexists; reflexivity). destruct (nth_error vs i) as [[b xs] | ]; [eexists; reflexivity | exists []; symmetry; apply app_nil_r]. Qed.
Lemma means_grows : forall calls vs, exists l, fold_left means1 calls vs = vs ++ l.
Proof.
  induction calls as [ | c calls IH]; intros vs; cbn; [exists []; symmetry; apply app_nil_r | ].
  destruct (means1_grows vs c) as [l ->]. destruct (IH (vs ++ l)) as [l' ->]. exists (l ++ l'). rewrite app_assoc. reflexivity.
Qed.
Lemma no_bytes : forall calls (vs : list plain), (forall xs room, ~ In (New xs room) calls) -> Forall (fun p : plain => fst p = false) vs -> targets vs calls = [].
Proof.
  induction calls as [ | c calls IH]; intros vs H F; [reflexivity | ]. cbn [targets].
  assert (F' : Forall (fun p : plain => fst p = false) (means1 vs c)).
  { destruct c as [xs room | xs | i room ps]; cbn [means1].
    - exfalso. apply (H xs room). left. reflexivity.
    - apply Forall_app. split; [exact F | repeat constructor].
    - destruct (nth_error vs i) as [[b xs] | ] eqn:E; [ | exact F]. apply Forall_app. split; [exact F | ]. constructor; [ | constructor].
      apply nth_error_In in E. rewrite Forall_forall in F. apply (F _ E). }
  rewrite (IH _ (fun xs room X => H xs room (or_intror X)) F'), app_nil_r. destruct c as [xs room | xs | i room ps]; try reflexivity.
  destruct (nth_error vs i) as [[b xs] | ] eqn:E; [ | reflexivity]. apply nth_error_In in E. rewrite Forall_forall in F. rewrite (F _ E : b = false). reflexivity.
Qed.

(** ** Two calls on the same bytes *)

Lemma append_in : forall r (cs : list (option ascii)) n zs, n + length zs <= length cs ->
  Slice.append r [cs] {| arr := 0; len := n |} zs = ([firstn n cs ++ zs ++ skipn (n + length zs) cs], {| arr := 0; len := n + length zs |}).
Proof. intros r cs n zs H. unfold Slice.append, cap, cells. cbn [arr len nth]. apply Nat.leb_le in H. rewrite H. reflexivity. Qed.
Lemma view_in : forall (cs : list (option ascii)) n, Slice.view [cs] {| arr := 0; len := n |} = firstn n cs.
Proof. reflexivity. Qed.
Lemma read_firstn : forall n xs l, n <= length xs -> read (firstn n (map Some xs ++ l)) = firstn n xs.
Proof.
  intros n xs l H. rewrite firstn_app, map_length. replace (n - length xs) with 0 by lia. rewrite firstn_O, app_nil_r, firstn_map. apply read_some.
Qed.
Lemma firstn_past : forall X (l l' : list X) n, firstn (length l + n) (l ++ l') = l ++ firstn n l'.
Proof. intros X l l' n. apply firstn_app_2. Qed.
Lemma skipn_past : forall X (l l' : list X) n, skipn (length l + n) (l ++ l') = skipn n l'.
Proof. intros X l l' n. rewrite skipn_app. rewrite skipn_all2 by lia. cbn [app]. f_equal. lia. Qed.
Lemma skipn_repeat : forall X (x : X) n m, skipn n (repeat x m) = repeat x (m - n).
Proof. intros X x. induction n as [ | n IH]; intros [ | m]; cbn; try reflexivity. apply IH. Qed.

Lemma twice_contents : forall xs ys zs room a b c d, length ys <= room -> length zs <= room ->
  contents (run [New xs room; Append 0 a [(ys, b)]; Append 0 c [(zs, d)]]) = [(true, xs); (true, xs ++ firstn (length ys) (zs ++ skipn (length zs) ys)); (true, xs ++ zs)].
Proof.
  intros xs ys zs room a b c d Ly Lz. unfold run. cbn [fold_left step init heap_ values]. unfold alloc. cbn [app length nth_error heap_ values append_all].
  rewrite append_in by (rewrite app_length, !map_length, repeat_length; lia). cbn [nth_error heap_ values append_all app].
  rewrite !map_length. set (cs := firstn (length xs) (map Some xs ++ repeat None room) ++ map Some ys ++ skipn (length xs + length ys) (map Some xs ++ repeat None room)).
  assert (Ec : cs = map Some xs ++ map Some ys ++ repeat None (room - length ys)).
  { unfold cs. rewrite <- (Nat.add_0_r (length xs)) at 1. rewrite <- (map_length Some xs). rewrite firstn_past, firstn_O, app_nil_r, skipn_past. do 2 f_equal.
    apply skipn_repeat. }
  rewrite append_in by (rewrite Ec, !app_length, !map_length, repeat_length; lia). cbn [nth_error heap_ values append_all app].
  rewrite map_length. set (cs' := firstn (length xs) cs ++ map Some zs ++ skipn (length xs + length zs) cs).
  assert (Ec' : exists l, cs' = map Some (xs ++ zs ++ skipn (length zs) ys) ++ l).
  { eexists. unfold cs'. rewrite Ec. rewrite <- (Nat.add_0_r (length xs)) at 1. rewrite <- (map_length Some xs). rewrite firstn_past, firstn_O, app_nil_r, skipn_past. rewrite skipn_app, map_length, skipn_map.
    rewrite !map_app, <- !app_assoc. reflexivity. }
  destruct Ec' as [l Ec']. unfold contents. cbn [map heap_ values app shown]. rewrite !view_in, Ec'.
  rewrite !read_firstn by (rewrite !app_length, skipn_length; lia).
  rewrite <- (Nat.add_0_r (length xs)) at 1. rewrite !firstn_past, firstn_O, app_nil_r.
  do 4 f_equal. rewrite <- (Nat.add_0_r (length zs)) at 1. rewrite firstn_past, firstn_O, app_nil_r. reflexivity.
Qed.
Lemma prefixes : forall X (ys zs : list X), firstn (length ys) (zs ++ skipn (length zs) ys) = ys <-> firstn (length ys) zs = firstn (length zs) ys.
Proof.
  intros X. induction ys as [ | y ys IH]; intros [ | z zs]; cbn; try (split; reflexivity).
  - rewrite firstn_all. split; reflexivity.
  - split; intros H; injection H as -> H; f_equal; apply IH, H.
Qed.
Lemma clobbered : forall xs ys zs room a b c d, length ys <= room -> length zs = length ys ->
  contents (run [New xs room; Append 0 a [(ys, b)]; Append 0 c [(zs, d)]]) = [(true, xs); (true, xs ++ zs); (true, xs ++ zs)].
Proof.
  intros xs ys zs room a b c d L E. rewrite twice_contents by lia. rewrite E, skipn_all, app_nil_r, <- E, firstn_all. reflexivity.
Qed.
Lemma twice_means : forall xs ys zs room a b c d, room < length ys \/ room < length zs ->
  contents (run [New xs room; Append 0 a [(ys, b)]; Append 0 c [(zs, d)]]) = [(true, xs); (true, xs ++ ys); (true, xs ++ zs)].
Proof.
  intros xs ys zs room a b c d D. unfold run. cbn [fold_left step init heap_ values].
  pose proof (alloc_view [] xs room) as V0. pose proof (alloc_ok [] xs room) as K0. assert (C0 : cap (fst (alloc [] xs room)) (snd (alloc [] xs room)) = length xs + room) by (cbn; rewrite app_length, map_length, repeat_length; reflexivity).
  assert (L0 : length (fst (alloc [] xs room)) = 1) by reflexivity. assert (S0 : snd (alloc [] xs room) = {| arr := 0; len := length xs |}) by reflexivity.
  destruct (alloc [] xs room) as [h0 s0]. cbn [fst snd] in *. cbn [app nth_error heap_ values append_all]. destruct K0 as [Va0 A0].
  pose proof (append_view b h0 s0 (map Some ys) Va0) as V1. pose proof (append_other b h0 s0 (map Some ys) s0 Va0 A0 (or_intror (le_n _))) as O1. pose proof (append_caps b h0 s0 (map Some ys) (arr s0) Va0 A0) as C1.
  pose proof (append_valid b h0 s0 (map Some ys) Va0) as Va1.
  assert (R1 : arr (snd (Slice.append b h0 s0 (map Some ys))) = if length xs + length ys <=? length xs + room then 0 else 1).
  { unfold Slice.append. rewrite C0, S0, map_length. cbn [len]. destruct (_ <=? _); cbn; [reflexivity | exact L0]. }
  pose proof (append_grows b h0 s0 (map Some ys)) as G1.
  assert (A1 : arr (snd (Slice.append b h0 s0 (map Some ys))) < length (fst (Slice.append b h0 s0 (map Some ys)))) by (apply append_arr_in, A0).
  destruct (Slice.append b h0 s0 (map Some ys)) as [h1 s1]. cbn [fst snd] in *. cbn [app nth_error heap_ values append_all].
  assert (Va0' : valid h1 s0) by (unfold valid, cap in *; rewrite C1; exact Va0).
  pose proof (append_view d h1 s0 (map Some zs) Va0') as V2. pose proof (append_other d h1 s0 (map Some zs) s0 Va0' (Nat.lt_le_trans _ _ _ A0 G1) (or_intror (le_n _))) as O2.
  assert (O3 : Slice.view (fst (Slice.append d h1 s0 (map Some zs))) s1 = Slice.view h1 s1).
  { destruct (length xs + length ys <=? length xs + room) eqn:E.
    - apply Nat.leb_le in E. unfold Slice.view at 1. rewrite append_alloc; [reflexivity | | exact A1]. unfold cap in *. rewrite C1, C0, S0, map_length. cbn [len]. lia.
    - apply append_other; [exact Va0' | exact A1 | ]. left. rewrite R1, S0. discriminate. }
  destruct (Slice.append d h1 s0 (map Some zs)) as [h2 s2]. cbn [fst snd] in *. unfold contents. cbn [map heap_ values app shown].
  rewrite O2, O3, V1, V2, O1, V0, <- !map_app, !read_some. reflexivity.
Qed.
Lemma twice_exact : forall xs ys zs room a b c d,
  let calls := [New xs room; Append 0 a [(ys, b)]; Append 0 c [(zs, d)]] in
  contents (run calls) = means calls <-> room < length ys \/ room < length zs \/ firstn (length ys) zs = firstn (length zs) ys.
Proof.
  intros xs ys zs room a b c d calls. assert (M : means calls = [(true, xs); (true, xs ++ ys); (true, xs ++ zs)]) by (unfold means, calls; cbn; rewrite !app_nil_r; reflexivity).
  rewrite M. unfold calls. destruct (Nat.lt_ge_cases room (length ys)) as [L | L]; [ | destruct (Nat.lt_ge_cases room (length zs)) as [L' | L']].
  - split; [intros _; left; exact L | intros _; apply twice_means; left; exact L].
  - split; [intros _; right; left; exact L' | intros _; apply twice_means; right; exact L'].
  - rewrite twice_contents by assumption. rewrite <- prefixes. split.
    + intros H. right. right. injection H as H. apply app_inv_head in H. exact H.
    + intros [H | [H | H]]; [lia | lia | rewrite H; reflexivity].
Qed.
