(** * Proofs about the dependencies of services *)

From Coq Require Import List Arith Bool Lia.
From Verif.Deps Require Import Model Spec.
Import ListNotations.

(** ** Induction on definitions *)

Section Ind.
Variables (P : def -> Prop) (Q : error -> Prop) (R : detail -> Prop).
Hypothesis Hother : forall a, P (Def a XOther).
Hypothesis Hcall : forall a svc errs, (forall e, In e errs -> Q e) ->
  P (Def a (XCall svc errs)).
Hypothesis Hmsg : forall a m, P (Def a (XMessage m)).
Hypothesis Hmap : forall a m, P (Def a (XMap m)).
Hypothesis Hval : forall a e, Q e -> P (Def a (XValidation e)).
Hypothesis Herr : forall ds dts, (forall d, In d ds -> P d) ->
  (forall d, In d dts -> R d) -> Q (Err ds dts).
Hypothesis Hdet : forall ds ms, (forall d, In d ds -> P d) ->
  (forall d, In d ms -> P d) -> R (Detail ds ms).

Lemma in_nil_any : forall (A : Type) (S : A -> Prop) x, In x [] -> S x.
Proof. intros A S x []. Qed.

Lemma in_cons_any : forall (A : Type) (S : A -> Prop) y l,
  S y -> (forall x, In x l -> S x) -> forall x, In x (y :: l) -> S x.
Proof. intros A S y l Hy Hl x [E | H]; [subst; exact Hy | apply Hl, H]. Qed.

Fixpoint def_ind' (d : def) : P d :=
  match d with
  | Def a e =>
      match e as e0 return P (Def a e0) with
      | XOther => Hother a
      | XCall svc errs =>
          Hcall a svc errs
            ((fix go (l : list error) : forall x, In x l -> Q x :=
                match l with
                | [] => in_nil_any _ _
                | y :: r => in_cons_any _ _ y r (error_ind' y) (go r)
                end) errs)
      | XMessage m => Hmsg a m
      | XMap m => Hmap a m
      | XValidation er => Hval a er (error_ind' er)
      end
  end
with error_ind' (e : error) : Q e :=
  match e with
  | Err ds dts =>
      Herr ds dts
        ((fix go (l : list def) : forall x, In x l -> P x :=
            match l with
            | [] => in_nil_any _ _
            | y :: r => in_cons_any _ _ y r (def_ind' y) (go r)
            end) ds)
        ((fix go (l : list detail) : forall x, In x l -> R x :=
            match l with
            | [] => in_nil_any _ _
            | y :: r => in_cons_any _ _ y r (detail_ind' y) (go r)
            end) dts)
  end
with detail_ind' (d : detail) : R d :=
  match d with
  | Detail ds ms =>
      Hdet ds ms
        ((fix go (l : list def) : forall x, In x l -> P x :=
            match l with
            | [] => in_nil_any _ _
            | y :: r => in_cons_any _ _ y r (def_ind' y) (go r)
            end) ds)
        ((fix go (l : list def) : forall x, In x l -> P x :=
            match l with
            | [] => in_nil_any _ _
            | y :: r => in_cons_any _ _ y r (def_ind' y) (go r)
            end) ms)
  end.
End Ind.

(** ** The messages definitions create *)

Lemma message_exprs_within : forall d m,
  In m (message_exprs d) -> exists d', within d d' /\ creates d' m.
Proof.
  intros d.
  apply (def_ind'
    (fun d => forall m, In m (message_exprs d) -> exists d', within d d' /\ creates d' m)
    (fun e => forall m, In m (error_message_exprs e) ->
       exists d1 d', defined_by e d1 /\ within d1 d' /\ creates d' m)
    (fun dt => forall m, In m (detail_message_exprs dt) ->
       exists d1 d', match dt with Detail ds ms => In d1 ds \/ In d1 ms end
                     /\ within d1 d' /\ creates d' m)); clear d.
  - intros a m [].
  - intros a svc errs IH m H. cbn in H. apply in_flat_map in H. destruct H as [e [He H]].
    destruct (IH e He m H) as [d1 [d' [B [W C]]]]. exists d'. split; [ | exact C].
    eapply within_rule; [constructor; exact He | exact B | exact W].
  - intros a m m' [H | []]. subst. exists (Def a (XMessage m')).
    split; [constructor | left; reflexivity].
  - intros a m m' [H | []]. subst. exists (Def a (XMap m')).
    split; [constructor | right; reflexivity].
  - intros a e IH m H. destruct (IH m H) as [d1 [d' [B [W C]]]].
    exists d'. split; [ | exact C]. eapply within_rule; [constructor | exact B | exact W].
  - intros ds dts IHd IHt m H. cbn in H. apply in_app_or in H. destruct H as [H | H];
      apply in_flat_map in H; destruct H as [x [Hx H]].
    + destruct (IHd x Hx m H) as [d' [W C]]. exists x, d'. split; [constructor; exact Hx | ].
      split; assumption.
    + destruct (IHt x Hx m H) as [d1 [d' [B [W C]]]]. exists d1, d'. split; [ | split; assumption].
      destruct x as [ds' ms']. eapply by_detail; [exact Hx | exact B].
  - intros ds ms IHd IHm m H. cbn in H. apply in_app_or in H. destruct H as [H | H];
      apply in_flat_map in H; destruct H as [x [Hx H]].
    + destruct (IHd x Hx m H) as [d' [W C]]. exists x, d'. auto.
    + destruct (IHm x Hx m H) as [d' [W C]]. exists x, d'. auto.
Qed.

Lemma within_message_exprs : forall d d' m,
  within d d' -> creates d' m -> In m (message_exprs d).
Proof.
  intros d d' m W. induction W as [d | d e d1 d' Hr Hb W IH]; intros C.
  - destruct d as [a x]. destruct C as [C | C]; cbn in C; subst; cbn; left; reflexivity.
  - specialize (IH C).
    assert (He : In m (error_message_exprs e)).
    { inversion Hb; subst; cbn; apply in_or_app.
      - left. apply in_flat_map. exists d1. split; assumption.
      - right. apply in_flat_map. exists (Detail ds ms). split; [assumption | ].
        cbn. apply in_or_app.
        destruct H0 as [H0 | H0]; [left | right]; apply in_flat_map; exists d1; split; assumption. }
    inversion Hr; subst; cbn.
    + apply in_flat_map. exists e. split; assumption.
    + exact He.
Qed.

Lemma within_trans : forall a b c, within a b -> within b c -> within a c.
Proof.
  intros a b c W. induction W as [ | d e d1 d' Hr Hb W IH]; intros H; [exact H | ].
  eapply within_rule; [exact Hr | exact Hb | apply IH, H].
Qed.

(** ** All definitions *)

Lemma error_defs_spec : forall e d, In d (error_defs e) <-> defined_by e d.
Proof.
  intros [ds dts] d. cbn. rewrite in_app_iff, in_flat_map. split.
  - intros [H | [[ds' ms'] [Hd H]]]; [constructor; exact H | ].
    apply in_app_or in H. eapply by_detail; eassumption.
  - intros H. inversion H; subst; [left; assumption | right].
    exists (Detail ds0 ms). split; [assumption | apply in_or_app; assumption].
Qed.

Lemma all_defs_spec : forall s m d,
  In d (all_defs (msg s m)) <->
  defines s m d
  \/ (ms_rule (msg s m) = true /\
      exists d0 e, In d0 (ms_defs (msg s m)) /\ error_rule d0 e /\ defined_by e d).
Proof.
  intros s m d. unfold all_defs. destruct (ms_rule (msg s m)) eqn:R.
  - rewrite !in_app_iff, !in_flat_map. split.
    + intros [H | [[d0 [H0 H]] | [f [Hf H]]]].
      * left. apply defines_own; assumption.
      * right. split; [reflexivity | ]. destruct d0 as [a x]. cbn in H.
        destruct x as [ | svc errs | m' | m' | e]; try destruct H.
        -- apply in_flat_map in H. destruct H as [e [He H]]. apply error_defs_spec in H.
           exists (Def a (XCall svc errs)), e.
           split; [exact H0 | split; [constructor; exact He | exact H]].
        -- apply error_defs_spec in H. exists (Def a (XValidation e)), e.
           split; [exact H0 | split; [constructor | exact H]].
      * left. destruct (fd_rule f) eqn:Rf; [ | destruct H].
        eapply defines_oneof; eassumption.
    + intros [H | [_ [d0 [e [H0 [Hr Hb]]]]]].
      * inversion H; subst; [left; assumption | right; right].
        exists f. split; [assumption | ]. destruct (fd_rule f); [assumption | discriminate].
      * right. left. exists d0. split; [exact H0 | ]. apply error_defs_spec in Hb.
        inversion Hr; subst; cbn; [ | exact Hb]. apply in_flat_map. exists e. split; assumption.
  - split; [intros [] | ]. intros [H | [H _]]; [ | discriminate].
    inversion H; congruence.
Qed.

Lemma all_defs_has : forall s m d, In d (all_defs (msg s m)) -> has_definition s m d.
Proof.
  intros s m d H. apply all_defs_spec in H.
  destruct H as [H | [R [d0 [e [H0 [Hr Hb]]]]]].
  - exists d. split; [exact H | constructor].
  - exists d0. split; [apply defines_own; assumption | ].
    eapply within_rule; [exact Hr | exact Hb | constructor].
Qed.

Lemma defines_rule : forall s m d, defines s m d -> ms_rule (msg s m) = true.
Proof. intros s m d H. inversion H; assumption. Qed.

Lemma has_all_defs : forall s m d,
  shallow s -> has_definition s m d -> In d (all_defs (msg s m)).
Proof.
  intros s m d Sh [d0 [D W]]. apply all_defs_spec.
  inversion W as [x E1 E2 | x e d1 x' Hr Hb W1 E1 E2]; subst; [left; exact D | ].
  destruct (Sh m d0 e d1 D Hr Hb) as [I N].
  right. split; [eapply defines_rule; exact D | ].
  exists d0, e. split; [exact I | ]. split; [exact Hr | ].
  inversion W1 as [x E1 E2 | x e' d2 x' Hr' Hb' W2 E1 E2]; subst; [exact Hb | ].
  exfalso. apply (N e' d2 Hr' Hb').
Qed.

(** ** The search for services *)

Lemma seen_spec : forall a l, seen a l = true <-> In a l.
Proof.
  intros a l. unfold seen. rewrite existsb_exists. split.
  - intros [x [H E]]. apply Nat.eqb_eq in E. subst. exact H.
  - intros H. exists a. split; [exact H | apply Nat.eqb_refl].
Qed.

Section Search.
Variable s : schema.

(** The definitions a search goes to next. *)
Definition next (d d' : def) : Prop :=
  match expr_of d with
  | XCall _ _ => False
  | _ => exists m, In m (message_exprs d) /\ In d' (all_defs (msg s m))
  end.

(** [d] is one of the definitions of some message. *)
Definition known (d : def) : Prop := exists m, In d (all_defs (msg s m)).

Lemma depend_not_call : forall n st d,
  seen (addr_of d) (fst st) = false ->
  (forall svc errs, expr_of d <> XCall svc errs) ->
  depend s (S n) st d
  = over_messages s (depend s n) (message_exprs d) (addr_of d :: fst st, snd st).
Proof.
  intros n st d Hs Hc. cbn [depend]. rewrite Hs.
  destruct (expr_of d) as [ | svc errs | m | m | e] eqn:E; try reflexivity.
  exfalso. apply (Hc svc errs). reflexivity.
Qed.

(** *** Soundness *)

Inductive path : def -> def -> Prop :=
| path_here : forall d, path d d
| path_next : forall d d1 d', next d d1 -> path d1 d' -> path d d'.

Definition grows (f : found -> def -> option found) (P : def -> nat -> Prop) : Prop :=
  forall st d st', f st d = Some st' ->
    forall c, In c (snd st') -> In c (snd st) \/ P d c.

Lemma over_grows : forall f P ds st st',
  grows f P -> over f ds st = Some st' ->
  forall c, In c (snd st') -> In c (snd st) \/ exists d, In d ds /\ P d c.
Proof.
  intros f P ds. induction ds as [ | d r IH]; intros st st' G H c Hc; cbn in H.
  - injection H as <-. left. exact Hc.
  - destruct (f st d) as [st1 | ] eqn:E; [ | discriminate].
    destruct (IH st1 st' G H c Hc) as [H1 | [x [Hx H1]]].
    + destruct (G st d st1 E c H1) as [H2 | H2]; [left; exact H2 | right].
      exists d. split; [left; reflexivity | exact H2].
    + right. exists x. split; [right; exact Hx | exact H1].
Qed.

Lemma over_messages_grows : forall f P ms st st',
  grows f P -> over_messages s f ms st = Some st' ->
  forall c, In c (snd st') ->
    In c (snd st) \/ exists m d, In m ms /\ In d (all_defs (msg s m)) /\ P d c.
Proof.
  intros f P ms. induction ms as [ | m r IH]; intros st st' G H c Hc; cbn in H.
  - injection H as <-. left. exact Hc.
  - destruct (over f (all_defs (msg s m)) st) as [st1 | ] eqn:E; [ | discriminate].
    destruct (IH st1 st' G H c Hc) as [H1 | [m' [d [Hm H1]]]].
    + destruct (over_grows f P _ st st1 G E c H1) as [H2 | [d [Hd H2]]]; [left; exact H2 | right].
      exists m, d. split; [left; reflexivity | split; assumption].
    + right. exists m', d. split; [right; exact Hm | exact H1].
Qed.

Lemma depend_sound : forall n,
  grows (depend s n) (fun d c => exists d', path d d' /\ calls d' c).
Proof.
  induction n as [ | n IH]; intros st d st' H c Hc.
  - cbn in H. destruct (seen (addr_of d) (fst st)); [ | discriminate].
    injection H as <-. left. exact Hc.
  - destruct (seen (addr_of d) (fst st)) eqn:Es.
    + cbn in H. rewrite Es in H. injection H as <-. left. exact Hc.
    + destruct (expr_of d) as [ | svc errs | m | m | e] eqn:E;
        [ | cbn in H; rewrite Es, E in H | | | ].
      2: { injection H as <-. cbn in Hc. apply in_app_or in Hc.
           destruct Hc as [Hc | [Hc | []]]; [left; exact Hc | subst].
           right. exists d. split; [constructor | exists errs; exact E]. }
      all: rewrite depend_not_call in H by (try assumption; intros; rewrite E; discriminate).
      all: destruct (over_messages_grows _ _ _ _ _ IH H c Hc)
             as [H1 | [m' [d1 [Hm [Hd [d' [Hp Hc']]]]]]]; [left; exact H1 | right].
      all: exists d'; split; [ | exact Hc'].
      all: apply path_next with (d1 := d1); [ | exact Hp].
      all: unfold next; rewrite E; exists m'; split; assumption.
Qed.

(** *** Completeness *)

(** What a step of the search does: what was found stays; [d] has been seen; what
    has newly been seen is a definition whose call has been found, if it is one,
    and whose next definitions have been seen. *)
Definition closed_step (st st' : found) : Prop :=
  incl (fst st) (fst st') /\ incl (snd st) (snd st') /\
  forall d, known d -> In (addr_of d) (fst st') -> ~ In (addr_of d) (fst st) ->
    (forall c, calls d c -> In c (snd st')) /\
    (forall d', next d d' -> In (addr_of d') (fst st')).

Hypothesis Addr : addresses s.

Lemma known_addr : forall d d', known d -> known d' -> addr_of d = addr_of d' -> d = d'.
Proof.
  intros d d' [m H] [m' H'] E.
  apply (Addr m m'); [apply all_defs_has, H | apply all_defs_has, H' | exact E].
Qed.

Lemma closed_refl : forall st, closed_step st st.
Proof.
  intros st. split; [apply incl_refl | ]. split; [apply incl_refl | ].
  intros d _ H N. contradiction.
Qed.

Lemma closed_trans : forall a b c,
  closed_step a b -> closed_step b c -> closed_step a c.
Proof.
  intros a b c [A1 [A2 A3]] [B1 [B2 B3]].
  split; [eapply incl_tran; eassumption | ]. split; [eapply incl_tran; eassumption | ].
  intros d K H N. destruct (in_dec Nat.eq_dec (addr_of d) (fst b)) as [I | I].
  - destruct (A3 d K I N) as [C D]. split.
    + intros x Hx. apply B2, C, Hx.
    + intros d' Hd'. apply B1, D, Hd'.
  - apply B3; assumption.
Qed.

Definition good (f : found -> def -> option found) : Prop :=
  forall st d st', known d -> f st d = Some st' ->
    closed_step st st' /\ In (addr_of d) (fst st').

Lemma over_good : forall f ds st st',
  good f -> (forall d, In d ds -> known d) -> over f ds st = Some st' ->
  closed_step st st' /\ forall d, In d ds -> In (addr_of d) (fst st').
Proof.
  intros f ds. induction ds as [ | d r IH]; intros st st' G K H; cbn in H.
  - injection H as <-. split; [apply closed_refl | intros d []].
  - destruct (f st d) as [st1 | ] eqn:E; [ | discriminate].
    destruct (G st d st1 (K d (or_introl eq_refl)) E) as [C I].
    destruct (IH st1 st' G (fun x Hx => K x (or_intror Hx)) H) as [C' I'].
    split; [eapply closed_trans; eassumption | ].
    intros x [Hx | Hx]; [subst; apply (proj1 C'), I | apply I', Hx].
Qed.

Lemma over_messages_good : forall f ms st st',
  good f -> over_messages s f ms st = Some st' ->
  closed_step st st' /\
  forall m d, In m ms -> In d (all_defs (msg s m)) -> In (addr_of d) (fst st').
Proof.
  intros f ms. induction ms as [ | m r IH]; intros st st' G H; cbn in H.
  - injection H as <-. split; [apply closed_refl | intros m d []].
  - destruct (over f (all_defs (msg s m)) st) as [st1 | ] eqn:E; [ | discriminate].
    destruct (over_good f _ st st1 G (fun d Hd => ex_intro _ m Hd) E) as [C I].
    destruct (IH st1 st' G H) as [C' I'].
    split; [eapply closed_trans; eassumption | ].
    intros x d [Hx | Hx] Hd; [subst; apply (proj1 C'), I, Hd | eapply I'; eassumption].
Qed.

Lemma depend_good : forall n, good (depend s n).
Proof.
  induction n as [ | n IH]; intros st d st' K H.
  - cbn in H. destruct (seen (addr_of d) (fst st)) eqn:Es; [ | discriminate].
    injection H as <-. split; [apply closed_refl | apply seen_spec, Es].
  - destruct (seen (addr_of d) (fst st)) eqn:Es.
    { cbn in H. rewrite Es in H. injection H as <-.
      split; [apply closed_refl | apply seen_spec, Es]. }
    assert (Nin : ~ In (addr_of d) (fst st)).
    { intros I. apply seen_spec in I. congruence. }
    destruct (expr_of d) as [ | svc errs | m | m | e] eqn:E;
      [ | cbn in H; rewrite Es, E in H | | | ].
    2: { injection H as <-. cbn [fst snd]. split; [ | left; reflexivity].
         split; [intros x Hx; right; exact Hx | ].
         split; [intros x Hx; apply in_or_app; left; exact Hx | ].
         intros d0 K0 [I | I] N; [ | contradiction].
         assert (d0 = d) by (apply known_addr; [exact K0 | exact K | symmetry; exact I]).
         subst d0. split.
         - intros c [errs' Hc]. rewrite E in Hc. injection Hc as -> _.
           apply in_or_app. right. left. reflexivity.
         - intros d' Hn. unfold next in Hn. rewrite E in Hn. destruct Hn. }
    all: rewrite depend_not_call in H by (try assumption; intros; rewrite E; discriminate).
    all: destruct (over_messages_good _ _ _ _ IH H) as [[C1 [C2 C3]] I]; cbn [fst snd] in *.
    all: assert (Hin : In (addr_of d) (fst st')) by (apply C1; left; reflexivity).
    all: split; [ | exact Hin].
    all: split; [intros x Hx; apply C1; right; exact Hx | ].
    all: split; [exact C2 | ].
    all: intros d0 K0 I0 N0; destruct (Nat.eq_dec (addr_of d) (addr_of d0)) as [Eq | Ne].
    all: try (apply C3; [exact K0 | exact I0 | intros [X | X]; contradiction]).
    all: assert (d0 = d) by (apply known_addr; [exact K0 | exact K | symmetry; exact Eq]);
         subst d0; split.
    all: try (intros c [errs' Hc]; rewrite E in Hc; discriminate Hc).
    all: intros d' Hn; unfold next in Hn; rewrite E in Hn; destruct Hn as [m' [Hm Hd]];
         eapply I; eassumption.
Qed.

Lemma next_known : forall d d', next d d' -> known d'.
Proof.
  intros d d' H. unfold next in H.
  destruct (expr_of d); try (destruct H as [m' [_ H]]; exists m'; exact H). destruct H.
Qed.

(** *** The search ends *)

Definition universe : list nat :=
  flat_map (fun m => map addr_of (all_defs m)) (sc_messages s).

Lemma universe_length : length universe = enough s.
Proof.
  unfold universe, enough. induction (sc_messages s) as [ | m r IH]; [reflexivity | ].
  cbn. rewrite app_length, map_length. unfold list_sum in IH. rewrite <- IH. reflexivity.
Qed.

Lemma known_universe : forall d, known d -> In (addr_of d) universe.
Proof.
  intros d [m H]. unfold universe. apply in_flat_map.
  assert (L : m < length (sc_messages s)).
  { destruct (lt_dec m (length (sc_messages s))) as [L | L]; [exact L | exfalso].
    unfold msg in H. rewrite nth_overflow in H by lia. destruct H. }
  exists (msg s m). split; [apply nth_In, L | ]. apply in_map, H.
Qed.

(** As many different elements of the universe as [k] have been seen. *)
Definition progress (k : nat) (st : found) : Prop :=
  exists l, NoDup l /\ length l = k /\ incl l (fst st) /\ incl l universe.

Definition total (k : nat) (f : found -> def -> option found) : Prop :=
  forall st d, known d -> progress k st ->
    exists st', f st d = Some st' /\ incl (fst st) (fst st').

Lemma progress_incl : forall k st st', progress k st -> incl (fst st) (fst st') ->
  progress k st'.
Proof.
  intros k st st' [l [N [L [I U]]]] H. exists l.
  split; [exact N | split; [exact L | split; [intros x Hx; apply H, I, Hx | exact U]]].
Qed.

Lemma over_total : forall k f ds st,
  total k f -> (forall d, In d ds -> known d) -> progress k st ->
  exists st', over f ds st = Some st' /\ incl (fst st) (fst st').
Proof.
  intros k f ds. induction ds as [ | d r IH]; intros st T K Pg; cbn.
  - exists st. split; [reflexivity | apply incl_refl].
  - destruct (T st d (K d (or_introl eq_refl)) Pg) as [st1 [E I]]. rewrite E.
    destruct (IH st1 T (fun x Hx => K x (or_intror Hx)) (progress_incl _ _ _ Pg I))
      as [st2 [E2 I2]].
    exists st2. split; [exact E2 | eapply incl_tran; eassumption].
Qed.

Lemma over_messages_total : forall k f ms st,
  total k f -> progress k st ->
  exists st', over_messages s f ms st = Some st' /\ incl (fst st) (fst st').
Proof.
  intros k f ms. induction ms as [ | m r IH]; intros st T Pg; cbn.
  - exists st. split; [reflexivity | apply incl_refl].
  - destruct (over_total k f (all_defs (msg s m)) st T (fun d Hd => ex_intro _ m Hd) Pg)
      as [st1 [E I]]. rewrite E.
    destruct (IH st1 T (progress_incl _ _ _ Pg I)) as [st2 [E2 I2]].
    exists st2. split; [exact E2 | eapply incl_tran; eassumption].
Qed.

Lemma depend_total : forall n k, length universe <= k + n -> total k (depend s n).
Proof.
  induction n as [ | n IH]; intros k Hk st d K Pg.
  - destruct (seen (addr_of d) (fst st)) eqn:Es.
    + cbn. rewrite Es. exists st. split; [reflexivity | apply incl_refl].
    + exfalso. destruct Pg as [l [N [L [I U]]]].
      assert (Hin : In (addr_of d) l).
      { assert (incl universe l).
        { apply NoDup_length_incl; [exact N | lia | exact U]. }
        apply H, known_universe, K. }
      apply I, seen_spec in Hin. congruence.
  - destruct (seen (addr_of d) (fst st)) eqn:Es.
    { cbn. rewrite Es. exists st. split; [reflexivity | apply incl_refl]. }
    destruct (expr_of d) as [ | svc errs | m | m | e] eqn:E.
    2: { cbn. rewrite Es, E. eexists. split; [reflexivity | ].
         cbn. intros x Hx. right. exact Hx. }
    all: rewrite depend_not_call by (try assumption; intros; rewrite E; discriminate).
    all: assert (Pg' : progress (S k) (addr_of d :: fst st, snd st)) by
      (destruct Pg as [l [N [L [I U]]]]; exists (addr_of d :: l);
       split; [constructor; [intros X; apply I, seen_spec in X; congruence | exact N]
              | split; [cbn; rewrite L; reflexivity
                       | split; [intros x [Hx | Hx]; [left; exact Hx | right; apply I, Hx]
                                | intros x [Hx | Hx]; [subst; apply known_universe, K
                                                      | apply U, Hx]]]]).
    all: assert (Hk' : length universe <= S k + n) by lia.
    all: destruct (over_messages_total (S k) (depend s n) (message_exprs d) _ (IH (S k) Hk') Pg')
           as [st' [E' I']].
    all: exists st'; split; [exact E' | intros x Hx; apply I'; right; exact Hx].
Qed.

Lemma depend_services_total : forall m, exists l, depend_services s m = Some l.
Proof.
  intros m. unfold depend_services.
  destruct (over_total 0 (depend s (enough s)) (all_defs (msg s m)) ([], [])) as [st [E _]].
  - apply depend_total. rewrite universe_length. cbn. lia.
  - intros d Hd. exists m. exact Hd.
  - exists []. split; [constructor | split; [reflexivity | ]].
    split; intros x [].
  - rewrite E. exists (snd st). reflexivity.
Qed.

Lemma depend_services_spec : forall m l c,
  depend_services s m = Some l ->
  (In c l <-> exists d d', In d (all_defs (msg s m)) /\ path d d' /\ calls d' c).
Proof.
  intros m l c H. unfold depend_services in H.
  destruct (over (depend s (enough s)) (all_defs (msg s m)) ([], [])) as [st | ] eqn:E;
    [ | discriminate]. injection H as <-. split.
  - intros Hc. destruct (over_grows _ _ _ _ _ (depend_sound (enough s)) E c Hc)
      as [[] | [d [Hd [d' [Hp Hc']]]]].
    exists d, d'. split; [exact Hd | split; assumption].
  - intros [d [d' [Hd [Hp Hc]]]].
    destruct (over_good _ _ _ _ (depend_good (enough s)) (fun x Hx => ex_intro _ m Hx) E)
      as [[_ [_ C]] I].
    specialize (I d Hd). assert (K : known d) by (exists m; exact Hd). clear Hd.
    induction Hp as [d | d d1 d' Hn Hp IH].
    + apply (C d K I); [intros [] | exact Hc].
    + apply (IH Hc); [ | eapply next_known; exact Hn].
      apply (C d K I); [intros [] | exact Hn].
Qed.

End Search.

(** ** From paths of definitions to messages *)

Lemma made_trans : forall s a b c, made_from s a b -> made_from s b c -> made_from s a c.
Proof.
  intros s a b c H. induction H as [ | m d m1 m' Hd Hc H IH]; intros Hb; [exact Hb | ].
  eapply made_step; [exact Hd | exact Hc | apply IH, Hb].
Qed.

Lemma path_made : forall s d d' m,
  path s d d' -> In d (all_defs (msg s m)) ->
  exists m', made_from s m m' /\ has_definition s m' d'.
Proof.
  intros s d d' m P. revert m. induction P as [d | d d1 d' Hn P IH]; intros m Hd.
  - exists m. split; [constructor | apply all_defs_has, Hd].
  - assert (X : exists m1, In m1 (message_exprs d) /\ In d1 (all_defs (msg s m1))).
    { unfold next in Hn. destruct (expr_of d); try exact Hn. destruct Hn. }
    destruct X as [m1 [Hm1 Hd1]].
    destruct (IH m1 Hd1) as [m' [M Hf]]. exists m'. split; [ | exact Hf].
    destruct (message_exprs_within d m1 Hm1) as [d0 [W C]].
    apply all_defs_has in Hd. destruct Hd as [x [Dx Wx]].
    eapply made_step with (d := d0); [ | exact C | exact M].
    exists x. split; [exact Dx | eapply within_trans; eassumption].
Qed.

Lemma made_path : forall s m m' d',
  shallow s -> made_from s m m' -> has_definition s m' d' ->
  exists d, In d (all_defs (msg s m)) /\ path s d d'.
Proof.
  intros s m m' d' Sh M. induction M as [m | m d m1 m' Hd Hc M IH]; intros Hf.
  - exists d'. split; [apply has_all_defs; assumption | constructor].
  - destruct (IH Hf) as [d1 [Hd1 P]].
    exists d. split; [apply has_all_defs; assumption | ].
    apply path_next with (d1 := d1); [ | exact P].
    unfold next. destruct d as [a x].
    destruct Hc as [Hc | Hc]; cbn in Hc; subst x; cbn; exists m1;
      (split; [left; reflexivity | exact Hd1]).
Qed.

(** ** The services a service depends on *)

Lemma insert_in : forall x y l, In y (insert x l) <-> y = x \/ In y l.
Proof.
  intros x y l. induction l as [ | z r IH]; cbn [insert In].
  - split; [intros [H | []]; left; symmetry; exact H | intros [H | []]; left; symmetry; exact H].
  - destruct (x <? z).
    + cbn. split; [intros [H | H]; [left; symmetry; exact H | right; exact H] | ].
      intros [H | H]; [left; symmetry; exact H | right; exact H].
    + destruct (x =? z) eqn:E.
      * apply Nat.eqb_eq in E. subst. cbn. split; [intros H; right; exact H | ].
        intros [H | H]; [left; symmetry; exact H | exact H].
      * cbn [In]. rewrite IH. tauto.
Qed.

Lemma to_set_in : forall x l, In x (to_set l) <-> In x l.
Proof.
  intros x l. unfold to_set. induction l as [ | y r IH]; cbn; [tauto | ].
  rewrite insert_in, IH. split; intros [H | H]; auto.
Qed.

Fixpoint increasing (l : list nat) : Prop :=
  match l with
  | [] => True
  | x :: r => (forall y, In y r -> x < y) /\ increasing r
  end.

Lemma insert_increasing : forall x l, increasing l -> increasing (insert x l).
Proof.
  intros x l. induction l as [ | z r IH]; intros H; cbn [insert].
  - split; [intros y [] | exact I].
  - destruct (x <? z) eqn:E; [apply Nat.ltb_lt in E | apply Nat.ltb_ge in E].
    + cbn. split; [ | exact H]. destruct H as [H1 _].
      intros y [Hy | Hy]; [lia | specialize (H1 y Hy); lia].
    + destruct (x =? z) eqn:E2; [exact H | apply Nat.eqb_neq in E2].
      destruct H as [H1 H2]. cbn. split; [ | apply IH, H2].
      intros y Hy. apply insert_in in Hy. destruct Hy as [Hy | Hy]; [lia | apply H1, Hy].
Qed.

Lemma to_set_increasing : forall l, increasing (to_set l).
Proof.
  intros l. unfold to_set. induction l as [ | x r IH]; [exact I | ].
  cbn. apply insert_increasing, IH.
Qed.

Lemma increasing_nodup : forall l, increasing l -> NoDup l.
Proof.
  induction l as [ | x r IH]; intros H; constructor.
  - destruct H as [H _]. intros Hx. specialize (H x Hx). lia.
  - apply IH, H.
Qed.

Lemma all_some_in : forall (A B : Type) (f : A -> option (list B)) l ys,
  all_some f l = Some ys ->
  forall y, In y ys <-> exists x zs, In x l /\ f x = Some zs /\ In y zs.
Proof.
  intros A B f l. induction l as [ | x r IH]; intros ys H y; cbn in H.
  - injection H as <-. split; [intros [] | intros [x [zs [[] _]]]].
  - destruct (f x) as [zs | ] eqn:E; [ | discriminate].
    destruct (all_some f r) as [ws | ]; [ | discriminate]. injection H as <-.
    rewrite in_app_iff, (IH ws eq_refl). split.
    + intros [H | [x' [zs' [Hx H]]]].
      * exists x, zs. split; [left; reflexivity | split; [exact E | exact H]].
      * exists x', zs'. split; [right; exact Hx | exact H].
    + intros [x' [zs' [[Hx | Hx] [E' H]]]].
      * subst. left. rewrite E in E'. injection E' as ->. exact H.
      * right. exists x', zs'. split; [exact Hx | split; assumption].
Qed.

Lemma all_some_total : forall (A B : Type) (f : A -> option (list B)) l,
  (forall x, exists y, f x = Some y) -> exists ys, all_some f l = Some ys.
Proof.
  intros A B f l H. induction l as [ | x r IH]; [exists []; reflexivity | ].
  destruct (H x) as [y Ey], IH as [ys Eys]. exists (y ++ ys). cbn. rewrite Ey, Eys. reflexivity.
Qed.

Lemma service_dependencies_total : forall s sv,
  exists l, service_dependencies s sv = Some l.
Proof.
  intros s sv. unfold service_dependencies.
  destruct (all_some_total _ _ (fun m => depend_services s (mt_response m)) (sv_methods sv))
    as [ys E]; [intros x; apply depend_services_total | ].
  rewrite E. exists (to_set ys). reflexivity.
Qed.

Lemma service_dependencies_spec : forall s sv l c,
  addresses s -> service_dependencies s sv = Some l ->
  (In c l <-> exists mt d d', In mt (sv_methods sv) /\
     In d (all_defs (msg s (mt_response mt))) /\ path s d d' /\ calls d' c).
Proof.
  intros s sv l c A H. unfold service_dependencies in H.
  destruct (all_some (fun m => depend_services s (mt_response m)) (sv_methods sv))
    as [ys | ] eqn:E; [ | discriminate]. injection H as <-.
  rewrite to_set_in, (all_some_in _ _ _ _ _ E). split.
  - intros [mt [zs [Hm [E1 Hc]]]]. apply (depend_services_spec s A _ _ c E1) in Hc.
    destruct Hc as [d [d' H]]. exists mt, d, d'. split; assumption.
  - intros [mt [d [d' [Hm H]]]].
    destruct (depend_services_total s (mt_response mt)) as [zs E1].
    exists mt, zs. split; [exact Hm | split; [exact E1 | ]].
    apply (depend_services_spec s A _ _ c E1). exists d, d'. exact H.
Qed.

(** ** Gathering *)

Lemma gather_in : forall (A B : Type) (f : A -> outcome (list B)) l ys,
  gather f l = Done ys ->
  forall y, In y ys <-> exists x zs, In x l /\ f x = Done zs /\ In y zs.
Proof.
  intros A B f l. induction l as [ | x r IH]; intros ys H y; cbn in H.
  - injection H as <-. split; [intros [] | intros [x [zs [[] _]]]].
  - destruct (f x) as [zs | | ] eqn:E; try discriminate H.
    destruct (gather f r) as [ws | | ]; try discriminate H. injection H as <-.
    rewrite in_app_iff, (IH ws eq_refl). split.
    + intros [H | [x' [zs' [Hx H]]]].
      * exists x, zs. split; [left; reflexivity | split; [exact E | exact H]].
      * exists x', zs'. split; [right; exact Hx | exact H].
    + intros [x' [zs' [[Hx | Hx] [E' H]]]].
      * subst. left. rewrite E in E'. injection E' as ->. exact H.
      * right. exists x', zs'. split; [exact Hx | split; assumption].
Qed.

Lemma gather_each : forall (A B : Type) (f : A -> outcome (list B)) l ys x,
  gather f l = Done ys -> In x l -> exists zs, f x = Done zs.
Proof.
  intros A B f l. induction l as [ | x0 r IH]; intros ys x H Hx; [destruct Hx | ].
  cbn in H. destruct (f x0) as [zs | | ] eqn:E; try discriminate H.
  destruct (gather f r) as [ws | | ]; try discriminate H.
  destruct Hx as [Hx | Hx]; [subst; exists zs; exact E | eapply IH; [reflexivity | exact Hx]].
Qed.

Lemma gather_total : forall (A B : Type) (f : A -> outcome (list B)) l,
  (forall x, In x l -> exists y, f x = Done y) -> exists ys, gather f l = Done ys.
Proof.
  intros A B f l H. induction l as [ | x r IH]; [exists []; reflexivity | ].
  destruct (H x (or_introl eq_refl)) as [y Ey].
  destruct IH as [ys Eys]; [intros z Hz; apply H; right; exact Hz | ].
  exists (y ++ ys). cbn. rewrite Ey, Eys. reflexivity.
Qed.

(** ** Custom resolvers *)

Lemma own_customs_spec : forall s m m' f,
  In (m', f) (own_customs s m) <->
  m' = m /\
  match f with
  | None => ms_rule (msg s m) = true /\ ms_custom (msg s m) = true
  | Some i => exists fd, nth_error (ms_fields (msg s m)) i = Some fd /\
                fd_rule fd = true /\ fd_custom fd = true
  end.
Proof.
  intros s m m' f. unfold own_customs. rewrite in_app_iff, in_map_iff. split.
  - intros [H | [i [E H]]].
    + destruct (ms_rule (msg s m)) eqn:R, (ms_custom (msg s m)) eqn:C; cbn in H;
        try contradiction.
      destruct H as [H | []]. injection H as <- <-. repeat split.
    + injection E as <- <-. split; [reflexivity | ].
      apply filter_In in H. destruct H as [_ H].
      destruct (nth_error (ms_fields (msg s m)) i) as [fd | ]; [ | discriminate].
      exists fd. apply andb_true_iff in H. split; [reflexivity | exact H].
  - intros [-> H]. destruct f as [i | ].
    + right. exists i. split; [reflexivity | ].
      destruct H as [fd [E [R C]]]. apply filter_In. split.
      * apply in_seq. split; [lia | ]. cbn. apply nth_error_Some. congruence.
      * rewrite E, R, C. reflexivity.
    + left. destruct H as [-> ->]. left. reflexivity.
Qed.

(** Messages made without the help of oneof rules. *)
Inductive made_plain (s : schema) : nat -> nat -> Prop :=
| plain_self : forall m, made_plain s m m
| plain_step : forall m d0 d m1 m', In d0 (ms_defs (msg s m)) ->
    within d0 d -> creates d m1 -> made_plain s m1 m' -> made_plain s m m'.

Lemma customs_spec : forall s n m l m' f,
  customs s n m = Done l ->
  (In (m', f) l <-> made_plain s m m' /\ In (m', f) (own_customs s m')).
Proof.
  intros s n. induction n as [ | n IH]; intros m l m' f H; cbn in H; [discriminate | ].
  destruct (ms_rule (msg s m)) eqn:R; [ | discriminate].
  destruct (gather (customs s n) (flat_map message_exprs (ms_defs (msg s m))))
    as [ys | | ] eqn:G; try discriminate H. injection H as <-.
  rewrite in_app_iff, (gather_in _ _ _ _ _ G). split.
  - intros [H | [x [zs [Hx [E Hy]]]]].
    + pose proof H as H'. apply own_customs_spec in H'. destruct H' as [-> _].
      split; [constructor | exact H].
    + apply (IH _ _ _ _ E) in Hy. destruct Hy as [M Ho]. split; [ | exact Ho].
      apply in_flat_map in Hx. destruct Hx as [d [Hd Hx]].
      destruct (message_exprs_within d x Hx) as [d' [W C]].
      eapply plain_step; eassumption.
  - intros [M Ho].
    inversion M as [x E1 E2 | x d0 d m1 x' Hd0 W C M1 E1 E2]; subst; [left; exact Ho | right].
    assert (Hx : In m1 (flat_map message_exprs (ms_defs (msg s m)))).
    { apply in_flat_map. exists d0. split; [assumption | ].
      eapply within_message_exprs; eassumption. }
    destruct (gather_each _ _ _ _ _ m1 G Hx) as [zs E].
    exists m1, zs. split; [exact Hx | split; [exact E | ]].
    apply (IH _ _ _ _ E). split; assumption.
Qed.

Lemma customs_total : forall s (rank : nat -> nat),
  (forall m d m', has_definition s m d -> creates d m' -> rank m' < rank m) ->
  forall n m, rank m < n ->
  (forall m', made_plain s m m' -> ms_rule (msg s m') = true) ->
  exists l, customs s n m = Done l.
Proof.
  intros s rank Hr. induction n as [ | n IH]; intros m L R; [lia | ].
  cbn. pose proof (R m (plain_self s m)) as Rm. rewrite Rm.
  destruct (gather_total _ _ (customs s n) (flat_map message_exprs (ms_defs (msg s m))))
    as [ys E].
  - intros x Hx. apply in_flat_map in Hx. destruct Hx as [d [Hd Hx]].
    destruct (message_exprs_within d x Hx) as [d' [W C]]. apply IH.
    + assert (rank x < rank m); [ | lia]. apply (Hr m d' x); [ | exact C].
      exists d. split; [apply defines_own; assumption | exact W].
    + intros m' M. apply R. eapply plain_step; eassumption.
  - rewrite E. eexists. reflexivity.
Qed.

(** ** Messages *)

Lemma children_spec : forall s m c,
  In c (children s m) <-> exists d, has_definition s m d /\ creates d c.
Proof.
  intros s m c. unfold children. destruct (ms_rule (msg s m)) eqn:R.
  - rewrite in_app_iff, !in_flat_map. split.
    + intros [[d [Hd H]] | [f [Hf H]]].
      * destruct (message_exprs_within d c H) as [d' [W C]]. exists d'. split; [ | exact C].
        exists d. split; [apply defines_own; assumption | exact W].
      * destruct (fd_rule f) eqn:Rf; [ | destruct H].
        apply in_flat_map in H. destruct H as [d [Hd H]].
        destruct (message_exprs_within d c H) as [d' [W C]]. exists d'. split; [ | exact C].
        exists d. split; [eapply defines_oneof; eassumption | exact W].
    + intros [d' [[d [D W]] C]]. pose proof (within_message_exprs d d' c W C) as H.
      inversion D; subst.
      * left. exists d. split; assumption.
      * right. exists f. split; [assumption | ]. destruct (fd_rule f); [ | discriminate].
        apply in_flat_map. exists d. split; assumption.
  - split; [intros [] | ]. intros [d' [[d [D _]] _]]. apply defines_rule in D. congruence.
Qed.

Lemma child_messages_spec : forall s n m l m',
  ms_rule (msg s m) = true -> child_messages s n m = Done l ->
  (In m' l <-> made_from s m m' /\ ms_rule (msg s m') = true).
Proof.
  intros s n. induction n as [ | n IH]; intros m l m' R H; cbn in H; [discriminate | ].
  destruct (gather (child_messages s n) (filter (fun c => ms_rule (msg s c)) (children s m)))
    as [ys | | ] eqn:G; try discriminate H. injection H as <-. cbn.
  rewrite (gather_in _ _ _ _ _ G). split.
  - intros [H | [x [zs [Hx [E Hy]]]]].
    + subst. split; [constructor | exact R].
    + apply filter_In in Hx. destruct Hx as [Hx Rx].
      apply (IH _ _ _ Rx E) in Hy. destruct Hy as [M Rm]. split; [ | exact Rm].
      apply children_spec in Hx. destruct Hx as [d [Hd C]].
      eapply made_step; eassumption.
  - intros [M Rm].
    inversion M as [x E1 E2 | x d m1 x' Hd Hc M1 E1 E2]; subst; [left; reflexivity | right].
    assert (Rx : ms_rule (msg s m1) = true).
    { inversion M1 as [x E1 E2 | x d' m2 x' Hd' Hc' M2 E1 E2]; subst; [exact Rm | ].
      destruct Hd' as [d0 [D0 _]]. eapply defines_rule; exact D0. }
    assert (Hx : In m1 (filter (fun c => ms_rule (msg s c)) (children s m))).
    { apply filter_In. split; [ | exact Rx]. apply children_spec. exists d. split; assumption. }
    destruct (gather_each _ _ _ _ _ m1 G Hx) as [zs E].
    exists m1, zs. split; [exact Hx | split; [exact E | ]].
    apply (IH _ _ _ Rx E). split; assumption.
Qed.

Lemma child_messages_total : forall s (rank : nat -> nat),
  (forall m d m', has_definition s m d -> creates d m' -> rank m' < rank m) ->
  forall n m, rank m < n -> exists l, child_messages s n m = Done l.
Proof.
  intros s rank Hr. induction n as [ | n IH]; intros m L; [lia | ].
  cbn.
  destruct (gather_total _ _ (child_messages s n)
              (filter (fun c => ms_rule (msg s c)) (children s m))) as [ys E].
  - intros x Hx. apply filter_In in Hx. destruct Hx as [Hx _].
    apply children_spec in Hx. destruct Hx as [d [Hd C]]. apply IH.
    specialize (Hr m d x Hd C). lia.
  - rewrite E. eexists. reflexivity.
Qed.

Lemma ruled_bound : forall s m, ms_rule (msg s m) = true -> m < length (sc_messages s).
Proof.
  intros s m H. destruct (lt_dec m (length (sc_messages s))) as [L | L]; [exact L | ].
  unfold msg in H. rewrite nth_overflow in H by lia. discriminate.
Qed.

Lemma roots_spec : forall s m,
  In m (roots s) <->
  ms_rule (msg s m) = true /\ forall p d, has_definition s p d -> ~ creates d m.
Proof.
  intros s m. unfold roots. rewrite filter_In. unfold is_root.
  rewrite andb_true_iff, forallb_forall. split.
  - intros [_ [R H]]. split; [exact R | ]. intros p d Hd C.
    assert (Lp : p < length (sc_messages s)).
    { destruct Hd as [d0 [D _]]. eapply ruled_bound, defines_rule; exact D. }
    assert (X : negb (seen m (children s p)) = true) by (apply H, in_seq; lia).
    apply negb_true_iff in X.
    assert (Y : In m (children s p)) by (apply children_spec; exists d; split; assumption).
    apply seen_spec in Y. congruence.
  - intros [R H]. split; [apply in_seq; pose proof (ruled_bound s m R); lia | ].
    split; [exact R | ]. intros p _. apply negb_true_iff.
    destruct (seen m (children s p)) eqn:E; [exfalso | reflexivity].
    apply seen_spec, children_spec in E. destruct E as [d [Hd C]]. apply (H p d Hd C).
Qed.

Lemma has_message_spec : forall sv m,
  has_message sv m = true <->
  starts sv m \/ exists mt, In mt (sv_methods sv) /\ mt_request mt = m.
Proof.
  intros sv m. unfold has_message, starts. rewrite orb_true_iff, !existsb_exists. split.
  - intros [[mt [Hm H]] | [x [Hx H]]].
    + apply orb_true_iff in H. destruct H as [H | H]; apply Nat.eqb_eq in H.
      * right. exists mt. split; assumption.
      * left. left. exists mt. split; [exact Hm | symmetry; exact H].
    + apply Nat.eqb_eq in H. subst. left. right. exact Hx.
  - intros [[[mt [Hm H]] | H] | [mt [Hm H]]].
    + left. exists mt. split; [exact Hm | ]. apply orb_true_iff. right.
      apply Nat.eqb_eq. symmetry. exact H.
    + right. exists m. split; [exact H | apply Nat.eqb_refl].
    + left. exists mt. split; [exact Hm | ]. apply orb_true_iff. left. apply Nat.eqb_eq, H.
Qed.
