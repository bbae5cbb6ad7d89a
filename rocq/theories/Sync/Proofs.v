(** Proofs about the language server's validations. *)

From Coq Require Import String List Arith Bool Lia.
From Verif.Sync Require Import Model Spec.
Import ListNotations.
Local Open Scope list_scope.

Lemma set_nth_length {A} n (x : A) l : List.length (set_nth n x l) = List.length l.
Proof. revert n; induction l as [| y l IH]; intros [| n]; cbn; auto. Qed.

Lemma set_nth_same {A} n (x : A) l : n < List.length l -> nth_error (set_nth n x l) n = Some x.
Proof. revert n; induction l as [| y l IH]; intros [| n] H; cbn in *; try lia; auto. apply IH; lia. Qed.

Lemma set_nth_other {A} n m (x : A) l : n <> m -> nth_error (set_nth n x l) m = nth_error l m.
Proof.
  revert n m; induction l as [| y l IH]; intros [| n] [| m] H; cbn; auto; try contradiction.
Qed.

Lemma copies_nil ps : copies_of ps [].
Proof. exists 0; reflexivity. Qed.

Lemma copies_one ps : copies_of ps ps.
Proof. exists 1; cbn. rewrite app_nil_r; reflexivity. Qed.

Lemma copies_app ps a b : copies_of ps a -> copies_of ps b -> copies_of ps (a ++ b).
Proof.
  intros [i ->] [j ->]. exists (i + j). rewrite repeat_app, concat_app. reflexivity.
Qed.

Section P.
  Variable diags protos result : Type.
  Variable uri_path : string -> option string.
  Variable disk : string -> option string.
  Variable parses : string -> string -> bool.
  Variable rel : list string -> string -> string.
  Variable compile : list string -> string -> string -> string -> protos + diags.
  Variable resolve : list string -> protos -> result.
  Variable report : list string -> result -> diags.
  Variable ips : list string.

  Local Notation pcT := (pc diags protos result).
  Local Notation stT := (state diags protos result).
  Local Notation adv := (advance diags protos result uri_path disk parses rel compile resolve report ips).
  Local Notation stp := (step diags protos result uri_path disk parses rel compile resolve report ips).
  Local Notation rn := (run diags protos result uri_path disk parses rel compile resolve report ips).
  Local Notation tsk := (tasks diags protos result).
  Local Notation memo := (mem diags protos result).
  Local Notation outs := (out diags protos result).
  Local Notation diag4 := (diagnosis4 diags protos result rel compile resolve report).
  Local Notation gives_ := (gives uri_path).
  Local Notation after := (text_after uri_path disk).

  Lemma run_snoc es e : rn (es ++ [e]) = stp (rn es) e.
  Proof. unfold run. rewrite fold_left_app. reflexivity. Qed.

  Lemma run_app es fs : rn (es ++ fs) = fold_left stp fs (rn es).
  Proof. unfold run. rewrite fold_left_app. reflexivity. Qed.

  (** * The text of a file *)

  Lemma gives_spec path e t :
    gives_ path e t <->
    exists u ts, e = Change u ts /\ uri_path u = Some path /\ exists ts', ts = ts' ++ [t].
  Proof.
    split.
    - intros [u ts t' H]. exists u, (ts ++ [t']). eauto.
    - intros (u & ts & -> & H & ts' & ->). constructor; exact H.
  Qed.

  Lemma find_store path ts : forall m p,
    find_content (store m path ts) p =
    match rev ts with
    | t :: _ => if String.eqb path p then Some t else find_content m p
    | [] => find_content m p
    end.
  Proof.
    unfold store. induction ts as [| t ts IH] using rev_ind; intros m p; [reflexivity |].
    rewrite fold_left_app, rev_app_distr. cbn.
    destruct (String.eqb_spec path p) as [-> | N]; [reflexivity |].
    rewrite IH. destruct (rev ts); [reflexivity |].
    destruct (String.eqb_spec path p); [contradiction | reflexivity].
  Qed.

  Lemma advance_contents s u p s' p' o : adv s u p = (s', p', o) -> contents s' = contents s.
  Proof.
    unfold advance. intro H.
    destruct p; try (injection H as <- <- <-; reflexivity).
    - destruct (get_file uri_path disk s u) as [[path text] |]; [destruct (parses path text) |];
        injection H as <- <- <-; reflexivity.
    - destruct (compile (c_paths s) r path text); injection H as <- <- <-; reflexivity.
  Qed.

  Definition held (s : stT) (path : string) : option string :=
    match find_content (contents (memo s)) path with
    | Some t => Some t
    | None => disk path
    end.

  Definition last_given (es : list event) (path : string) (o : option string) : Prop :=
    match o with
    | Some t => exists es1 e es2, es = es1 ++ e :: es2 /\ gives_ path e t /\
                                  forall e' t', In e' es2 -> ~ gives_ path e' t'
    | None => forall e t, In e es -> ~ gives_ path e t
    end.

  Lemma last_given_skip es path o e :
    last_given es path o -> (forall t, ~ gives_ path e t) -> last_given (es ++ [e]) path o.
  Proof.
    intros H N. destruct o as [t |]; cbn in *.
    - destruct H as (es1 & e1 & es2 & -> & G & A).
      exists es1, e1, (es2 ++ [e]). split; [rewrite <- app_assoc; reflexivity |].
      split; [exact G |]. intros e' t' I. apply in_app_or in I. destruct I as [I | [<- | []]]; eauto.
    - intros e' t' I. apply in_app_or in I. destruct I as [I | [<- | []]]; eauto.
  Qed.

  Lemma not_gives_other path e t : no_change_of uri_path path e -> ~ gives_ path e t.
  Proof.
    intros N G. apply gives_spec in G. destruct G as (u & ts & -> & H & _). exact (N H).
  Qed.

  Lemma contents_given es path :
    last_given es path (find_content (contents (memo (rn es))) path).
  Proof.
    induction es as [| e es IH] using rev_ind; [intros e t [] |].
    rewrite run_snoc. destruct e as [u t | u ts | u | i]; cbn [step].
    - apply last_given_skip; [exact IH |]. intros x G. inversion G.
    - unfold did_change. destruct (uri_path u) as [p |] eqn:U.
      + cbn [mem contents].
        rewrite find_store. destruct (rev ts) as [| t ts'] eqn:R.
        * apply last_given_skip; [exact IH |]. intros x G. apply gives_spec in G.
          destruct G as (u' & ts2 & E & _ & ts3 & ->). injection E as <- ->.
          rewrite rev_app_distr in R. discriminate R.
        * destruct (String.eqb_spec p path) as [-> | N].
          -- exists es, (Change u ts), []. split; [reflexivity |]. split; [| intros ? ? []].
             replace ts with (rev ts' ++ [t]) by (rewrite <- (rev_involutive ts), R; reflexivity).
             constructor; exact U.
          -- apply last_given_skip; [exact IH |]. intros x. apply not_gives_other. cbn.
             rewrite U. intro X; injection X as ->. apply N; reflexivity.
      + apply last_given_skip; [exact IH |]. intros x. apply not_gives_other. cbn.
        rewrite U. discriminate.
    - apply last_given_skip; [exact IH |]. intros x G. inversion G.
    - apply last_given_skip; [| intros x G; inversion G].
      unfold task_step. destruct (nth_error (tsk (rn es)) i) as [[u p] |]; [| exact IH].
      destruct (adv (memo (rn es)) u p) as [[m p'] o] eqn:A. cbn [mem].
      rewrite (advance_contents _ _ _ _ _ _ A). exact IH.
  Qed.

  Lemma gives_fun path e t t' : gives_ path e t -> gives_ path e t' -> t = t'.
  Proof.
    intros A B. apply gives_spec in A, B.
    destruct A as (u & ts & -> & _ & a & ->). destruct B as (u' & ts' & E & _ & b & ->).
    injection E as _ E. apply app_inj_tail in E. apply E.
  Qed.

  Lemma last_unique path a e b : forall a' e' b' t t',
    a ++ e :: b = a' ++ e' :: b' ->
    gives_ path e t -> gives_ path e' t' ->
    (forall x y, In x b -> ~ gives_ path x y) -> (forall x y, In x b' -> ~ gives_ path x y) ->
    e = e'.
  Proof.
    induction a as [| x a IH]; intros [| x' a'] e' b' t t' E G G' N N'; cbn in E.
    - injection E as -> _; reflexivity.
    - injection E as -> ->. exfalso. apply (N e' t'); [| exact G']. apply in_or_app. right; left; reflexivity.
    - injection E as -> <-. exfalso. apply (N' e t); [| exact G]. apply in_or_app. right; left; reflexivity.
    - injection E as _ E. exact (IH _ _ _ _ _ E G G' N N').
  Qed.

  Lemma get_file_after es u path text :
    get_file uri_path disk (memo (rn es)) u = Some (path, text) <->
    uri_path u = Some path /\ after path es text.
  Proof.
    pose proof (contents_given es path) as G. unfold get_file. split.
    - destruct (uri_path u) as [p |]; [| intro X; discriminate X].
      destruct (find_content (contents (memo (rn es))) p) as [t |] eqn:F.
      + intro X; injection X as -> ->. split; [reflexivity |]. rewrite F in G. cbn in G.
        destruct G as (es1 & e & es2 & -> & G1 & G2). apply text_given; assumption.
      + destruct (disk p) as [t |] eqn:D; [| intro X; discriminate X].
        intro X; injection X as -> ->. split; [reflexivity |]. rewrite F in G.
        apply text_disk; [exact G | exact D].
    - intros [-> A].
      destruct (find_content (contents (memo (rn es))) path) as [t |] eqn:F; cbn in G.
      + f_equal. f_equal. destruct G as (es1 & e & es2 & E & G1 & G2).
        destruct A as [es t' N _ | es1' es2' e' t' G1' G2'].
        * exfalso. apply (N e t); [| exact G1]. rewrite E. apply in_or_app. right; left; reflexivity.
        * pose proof (last_unique path es1' e' es2' es1 e es2 t' t E G1' G1 G2' G2) as ->.
          exact (gives_fun _ _ _ _ G1 G1').
      + destruct A as [es t' N D | es1' es2' e' t' G1' G2'].
        * rewrite D. reflexivity.
        * exfalso. apply (G e' t'); [| exact G1']. apply in_or_app. right; left; reflexivity.
  Qed.

  (** * One step of a validation *)

  Local Notation cp := (copies_of ips).

  Definition working (path text : string) (p : pcT) : Prop :=
    match p with
    | PRead | PDone => False
    | PReset _ _ _ a b | PAppend _ _ _ a b | PTake _ _ _ a b | PRel _ _ _ a b => a = path /\ b = text
    | PCReset _ _ _ a b ps | PCAppend _ _ _ a b ps => a = path /\ b = text /\ cp ps
    | PCompile _ _ _ a b r => a = path /\ b = text /\ exists p1, cp p1 /\ r = rel p1 path
    | PResolve _ _ _ q => exists p1 p2, cp p1 /\ cp p2 /\ compile p2 (rel p1 path) path text = inl q
    | PReset2 _ _ _ f | PAppend2 _ _ _ f | PReport _ _ _ f =>
        exists p1 p2 p3 q, cp p1 /\ cp p2 /\ cp p3 /\
          compile p2 (rel p1 path) path text = inl q /\ f = resolve p3 q
    | PPublish _ _ _ d =>
        exists p1 p2 p3 p4, cp p1 /\ cp p2 /\ cp p3 /\ cp p4 /\ d = diag4 p1 p2 p3 p4 path text
    end.

  Definition diagnosed (path text : string) (d : diags) : Prop :=
    exists p1 p2 p3 p4, cp p1 /\ cp p2 /\ cp p3 /\ cp p4 /\ d = diag4 p1 p2 p3 p4 path text.

  Lemma advance_working s u p s' p' o path text :
    cp (v_paths s) -> cp (c_paths s) ->
    adv s u p = (s', p', o) -> working path text p ->
    cp (v_paths s') /\ cp (c_paths s') /\
    ((working path text p' /\ o = None) \/
     (p' = PDone /\ exists d, o = Some d /\ diagnosed path text d)).
  Proof.
    intros V C A W. unfold advance in A. destruct p; cbn [working] in W; try contradiction.
    - injection A as <- <- <-. cbn. split; [apply copies_nil |]. auto.
    - injection A as <- <- <-. cbn. split; [apply copies_app; [exact V | apply copies_one] |]. auto.
    - injection A as <- <- <-. cbn. destruct W. auto 8.
    - injection A as <- <- <-. cbn. split; [exact V |]. split; [apply copies_nil |]. auto.
    - injection A as <- <- <-. cbn. destruct W as (? & ? & W).
      split; [exact V |]. split; [apply copies_app; assumption |]. auto.
    - injection A as <- <- <-. cbn. destruct W as [<- <-].
      split; [exact V |]. split; [exact C |]. left. eauto 10.
    - destruct W as (-> & -> & p1 & C1 & ->).
      destruct (compile (c_paths s) (rel p1 path) path text) as [q | d] eqn:E; injection A as <- <- <-;
        (split; [exact V |]); (split; [exact C |]); left; cbn; (split; [| reflexivity]).
      + eauto 10.
      + exists p1, (c_paths s), [], []. repeat (split; [assumption || apply copies_nil |]).
        unfold diagnosis4. rewrite E. reflexivity.
    - injection A as <- <- <-. cbn. destruct W as (p1 & p2 & C1 & C2 & E).
      split; [exact V |]. split; [exact C |]. left. split; [| reflexivity].
      exists p1, p2, (v_paths s), p. auto 10.
    - injection A as <- <- <-. cbn. split; [apply copies_nil |]. auto.
    - injection A as <- <- <-. cbn. split; [apply copies_app; [exact V | apply copies_one] |]. auto.
    - injection A as <- <- <-. destruct W as (p1 & p2 & p3 & q & C1 & C2 & C3 & E & ->).
      split; [exact V |]. split; [exact C |]. left. split; [| reflexivity].
      exists p1, p2, p3, (v_paths s). repeat (split; [assumption |]).
      unfold diagnosis4. rewrite E. reflexivity.
    - injection A as <- <- <-. split; [exact V |]. split; [exact C |]. right.
      split; [reflexivity |]. exists d. split; [reflexivity | exact W].
  Qed.

  Lemma advance_read s u s' p' o :
    adv s u PRead = (s', p', o) ->
    s' = s /\ o = None /\
    ((exists path text, get_file uri_path disk s u = Some (path, text) /\ parses path text = true /\
                        working path text p') \/
     (p' = PDone /\ forall path text, get_file uri_path disk s u = Some (path, text) -> parses path text = false)).
  Proof.
    cbn [advance]. destruct (get_file uri_path disk s u) as [[path text] |].
    - destruct (parses path text) eqn:E; intro X; injection X as <- <- <-;
        (split; [reflexivity |]); (split; [reflexivity |]).
      + left. exists path, text. cbn; auto.
      + right. split; [reflexivity |]. intros a b Y. injection Y as <- <-. exact E.
    - intro X; injection X as <- <- <-. split; [reflexivity |]. split; [reflexivity |]. right.
      split; [reflexivity |]. intros a b Y. discriminate Y.
  Qed.

  Lemma advance_done s u s' p' o : adv s u PDone = (s', p', o) -> s' = s /\ p' = PDone /\ o = None.
  Proof. cbn. intro X; injection X as <- <- <-. auto. Qed.

  (** * Every execution *)

  (** The text was that of the document after some events, one of which changed it. *)
  Definition seen (es : list event) (u path text : string) : Prop :=
    uri_path u = Some path /\ parses path text = true /\
    exists es1 es2, es = es1 ++ es2 /\ after path es1 text /\ exists ts, In (Change u ts) es1.

  Lemma seen_snoc es u path text e : seen es u path text -> seen (es ++ [e]) u path text.
  Proof.
    intros (U & P & es1 & es2 & -> & A & T). split; [exact U |]. split; [exact P |].
    exists es1, (es2 ++ [e]). rewrite <- app_assoc. auto.
  Qed.

  Definition task_ok (es : list event) (t : string * pcT) : Prop :=
    (exists ts, In (Change (fst t) ts) es) /\
    (snd t = PRead \/ snd t = PDone \/
     exists path text, seen es (fst t) path text /\ working path text (snd t)).

  Lemma task_ok_snoc es t e : task_ok es t -> task_ok (es ++ [e]) t.
  Proof.
    intros [[ts I] H]. split; [exists ts; apply in_or_app; auto |].
    destruct H as [H | [H | (path & text & S & W)]]; auto.
    right; right. exists path, text. split; [apply seen_snoc, S | exact W].
  Qed.

  Definition out_ok (es : list event) (o : string * diags) : Prop :=
    exists path text, seen es (fst o) path text /\ diagnosed path text (snd o).

  Lemma out_ok_snoc es o e : out_ok es o -> out_ok (es ++ [e]) o.
  Proof. intros (p & t & S & D). exists p, t. split; [apply seen_snoc, S | exact D]. Qed.

  Definition inv (es : list event) (s : stT) : Prop :=
    cp (v_paths (memo s)) /\ cp (c_paths (memo s)) /\
    Forall (task_ok es) (tsk s) /\ Forall (out_ok es) (outs s).

  Lemma Forall_set_nth {A} (P : A -> Prop) n x l : Forall P l -> P x -> Forall P (set_nth n x l).
  Proof.
    intros H X. revert n. induction H as [| y l Y H IH]; intros [| n]; cbn; constructor; auto.
  Qed.

  Lemma inv_skip es s e : inv es s -> inv (es ++ [e]) s.
  Proof.
    intros (V & C & T & O). split; [exact V |]. split; [exact C |].
    split; eapply Forall_impl; [intros a; apply task_ok_snoc | exact T | intros a; apply out_ok_snoc | exact O].
  Qed.

  Lemma run_inv es : inv es (rn es).
  Proof.
    induction es as [| e es IH] using rev_ind.
    - split; [apply copies_nil |]. split; [apply copies_nil |]. split; constructor.
    - rewrite run_snoc. pose proof (inv_skip es (rn es) e IH) as J.
      destruct e as [u t | u ts | u | i]; cbn [step]; try exact J.
      + unfold did_change. destruct (uri_path u) as [p |]; [| exact J].
        destruct J as (V & C & T & O). split; [exact V |]. split; [exact C |].
        split; [| exact O]. cbn [tasks]. apply Forall_app. split; [exact T |].
        constructor; [| constructor]. split; [| left; reflexivity].
        exists ts. apply in_or_app. right; left; reflexivity.
      + unfold task_step. destruct (nth_error (tsk (rn es)) i) as [[u p] |] eqn:N; [| exact J].
        destruct (adv (memo (rn es)) u p) as [[m p'] o] eqn:A.
        destruct J as (V & C & T & O). pose proof (nth_error_In _ _ N) as I.
        pose proof (proj1 (Forall_forall _ _) T _ I) as K.
        destruct IH as (_ & _ & T0 & _). pose proof (proj1 (Forall_forall _ _) T0 _ I) as K0.
        destruct K as [[ts Tr] K]. cbn [fst snd] in *.
        destruct K as [-> | [-> | (path & text & S & W)]].
        * apply advance_read in A. destruct A as (-> & -> & A).
          split; [exact V |]. split; [exact C |]. split; [| exact O].
          apply Forall_set_nth; [exact T |]. split; [exists ts; exact Tr |]. cbn [fst snd].
          destruct A as [(path & text & G & P & W) | [-> _]]; [| auto].
          right; right. exists path, text. split; [| exact W].
          apply get_file_after in G. destruct G as [U A].
          split; [exact U |]. split; [exact P |]. exists es, [Step i].
          split; [reflexivity |]. split; [exact A |].
          destruct K0 as [K0 _]. exact K0.
        * apply advance_done in A. destruct A as (-> & -> & ->).
          split; [exact V |]. split; [exact C |]. split; [| exact O].
          apply Forall_set_nth; [exact T |]. split; [exists ts; exact Tr | auto].
        * destruct (advance_working _ _ _ _ _ _ _ _ V C A W) as (V' & C' & R).
          split; [exact V' |]. split; [exact C' |].
          destruct R as [[W' ->] | [-> (d & -> & D)]].
          -- split; [| exact O]. apply Forall_set_nth; [exact T |].
             split; [exists ts; exact Tr | eauto 10].
          -- split; [apply Forall_set_nth; [exact T |]; split; [exists ts; exact Tr | auto] |].
             cbn [out]. constructor; [| exact O]. exists path, text. auto.
  Qed.

  (** * One validation among others *)

  Definition newer (p : list event) (c : event) (q : list event) (path text : string) : Prop :=
    exists q1 q2, q = q1 ++ q2 /\ after path (p ++ c :: q1) text.

  Lemma newer_snoc p c q path text e : newer p c q path text -> newer p c (q ++ [e]) path text.
  Proof.
    intros (q1 & q2 & -> & A). exists q1, (q2 ++ [e]). rewrite <- app_assoc. auto.
  Qed.

  Lemma run_snoc2 p c q e : rn (p ++ c :: q ++ [e]) = stp (rn (p ++ c :: q)) e.
  Proof. rewrite <- run_snoc. f_equal. rewrite <- app_assoc. reflexivity. Qed.

  Lemma task_kept es e n u p :
    nth_error (tsk (rn es)) n = Some (u, p) -> (forall i, e = Step i -> i <> n) ->
    nth_error (tsk (stp (rn es) e)) n = Some (u, p).
  Proof.
    intros H N. destruct e as [v t | v ts | v | i]; cbn [step]; auto.
    - unfold did_change. destruct (uri_path v); [| exact H]. cbn [tasks].
      rewrite nth_error_app1; [exact H |]. apply nth_error_Some. rewrite H. discriminate.
    - unfold task_step. destruct (nth_error (tsk (rn es)) i) as [[w r] |]; [| exact H].
      destruct (adv (memo (rn es)) w r) as [[m r'] o]. cbn [tasks].
      rewrite set_nth_other; [exact H | apply N; reflexivity].
  Qed.

  Lemma task_new p u ts path :
    uri_path u = Some path ->
    nth_error (tsk (rn (p ++ [Change u ts]))) (List.length (tsk (rn p))) = Some (u, PRead).
  Proof.
    intro U. rewrite run_snoc. cbn [step]. unfold did_change. rewrite U. cbn [tasks].
    rewrite nth_error_app2 by lia. rewrite Nat.sub_diag. reflexivity.
  Qed.

  Lemma fresh p u ts q path :
    uri_path u = Some path ->
    let n := List.length (tsk (rn p)) in
    exists pcn, nth_error (tsk (rn (p ++ Change u ts :: q))) n = Some (u, pcn) /\
      (pcn = PRead \/ pcn = PDone \/
       exists text, newer p (Change u ts) q path text /\ parses path text = true /\ working path text pcn).
  Proof.
    intros U n. induction q as [| e q IH] using rev_ind.
    - exists PRead. split; [apply (task_new p u ts path U) | auto].
    - destruct IH as (pcn & N & H). rewrite run_snoc2.
      pose proof (run_inv (p ++ Change u ts :: q)) as (V & C & _ & _).
      assert (K : (forall i, e = Step i -> i <> n) ->
        exists pcn, nth_error (tsk (stp (rn (p ++ Change u ts :: q)) e)) n = Some (u, pcn) /\
        (pcn = PRead \/ pcn = PDone \/
         exists text, newer p (Change u ts) (q ++ [e]) path text /\ parses path text = true /\ working path text pcn)).
      { intro X. exists pcn. split; [apply task_kept; assumption |].
        destruct H as [H | [H | (text & A & P & W)]]; auto.
        right; right. exists text. split; [apply newer_snoc, A | auto]. }
      destruct e as [v t | v ts' | v | i]; try (apply K; intros j X; discriminate X).
      destruct (Nat.eq_dec i n) as [-> | Ne]; [| apply K; intros j X; injection X as <-; exact Ne].
      clear K. cbn [step]. unfold task_step. rewrite N.
      destruct (adv (memo (rn (p ++ Change u ts :: q))) u pcn) as [[m p'] o] eqn:A. cbn [tasks].
      exists p'. split; [apply set_nth_same, nth_error_Some; rewrite N; discriminate |].
      destruct H as [-> | [-> | (text & F & P & W)]].
      + apply advance_read in A. destruct A as (_ & _ & [(path' & text & G & P & W) | [-> _]]); [| auto].
        right; right. apply get_file_after in G. destruct G as [U' A]. rewrite U in U'.
        injection U' as <-. exists text. split; [| auto]. exists q, [Step n]. auto.
      + apply advance_done in A. destruct A as (_ & -> & _). auto.
      + destruct (advance_working _ _ _ _ _ _ _ _ V C A W) as (_ & _ & [[W' _] | [-> _]]); [| auto].
        right; right. exists text. split; [apply newer_snoc, F | auto].
  Qed.

  Definition all_done_but (n : nat) (u : string) (s : stT) : Prop :=
    forall i p, i <> n -> nth_error (tsk s) i = Some (u, p) -> p = PDone.

  Lemma after_no_change p u ts t path q :
    uri_path u = Some path -> Forall (no_change_of uri_path path) q ->
    after path (p ++ Change u (ts ++ [t]) :: q) t.
  Proof.
    intros U N. apply text_given; [constructor; exact U |].
    intros e t' I. apply not_gives_other. exact (proj1 (Forall_forall _ _) N _ I).
  Qed.

  (** The validation of a change when no other one of the document is under way. *)
  Lemma quiet p u ts t q path :
    uri_path u = Some path ->
    (forall i x, nth_error (tsk (rn p)) i = Some (u, x) -> x = PDone) ->
    Forall (no_change_of uri_path path) q ->
    let n := List.length (tsk (rn p)) in
    let s := rn (p ++ Change u (ts ++ [t]) :: q) in
    all_done_but n u s /\
    exists x, nth_error (tsk s) n = Some (u, x) /\
      ((x = PRead /\ shown diags (outs s) u = shown diags (outs (rn p)) u) \/
       (parses path t = true /\ working path t x /\ shown diags (outs s) u = shown diags (outs (rn p)) u) \/
       (x = PDone /\ parses path t = false /\ shown diags (outs s) u = shown diags (outs (rn p)) u) \/
       (x = PDone /\ parses path t = true /\ exists d, shown diags (outs s) u = Some d /\ diagnosed path t d)).
  Proof.
    intros U D. cbv zeta. induction q as [| e q IH] using rev_ind; intro N.
    - split.
      + intros i x Ne H. rewrite run_snoc in H. cbn [step] in H. unfold did_change in H. rewrite U in H.
        cbn [tasks] in H. destruct (Nat.lt_ge_cases i (List.length (tsk (rn p)))) as [L | G].
        * rewrite nth_error_app1 in H by exact L. exact (D _ _ H).
        * rewrite nth_error_app2 in H by exact G.
          destruct (i - List.length (tsk (rn p))) as [| k] eqn:E; [lia |].
          cbn in H. destruct k; discriminate H.
      + exists PRead. split; [apply (task_new p u _ path U) |]. left. split; [reflexivity |].
        rewrite run_snoc. cbn [step]. unfold did_change. rewrite U. reflexivity.
    - apply Forall_app in N. destruct N as [Nq Ne]. apply Forall_inv in Ne.
      destruct (IH Nq) as (AD & x & Hx & H). clear IH. rewrite run_snoc2.
      pose proof (run_inv (p ++ Change u (ts ++ [t]) :: q)) as (V & C & _ & _).
      pose proof (after_no_change p u ts t path q U Nq) as AF.
      set (s := rn (p ++ Change u (ts ++ [t]) :: q)) in *. set (n := List.length (tsk (rn p))) in *.
      destruct e as [v t' | v ts' | v | i]; cbn [step].
      + split; [exact AD | exists x; auto].
      + unfold did_change. destruct (uri_path v) as [pv |] eqn:Uv; [| split; [exact AD | exists x; auto]].
        split.
        * intros i y Ni E. cbn [tasks] in E.
          destruct (Nat.lt_ge_cases i (List.length (tsk s))) as [L | G].
          -- rewrite nth_error_app1 in E by exact L. exact (AD _ _ Ni E).
          -- rewrite nth_error_app2 in E by exact G. destruct (i - List.length (tsk s)) as [| k].
             ++ injection E as <- _. cbn in Ne. rewrite U in Ne. contradiction.
             ++ cbn in E. destruct k; discriminate E.
        * exists x. cbn [tasks out]. split; [| exact H].
          rewrite nth_error_app1; [exact Hx |]. apply nth_error_Some. rewrite Hx. discriminate.
      + split; [exact AD | exists x; auto].
      + unfold task_step. destruct (nth_error (tsk s) i) as [[v y] |] eqn:Ei; [| split; [exact AD | exists x; auto]].
        destruct (adv (memo s) v y) as [[m y'] o] eqn:A. cbn [tasks out].
        destruct (Nat.eq_dec i n) as [-> | Ni].
        * rewrite Hx in Ei. injection Ei as <- <-. split.
          -- intros j z Nj E. cbn [tasks] in E; rewrite (set_nth_other n j) in E by congruence. exact (AD _ _ Nj E).
          -- exists y'. split; [apply set_nth_same, nth_error_Some; rewrite Hx; discriminate |].
             destruct H as [[-> S] | [(P & W & S) | [(-> & P & S) | (-> & P & S)]]].
             ++ apply advance_read in A. destruct A as (_ & -> & [(path' & text & G & P & W) | [-> B]]).
                ** unfold s in G. apply get_file_after in G. destruct G as [U' A]. rewrite U in U'.
                   injection U' as <-.
                   assert (X : text = t).
                   { assert (G1 : get_file uri_path disk (memo s) u = Some (path, text)).
                     { unfold s. apply get_file_after. auto. }
                     assert (G2 : get_file uri_path disk (memo s) u = Some (path, t)).
                     { unfold s. apply get_file_after. auto. }
                     rewrite G1 in G2. injection G2; auto. }
                   rewrite X in *. auto.
                ** right; right; left. split; [reflexivity |]. split; [| exact S].
                   apply (B path t). unfold s. apply get_file_after. auto.
             ++ destruct (advance_working _ _ _ _ _ _ _ _ V C A W) as (_ & _ & [[W' ->] | [-> (d & -> & Dd)]]).
                ** auto.
                ** right; right; right. split; [reflexivity |]. split; [exact P |].
                   exists d. split; [| exact Dd]. cbn. rewrite String.eqb_refl. reflexivity.
             ++ apply advance_done in A. destruct A as (_ & -> & ->). auto 10.
             ++ apply advance_done in A. destruct A as (_ & -> & ->). auto 10.
        * assert (X : v = u -> y = PDone) by (intros ->; exact (AD _ _ Ni Ei)).
          assert (O : shown diags (match o with Some d => (v, d) :: outs s | None => outs s end) u
                      = shown diags (outs s) u).
          { destruct o as [d |]; [| reflexivity]. cbn. destruct (String.eqb_spec v u) as [E | _]; [| reflexivity].
            rewrite (X E) in A. apply advance_done in A. destruct A as (_ & _ & A). discriminate A. }
          split.
          -- intros j z Nj E. cbn [tasks] in E. destruct (Nat.eq_dec i j) as [<- | Nij].
             ++ rewrite set_nth_same in E by (apply nth_error_Some; rewrite Ei; discriminate).
                injection E as -> <-. rewrite (X eq_refl) in A. apply advance_done in A. apply A.
             ++ rewrite set_nth_other in E by exact Nij. exact (AD _ _ Nj E).
          -- exists x. split; [rewrite set_nth_other by exact Ni; exact Hx |]. rewrite O. exact H.
  Qed.

  (** * One validation alone *)

  Local Notation diag1 := (diagnosis diags protos result rel compile resolve report ips).

  Definition exact_pc (path text : string) (m : shared) (p : pcT) : Prop :=
    match p with
    | PRead => True
    | PDone => False
    | PReset _ _ _ a b => a = path /\ b = text
    | PAppend _ _ _ a b => a = path /\ b = text /\ v_paths m = []
    | PTake _ _ _ a b => a = path /\ b = text /\ v_paths m = ips
    | PCReset _ _ _ a b ps => a = path /\ b = text /\ v_paths m = ips /\ ps = ips
    | PCAppend _ _ _ a b ps => a = path /\ b = text /\ v_paths m = ips /\ ps = ips /\ c_paths m = []
    | PRel _ _ _ a b => a = path /\ b = text /\ v_paths m = ips /\ c_paths m = ips
    | PCompile _ _ _ a b r => a = path /\ b = text /\ v_paths m = ips /\ c_paths m = ips /\ r = rel ips path
    | PResolve _ _ _ q => v_paths m = ips /\ compile ips (rel ips path) path text = inl q
    | PReset2 _ _ _ f =>
        exists q, compile ips (rel ips path) path text = inl q /\ f = resolve ips q
    | PAppend2 _ _ _ f =>
        v_paths m = [] /\ exists q, compile ips (rel ips path) path text = inl q /\ f = resolve ips q
    | PReport _ _ _ f =>
        v_paths m = ips /\ exists q, compile ips (rel ips path) path text = inl q /\ f = resolve ips q
    | PPublish _ _ _ d => d = diag1 path text
    end.

  Lemma advance_exact m u p m' p' o path text :
    uri_path u = Some path ->
    (forall a b, get_file uri_path disk m u = Some (a, b) <-> a = path /\ b = text) ->
    parses path text = true ->
    adv m u p = (m', p', o) -> exact_pc path text m p ->
    (exact_pc path text m' p' /\ o = None) \/ (p' = PDone /\ o = Some (diag1 path text)).
  Proof.
    intros U G P A W. unfold advance in A. destruct p; cbn [exact_pc] in W; try contradiction.
    - rewrite (proj2 (G path text) (conj eq_refl eq_refl)), P in A. injection A as <- <- <-. cbn. auto.
    - injection A as <- <- <-. cbn. tauto.
    - injection A as <- <- <-. cbn. destruct W as (? & ? & ->). auto.
    - injection A as <- <- <-. cbn. tauto.
    - injection A as <- <- <-. cbn. tauto.
    - injection A as <- <- <-. cbn. destruct W as (? & ? & ? & -> & ->). auto 8.
    - injection A as <- <- <-. cbn. destruct W as (-> & ? & ? & ->). auto 8.
    - destruct W as (-> & -> & V & C & ->). rewrite C in A.
      destruct (compile ips (rel ips path) path text) as [q | d] eqn:E; injection A as <- <- <-; left; cbn.
      + auto.
      + unfold diagnosis, diagnosis4. rewrite E. auto.
    - injection A as <- <- <-. cbn. destruct W as (-> & W). eauto 8.
    - injection A as <- <- <-. cbn. eauto 8.
    - injection A as <- <- <-. cbn. destruct W as (-> & W). eauto 8.
    - injection A as <- <- <-. destruct W as (-> & q & E & ->). left. cbn.
      unfold diagnosis, diagnosis4. rewrite E. auto.
    - injection A as <- <- <-. right. rewrite W. auto.
  Qed.

  Lemma alone p u ts t q path :
    uri_path u = Some path -> parses path t = true ->
    (forall i v x, nth_error (tsk (rn p)) i = Some (v, x) -> x = PDone) ->
    Forall no_change q ->
    let n := List.length (tsk (rn p)) in
    let s := rn (p ++ Change u (ts ++ [t]) :: q) in
    (forall i v x, i <> n -> nth_error (tsk s) i = Some (v, x) -> x = PDone) /\
    exists x, nth_error (tsk s) n = Some (u, x) /\
      (exact_pc path t (memo s) x \/ (x = PDone /\ shown diags (outs s) u = Some (diag1 path t))).
  Proof.
    intros U P D. cbv zeta. induction q as [| e q IH] using rev_ind; intro N.
    - split.
      + intros i v x Ne H. rewrite run_snoc in H. cbn [step] in H. unfold did_change in H. rewrite U in H.
        cbn [tasks] in H. destruct (Nat.lt_ge_cases i (List.length (tsk (rn p)))) as [L | G].
        * rewrite nth_error_app1 in H by exact L. exact (D _ _ _ H).
        * rewrite nth_error_app2 in H by exact G.
          destruct (i - List.length (tsk (rn p))) as [| k] eqn:E; [lia |].
          cbn in H. destruct k; discriminate H.
      + exists PRead. split; [apply (task_new p u _ path U) |]. left. exact I.
    - apply Forall_app in N. destruct N as [Nq Ne]. apply Forall_inv in Ne.
      destruct (IH Nq) as (AD & x & Hx & H). clear IH. rewrite run_snoc2.
      assert (AF : after path (p ++ Change u (ts ++ [t]) :: q) t).
      { apply after_no_change; [exact U |]. eapply Forall_impl; [| exact Nq].
        intros e'. destruct e'; cbn; tauto. }
      assert (G : forall a b, get_file uri_path disk (memo (rn (p ++ Change u (ts ++ [t]) :: q))) u = Some (a, b)
                              <-> a = path /\ b = t).
      { pose proof (proj2 (get_file_after _ u path t) (conj U AF)) as G. intros a b. rewrite G.
        split; [intro X; injection X as <- <-; auto | intros [-> ->]; reflexivity]. }
      set (s := rn (p ++ Change u (ts ++ [t]) :: q)) in *. set (n := List.length (tsk (rn p))) in *.
      destruct e as [v t' | v ts' | v | i]; cbn [step]; try (split; [exact AD | exists x; auto]); [contradiction |].
      unfold task_step. destruct (nth_error (tsk s) i) as [[v y] |] eqn:Ei; [| split; [exact AD | exists x; auto]].
      destruct (adv (memo s) v y) as [[m y'] o] eqn:A. cbn [tasks out mem].
      destruct (Nat.eq_dec i n) as [-> | Ni].
      + rewrite Hx in Ei. injection Ei as <- <-. split.
        * intros j w z Nj E. rewrite set_nth_other in E by congruence. exact (AD _ _ _ Nj E).
        * exists y'. split; [apply set_nth_same, nth_error_Some; rewrite Hx; discriminate |].
          destruct H as [H | [-> H]].
          -- destruct (advance_exact _ _ _ _ _ _ _ _ U G P A H) as [[H' ->] | [-> ->]]; [auto |].
             right. split; [reflexivity |]. cbn. rewrite String.eqb_refl. reflexivity.
          -- apply advance_done in A. destruct A as (-> & -> & ->). auto.
      + rewrite (AD _ _ _ Ni Ei) in A. apply advance_done in A. destruct A as (-> & -> & ->). split.
        * intros j w z Nj E. destruct (Nat.eq_dec i j) as [<- | Nij].
          -- rewrite set_nth_same in E by (apply nth_error_Some; rewrite Ei; discriminate).
             injection E as _ <-. reflexivity.
          -- rewrite set_nth_other in E by exact Nij. exact (AD _ _ _ Nj E).
        * exists x. split; [rewrite set_nth_other by exact Ni; exact Hx | exact H].
  Qed.

  (** * Termination *)

  Definition left (p : pcT) : nat :=
    match p with
    | PRead => 13
    | PReset _ _ _ _ _ => 12
    | PAppend _ _ _ _ _ => 11
    | PTake _ _ _ _ _ => 10
    | PCReset _ _ _ _ _ _ => 9
    | PCAppend _ _ _ _ _ _ => 8
    | PRel _ _ _ _ _ => 7
    | PCompile _ _ _ _ _ _ => 6
    | PResolve _ _ _ _ => 5
    | PReset2 _ _ _ _ => 4
    | PAppend2 _ _ _ _ => 3
    | PReport _ _ _ _ => 2
    | PPublish _ _ _ _ => 1
    | PDone => 0
    end.

  Lemma advance_left s u p s' p' o : adv s u p = (s', p', o) -> left p' <= left p - 1.
  Proof.
    unfold advance. destruct p; intro A; try (injection A as <- <- <-; cbn; lia).
    - destruct (get_file uri_path disk s u) as [[path text] |]; [destruct (parses path text) |];
        injection A as <- <- <-; cbn; lia.
    - destruct (compile (c_paths s) r path text); injection A as <- <- <-; cbn; lia.
  Qed.

  Definition steps_of (n : nat) (es : list event) : nat :=
    List.length (filter (fun e => match e with Step i => Nat.eqb i n | _ => false end) es).

  Lemma finishes es fs n u p :
    nth_error (tsk (rn es)) n = Some (u, p) ->
    exists p', nth_error (tsk (rn (es ++ fs))) n = Some (u, p') /\ left p' <= left p - steps_of n fs.
  Proof.
    intro H. induction fs as [| e fs IH] using rev_ind.
    - exists p. rewrite app_nil_r. split; [exact H | cbn; lia].
    - destruct IH as (p' & H' & L). rewrite app_assoc, run_snoc.
      unfold steps_of in *. rewrite filter_app, app_length.
      destruct e as [v t | v ts | v | i];
        try (exists p'; split; [apply task_kept; [exact H' | intros j X; discriminate X] | cbn; lia]).
      cbn [filter]. destruct (Nat.eqb_spec i n) as [-> | N].
      + cbn [step]. unfold task_step. rewrite H'.
        destruct (adv (memo (rn (es ++ fs))) u p') as [[m q] o] eqn:A. cbn [tasks].
        exists q. split; [apply set_nth_same, nth_error_Some; rewrite H'; discriminate |].
        apply advance_left in A. cbn [List.length]. lia.
      + exists p'. split; [apply task_kept; [exact H' | intros j X; injection X as <-; exact N] | cbn; lia].
  Qed.

  Lemma shown_in l u d : shown diags l u = Some d -> In (u, d) l.
  Proof.
    induction l as [| [v x] l IH]; cbn; [intro X; discriminate X |].
    destruct (String.eqb_spec v u) as [-> |]; [intro X; injection X as ->; auto | auto].
  Qed.

  (** * Following a schedule *)

  Lemma reach_change es s s' u ts path m' :
    uri_path u = Some path -> store (contents (memo s)) path ts = m' ->
    fold_left stp es {| mem := {| contents := m';
                                  v_paths := v_paths (memo s); c_paths := c_paths (memo s) |};
                        tasks := tsk s ++ [(u, PRead)]; out := outs s |} = s' ->
    fold_left stp (Change u ts :: es) s = s'.
  Proof. intros U <- H. cbn [fold_left step]. unfold did_change. rewrite U. exact H. Qed.

  Lemma reach_step es s s' i u p m p' o :
    nth_error (tsk s) i = Some (u, p) -> adv (memo s) u p = (m, p', o) ->
    fold_left stp es {| mem := m; tasks := set_nth i (u, p') (tsk s);
                        out := match o with Some d => (u, d) :: outs s | None => outs s end |} = s' ->
    fold_left stp (Step i :: es) s = s'.
  Proof. intros N A H. cbn [fold_left step]. unfold task_step. rewrite N, A. exact H. Qed.
End P.
