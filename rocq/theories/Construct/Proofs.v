(** * Proofs about creating services *)

From Coq Require Import String List Bool Arith Lia.
From Verif.Construct Require Import Model Spec.
Import ListNotations.

Section Proofs.
Variables client resolver content module error : Type.
Variable empty : content.
Variable sha : content -> string.
Variable compile : content -> module + error.
Variable validate : string -> module -> option error.

Notation make_clients := (make_clients client error).
Notation make_plugins := (make_plugins content module error empty sha compile validate).
Notation new_plugin := (new_plugin content module error empty sha compile).
Notation readers := (readers content error).

Lemma some_spec : forall (A : Type) (l : list A), some l = true <-> l <> [].
Proof.
  intros A [ | x l]; cbn; split; intros H; try reflexivity; try discriminate; try congruence.
Qed.

Lemma none_spec : forall (A : Type) (o : option A), none o = true <-> o = None.
Proof. intros A [x | ]; cbn; split; congruence. Qed.

(** ** Clients *)

Lemma make_clients_done : forall f l t cs,
  make_clients f l = (t, inl cs) ->
  (l <> [] -> f <> None) /\
  (forall g, f = Some g ->
    Forall2 (fun x y => fst y = fst x /\ g (fst x) (snd x) = inl (snd y)) l cs) /\
  t = map (fun x => CreateClient (fst x) (snd x)) l.
Proof.
  intros f l. induction l as [ | [name svc] r IH]; intros t cs H; cbn in H.
  - injection H as <- <-. split; [congruence | ]. split; [constructor | reflexivity].
  - destruct f as [g | ]; [ | discriminate].
    destruct (g name svc) as [c | e] eqn:E; [ | discriminate].
    destruct (make_clients (Some g) r) as [t' [cs' | e]]; [ | discriminate].
    injection H as <- <-. destruct (IH t' cs' eq_refl) as [_ [F T]].
    split; [discriminate | ]. split; [ | rewrite T; reflexivity].
    intros g' [= <-]. constructor; [split; [reflexivity | exact E] | apply F; reflexivity].
Qed.

Lemma make_clients_total : forall g l,
  (forall n s, In (n, s) l -> exists c, g n s = inl c) ->
  exists t cs, make_clients (Some g) l = (t, inl cs).
Proof.
  intros g l. induction l as [ | [name svc] r IH]; intros H; cbn; [eauto | ].
  destruct (H name svc (or_introl eq_refl)) as [c E]. rewrite E.
  destruct IH as [t [cs E2]]; [intros n s Hn; apply H; right; exact Hn | ].
  rewrite E2. eauto.
Qed.

Lemma make_clients_fails : forall f l t e,
  make_clients f l = (t, inr e) -> (l <> [] -> f <> None) ->
  exists g n s x, f = Some g /\ In (n, s) l /\ g n s = inr x /\ e = External x.
Proof.
  intros f l. induction l as [ | [name svc] r IH]; intros t e H N; cbn in H; [discriminate | ].
  destruct f as [g | ]; [ | exfalso; apply N; [discriminate | reflexivity]].
  destruct (g name svc) as [c | x] eqn:E.
  - destruct (make_clients (Some g) r) as [t' [cs' | e']] eqn:M; [discriminate | ].
    injection H as _ <-. destruct (IH t' e' eq_refl) as [g' [n [s [x [Eg [I [F X]]]]]]];
      [discriminate | ]. exists g', n, s, x. split; [exact Eg | ]. split; [right; exact I | auto].
  - injection H as _ <-. exists g, name, svc, x. split; [reflexivity | ].
    split; [left; reflexivity | auto].
Qed.

Lemma make_clients_started : forall f l t r, make_clients f l = (t, r) -> started t = [].
Proof.
  intros f l. induction l as [ | [name svc] l IH]; intros t r H; cbn in H.
  - injection H as <- _. reflexivity.
  - destruct f as [g | ]; [ | injection H as <- _; reflexivity].
    destruct (g name svc) as [c | x]; [ | injection H as <- _; reflexivity].
    destruct (make_clients (Some g) l) as [t' [cs' | e']]; injection H as <- _;
      cbn; apply (IH t' _ eq_refl).
Qed.

Lemma make_clients_closed : forall f l t r, make_clients f l = (t, r) -> closed t = [].
Proof.
  intros f l. induction l as [ | [name svc] l IH]; intros t r H; cbn in H.
  - injection H as <- _. reflexivity.
  - destruct f as [g | ]; [ | injection H as <- _; reflexivity].
    destruct (g name svc) as [c | x]; [ | injection H as <- _; reflexivity].
    destruct (make_clients (Some g) l) as [t' [cs' | e']]; injection H as <- _;
      cbn; apply (IH t' _ eq_refl).
Qed.

(** ** Plugins *)

Lemma new_plugin_done : forall x w m w',
  new_plugin x w = (inl m, w') ->
  exists r b, w_reader x = Some r /\ w r = Holds b /\ w_sha x = sha b /\ compile b = inl m /\
    w' = fun r' => if r' =? r then Holds empty else w r'.
Proof.
  intros x w m w' H. unfold Model.new_plugin in H.
  destruct (w_reader x) as [r | ]; [ | discriminate]. unfold read_all in H.
  destruct (w r) as [b | e] eqn:Er; [ | discriminate].
  destruct (String.eqb (w_sha x) (sha b)) eqn:Es; [ | discriminate].
  destruct (compile b) as [m' | e] eqn:Ec; [ | discriminate].
  injection H as <- <-. apply String.eqb_eq in Es.
  exists r, b. repeat split; assumption.
Qed.

(** What a stream of the initial world is, seen later: the same, or read. *)
Definition later (w w' : readers) : Prop :=
  forall r, w' r = w r \/ ((exists b, w r = Holds b) /\ w' r = Holds empty).

Lemma later_refl : forall w, later w w.
Proof. intros w r. left. reflexivity. Qed.

Lemma later_trans : forall a b c, later a b -> later b c -> later a c.
Proof.
  intros a b c A B r. destruct (A r) as [A1 | [A1 A2]], (B r) as [B1 | [B1 B2]].
  - left. congruence.
  - right. split; [rewrite <- A1; exact B1 | exact B2].
  - right. split; [exact A1 | congruence].
  - right. split; assumption.
Qed.

Lemma new_plugin_later : forall x w res w', new_plugin x w = (res, w') -> later w w'.
Proof.
  intros x w res w' H. unfold Model.new_plugin in H.
  destruct (w_reader x) as [r | ]; [ | injection H as _ <-; apply later_refl].
  unfold read_all in H. destruct (w r) as [b | e] eqn:Er; [ | injection H as _ <-; apply later_refl].
  assert (L : later w (fun r' => if r' =? r then Holds empty else w r')).
  { intros r'. destruct (r' =? r) eqn:E; [ | left; reflexivity].
    apply Nat.eqb_eq in E. subst. right. split; [exists b; exact Er | reflexivity]. }
  destruct (String.eqb (w_sha x) (sha b)); [ | injection H as _ <-; exact L].
  destruct (compile b); injection H as _ <-; exact L.
Qed.

Lemma make_plugins_done : forall f l w t is w',
  make_plugins f l w = (t, inl is, w') ->
  (l <> [] -> f <> None) /\ map fst is = l /\ started t = l /\ closed t = [] /\
  forall g, f = Some g -> forall p m, In (p, m) is ->
    validate p m = None /\ exists b, w_sha (g p) = sha b /\ compile b = inl m.
Proof.
  intros f l. induction l as [ | p r IH]; intros w t is w' H; cbn in H.
  - injection H as <- <- _. split; [congruence | ]. repeat (split; [reflexivity | ]).
    intros g _ p m [].
  - destruct f as [g | ]; [ | discriminate].
    destruct (new_plugin (g p) w) as [[m | e] w1] eqn:E; [ | discriminate].
    destruct (validate p m) as [e | ] eqn:V; [discriminate | ].
    destruct (make_plugins (Some g) r w1) as [[t1 [is1 | e]] w2] eqn:M; [ | discriminate].
    injection H as <- <- _. destruct (IH _ _ _ _ M) as [_ [A [B [C D]]]].
    split; [discriminate | ]. cbn. rewrite A. split; [reflexivity | ].
    unfold started in B. rewrite B. split; [reflexivity | ]. split; [exact C | ].
    intros g' [= <-] q n [Hq | Hq]; [ | apply (D g eq_refl q n Hq)].
    injection Hq as <- <-. split; [exact V | ].
    destruct (new_plugin_done _ _ _ _ E) as [rd [b [_ [_ [S1 [C1 _]]]]]]. exists b. auto.
Qed.

Lemma make_plugins_total : forall g l w,
  (forall p, In p l -> exists m, usable sha compile validate w p (g p) m) ->
  (forall i j p q r, nth_error l i = Some p -> nth_error l j = Some q ->
     w_reader (g p) = Some r -> w_reader (g q) = Some r -> i = j) ->
  exists t is w', make_plugins (Some g) l w = (t, inl is, w').
Proof.
  intros g l. induction l as [ | p l IH]; intros w U N; cbn; [eauto | ].
  destruct (U p (or_introl eq_refl)) as [m [r [b [R [H [S1 [C V]]]]]]].
  unfold Model.new_plugin at 1. rewrite R. unfold read_all. rewrite H, S1, String.eqb_refl, C, V.
  destruct (IH (fun r' => if r' =? r then Holds empty else w r')) as [t [is [w' E]]].
  - intros q Hq. destruct (U q (or_intror Hq)) as [m' [r' [b' [R' [H' X]]]]].
    exists m', r', b'. split; [exact R' | ]. split; [ | exact X].
    destruct (r' =? r) eqn:E; [exfalso | exact H']. apply Nat.eqb_eq in E. subst r'.
    destruct (In_nth_error _ _ Hq) as [j Hj].
    discriminate (N 0 (S j) p q r eq_refl Hj R R').
  - intros i j q q' r' Hi Hj R1 R2.
    assert (X : S i = S j) by (apply (N (S i) (S j) q q' r'); assumption). lia.
  - rewrite E. eauto.
Qed.

(** Conversely. *)
Lemma make_plugins_usable : forall g l w0 w t is w',
  later w0 w ->
  make_plugins (Some g) l w = (t, inl is, w') ->
  (forall i j p q r, nth_error l i = Some p -> nth_error l j = Some q ->
     w_reader (g p) = Some r -> w_reader (g q) = Some r -> i = j) ->
  (forall p r, In p l -> w_reader (g p) = Some r -> w r = w0 r) ->
  forall p, In p l -> exists m, usable sha compile validate w0 p (g p) m.
Proof.
  intros g l w0. induction l as [ | p l IH]; intros w t is w' L H N Same q Hq; [destruct Hq | ].
  cbn in H. destruct (new_plugin (g p) w) as [[m | e] w1] eqn:E; [ | discriminate].
  destruct (validate p m) as [e | ] eqn:V; [discriminate | ].
  destruct (make_plugins (Some g) l w1) as [[t1 [is1 | e]] w2] eqn:M; [ | discriminate].
  destruct (new_plugin_done _ _ _ _ E) as [r [b [R [Hb [S1 [C Hw]]]]]].
  destruct Hq as [-> | Hq].
  - exists m, r, b. rewrite <- (Same q r (or_introl eq_refl) R). repeat split; assumption.
  - apply (IH w1 t1 is1 w2); try assumption.
    + eapply later_trans; [exact L | eapply new_plugin_later; exact E].
    + intros i j x y z Hi Hj R1 R2.
      assert (X : S i = S j) by (apply (N (S i) (S j) x y z); assumption). lia.
    + intros x z Hx Rx. rewrite Hw. destruct (z =? r) eqn:Ez.
      * exfalso. apply Nat.eqb_eq in Ez. subst z. destruct (In_nth_error _ _ Hx) as [j Hj].
        discriminate (N 0 (S j) p x r eq_refl Hj R Rx).
      * apply (Same x z (or_intror Hx) Rx).
Qed.

(** Where the error of a plugin comes from. *)
Definition plugin_error (g : string -> wasm) (l : list string) (w0 : readers) (e : failure error)
  : Prop :=
  match e with
  | ReaderRequired => exists p, In p l /\ w_reader (g p) = None
  | ContentMismatch got => exists p b, In p l /\ sha b = got /\ w_sha (g p) <> got
  | External x =>
      (exists p r, In p l /\ w_reader (g p) = Some r /\ w0 r = Broken x)
      \/ (exists p b, In p l /\ w_sha (g p) = sha b /\ compile b = inr x)
      \/ (exists p b m, In p l /\ w_sha (g p) = sha b /\ compile b = inl m /\
            validate p m = Some x)
  | _ => False
  end.

Lemma plugin_error_incl : forall g l l' w e, incl l l' ->
  plugin_error g l w e -> plugin_error g l' w e.
Proof.
  intros g l l' w e I H. destruct e as [ | | | | got | x | ]; cbn in *; try contradiction.
  - destruct H as [p [A B]]. exists p. auto.
  - destruct H as [p [b [A B]]]. exists p, b. auto.
  - destruct H as [[p [r [A B]]] | [[p [b [A B]]] | [p [b [m [A B]]]]]].
    + left. exists p, r. auto.
    + right. left. exists p, b. auto.
    + right. right. exists p, b, m. auto.
Qed.

Lemma new_plugin_fails : forall g p l w0 w e w', In p l -> later w0 w ->
  new_plugin (g p) w = (inr e, w') -> plugin_error g l w0 e.
Proof.
  intros g p l w0 w e w' Hp L H. unfold Model.new_plugin in H.
  destruct (w_reader (g p)) as [r | ] eqn:R; [ | injection H as <- _; exists p; auto].
  unfold read_all in H. destruct (w r) as [b | x] eqn:Er.
  - destruct (String.eqb (w_sha (g p)) (sha b)) eqn:Es.
    + destruct (compile b) as [m | x] eqn:C; [discriminate | ]. injection H as <- _.
      right. left. exists p, b. apply String.eqb_eq in Es. auto.
    + injection H as <- _. exists p, b. apply String.eqb_neq in Es. auto.
  - injection H as <- _. left. exists p, r. split; [exact Hp | ]. split; [exact R | ].
    destruct (L r) as [X | [_ X]]; congruence.
Qed.

Lemma make_plugins_fails : forall f l w0 w t e w', later w0 w ->
  make_plugins f l w = (t, inr e, w') -> (l <> [] -> f <> None) ->
  exists g, f = Some g /\ plugin_error g l w0 e.
Proof.
  intros f l w0. induction l as [ | p l IH]; intros w t e w' L H N; cbn in H; [discriminate | ].
  destruct f as [g | ]; [ | exfalso; apply N; [discriminate | reflexivity]].
  exists g. split; [reflexivity | ].
  destruct (new_plugin (g p) w) as [[m | x] w1] eqn:E.
  - destruct (validate p m) as [x | ] eqn:V.
    + injection H as _ <- _. right. right.
      destruct (new_plugin_done _ _ _ _ E) as [r [b [_ [_ [S1 [C _]]]]]].
      exists p, b, m. split; [left; reflexivity | ]. auto.
    + destruct (make_plugins (Some g) l w1) as [[t1 [is1 | x]] w2] eqn:M; [discriminate | ].
      injection H as _ <- _.
      destruct (IH w1 t1 x w2) as [g' [[= <-] P]];
        [eapply later_trans; [exact L | eapply new_plugin_later; exact E] | exact M
        | discriminate | ].
      eapply plugin_error_incl; [ | exact P]. intros y Hy. right. exact Hy.
  - injection H as _ <- _. eapply new_plugin_fails; [left; reflexivity | exact L | exact E].
Qed.

(** ** Construction *)

Variable env : option error.
Variable variables : service client resolver module error -> option error.
Notation config := (config client resolver error).
Notation new := (@new client resolver content module error empty sha compile validate env variables).

Lemma complete_checks : forall d (cfg : config),
  complete d cfg <->
  (some (d_clients d) && none (c_client cfg) = false /\
   d_customs d && none (c_resolver cfg) = false /\
   some (d_plugins d) && none (c_plugin cfg) = false).
Proof using.
  intros d cfg. unfold complete.
  destruct (d_clients d), (c_client cfg), (d_customs d), (c_resolver cfg), (d_plugins d),
    (c_plugin cfg); cbn; split; intros [A [B C]];
    try (repeat split; congruence); try discriminate;
    exfalso; try (apply A; [discriminate | reflexivity]);
    try (apply B; reflexivity); try (apply C; [discriminate | reflexivity]).
Qed.

Lemma new_complete : forall d (cfg : config) w t r w',
  complete d cfg -> new d cfg w = (t, r, w') ->
  (exists e t1, make_clients (c_client cfg) (d_clients d) = (t1, inr e) /\
     t = t1 /\ r = inr e /\ w' = w) \/
  (exists t1 cs t2 e, make_clients (c_client cfg) (d_clients d) = (t1, inl cs) /\
     make_plugins (c_plugin cfg) (d_plugins d) w = (t2, inr e, w') /\
     t = t1 ++ t2 /\ r = inr e) \/
  (exists t1 cs t2 is t3, make_clients (c_client cfg) (d_clients d) = (t1, inl cs) /\
     make_plugins (c_plugin cfg) (d_plugins d) w = (t2, inl is, w') /\
     t = t1 ++ t2 ++ t3 /\ started t3 = [] /\ closed t3 = [] /\
     ((d_env d = true /\ exists e, env = Some e /\ r = inr (External e)) \/
      ((d_env d = true -> env = None) /\
       exists svc, s_clients svc = cs /\ s_plugins svc = is /\
         s_resolver svc = (if d_customs d then c_resolver cfg else None) /\
         s_handler svc = match c_handler cfg with Some h => h | None => fun _ e => Some e end /\
         ((d_vars d = true /\ exists e, variables svc = Some e /\ r = inr (External e)) \/
          ((d_vars d = true -> variables svc = None) /\ r = inl svc))))).
Proof.
  intros d cfg w t r w' C H. apply complete_checks in C. destruct C as [C1 [C2 C3]].
  unfold Model.new in H. rewrite C1, C2, C3 in H.
  destruct (make_clients (c_client cfg) (d_clients d)) as [t1 [cs | e]].
  2: { injection H as <- <- <-. left. eauto 10. }
  destruct (make_plugins (c_plugin cfg) (d_plugins d) w) as [[t2 [is | e]] w1].
  2: { injection H as <- <- <-. right. left. eauto 10. }
  right. right. cbv zeta in H.
  set (svc := {| s_clients := cs;
                 s_resolver := if d_customs d then c_resolver cfg else None;
                 s_plugins := is;
                 s_handler := match c_handler cfg with
                              | Some h => h
                              | None => fun _ e => Some e
                              end;
                 s_config := cfg |}) in H.
  destruct (d_env d) eqn:De, env as [e | ] eqn:Ee.
  - injection H as <- <- <-. exists t1, cs, t2, is, [LoadEnv].
    repeat (split; [reflexivity | ]). left. split; [reflexivity | ].
    exists e. split; reflexivity.
  - destruct (d_vars d) eqn:Dv.
    + destruct (variables svc) as [e | ] eqn:V in H; injection H as <- <- <-;
        exists t1, cs, t2, is, [LoadEnv; InitVariables];
        repeat (split; [reflexivity | ]); right; (split; [reflexivity | ]); exists svc;
        repeat (split; [reflexivity | ]).
      * left. split; [reflexivity | ]. exists e. split; [exact V | reflexivity].
      * right. split; [intros _; exact V | reflexivity].
    + injection H as <- <- <-. exists t1, cs, t2, is, [LoadEnv].
      repeat (split; [reflexivity | ]); right; (split; [reflexivity | ]); exists svc;
        repeat (split; [reflexivity | ]).
      right. split; [discriminate | reflexivity].
  - destruct (d_vars d) eqn:Dv.
    + destruct (variables svc) as [e' | ] eqn:V in H; injection H as <- <- <-;
        exists t1, cs, t2, is, [InitVariables];
        repeat (split; [reflexivity | ]); right; (split; [discriminate | ]); exists svc;
        repeat (split; [reflexivity | ]).
      * left. split; [reflexivity | ]. exists e'. split; [exact V | reflexivity].
      * right. split; [intros _; exact V | reflexivity].
    + injection H as <- <- <-. exists t1, cs, t2, is, [].
      repeat (split; [reflexivity | ]); right; (split; [discriminate | ]); exists svc;
        repeat (split; [reflexivity | ]).
      right. split; [discriminate | reflexivity].
  - destruct (d_vars d) eqn:Dv.
    + destruct (variables svc) as [e' | ] eqn:V in H; injection H as <- <- <-;
        exists t1, cs, t2, is, [InitVariables];
        repeat (split; [reflexivity | ]); right; (split; [reflexivity | ]); exists svc;
        repeat (split; [reflexivity | ]).
      * left. split; [reflexivity | ]. exists e'. split; [exact V | reflexivity].
      * right. split; [intros _; exact V | reflexivity].
    + injection H as <- <- <-. exists t1, cs, t2, is, [].
      repeat (split; [reflexivity | ]); right; (split; [reflexivity | ]); exists svc;
        repeat (split; [reflexivity | ]).
      right. split; [discriminate | reflexivity].
Qed.

Lemma new_incomplete : forall d (cfg : config) w,
  ~ complete d cfg ->
  exists e, new d cfg w = ([], inr e, w) /\
    ((e = ErrClientConfig /\ d_clients d <> [] /\ c_client cfg = None) \/
     (e = ErrResolverConfig /\ d_customs d = true /\ c_resolver cfg = None) \/
     (e = ErrCELPluginConfig /\ d_plugins d <> [] /\ c_plugin cfg = None)).
Proof.
  intros d cfg w N. unfold Model.new.
  destruct (some (d_clients d) && none (c_client cfg)) eqn:C1.
  { apply andb_true_iff in C1. destruct C1 as [A B].
    apply some_spec in A. apply none_spec in B. eexists. split; [reflexivity | ]. left. auto. }
  destruct (d_customs d && none (c_resolver cfg)) eqn:C2.
  { apply andb_true_iff in C2. destruct C2 as [A B].
    apply none_spec in B. eexists. split; [reflexivity | ]. right. left. auto. }
  destruct (some (d_plugins d) && none (c_plugin cfg)) eqn:C3.
  { apply andb_true_iff in C3. destruct C3 as [A B].
    apply some_spec in A. apply none_spec in B. eexists. split; [reflexivity | ]. right. right. auto. }
  exfalso. apply N, complete_checks. auto.
Qed.

Lemma complete_dec : forall d (cfg : config), complete d cfg \/ ~ complete d cfg.
Proof using.
  intros d cfg. rewrite complete_checks.
  destruct (some (d_clients d) && none (c_client cfg)), (d_customs d && none (c_resolver cfg)),
    (some (d_plugins d) && none (c_plugin cfg));
    first [left; repeat split; reflexivity | right; intros [A [B C]]; discriminate].
Qed.

End Proofs.
