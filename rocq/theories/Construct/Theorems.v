(** * Creating and cleaning up a service: theorems *)

From Coq Require Import String List Bool Arith Lia.
From Verif.Construct Require Import Model Spec Proofs.
Import ListNotations.
Local Open Scope string_scope.

Section Theorems.
Variables client resolver content module error : Type.
Variable empty : content.
Variable sha : content -> string.
Variable compile : content -> module + error.
Variable validate : string -> module -> option error.
Variable env : option error.
Variable variables : service client resolver module error -> option error.
Notation config := (config client resolver error).
Notation readers := (readers content error).
Notation new := (@new client resolver content module error empty sha compile validate env variables).

(** ** C44: an incomplete configuration is rejected, a created service is whole *)

(** A configuration with a part missing is rejected with the error naming a missing
    part, before anything has happened. *)
Theorem C44_incomplete_rejected : forall d (cfg : config) (w : readers),
  ~ complete d cfg ->
  exists e, new d cfg w = ([], inr e, w) /\
    ((e = ErrClientConfig /\ d_clients d <> [] /\ c_client cfg = None) \/
     (e = ErrResolverConfig /\ d_customs d = true /\ c_resolver cfg = None) \/
     (e = ErrCELPluginConfig /\ d_plugins d <> [] /\ c_plugin cfg = None)).
Proof. intros d cfg w. apply new_incomplete. Qed.

(** A created service has a client for every service it calls, made by the
    configured factory; the configured resolver; an instance of every plugin, valid
    and of the file with the configured digest; and the configured error handler,
    or one that returns the error unchanged. *)
Theorem C44_created_is_whole : forall d (cfg : config) (w : readers) t svc w',
  new d cfg w = (t, inl svc, w') ->
  complete d cfg /\
  (forall f, c_client cfg = Some f ->
     Forall2 (fun x y => fst y = fst x /\ f (fst x) (snd x) = inl (snd y))
             (d_clients d) (s_clients svc)) /\
  (d_customs d = true -> exists r, c_resolver cfg = Some r /\ s_resolver svc = Some r) /\
  map fst (s_plugins svc) = d_plugins d /\
  (forall f, c_plugin cfg = Some f -> forall p m, In (p, m) (s_plugins svc) ->
     validate p m = None /\ exists b, w_sha (f p) = sha b /\ compile b = inl m) /\
  (d_env d = true -> env = None) /\
  (d_vars d = true -> variables svc = None) /\
  (forall h, c_handler cfg = Some h -> s_handler svc = h) /\
  (c_handler cfg = None -> forall method e, s_handler svc method e = Some e).
Proof.
  intros d cfg w t svc w' H.
  destruct (complete_dec _ _ _ d cfg) as [C | C].
  2: { destruct (C44_incomplete_rejected d cfg w C) as [e [E _]]. congruence. }
  split; [exact C | ].
  destruct (new_complete _ _ _ _ _ _ _ _ _ _ _ _ _ _ _ _ _ C H)
    as [[e [t1 [_ [_ [E _]]]]] | [[t1 [cs [t2 [e [_ [_ [_ E]]]]]]] |
        [t1 [cs [t2 [is [t3 [Ec [Ep [_ [_ [_ X]]]]]]]]]]]]; try discriminate E.
  destruct X as [[_ [e [_ E]]] | [Henv [svc' [S1 [S2 [S3 [S4 X]]]]]]]; [discriminate E | ].
  destruct X as [[_ [e [_ E]]] | [Hv E]]; [discriminate E | ]. injection E as <-.
  destruct (make_clients_done _ _ _ _ _ _ Ec) as [_ [F _]].
  destruct (make_plugins_done _ _ _ _ _ _ _ _ _ _ _ _ _ Ep) as [_ [P1 [_ [_ P2]]]].
  rewrite S1, S2, S3, S4. split; [exact F | ]. split.
  { intros D. rewrite D. destruct C as [_ [C _]]. specialize (C D).
    destruct (c_resolver cfg) as [r | ]; [eauto | congruence]. }
  split; [exact P1 | ]. split; [exact P2 | ]. split; [exact Henv | ]. split; [exact Hv | ]. split.
  - intros h ->. reflexivity.
  - intros ->. reflexivity.
Qed.

(** Nothing else is needed: a complete configuration whose parts work creates a
    service. *)
Theorem C44_complete_creates : forall d (cfg : config) (w : readers),
  complete d cfg ->
  (forall f, c_client cfg = Some f -> forall n s, In (n, s) (d_clients d) ->
     exists c, f n s = inl c) ->
  (forall f, c_plugin cfg = Some f ->
     own_readers d f /\
     forall p, In p (d_plugins d) -> exists m, usable sha compile validate w p (f p) m) ->
  (d_env d = true -> env = None) ->
  (d_vars d = true -> forall svc, variables svc = None) ->
  exists t svc w', new d cfg w = (t, inl svc, w').
Proof.
  intros d cfg w C Fc Fp He Hv.
  assert (Ec : exists t1 cs, make_clients client error (c_client cfg) (d_clients d) = (t1, inl cs)).
  { destruct (c_client cfg) as [f | ] eqn:E.
    - apply make_clients_total. apply (Fc f eq_refl).
    - destruct C as [C _]. destruct (d_clients d) as [ | x l]; [cbn; eauto | exfalso].
      apply C; [discriminate | exact E]. }
  assert (Ep : exists t2 is w',
    make_plugins content module error empty sha compile validate (c_plugin cfg) (d_plugins d) w
    = (t2, inl is, w')).
  { destruct (c_plugin cfg) as [f | ] eqn:E.
    - destruct (Fp f eq_refl) as [N U]. apply make_plugins_total; [exact U | exact N].
    - destruct C as [_ [_ C]]. destruct (d_plugins d) as [ | x l]; [cbn; eauto | exfalso].
      apply C; [discriminate | exact E]. }
  destruct Ec as [t1 [cs Ec]], Ep as [t2 [is [w1 Ep]]].
  destruct (new d cfg w) as [[t r] w'] eqn:H.
  destruct (new_complete _ _ _ _ _ _ _ _ _ _ _ _ _ _ _ _ _ C H)
    as [[e [t1' [X _]]] | [[t1' [cs' [t2' [e [_ [X _]]]]]] |
        [t1' [cs' [t2' [is' [t3 [_ [_ [_ [_ [_ X]]]]]]]]]]]]; try congruence.
  destruct X as [[D [e [E _]]] | [_ [svc [_ [_ [_ [_ X]]]]]]].
  { rewrite (He D) in E. discriminate E. }
  destruct X as [[D [e [E _]]] | [_ E]].
  { rewrite (Hv D svc) in E. discriminate E. }
  subst r. eauto.
Qed.

(** Conversely, each part of a created service has worked. *)
Theorem C44_created_only_if_usable : forall d (cfg : config) (w : readers) t svc w',
  new d cfg w = (t, inl svc, w') ->
  forall f, c_plugin cfg = Some f -> own_readers d f ->
  forall p, In p (d_plugins d) -> exists m, usable sha compile validate w p (f p) m.
Proof.
  intros d cfg w t svc w' H f Ef N.
  destruct (C44_created_is_whole d cfg w t svc w' H) as [C _].
  destruct (new_complete _ _ _ _ _ _ _ _ _ _ _ _ _ _ _ _ _ C H)
    as [[e [t1 [_ [_ [E _]]]]] | [[t1 [cs [t2 [e [_ [_ [_ E]]]]]]] |
        [t1 [cs [t2 [is [t3 [_ [Ep _]]]]]]]]]; try discriminate E.
  rewrite Ef in Ep. eapply make_plugins_usable; [apply later_refl | exact Ep | exact N | ].
  intros p r _ _. reflexivity.
Qed.

(** The error of a failed construction is the error of a part that failed; nothing
    is dereferenced that is not there. *)
Theorem C44_error_is_of_a_part : forall d (cfg : config) (w : readers) t e w',
  complete d cfg -> new d cfg w = (t, inr e, w') ->
  (exists f n s x, c_client cfg = Some f /\ In (n, s) (d_clients d) /\ f n s = inr x /\
     e = External x) \/
  (exists f p, c_plugin cfg = Some f /\ In p (d_plugins d) /\
     ((w_reader (f p) = None /\ e = ReaderRequired) \/
      (exists b, w_sha (f p) <> sha b /\ e = ContentMismatch (sha b)) \/
      (exists r x, w_reader (f p) = Some r /\ w r = Broken x /\ e = External x) \/
      (exists b x, w_sha (f p) = sha b /\ compile b = inr x /\ e = External x) \/
      (exists b m x, w_sha (f p) = sha b /\ compile b = inl m /\ validate p m = Some x /\
         e = External x))) \/
  (d_env d = true /\ exists x, env = Some x /\ e = External x) \/
  (d_vars d = true /\ exists svc x, variables svc = Some x /\ e = External x).
Proof.
  intros d cfg w t e w' C H.
  destruct (new_complete _ _ _ _ _ _ _ _ _ _ _ _ _ _ _ _ _ C H)
    as [[e' [t1 [X [_ [E _]]]]] | [[t1 [cs [t2 [e' [_ [X [_ E]]]]]]] |
        [t1 [cs [t2 [is [t3 [_ [_ [_ [_ [_ X]]]]]]]]]]]].
  - injection E as <-. left. destruct C as [C _].
    apply (make_clients_fails _ _ _ _ _ _ X C).
  - injection E as <-. right. left. destruct C as [_ [_ C]].
    destruct (make_plugins_fails _ _ _ _ _ _ _ _ _ w _ _ _ _ (later_refl _ _ _ w) X C)
      as [f [Ef P]].
    exists f. destruct e as [ | | | | got | x | ]; cbn in P; try contradiction.
    + destruct P as [p [I N]]. exists p. auto 10.
    + destruct P as [p [b [I [S1 N]]]]. exists p. split; [exact Ef | split; [exact I | ]].
      right. left. exists b. subst got. auto.
    + destruct P as [[p [r [I P]]] | [[p [b [I P]]] | [p [b [m [I P]]]]]]; exists p;
        (split; [exact Ef | split; [exact I | ]]).
      * right. right. left. exists r, x. destruct P. auto.
      * right. right. right. left. exists b, x. destruct P. auto.
      * right. right. right. right. exists b, m, x. destruct P as [A [B D]]. auto.
  - right. right. destruct X as [[D [x [A B]]] | [_ [svc [_ [_ [_ [_ X]]]]]]].
    + left. split; [exact D | ]. exists x. injection B as ->. auto.
    + destruct X as [[D [x [A B]]] | [_ B]]; [ | discriminate B].
      right. split; [exact D | ]. exists svc, x. injection B as ->. auto.
Qed.

(** ** C55: plugins that were started are closed *)

(** Cleaning up a created service closes every plugin its construction started,
    once each. *)
Theorem C55_cleanup_closes_started : forall d (cfg : config) (w : readers) t svc w',
  new d cfg w = (t, inl svc, w') ->
  started t = d_plugins d /\ closed t = [] /\ closed (cleanup svc) = started t.
Proof.
  intros d cfg w t svc w' H.
  destruct (C44_created_is_whole d cfg w t svc w' H) as [C [_ [_ [P _]]]].
  assert (X : started t = d_plugins d /\ closed t = []).
  { destruct (new_complete _ _ _ _ _ _ _ _ _ _ _ _ _ _ _ _ _ C H)
      as [[e [t1 [_ [_ [E _]]]]] | [[t1 [cs [t2 [e [_ [_ [_ E]]]]]]] |
          [t1 [cs [t2 [is [t3 [Ec [Ep [E [S3 [C3 _]]]]]]]]]]]]; try discriminate E.
    subst t. unfold started, closed. rewrite !flat_map_app.
    pose proof (make_clients_started _ _ _ _ _ _ Ec) as A1.
    pose proof (make_clients_closed _ _ _ _ _ _ Ec) as A2.
    destruct (make_plugins_done _ _ _ _ _ _ _ _ _ _ _ _ _ Ep) as [_ [_ [B1 [B2 _]]]].
    unfold started, closed in *. rewrite A1, A2, B1, B2, S3, C3, app_nil_r. split; reflexivity. }
  destruct X as [X1 X2]. split; [exact X1 | ]. split; [exact X2 | ].
  rewrite X1, <- P. unfold closed, cleanup. clear.
  induction (s_plugins svc) as [ | i l IH]; [reflexivity | ]. cbn. rewrite IH. reflexivity.
Qed.

(** A construction that fails before the plugins' turn has started none. *)
Theorem C55_failed_early_starts_nothing_partial : forall d (cfg : config) (w : readers) t e w',
  new d cfg w = (t, inr e, w') ->
  ~ complete d cfg \/
  (exists f n s x, c_client cfg = Some f /\ In (n, s) (d_clients d) /\ f n s = inr x) ->
  started t = [].
Proof.
  intros d cfg w t e w' H D.
  destruct (complete_dec _ _ _ d cfg) as [C | C].
  2: { destruct (C44_incomplete_rejected d cfg w C) as [e' [E _]]. rewrite E in H.
       injection H as <- _ _. reflexivity. }
  destruct D as [D | [f [n [s [x [Ef [I X]]]]]]]; [contradiction | ].
  destruct (new_complete _ _ _ _ _ _ _ _ _ _ _ _ _ _ _ _ _ C H)
    as [[e' [t1 [Y [E _]]]] | [[t1 [cs [t2 [e' [Y _]]]]] |
        [t1 [cs [t2 [is [t3 [Y _]]]]]]]].
  - subst t. eapply make_clients_started; exact Y.
  - destruct (make_clients_done _ _ _ _ _ _ Y) as [_ [F _]]. specialize (F f Ef).
    exfalso. clear - F I X. induction F as [ | a b l l' [_ A] F IH]; [destruct I | ].
    destruct I as [-> | I]; [cbn in A; congruence | apply IH, I].
  - destruct (make_clients_done _ _ _ _ _ _ Y) as [_ [F _]]. specialize (F f Ef).
    exfalso. clear - F I X. induction F as [ | a b l l' [_ A] F IH]; [destruct I | ].
    destruct I as [-> | I]; [cbn in A; congruence | apply IH, I].
Qed.

End Theorems.

Print Assumptions C44_incomplete_rejected.
Print Assumptions C44_created_is_whole.
Print Assumptions C44_complete_creates.
Print Assumptions C44_created_only_if_usable.
Print Assumptions C44_error_is_of_a_part.
Print Assumptions C55_cleanup_closes_started.
Print Assumptions C55_failed_early_starts_nothing_partial.

(** ** A world *)

(** Files and modules are strings, a file is its own digest, the empty file does not
    compile, and a module "bad" is invalid. *)
Definition toy_compile (b : string) : string + nat :=
  if String.eqb b "" then inr 1 else inl b.
Definition toy_validate (p m : string) : option nat :=
  if String.eqb m "bad" then Some 2 else None.
Definition toy_new := @new nat nat string string nat "" (fun b => b) toy_compile toy_validate
  None (fun _ => None).

Definition toy_decl : decl :=
  {| d_clients := [("Post_PostServiceClient", "post.PostService");
                   ("User_UserServiceClient", "user.UserService")];
     d_customs := true; d_plugins := ["math"; "regexp"]; d_env := true; d_vars := true |}.

Definition toy_config (second : string) : config nat nat nat :=
  {| c_client := Some (fun n s => inl (String.length s));
     c_resolver := Some 7;
     c_plugin := Some (fun p => if String.eqb p "math"
                                then {| w_reader := Some 0; w_sha := "math.wasm" |}
                                else {| w_reader := Some 1; w_sha := second |});
     c_handler := None |}.

Definition toy_world : readers string nat :=
  fun r => match r with 0 => Holds "math.wasm" | 1 => Holds "regexp.wasm" | _ => Broken 3 end.

Example C44_sample : exists svc w',
  toy_new toy_decl (toy_config "regexp.wasm") toy_world =
  ([CreateClient "Post_PostServiceClient" "post.PostService";
    CreateClient "User_UserServiceClient" "user.UserService";
    Start "math"; Validate "math"; Start "regexp"; Validate "regexp"; LoadEnv; InitVariables],
   inl svc, w')
  /\ s_clients svc = [("Post_PostServiceClient", 16); ("User_UserServiceClient", 16)]
  /\ complete toy_decl (toy_config "regexp.wasm").
Proof.
  eexists _, _. split; [reflexivity | ]. split; [reflexivity | ].
  repeat split; discriminate.
Qed.

Example C44_complete_creates_sample :
  complete toy_decl (toy_config "regexp.wasm")
  /\ (forall f, c_client (toy_config "regexp.wasm") = Some f -> forall n s,
        In (n, s) (d_clients toy_decl) -> exists c, f n s = inl c)
  /\ (forall f, c_plugin (toy_config "regexp.wasm") = Some f ->
        own_readers toy_decl f /\
        forall p, In p (d_plugins toy_decl) -> exists m,
          usable (fun b => b) toy_compile toy_validate toy_world p (f p) m).
Proof.
  split; [repeat split; discriminate | ]. split.
  - intros f [= <-] n s _. eauto.
  - intros f [= <-]. split.
    + intros [ | [ | i]] [ | [ | j]] p q r Hi Hj; cbn in Hi, Hj;
        repeat match goal with
        | H : Some _ = Some _ |- _ => injection H as <-
        | H : nth_error [] ?k = Some _ |- _ => destruct k; discriminate H
        end; cbn; intros H1 H2; try reflexivity; congruence.
    + intros p [<- | [<- | []]]; eexists; eexists _, _; repeat (split; [reflexivity | ]);
        reflexivity.
Qed.

Example C44_incomplete_sample :
  let cfg : config nat nat nat :=
    {| c_client := c_client (toy_config ""); c_resolver := None;
       c_plugin := c_plugin (toy_config ""); c_handler := None |} in
  ~ complete toy_decl cfg.
Proof. intros cfg [_ [H _]]. apply H; reflexivity. Qed.

(** A failed construction leaves nothing running... *)
Definition C55_statement : Prop :=
  forall client resolver content module error (empty : content) sha
    (compile : content -> module + error) validate env variables d cfg w t e w',
  @new client resolver content module error empty sha compile validate env variables d cfg w
    = (t, inr e, w') ->
  forall p, In p (started t) -> In p (closed t).

(** ... is false: when the second plugin cannot be loaded, the first goes on running. *)
Theorem C55_statement_refuted : ~ C55_statement.
Proof.
  intros H.
  destruct (toy_new toy_decl (toy_config "other.wasm") toy_world) as [[t r] w'] eqn:E.
  assert (X : t = [CreateClient "Post_PostServiceClient" "post.PostService";
                   CreateClient "User_UserServiceClient" "user.UserService";
                   Start "math"; Validate "math"] /\ r = inr (ContentMismatch "regexp.wasm")).
  { unfold toy_new in E. cbn in E. injection E as <- <- _. split; reflexivity. }
  destruct X as [-> ->].
  apply (H _ _ _ _ _ _ _ _ _ _ _ _ _ _ _ _ _ E "math"). left. reflexivity.
Qed.
Print Assumptions C55_statement_refuted.

(** A plugin that is started but not valid is left running, too. *)
Theorem C55_invalid_plugin_refuted :
  let w : readers string nat := fun _ => Holds "bad" in
  let cfg : config nat nat nat :=
    {| c_client := None; c_resolver := None;
       c_plugin := Some (fun _ => {| w_reader := Some 0; w_sha := "bad" |}); c_handler := None |} in
  let d := {| d_clients := []; d_customs := false; d_plugins := ["math"]; d_env := false;
              d_vars := false |} in
  exists w', toy_new d cfg w = ([Start "math"; Validate "math"], inr (External 2), w').
Proof. eexists. reflexivity. Qed.
Print Assumptions C55_invalid_plugin_refuted.

(** A configuration can be used only once: its readers have been read.  So "a
    configuration that has created a service creates another" is false. *)
Theorem C44_second_construction_refuted :
  exists t svc w', toy_new toy_decl (toy_config "regexp.wasm") toy_world = (t, inl svc, w') /\
  exists t' w'', toy_new toy_decl (toy_config "regexp.wasm") w'
                 = (t', inr (ContentMismatch ""), w'').
Proof.
  eexists _, _, _. split; [reflexivity | ]. eexists _, _. reflexivity.
Qed.
Print Assumptions C44_second_construction_refuted.
