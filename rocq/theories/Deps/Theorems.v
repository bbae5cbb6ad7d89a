(** * What a federation service depends on: theorems *)

From Coq Require Import List Arith Bool Lia Sorted.
From Verif.Deps Require Import Model Spec Proofs.
Import ListNotations.

(** ** A schema

    Message 0 is a request; message 1 is the response: it calls service 5, whose
    error rule makes message 2 and calls service 6, and makes message 3, which
    calls service 7 and has a custom resolver for its second field. *)
Definition sample : schema :=
  {| sc_messages :=
       [ {| ms_rule := false; ms_custom := false; ms_defs := []; ms_fields := [] |};
         {| ms_rule := true; ms_custom := false;
            ms_defs := [Def 0 (XCall 5 [Err [Def 1 (XMessage 2)]
                                            [Detail [] [Def 2 (XCall 6 [])]]]);
                        Def 3 (XMap 3); Def 4 XOther];
            ms_fields := [] |};
         {| ms_rule := true; ms_custom := true; ms_defs := [Def 5 (XCall 5 [])];
            ms_fields := [] |};
         {| ms_rule := true; ms_custom := false; ms_defs := [Def 6 (XCall 7 [])];
            ms_fields := [{| fd_rule := false; fd_custom := false; fd_defs := [] |};
                          {| fd_rule := true; fd_custom := true; fd_defs := [] |}] |} ];
     sc_services := [] |}.

Definition sample_service : service :=
  {| sv_methods := [{| mt_request := 0; mt_response := 1; mt_custom := None |}];
     sv_vars := [] |}.

Example sample_dependencies : service_dependencies sample sample_service = Some [5; 6; 7].
Proof. reflexivity. Qed.

Example sample_customs : service_customs sample 4 sample_service = Done [(2, None); (3, Some 1)].
Proof. reflexivity. Qed.

Example sample_messages : service_messages sample 4 sample_service = Done [1; 2; 3].
Proof. reflexivity. Qed.

(** Deciding the conditions on a concrete schema. *)
Definition all_of (s : schema) : list (nat * def) :=
  flat_map (fun m => map (pair m) (all_defs (msg s m))) (seq 0 (length (sc_messages s))).

Lemma all_of_in : forall s m d, In d (all_defs (msg s m)) -> In (m, d) (all_of s).
Proof.
  intros s m d H. unfold all_of. apply in_flat_map. exists m. split.
  - apply in_seq. split; [lia | ]. cbn.
    destruct (lt_dec m (length (sc_messages s))) as [L | L]; [exact L | exfalso].
    unfold msg in H. rewrite nth_overflow in H by lia. destruct H.
  - apply in_map, H.
Qed.

(** An error rule of a definition of a definition: none in the sample. *)
Definition rules (d : def) : list error :=
  match expr_of d with XCall _ errs => errs | XValidation e => [e] | _ => [] end.

Lemma rules_spec : forall d e, error_rule d e -> In e (rules d).
Proof. intros d e H. inversion H; subst; cbn; auto. Qed.

Definition shallow_b (s : schema) : bool :=
  forallb (fun m =>
    let ds := ms_defs (msg s m) in
    let os := flat_map fd_defs (ms_fields (msg s m)) in
    forallb (fun d => forallb (fun e => forallb (fun d' =>
      forallb (fun e' => match error_defs e' with [] => true | _ => false end) (rules d'))
      (error_defs e)) (rules d)) ds
    && forallb (fun d => forallb (fun e => match error_defs e with [] => true | _ => false end)
                                 (rules d)) os)
    (seq 0 (length (sc_messages s))).

Lemma shallow_b_spec : forall s, shallow_b s = true -> shallow s.
Proof.
  intros s H m d e d' D Hr Hb. unfold shallow_b in H. rewrite forallb_forall in H.
  assert (L : m < length (sc_messages s)) by (eapply ruled_bound, defines_rule; exact D).
  specialize (H m). rewrite in_seq in H. specialize (H (conj (Nat.le_0_l m) L)).
  cbv zeta in H. apply andb_true_iff in H. destruct H as [H1 H2].
  rewrite forallb_forall in H1, H2.
  apply rules_spec in Hr. apply error_defs_spec in Hb.
  inversion D as [? R I | f ? R If Rf I]; subst.
  - split; [exact I | ]. specialize (H1 d I). rewrite forallb_forall in H1.
    specialize (H1 e Hr). rewrite forallb_forall in H1. specialize (H1 d' Hb).
    rewrite forallb_forall in H1. intros e' d'' Hr' Hb'.
    apply rules_spec in Hr'. apply error_defs_spec in Hb'. specialize (H1 e' Hr').
    destruct (error_defs e'); [destruct Hb' | discriminate H1].
  - exfalso. assert (X : In d (flat_map fd_defs (ms_fields (msg s m))))
      by (apply in_flat_map; exists f; split; assumption).
    specialize (H2 d X). rewrite forallb_forall in H2. specialize (H2 e Hr).
    destruct (error_defs e); [destruct Hb | discriminate H2].
Qed.

Definition addresses_b (s : schema) : bool :=
  (fix go (l : list nat) : bool :=
     match l with [] => true | x :: r => negb (seen x r) && go r end)
    (map (fun p => addr_of (snd p)) (all_of s)).

Lemma addresses_b_spec : forall s, shallow s -> addresses_b s = true -> addresses s.
Proof.
  intros s Sh H. unfold addresses_b in H.
  assert (G : forall l : list (nat * def),
    (fix go (l : list nat) : bool :=
       match l with [] => true | x :: r => negb (seen x r) && go r end)
      (map (fun p => addr_of (snd p)) l) = true ->
    forall p q, In p l -> In q l -> addr_of (snd p) = addr_of (snd q) -> p = q).
  { induction l as [ | x r IH]; intros Hg p q Hp Hq E; [destruct Hp | ].
    cbn in Hg. apply andb_true_iff in Hg. destruct Hg as [N Hg].
    apply negb_true_iff in N.
    assert (X : forall y, In y r -> addr_of (snd x) <> addr_of (snd y)).
    { intros y Hy Ey. assert (Z : In (addr_of (snd x)) (map (fun p => addr_of (snd p)) r)).
      { rewrite Ey. apply (in_map (fun p => addr_of (snd p))), Hy. }
      apply seen_spec in Z. congruence. }
    destruct Hp as [-> | Hp], Hq as [-> | Hq].
    - reflexivity.
    - exfalso. apply (X q Hq E).
    - exfalso. apply (X p Hp). symmetry. exact E.
    - apply IH; assumption. }
  intros m m' d d' Hd Hd' E.
  apply (has_all_defs s m d Sh), all_of_in in Hd.
  apply (has_all_defs s m' d' Sh), all_of_in in Hd'.
  pose proof (G (all_of s) H (m, d) (m', d') Hd Hd' E) as Q. congruence.
Qed.

Definition acyclic_b (s : schema) (rank : nat -> nat) : bool :=
  forallb (fun m => forallb (fun c => rank c <? rank m) (children s m))
          (seq 0 (length (sc_messages s))).

Lemma acyclic_b_spec : forall s rank, acyclic_b s rank = true -> acyclic s.
Proof.
  intros s rank H. exists rank. intros m d m' Hd C. unfold acyclic_b in H.
  rewrite forallb_forall in H.
  assert (L : m < length (sc_messages s)).
  { destruct Hd as [d0 [D _]]. eapply ruled_bound, defines_rule; exact D. }
  specialize (H m). rewrite in_seq in H. specialize (H (conj (Nat.le_0_l m) L)).
  rewrite forallb_forall in H. apply Nat.ltb_lt, H, children_spec. exists d. split; assumption.
Qed.

Example sample_shallow : shallow sample.
Proof. apply shallow_b_spec. reflexivity. Qed.

Example sample_addresses : addresses sample.
Proof. apply addresses_b_spec; [exact sample_shallow | reflexivity]. Qed.

Example sample_acyclic : acyclic sample.
Proof. apply (acyclic_b_spec _ (fun m => 10 - m)). reflexivity. Qed.

(** ** C52: the clients a service asks for *)

(** For every service: the clients asked for are the services its messages call. *)
Definition C52_statement : Prop := forall s sv l,
  addresses s -> acyclic s -> service_dependencies s sv = Some l ->
  forall c, In c l <-> needs_client s sv c.

(** The search ends for every schema, and each client is asked for once, in a fixed
    order. *)
Theorem C52_each_client_once : forall s sv,
  exists l, service_dependencies s sv = Some l /\ StronglySorted lt l /\ NoDup l.
Proof.
  intros s sv. destruct (service_dependencies_total s sv) as [l E]. exists l.
  split; [exact E | ].
  assert (I : increasing l).
  { unfold service_dependencies in E.
    destruct (all_some (fun m => depend_services s (mt_response m)) (sv_methods sv));
      [ | discriminate]. injection E as <-. apply to_set_increasing. }
  split; [ | apply increasing_nodup, I].
  clear E. induction l as [ | x r IH]; constructor.
  - apply IH, I.
  - apply Forall_forall. apply I.
Qed.
Print Assumptions C52_each_client_once.

(** Without nested error rules, the clients asked for are exactly those of the
    calls in messages made from the declared responses. *)
Theorem C52_clients_of_declared_responses : forall s sv l c,
  addresses s -> shallow s -> service_dependencies s sv = Some l ->
  (In c l <-> exists mt m d, In mt (sv_methods sv) /\ made_from s (mt_response mt) m /\
                has_definition s m d /\ calls d c).
Proof.
  intros s sv l c A Sh E. rewrite (service_dependencies_spec s sv l c A E). split.
  - intros [mt [d [d' [Hm [Hd [P C]]]]]].
    destruct (path_made s d d' _ P Hd) as [m [M H]].
    exists mt, m, d'. repeat split; assumption.
  - intros [mt [m [d' [Hm [M [Hd C]]]]]].
    destruct (made_path s _ m d' Sh M Hd) as [d [Hd' P]].
    exists mt, d, d'. repeat split; assumption.
Qed.
Print Assumptions C52_clients_of_declared_responses.

(** The property for services without custom responses and without messages in
    service variables, in schemas without nested error rules.  Missing: all three,
    for which it is false. *)
Theorem C52_clients_partial : forall s sv l c,
  addresses s -> shallow s -> service_dependencies s sv = Some l ->
  (forall mt, In mt (sv_methods sv) -> mt_custom mt = None) -> sv_vars sv = [] ->
  (In c l <-> needs_client s sv c).
Proof.
  intros s sv l c A Sh E Nc Nv.
  rewrite (C52_clients_of_declared_responses s sv l c A Sh E). split.
  - intros [mt [m [d [Hm [M H]]]]]. exists m, d. split; [ | exact H].
    exists (mt_response mt). split; [ | exact M]. left. exists mt.
    split; [exact Hm | rewrite (Nc mt Hm); reflexivity].
  - intros [m [d [[m0 [[[mt [Hm E0]] | Hv] M]] H]]].
    + rewrite (Nc mt Hm) in E0. subst m0. exists mt, m, d. repeat split; try assumption; apply H.
    + rewrite Nv in Hv. destruct Hv.
Qed.
Print Assumptions C52_clients_partial.

Example C52_clients_partial_sample :
  addresses sample /\ shallow sample
  /\ service_dependencies sample sample_service = Some [5; 6; 7]
  /\ (forall mt, In mt (sv_methods sample_service) -> mt_custom mt = None)
  /\ sv_vars sample_service = [].
Proof.
  split; [exact sample_addresses | ]. split; [exact sample_shallow | ].
  split; [reflexivity | ]. split; [ | reflexivity].
  intros mt [E | []]. subst. reflexivity.
Qed.

(** However error rules nest, a service without custom responses asks for no client
    it does not need. *)
Theorem C52_no_needless_client : forall s sv l c,
  addresses s -> service_dependencies s sv = Some l ->
  (forall mt, In mt (sv_methods sv) -> mt_custom mt = None) ->
  In c l -> needs_client s sv c.
Proof.
  intros s sv l c A E Nc H. rewrite (service_dependencies_spec s sv l c A E) in H.
  destruct H as [mt [d [d' [Hm [Hd [P C]]]]]].
  destruct (path_made s d d' _ P Hd) as [m [M H]].
  exists m, d'. split; [ | split; assumption].
  exists (mt_response mt). split; [ | exact M]. left. exists mt.
  split; [exact Hm | rewrite (Nc mt Hm); reflexivity].
Qed.
Print Assumptions C52_no_needless_client.

(** A method with a custom response: the client of the declared response is asked
    for, the client of the custom response is not. *)
Definition simple (ds : list def) : message :=
  {| ms_rule := true; ms_custom := false; ms_defs := ds; ms_fields := [] |}.

Definition custom_schema : schema :=
  {| sc_messages := [no_message; simple [Def 0 (XCall 5 [])]; simple [Def 1 (XCall 6 [])]];
     sc_services := [] |}.

Definition custom_service : service :=
  {| sv_methods := [{| mt_request := 0; mt_response := 1; mt_custom := Some 2 |}];
     sv_vars := [] |}.

Lemma custom_made : forall m0 m,
  m0 = 2 -> made_from custom_schema m0 m -> m = 2.
Proof.
  intros m0 m E M. subst m0. inversion M as [x E1 E2 | x d m1 x' Hd Hc M1 E1 E2]; subst;
    [reflexivity | exfalso].
  apply (has_all_defs custom_schema 2 d) in Hd; [ | apply shallow_b_spec; reflexivity].
  cbn in Hd. destruct Hd as [<- | []]. destruct Hc as [Hc | Hc]; discriminate Hc.
Qed.

Theorem C52_custom_response_refuted :
  addresses custom_schema /\ acyclic custom_schema
  /\ service_dependencies custom_schema custom_service = Some [5]
  /\ needs_client custom_schema custom_service 6
  /\ ~ needs_client custom_schema custom_service 5.
Proof.
  assert (Sh : shallow custom_schema) by (apply shallow_b_spec; reflexivity).
  split; [apply addresses_b_spec; [exact Sh | reflexivity] | ].
  split; [apply (acyclic_b_spec _ (fun m => m)); reflexivity | ].
  split; [reflexivity | ]. split.
  - exists 2, (Def 1 (XCall 6 [])). split.
    + exists 2. split; [ | constructor]. left. eexists. split; [left; reflexivity | reflexivity].
    + split; [ | exists []; reflexivity].
      exists (Def 1 (XCall 6 [])). split; [ | constructor].
      apply defines_own; [reflexivity | left; reflexivity].
  - intros [m [d [[m0 [[[mt [[Hm | []] E]] | []] M]] [Hd [errs C]]]]]. subst mt. cbn in E.
    rewrite (custom_made m0 m E M) in Hd.
    apply (has_all_defs custom_schema 2 d Sh) in Hd. cbn in Hd. destruct Hd as [<- | []].
    discriminate C.
Qed.
Print Assumptions C52_custom_response_refuted.

Theorem C52_statement_refuted : ~ C52_statement.
Proof.
  intros H. destruct C52_custom_response_refuted as [A [B [E [N _]]]].
  apply (H _ _ _ A B E 6) in N. destruct N as [N | []]. discriminate N.
Qed.
Print Assumptions C52_statement_refuted.

(** A service variable made from a message: its client is not asked for. *)
Definition variable_service : service :=
  {| sv_methods := [{| mt_request := 0; mt_response := 1; mt_custom := None |}];
     sv_vars := [2] |}.

Theorem C52_service_variable_refuted :
  service_dependencies custom_schema variable_service = Some [5]
  /\ needs_client custom_schema variable_service 6.
Proof.
  split; [reflexivity | ]. exists 2, (Def 1 (XCall 6 [])). split.
  - exists 2. split; [right; left; reflexivity | constructor].
  - split; [ | exists []; reflexivity].
    exists (Def 1 (XCall 6 [])). split; [ | constructor].
    apply defines_own; [reflexivity | left; reflexivity].
Qed.
Print Assumptions C52_service_variable_refuted.

(** Error rules of the definitions of an error rule, and error rules of calls in a
    oneof rule: their definitions get no place in the plan of the message, and their
    clients are not asked for. *)
Definition nested_schema : schema :=
  {| sc_messages :=
       [no_message;
        {| ms_rule := true; ms_custom := false;
           ms_defs := [Def 0 (XCall 5 [Err [Def 1 (XCall 6 [Err [Def 2 (XCall 7 [])] []])] []])];
           ms_fields := [{| fd_rule := true; fd_custom := false;
                            fd_defs := [Def 3 (XCall 8 [Err [Def 4 (XCall 9 [])] []])] |}] |}];
     sc_services := [] |}.

Theorem C52_nested_error_rules_refuted :
  service_dependencies nested_schema sample_service = Some [5; 6; 8]
  /\ has_definition nested_schema 1 (Def 2 (XCall 7 []))
  /\ has_definition nested_schema 1 (Def 4 (XCall 9 []))
  /\ ~ In (Def 2 (XCall 7 [])) (all_defs (msg nested_schema 1))
  /\ ~ In (Def 4 (XCall 9 [])) (all_defs (msg nested_schema 1))
  /\ needs_client nested_schema sample_service 7
  /\ needs_client nested_schema sample_service 9.
Proof.
  assert (H2 : has_definition nested_schema 1 (Def 2 (XCall 7 []))).
  { exists (Def 0 (XCall 5 [Err [Def 1 (XCall 6 [Err [Def 2 (XCall 7 [])] []])] []])).
    split; [apply defines_own; [reflexivity | left; reflexivity] | ].
    eapply within_rule; [constructor; left; reflexivity | constructor; left; reflexivity | ].
    eapply within_rule; [constructor; left; reflexivity | constructor; left; reflexivity | ].
    constructor. }
  assert (H4 : has_definition nested_schema 1 (Def 4 (XCall 9 []))).
  { exists (Def 3 (XCall 8 [Err [Def 4 (XCall 9 [])] []])).
    split; [eapply defines_oneof; [reflexivity | left; reflexivity | reflexivity | left; reflexivity] | ].
    eapply within_rule; [constructor; left; reflexivity | constructor; left; reflexivity | ].
    constructor. }
  assert (R : resolves nested_schema sample_service 1).
  { exists 1. split; [ | constructor]. left. eexists. split; [left; reflexivity | reflexivity]. }
  split; [reflexivity | ]. split; [exact H2 | ]. split; [exact H4 | ].
  split; [cbn; intros [X | [X | [X | []]]]; discriminate X | ].
  split; [cbn; intros [X | [X | [X | []]]]; discriminate X | ].
  split.
  - exists 1, (Def 2 (XCall 7 [])). split; [exact R | split; [exact H2 | exists []; reflexivity]].
  - exists 1, (Def 4 (XCall 9 [])). split; [exact R | split; [exact H4 | exists []; reflexivity]].
Qed.
Print Assumptions C52_nested_error_rules_refuted.

(** ** C53: the messages a service can resolve *)

Definition C53_statement : Prop := forall s sv, acyclic s ->
  exists n l, service_messages s n sv = Done l /\
    forall m, resolves s sv m -> ms_rule (msg s m) = true -> In m l.

(** Which messages get a resolver in a service: those made from its responses,
    requests and variables which no message makes. *)
Theorem C53_messages_of_service : forall s sv n l m,
  service_messages s n sv = Done l ->
  (In m l <->
   ms_rule (msg s m) = true /\
   exists m0, (starts sv m0 \/ exists mt, In mt (sv_methods sv) /\ mt_request mt = m0) /\
     ms_rule (msg s m0) = true /\
     (forall p d, has_definition s p d -> ~ creates d m0) /\ made_from s m0 m).
Proof.
  intros s sv n l m E. unfold service_messages in E. rewrite (gather_in _ _ _ _ _ E m). split.
  - intros [m0 [zs [H0 [E0 Hm]]]]. apply filter_In in H0. destruct H0 as [Hr Hs].
    apply roots_spec in Hr. destruct Hr as [R0 N].
    apply (child_messages_spec s n m0 zs m R0 E0) in Hm. destruct Hm as [M R].
    split; [exact R | ]. exists m0. split; [apply has_message_spec, Hs | ].
    split; [exact R0 | split; [exact N | exact M]].
  - intros [R [m0 [Hs [R0 [N M]]]]].
    assert (H0 : In m0 (filter (has_message sv) (roots s))).
    { apply filter_In. split; [apply roots_spec; split; assumption | ].
      apply has_message_spec, Hs. }
    destruct (gather_each _ _ _ _ _ m0 E H0) as [zs E0].
    exists m0, zs. split; [exact H0 | split; [exact E0 | ]].
    apply (child_messages_spec s n m0 zs m R0 E0). split; assumption.
Qed.
Print Assumptions C53_messages_of_service.

(** The property for services whose responses and variables no message makes.
    Missing: responses that another message makes too, for which it is false. *)
Theorem C53_messages_partial : forall s sv, acyclic s ->
  (forall m0, starts sv m0 -> ms_rule (msg s m0) = true /\
     forall p d, has_definition s p d -> ~ creates d m0) ->
  exists n l, service_messages s n sv = Done l /\
    forall m, resolves s sv m -> ms_rule (msg s m) = true -> In m l.
Proof.
  intros s sv [rank Hr] H.
  pose (l0 := filter (has_message sv) (roots s)).
  exists (S (list_max (map rank l0))).
  destruct (gather_total _ _ (child_messages s (S (list_max (map rank l0)))) l0) as [l E].
  - intros x Hx. apply (child_messages_total s rank Hr).
    assert (X : rank x <= list_max (map rank l0)); [ | lia].
    pose proof (list_max_le (map rank l0) (list_max (map rank l0))) as [X _].
    specialize (X (Nat.le_refl _)). rewrite Forall_forall in X. apply X, in_map, Hx.
  - exists l. split; [exact E | ]. intros m [m0 [Hs M]] R.
    apply (C53_messages_of_service s sv _ l m E). split; [exact R | ].
    destruct (H m0 Hs) as [R0 N]. exists m0. split; [left; exact Hs | repeat split; assumption].
Qed.
Print Assumptions C53_messages_partial.

Example C53_messages_partial_sample :
  acyclic sample /\
  forall m0, starts sample_service m0 -> ms_rule (msg sample m0) = true /\
     forall p d, has_definition sample p d -> ~ creates d m0.
Proof.
  split; [exact sample_acyclic | ].
  intros m0 [[mt [[Hm | []] E]] | []]. subst mt. cbn in E. subst m0.
  apply roots_spec. left. reflexivity.
Qed.

(** A response that another message makes: its resolver is missing. *)
Definition shared_schema : schema :=
  {| sc_messages := [no_message; simple [Def 0 (XMessage 2)]; simple [Def 1 (XCall 6 [])]];
     sc_services := [] |}.

Definition shared_service : service :=
  {| sv_methods := [{| mt_request := 0; mt_response := 2; mt_custom := None |}];
     sv_vars := [] |}.

Theorem C53_statement_refuted : ~ C53_statement.
Proof.
  intros H.
  destruct (H shared_schema shared_service) as [n [l [E Hl]]].
  - apply (acyclic_b_spec _ (fun m => 2 - m)). reflexivity.
  - cbn in E. injection E as <-. apply (Hl 2); [ | reflexivity].
    exists 2. split; [ | constructor]. left. eexists. split; [left; reflexivity | reflexivity].
Qed.
Print Assumptions C53_statement_refuted.

(** ** C54: the custom resolvers a service asks for *)

Definition C54_statement : Prop := forall s sv, acyclic s ->
  exists n l, service_customs s n sv = Done l /\
    forall m f, In (m, f) l <-> needs_custom s sv m f.

(** No custom resolver is asked for that no message of the service has. *)
Theorem C54_no_needless_resolver : forall s sv n l m f,
  service_customs s n sv = Done l ->
  (forall p, ms_rule (msg s p) = false -> ms_defs (msg s p) = []) ->
  In (m, f) l -> needs_custom s sv m f.
Proof.
  intros s sv n l m f E W H. unfold service_customs in E.
  apply (gather_in _ _ _ _ _ E) in H. destruct H as [mt [zs [Hm [E1 H]]]].
  apply (customs_spec _ _ _ _ _ _ E1) in H. destruct H as [P Ho].
  apply own_customs_spec in Ho. destruct Ho as [_ Ho]. split; [ | exact Ho].
  exists (federation_response mt). split; [left; exists mt; split; [exact Hm | reflexivity] | ].
  clear - P W. induction P as [m | m d0 d m1 m' I0 Wi C P IH]; [constructor | ].
  eapply made_step with (d := d); [ | exact C | exact IH].
  exists d0. split; [ | exact Wi]. apply defines_own; [ | exact I0].
  destruct (ms_rule (msg s m)) eqn:R; [reflexivity | ].
  rewrite (W m R) in I0. destruct I0.
Qed.
Print Assumptions C54_no_needless_resolver.

(** The property when no oneof rule makes a message, every message of the service has
    a message option, and no service variable is made from a message.  Missing: all
    three, for which it is false. *)
Theorem C54_custom_resolvers_partial : forall s sv, acyclic s ->
  (forall m f d0 d c, In f (ms_fields (msg s m)) -> In d0 (fd_defs f) -> within d0 d ->
     ~ creates d c) ->
  (forall m, resolves s sv m -> ms_rule (msg s m) = true) ->
  sv_vars sv = [] ->
  exists n l, service_customs s n sv = Done l /\
    forall m f, In (m, f) l <-> needs_custom s sv m f.
Proof.
  intros s sv [rank Hr] No Ru Nv.
  assert (Plain : forall a b, made_from s a b -> made_plain s a b).
  { intros a b M. induction M as [m | m d m1 m' Hd Hc M IH]; [constructor | ].
    destruct Hd as [d0 [D W]]. inversion D as [? R I | f ? R If Rf I]; subst.
    - eapply plain_step; eassumption.
    - exfalso. apply (No m f d0 d m1 If I W Hc). }
  assert (Made : forall a b, (forall x, made_from s a x -> ms_rule (msg s x) = true) ->
            made_plain s a b -> made_from s a b).
  { intros a b Ra P. induction P as [m | m d0 d m1 m' I0 W C P IH]; [constructor | ].
    assert (Hd : has_definition s m d).
    { exists d0. split; [apply defines_own; [apply Ra; constructor | exact I0] | exact W]. }
    eapply made_step; [exact Hd | exact C | ]. apply IH.
    intros x Hx. apply Ra. eapply made_step; eassumption. }
  assert (Rs : forall mt, In mt (sv_methods sv) -> forall x,
            made_from s (federation_response mt) x -> ms_rule (msg s x) = true).
  { intros mt Hm x Hx. apply Ru. exists (federation_response mt).
    split; [left; exists mt; split; [exact Hm | reflexivity] | exact Hx]. }
  pose (N := S (list_max (map (fun mt => rank (federation_response mt)) (sv_methods sv)))).
  exists N.
  destruct (gather_total _ _ (fun mt => customs s N (federation_response mt)) (sv_methods sv))
    as [l E].
  - intros mt Hm. apply (customs_total s rank Hr).
    + pose proof (list_max_le (map (fun mt => rank (federation_response mt)) (sv_methods sv))
        (list_max (map (fun mt => rank (federation_response mt)) (sv_methods sv)))) as [X _].
      specialize (X (Nat.le_refl _)). rewrite Forall_forall in X.
      specialize (X _ (in_map (fun mt => rank (federation_response mt)) _ _ Hm)).
      cbn beta in X. unfold N. lia.
    + intros m' P. apply (Rs mt Hm). apply Made; [apply Rs, Hm | exact P].
  - exists l. split; [exact E | ]. intros m f. rewrite (gather_in _ _ _ _ _ E). split.
    + intros [mt [zs [Hm [E1 H]]]]. apply (customs_spec _ _ _ _ _ _ E1) in H.
      destruct H as [P Ho]. apply own_customs_spec in Ho. destruct Ho as [_ Ho].
      split; [ | exact Ho]. exists (federation_response mt).
      split; [left; exists mt; split; [exact Hm | reflexivity] | ].
      apply Made; [apply Rs, Hm | exact P].
    + intros [[m0 [[[mt [Hm E0]] | Hv] M]] Ho]; [ | rewrite Nv in Hv; destruct Hv].
      destruct (gather_each _ _ _ _ _ mt E Hm) as [zs E1].
      exists mt, zs. split; [exact Hm | split; [exact E1 | ]].
      apply (customs_spec _ _ _ _ _ _ E1). subst m0. split; [apply Plain, M | ].
      apply own_customs_spec. split; [reflexivity | exact Ho].
Qed.
Print Assumptions C54_custom_resolvers_partial.

Example C54_custom_resolvers_partial_sample :
  acyclic sample
  /\ (forall m f d0 d c, In f (ms_fields (msg sample m)) -> In d0 (fd_defs f) -> within d0 d ->
        ~ creates d c)
  /\ (forall m, resolves sample sample_service m -> ms_rule (msg sample m) = true)
  /\ sv_vars sample_service = [].
Proof.
  split; [exact sample_acyclic | ]. split; [ | split; [ | reflexivity]].
  - intros m f d0 d c Hf Hd. exfalso.
    destruct m as [ | [ | [ | [ | m]]]]; cbn in Hf; try contradiction;
      try (destruct Hf as [<- | [<- | []]]; destruct Hd).
    destruct m; destruct Hf.
  - intros m R. assert (H : In m [1; 2; 3]).
    { destruct R as [m0 [[[mt [[Hm | []] E]] | []] M]]. subst mt. cbn in E.
      assert (H0 : In m0 [1; 2; 3]) by (left; symmetry; exact E). clear E.
      induction M as [m | m d m1 m' Hd Hc M IH]; [exact H0 | ]. apply IH.
      assert (X : In m1 (children sample m)) by (apply children_spec; exists d; split; assumption).
      destruct H0 as [<- | [<- | [<- | []]]]; cbn in X;
        [destruct X as [<- | [<- | []]]; cbn; auto | destruct X | destruct X]. }
    destruct H as [<- | [<- | [<- | []]]]; reflexivity.
Qed.

(** A custom resolver of a message made by a oneof rule is not asked for. *)
Definition oneof_schema : schema :=
  {| sc_messages :=
       [no_message;
        {| ms_rule := true; ms_custom := false; ms_defs := [];
           ms_fields := [{| fd_rule := true; fd_custom := false;
                            fd_defs := [Def 0 (XMessage 2)] |}] |};
        {| ms_rule := true; ms_custom := true; ms_defs := []; ms_fields := [] |}];
     sc_services := [] |}.

Theorem C54_oneof_refuted :
  acyclic oneof_schema
  /\ (forall n, service_customs oneof_schema (S n) sample_service = Done [])
  /\ needs_custom oneof_schema sample_service 2 None.
Proof.
  split; [apply (acyclic_b_spec _ (fun m => 2 - m)); reflexivity | ].
  split; [intros n; reflexivity | ].
  split; [ | split; reflexivity].
  exists 1. split; [left; eexists; split; [left; reflexivity | reflexivity] | ].
  eapply made_step with (d := Def 0 (XMessage 2)); [ | left; reflexivity | constructor].
  exists (Def 0 (XMessage 2)). split; [ | constructor].
  eapply defines_oneof; [reflexivity | left; reflexivity | reflexivity | left; reflexivity].
Qed.
Print Assumptions C54_oneof_refuted.

Theorem C54_statement_refuted : ~ C54_statement.
Proof.
  intros H. destruct C54_oneof_refuted as [A [E N]].
  destruct (H oneof_schema sample_service A) as [n [l [En Hl]]].
  apply Hl in N. destruct n as [ | n]; [discriminate En | ].
  rewrite (E n) in En. injection En as <-. destruct N.
Qed.
Print Assumptions C54_statement_refuted.

(** A message without option in a definition: the search crashes. *)
Definition plain_schema : schema :=
  {| sc_messages := [no_message; simple [Def 0 (XMessage 2)]; no_message];
     sc_services := [] |}.

Theorem C54_plain_message_crashes_refuted :
  acyclic plain_schema
  /\ forall n, service_customs plain_schema (S (S n)) sample_service = Crash.
Proof.
  split; [apply (acyclic_b_spec _ (fun m => 2 - m)); reflexivity | ].
  intros n. reflexivity.
Qed.
Print Assumptions C54_plain_message_crashes_refuted.

(** The custom resolver of the message of a service variable is not asked for. *)
Theorem C54_service_variable_refuted :
  (forall n, service_customs oneof_schema (S n)
     {| sv_methods := []; sv_vars := [2] |} = Done [])
  /\ needs_custom oneof_schema {| sv_methods := []; sv_vars := [2] |} 2 None.
Proof.
  split; [intros n; reflexivity | ]. split; [ | split; reflexivity].
  exists 2. split; [right; left; reflexivity | constructor].
Qed.
Print Assumptions C54_service_variable_refuted.
