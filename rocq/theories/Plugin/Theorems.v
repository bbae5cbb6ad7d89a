(** C19, C20, C21, C47: plugins. *)
From Coq Require Import Ascii String List Bool Arith ZArith Lia Permutation.
From Verif.Cast Require Import Model Spec.
From Verif.Plugin Require Import Codec CodecSpec CodecProofs Instance InstanceSpec InstanceProofs InstanceMore.
Import ListNotations.
Local Open Scope nat_scope.
Local Open Scope list_scope.

(** ** C19 *)
(** Decoding an encoded message gives the message. *)
Definition faithful {msg} (msg_name : msg -> string) (marshal : msg -> out string) (unmarshal : string -> string -> out msg) : Prop :=
  forall m b, marshal m = Good b -> unmarshal (msg_name m) b = Good m.

(** A call of a plugin function: the plugin's implementation gets the very arguments (and the metadata), the caller gets
    the very result, or the error's text. Proved for all declared types but the well-known messages and maps, and for
    errors with a text. *)
Theorem C19_call_partial : forall F (fzero : F) round32 msg msg_name marshal unmarshal, faithful msg_name marshal unmarshal ->
  forall fs f i cf order cs gs,
  compile F fzero round32 msg msg_name marshal unmarshal f i = Some cf -> In cf fs -> NoDup (map (c_id F msg) fs) ->
  Forall ordinary (params f) -> ordinary (result_type f) ->
  length cs = length (params f) -> length gs = length (params f) ->
  Forall2 (fun t cg => same_value round32 msg_name marshal t (fst cg) (snd cg)) (params f) (combine cs gs) ->
  match i (md_of order) gs with
  | inl g => forall c, same_value round32 msg_name marshal (result_type f) c g ->
      call F fzero msg msg_name marshal unmarshal fs f order cs = Some (Good c)
  | inr e => e <> ""%string -> call F fzero msg msg_name marshal unmarshal fs f order cs = Some (Fails e)
  end.
Proof. intros F fzero round32 msg msg_name marshal unmarshal H fs f i cf order cs gs. apply (call_spec F fzero round32 msg msg_name marshal unmarshal H). Qed.
Print Assumptions C19_call_partial.

(** In whatever order the service writes the metadata, the plugin sees the same map. *)
Theorem C19_metadata : forall md order k v, NoDup (map fst md) -> Permutation md order ->
  (md_of order k = Some v <-> In (k, v) md).
Proof. intros md order k v H1 H2. apply md_of_spec; assumption. Qed.
Print Assumptions C19_metadata.

(** The service's codec alone is a round trip for every CEL type it can carry, including lists of lists. *)
Theorem C19_service_codec_round_trip : forall F (fzero : F) msg msg_name marshal unmarshal, @faithful msg msg_name marshal unmarshal ->
  forall t v, of_type msg_name marshal t v ->
  exists w, refToCELPluginValue F msg msg_name marshal t v = Good w /\ celPluginValueToRef F fzero msg unmarshal t w = Good v.
Proof. intros F fzero msg msg_name marshal unmarshal H t v. apply (host_round_trip F fzero msg msg_name marshal unmarshal H). Qed.
Print Assumptions C19_service_codec_round_trip.

(** A toy world for the examples: a message is its type name and a number, encoded as its type name and as many dots. *)
Definition toy : Type := string * nat.
Fixpoint dots (n : nat) : string := match n with 0 => ""%string | S n => String "."%char (dots n) end.
Definition toy_marshal (m : toy) : out string := Good (dots (snd m)).
Definition toy_unmarshal (n b : string) : out toy := Good (n, String.length b).
Lemma toy_faithful : faithful fst toy_marshal toy_unmarshal.
Proof.
  intros [n k] b [= <-]. unfold toy_unmarshal. cbn [fst snd]. f_equal. f_equal. induction k as [|k IH]; [reflexivity|].
  cbn [dots String.length]. rewrite IH. reflexivity.
Qed.
Definition toy_compile := compile nat 0 (fun x => x) toy fst toy_marshal toy_unmarshal.
Definition toy_call := call nat 0 toy fst toy_marshal toy_unmarshal.

(** f(M, list of enum) returning a list of uint64: the plugin is called with both and its result arrives. *)
Definition sample_fn := {| id := "f"; params := [RT (RMessage "pkg.M") false; RT (REnum "pkg.E") true]; result_type := RT (RKind Uint64) true |}.
Definition sample_impl : impl nat toy := fun md gs =>
  match gs with
  | [GoMsg (_, k); GoList l] => match md "x"%string with
                                | Some _ => inl (GoList (GoInt (Z.of_nat k) :: l))
                                | None => inr "no metadata"%string
                                end
  | _ => inr "bad"%string
  end.
Example C19_sample : exists cf, toy_compile sample_fn sample_impl = Some cf /\
  toy_call [cf] sample_fn [("x", ["1"])]%string [CMsg ("pkg.M"%string, 7); CList [CInt 1; CInt 2]] = Some (Good (CList [CUint 7; CUint 1; CUint 2])) /\
  toy_call [cf] sample_fn [] [CMsg ("pkg.M"%string, 7); CList [CInt 1; CInt 2]] = Some (Fails "no metadata") /\
  Forall ordinary (params sample_fn) /\
  same_value (fun x => x) fst toy_marshal (RT (RMessage "pkg.M") false) (CMsg ("pkg.M"%string, 7)) (@GoMsg nat toy ("pkg.M"%string, 7)) /\
  same_value (fun x => x) fst toy_marshal (RT (REnum "pkg.E") true) (CList [CInt 1; CInt 2]) (@GoList nat toy [GoInt 1; GoInt 2]).
Proof.
  eexists. split; [reflexivity|]. split; [reflexivity|]. split; [reflexivity|]. split.
  - repeat constructor. cbn. intuition discriminate.
  - split; [constructor; econstructor; reflexivity|]. repeat constructor; cbn; lia.
Qed.

(** The whole claim: every function that compiles can be called with every argument of its declared type. It fails for
    the well-known messages: a Duration never arrives. *)
Definition C19_arguments_statement : Prop := forall (f : fn) (i : impl nat toy) cf c (g : gval nat toy),
  toy_compile f i = Some cf -> params f = [RT RDuration false] ->
  c = CMsg ("google.protobuf.Duration"%string, 1) -> i (fun _ => None) [GoMsg ("google.protobuf.Duration"%string, 1)] = inl g ->
  exists r, toy_call [cf] f [] [c] = Some (Good r).
Theorem C19_arguments_refuted : ~ C19_arguments_statement.
Proof.
  intros H. specialize (H {| id := "f"; params := [RT RDuration false]; result_type := RT (RKind Bool) false |} (fun _ _ => inl (GoBool true))
    _ _ (GoBool true) eq_refl eq_refl eq_refl eq_refl). destruct H as [r H]. discriminate H.
Qed.
Print Assumptions C19_arguments_refuted.

(** In general: an argument or a result whose declared type is Duration, Timestamp, Any, NullValue, Struct or Value never
    crosses the boundary; the call fails. *)
Definition opaque : list string :=
  ["google.protobuf.Duration"; "google.protobuf.Timestamp"; "google.protobuf.Any"; "google.protobuf.NullValue";
   "google.protobuf.Struct"; "google.protobuf.Value"]%string.
Theorem C19_opaque_types_fail : forall F (fzero : F) msg msg_name marshal unmarshal n, In n opaque ->
  exists ct, toCELTypeDeclare (RT (RMessage n) false) = Some ct /\
    (forall v, exists why, refToCELPluginValue F msg msg_name marshal ct v = Fails why) /\
    (forall w, exists why, celPluginValueToRef F fzero msg unmarshal ct w = Fails why).
Proof.
  intros F fzero msg msg_name marshal unmarshal n Hn. unfold opaque in Hn. cbn [In] in Hn.
  repeat (destruct Hn as [<-|Hn]; [eexists; split; [reflexivity|]; split; intros; eexists; reflexivity|]). destruct Hn.
Qed.
Print Assumptions C19_opaque_types_fail.

(** Worse, a result of a wrapper type is lost silently: whatever message the plugin returns, the service sees the zero
    value. *)
Theorem C19_wrapper_results_are_lost : forall F (fzero : F) msg msg_name marshal unmarshal n, In n wrappers ->
  exists ct conv c, toCELTypeDeclare (RT (RMessage n) false) = Some ct /\
    ret_converter F msg msg_name marshal (RT (RMessage n) false) = Some conv /\
    forall m w, conv (GoMsg m) = Good w -> celPluginValueToRef F fzero msg unmarshal ct w = Good c.
Proof.
  intros F fzero msg msg_name marshal unmarshal n Hn. cbn in Hn.
  assert (G : forall t c, NewObjectType n = TNullable t -> celPluginValueToRef F fzero msg unmarshal t WNone = Good c ->
    (forall a b, celPluginValueToRef F fzero msg unmarshal t (WMessage a b) = Good c) ->
    exists ct conv c, toCELTypeDeclare (RT (RMessage n) false) = Some ct /\
    ret_converter F msg msg_name marshal (RT (RMessage n) false) = Some conv /\
    forall m w, conv (GoMsg m) = Good w -> celPluginValueToRef F fzero msg unmarshal ct w = Good c).
  { intros t c H1 H2 H3. exists (TNullable t). eexists. exists c. split; [cbn; rewrite H1; reflexivity|]. split; [reflexivity|].
    intros m w. cbn. unfold any_new. destruct (marshal m); cbn; [intros [= <-]; apply H3|discriminate|discriminate]. }
  repeat (destruct Hn as [<-|Hn]; [eapply G; reflexivity|]). destruct Hn.
Qed.
Print Assumptions C19_wrapper_results_are_lost.

(** Two different results are told apart. *)
Definition C19_results_statement : Prop := forall (f : fn) (i1 i2 : impl nat toy) c1 c2 g1 g2 r,
  toy_compile f i1 = Some c1 -> toy_compile f i2 = Some c2 -> params f = [] ->
  i1 (fun _ => None) [] = inl g1 -> i2 (fun _ => None) [] = inl g2 ->
  toy_call [c1] f [] [] = Some (Good r) -> toy_call [c2] f [] [] = Some (Good r) -> g1 = g2.
Theorem C19_results_refuted : ~ C19_results_statement.
Proof.
  intros H. specialize (H {| id := "f"; params := []; result_type := RT (RMessage "google.protobuf.Int64Value") false |}
    (fun _ _ => inl (GoMsg ("google.protobuf.Int64Value"%string, 1))) (fun _ _ => inl (GoMsg ("google.protobuf.Int64Value"%string, 2)))
    _ _ _ _ (CInt 0) eq_refl eq_refl eq_refl eq_refl eq_refl eq_refl eq_refl). discriminate H.
Qed.
Print Assumptions C19_results_refuted.

(** An error of the plugin is an error of the call: fails for an error whose text is empty. *)
Definition C19_errors_statement : Prop := forall (f : fn) (i : impl nat toy) cf e r,
  toy_compile f i = Some cf -> params f = [] -> i (fun _ => None) [] = inr e -> toy_call [cf] f [] [] <> Some (Good r).
Theorem C19_errors_refuted : ~ C19_errors_statement.
Proof.
  intros H. apply (H {| id := "f"; params := []; result_type := RT (RKind Int64) false |} (fun _ _ => inr ""%string) _ ""%string (CInt 0) eq_refl eq_refl eq_refl).
  reflexivity.
Qed.
Print Assumptions C19_errors_refuted.

(** An integer outside the range of an enum, passed where an enum is declared, arrives as another number. *)
Theorem C19_enum_arguments_wrap : forall F (fzero : F) round32 msg msg_name marshal unmarshal e z, ~ holds Enum z ->
  exists w conv z', refToCELPluginValue F msg msg_name marshal TInt (CInt z) = Good w /\
    arg_converter F fzero round32 msg msg_name unmarshal (RT (REnum e) false) = Some conv /\ conv w = Good (GoInt z') /\ z' <> z.
Proof.
  intros F fzero round32 msg msg_name marshal unmarshal e z Hz. do 3 eexists. split; [reflexivity|]. split; [reflexivity|].
  split; [reflexivity|]. cbn [GetInt64]. intros E. apply Hz. pose proof (Verif.Cast.Proofs.go_wrap_range GInt32 z) as Hr.
  unfold fits, lo, hi in Hr. cbn [holds]. rewrite E in Hr. exact Hr.
Qed.
Print Assumptions C19_enum_arguments_wrap.

(** The types of a function are the ones it was declared with: every CEL value of the declared type is a value of the
    resolved one, and calls carry it ([ordinary]). *)
Theorem C19_declared_types : forall F round32 msg msg_name marshal d, carried d ->
  exists t, resolve_plugin_type d false = Some t /\ ordinary t /\
  forall c, of_decl msg_name marshal d c -> exists g, @same_value F round32 msg msg_name marshal t c g.
Proof.
  intros F round32 msg msg_name marshal d H.
  assert (Hb : forall d rep, plain d -> exists b, resolve_plugin_type d rep = Some (RT b rep) /\ ordinary (RT b rep) /\
    forall c, of_decl msg_name marshal d c -> exists g, @same F round32 msg msg_name marshal b c g).
  { clear d H. intros d rep H. destruct d as [k|d|k v|n|n]; cbn in H; try contradiction.
    - destruct H as [H1 H2]. destruct k; try congruence; cbn [resolve_plugin_type]; eexists; (split; [reflexivity|]);
        (split; [exact I|]); intros c Hc; inversion Hc; subst; eexists; try (econstructor; eauto; fail).
    - cbn [resolve_plugin_type]. eexists. split; [reflexivity|]. split; [exact H|]. intros c Hc. inversion Hc; subst.
      eexists. econstructor; eauto.
    - cbn [resolve_plugin_type]. eexists. split; [reflexivity|]. split; [exact I|]. intros c Hc. inversion Hc; subst.
      eexists. econstructor; eauto. }
  destruct d as [k|d|k v|n|n]; cbn [carried] in H; [| |contradiction H| |].
  1,3,4: cbn [carried] in H; destruct (Hb _ false H) as (b & E & O & S); exists (RT b false); (split; [exact E|]); (split; [exact O|]);
    intros c Hc; destruct (S c Hc) as [g Hg]; exists g; constructor; exact Hg.
  cbn [carried] in H. destruct (Hb _ true H) as (b & E & O & S). exists (RT b true). split; [exact E|]. split; [exact O|].
  intros c Hc. inversion Hc as [| | | | | | |d' l Hl]; subst.
  enough (exists gs, Forall2 (same round32 msg_name marshal b) l gs) as [gs Hg] by (exists (GoList gs); constructor; exact Hg).
  clear Hc E. induction Hl as [|c l Hc Hl IH]; [exists []; constructor|]. destruct IH as [gs IH]. destruct (S c Hc) as [g Hg].
  exists (g :: gs). constructor; assumption.
Qed.
Print Assumptions C19_declared_types.
Example C19_declared_types_sample : carried (DRepeated (DKind KUint64)) /\ carried (DMessage "pkg.M") /\
  of_decl (F := nat) (@fst string nat) toy_marshal (DRepeated (DKind KUint64)) (CList [CUint 1; CUint 18446744073709551615]) /\
  resolve_plugin_type (DRepeated (DKind KUint64)) false = Some (RT (RKind Uint64) true).
Proof.
  split; [cbn; split; discriminate|]. split; [cbn; intuition discriminate|]. split; [|reflexivity].
  repeat constructor; cbn; lia.
Qed.

(** A declared list of lists is resolved to a list of its elements, so the values of the declared type do not get
    through. *)
Definition C19_nested_lists_statement : Prop := forall d t ct (v : cval nat toy),
  resolve_plugin_type d false = Some t -> toCELTypeDeclare t = Some ct -> of_decl fst toy_marshal d v ->
  exists w, refToCELPluginValue nat toy fst toy_marshal ct v = Good w.
Theorem C19_nested_lists_refuted : ~ C19_nested_lists_statement.
Proof.
  intros H. destruct (H (DRepeated (DRepeated (DKind KInt64))) _ _ (CList [CList [CInt 1]]) eq_refl eq_refl) as [w Hw]; [|discriminate Hw].
  repeat constructor; cbn; lia.
Qed.
Print Assumptions C19_nested_lists_refuted.

(** A function returning an enum gives a plugin that does not compile. *)
Theorem C19_enum_results_do_not_compile : forall F (fzero : F) round32 msg msg_name marshal unmarshal f i e rep,
  result_type f = RT (REnum e) rep -> compile F fzero round32 msg msg_name marshal unmarshal f i = None.
Proof.
  intros F fzero round32 msg msg_name marshal unmarshal f i e rep H. unfold compile. rewrite H.
  destruct (all_some _); destruct rep; reflexivity.
Qed.
Print Assumptions C19_enum_results_do_not_compile.

(** ** C47 *)
(** A plugin is accepted at start-up iff it speaks the protocol version and lists every function of the service. *)
Theorem C47_accepted_iff : forall service version listed,
  validate service version listed = Good tt <-> version = 1%Z /\ forall f, In f service -> In (id f) listed.
Proof. exact validate_spec. Qed.
Print Assumptions C47_accepted_iff.

(** Hence a call of an accepted plugin, generated with the functions it lists, is never answered by "unexpected method name":
    the request reaches the function with that identifier. *)
Theorem C47_accepted_plugins_know_the_function : forall F msg (fs : list (compiled F msg)) service version f,
  validate service version (map (c_id F msg) fs) = Good tt -> In f service ->
  exists cf, In cf fs /\ c_id F msg cf = id f /\
    find (fun g => String.eqb (c_id F msg g) (id f)) fs <> None.
Proof.
  intros F msg fs service version f Hv Hin. apply validate_spec in Hv as [_ Hv]. specialize (Hv f Hin).
  apply in_map_iff in Hv as (cf & Hid & Hcf). exists cf. split; [exact Hcf|]. split; [exact Hid|].
  intros Hn. pose proof (find_none _ _ Hn cf Hcf) as E. cbn beta in E. rewrite Hid, String.eqb_refl in E. discriminate.
Qed.
Print Assumptions C47_accepted_plugins_know_the_function.
Example C47_sample : validate [sample_fn] 1 ["g"; "f"]%string = Good tt /\ validate [sample_fn] 2 ["f"]%string <> Good tt /\
  validate [sample_fn] 1 ["g"]%string <> Good tt.
Proof. repeat split; discriminate. Qed.

(** ** C20 *)
(** In every run, a call that returns a response returns the response to its own request. *)
Theorem C20_own_response : forall V (s : state V) t q v, reachable s -> th s t = Finished (Response q v) -> q = t.
Proof. intros V s t q v H. apply (fin V s (reachable_inv V s H)). Qed.
Print Assumptions C20_own_response.

(** At most one call, Close or garbage collection talks to the plugin at a time. *)
Theorem C20_serialised : forall V (s : state V) t1 t2, reachable s ->
  (forall t, t = t1 \/ t = t2 -> match th s t with InWrite _ _ | InRead _ => True | _ => False end) -> t1 = t2.
Proof.
  intros V s t1 t2 H Ha. pose proof (reachable_inv V s H) as I.
  pose proof (holder V s I t1 (Ha t1 (or_introl eq_refl))). pose proof (holder V s I t2 (Ha t2 (or_intror eq_refl))). congruence.
Qed.
Print Assumptions C20_serialised.

(** Once closed, an instance stays closed and a call on it returns an error as soon as it is scheduled. *)
Theorem C20_closed_calls_fail : forall V (s : state V) t, reachable s -> closed s = true -> th s t = Waiting OCall ->
  exists s', step s (Acquire t) = Some s' /\ th s' t = Finished Error /\ closed s' = true.
Proof.
  intros V s t H Hc Ht. pose proof (reachable_inv V s H) as I. pose proof (free V s I Hc) as Hl.
  eexists. cbn [step]. rewrite Ht, Hl, Hc. split; [reflexivity|]. cbn [after_write]. unfold start_read. rewrite Hc. cbn [finish th closed].
  rewrite set_th_same. auto.
Qed.
Print Assumptions C20_closed_calls_fail.
Theorem C20_closed_stays : forall V (s s' : state V) ev, closed s = true -> step s ev = Some s' -> closed s' = true.
Proof. exact closed_stays. Qed.
Print Assumptions C20_closed_stays.

(** As long as the plugin lives, every call, Close and garbage collection that has begun can end, by steps of the callers
    and the plugin alone. *)
Theorem C20_calls_end_while_the_plugin_lives : forall V (v0 : V) (s : state V) t, reachable s -> plug s <> Dead -> pending (th s t) ->
  exists evs s', Forall internal evs /\ runs s evs = Some s' /\ ended (th s' t).
Proof. intros V v0 s t H Hp Ht. exact (pending_finishes V v0 s t (reachable_inv V s H) Hp Ht). Qed.
Print Assumptions C20_calls_end_while_the_plugin_lives.

(** Nothing hangs, even if the plugin dies: proved as long as no call was waiting for its response when it noticed the
    death. *)
Theorem C20_no_deadlock_partial : forall V (v0 : V) (s : state V) t, reachable s -> drained s = false -> pending (th s t) ->
  exists ev s', internal ev /\ step s ev = Some s'.
Proof. intros V v0 s t H Hd Ht. exact (no_deadlock V v0 s t (reachable_inv V s H) Hd Ht). Qed.
Print Assumptions C20_no_deadlock_partial.

(** The whole claim is false: a plugin that dies while handling a call fails that call, but the next call hangs, and with
    it every later call, the garbage collection and Close. *)
Definition C20_no_hang_statement : Prop := forall V (s : state V) t, reachable s -> ~ hangs s t.
Definition hang_run : list (event nat) :=
  [Start 1 OCall; Start 2 OCall; Start 3 OClose; Acquire 1; Consume 0; WriteOk 1; Die true; ReadErr 1; Acquire 2].
Theorem C20_no_hang_refuted : ~ C20_no_hang_statement.
Proof.
  intros H.
  assert (E : exists s, runs init hang_run = Some s /\ plug s = Dead /\ mod_err s = None /\ lock s = Some 2 /\
              th s 2 = InWrite OCall 1 /\ consumed s = [0] /\ th s 3 = Waiting OClose).
  { let r := eval vm_compute in (runs (@init nat) hang_run) in
    match r with Some ?s => exists s end. split; [vm_compute; reflexivity|]. repeat split. }
  destruct E as (s & E & Hp & Hm & Hl & Ht & Hc & Hw).
  assert (Hr : reachable s) by (exists hang_run; exact E). pose proof (reachable_inv nat s Hr) as I.
  apply (H nat s 3 Hr). apply (stuck_hangs nat s 2) with (o := OClose); [|exact Hw].
  split; [exact I|]. split; [exact Hp|]. split; [exact Hm|]. split; [exact Hl|]. exists OCall, 1. split; [exact Ht|].
  rewrite Hc. intros [X|[]]. discriminate X.
Qed.
Print Assumptions C20_no_hang_refuted.
(** For every later operation. *)
Theorem C20_everything_hangs_after : forall V (s : state V) h, reachable s -> plug s = Dead -> mod_err s = None ->
  lock s = Some h -> (exists o w, th s h = InWrite o w /\ ~ In w (consumed s)) ->
  hangs s h /\ forall t o, th s t = Waiting o -> hangs s t.
Proof. intros V s h H Hp Hm Hl Hw. apply stuck_hangs. exact (conj (reachable_inv V s H) (conj Hp (conj Hm (conj Hl Hw)))). Qed.
Print Assumptions C20_everything_hangs_after.

(** Two interleaved calls, each with its answer. *)
Example C20_sample : exists s, runs init
  [Start 1 OCall; Start 2 OCall; CallGC; Acquire 2; Dequeue; Consume 0; Answer 72; WriteOk 2; Deliver 0; ReadOk 2;
   Acquire 0; Consume 1; WriteOk 0; Acquire 1; Consume 2; WriteOk 1; Answer 71; Deliver 1; ReadOk 1] = Some s /\
  th s 1 = Finished (Response 1 71) /\ th s 2 = Finished (Response 2 72) /\ th s 0 = NotStarted.
Proof.
  match goal with |- exists s, runs ?i ?l = _ /\ _ => let r := eval vm_compute in (runs i l) in
    match r with Some ?s => exists s; split; [vm_compute; reflexivity|] end end. repeat split.
Qed.

(** ** C21 *)
(** A panic needs two calls of Close, or a request for garbage collection after a call of Close. *)
Theorem C21_panic_free_partial : forall V evs (s : state V), runs init evs = Some s ->
  ~ closed_twice evs -> ~ gc_after_close evs -> panicked s = false.
Proof.
  intros V evs s H H1 H2. pose proof (pinv_runs V evs s H) as I. destruct (panicked s) eqn:E; [|reflexivity].
  destruct (p_panic _ _ _ I E); contradiction.
Qed.
Print Assumptions C21_panic_free_partial.

Definition C21_panic_free_statement : Prop := forall V evs (s : state V), runs init evs = Some s -> panicked s = false.
Theorem C21_second_close_panics_refuted : ~ C21_panic_free_statement.
Proof.
  intros H. specialize (H nat [Start 1 OClose; Acquire 1; Consume 0; WriteOk 1; Start 2 OClose; Acquire 2]).
  match type of H with forall s, ?r = _ -> _ => let x := eval vm_compute in r in match x with Some ?s => specialize (H s) end end.
  discriminate H. vm_compute. reflexivity.
Qed.
Print Assumptions C21_second_close_panics_refuted.
Theorem C21_gc_after_close_panics_refuted : ~ C21_panic_free_statement.
Proof.
  intros H. specialize (H nat [Start 1 OClose; Acquire 1; Consume 0; WriteOk 1; CallGC]).
  match type of H with forall s, ?r = _ -> _ => let x := eval vm_compute in r in match x with Some ?s => specialize (H s) end end.
  discriminate H. vm_compute. reflexivity.
Qed.
Print Assumptions C21_gc_after_close_panics_refuted.
(** Always: once a Close has succeeded, another one panics when it gets the lock, and so does GC at once. *)
Theorem C21_panics_after_close : forall V (s : state V), reachable s -> closed s = true -> gc_closed s = true ->
  (exists s', step s CallGC = Some s' /\ panicked s' = true) /\
  (forall t, th s t = Waiting OClose -> exists s', step s (Acquire t) = Some s' /\ th s' t = Finished Crashed).
Proof.
  intros V s H Hc Hg. split.
  - eexists. cbn [step]. rewrite Hg. split; reflexivity.
  - intros t Ht. eexists. cbn [step]. rewrite Ht, (free V s (reachable_inv V s H) Hc), Hc. split; [reflexivity|].
    cbn [after_write]. rewrite Hg. cbn [finish set_closed set_panicked th]. apply set_th_same.
Qed.
Print Assumptions C21_panics_after_close.

(** Requesting garbage collection never blocks. *)
Theorem C21_gc_never_blocks : forall V (s : state V), exists s', step s CallGC = Some s' /\ th s' = th s.
Proof. intros V s. cbn [step]. destruct (gc_closed s); eexists; split; reflexivity. Qed.
Print Assumptions C21_gc_never_blocks.

Example C21_sample : exists s, runs init
  [Start 1 OCall; CallGC; CallGC; Acquire 1; Start 2 OClose; Consume 0; WriteOk 1; Answer 5; Deliver 0; ReadOk 1; Acquire 2; Consume 1;
   WriteOk 2; Die false; Dequeue; Acquire 0; Start 3 OCall; Acquire 3] = Some s /\
  panicked s = false /\ th s 2 = Finished (@Closed nat) /\ th s 3 = Finished Error /\ th s 0 = NotStarted.
Proof.
  match goal with |- exists s, runs ?i ?l = _ /\ _ => let r := eval vm_compute in (runs i l) in
    match r with Some ?s => exists s; split; [vm_compute; reflexivity|] end end. repeat split.
Qed.
