(** Property theorems C12, C13, C14, C15, C16 and C46. *)
From Coq Require Import String List ZArith Bool.
From Verif.Base Require Import Result.
From Verif.Err Require Import Model Spec Proofs Race RaceProofs.
Import ListNotations.
Local Open Scope Z_scope.

(** Readings of the parameters: [kind] is the Go type of a detail, [marshals] says whether it can be put
    into an Any, [code_string] prints a code, [mkp]/[mkb]/[mkl] build the three standard details,
    [set_error] assigns the `error` variable. All theorems hold for every choice of them. *)

(** C12: the rules are tried in order: either none matches, or there is a first rule that matches or that
    cannot be decided (its definitions or its condition fail). *)
Theorem C12_first_rule_that_does_not_pass : forall M S V (rules : list (rule M S V)) s,
  (exists s', all_pass rules s s') \/
  (exists r s1 s2, reached rules s r s1 /\ (matches r s1 s2 \/ undecided r s1 s2)).
Proof. exact (fun M S V => @rules_trichotomy M S V). Qed.
Print Assumptions C12_first_rule_that_does_not_pass.

(** C12: with no matching rule the original error is returned (and nothing else happens). *)
Theorem C12_no_match_returns_the_original_error :
  forall M S V kind marshals cs mkp mkb mkl set_error rules (ret : option V) (e : err M) (s s' : S),
  all_pass rules (set_grpc_error M kind marshals cs S set_error e s) s' ->
  exists s'', handle_call_error M kind marshals cs mkp mkb mkl S V set_error rules ret e s
                = ((None, Some (ELogged _ e 8)), s'') /\ (rules <> [] -> s'' = s').
Proof. exact (fun M S V => @handle_no_match M S V). Qed.
Print Assumptions C12_no_match_returns_the_original_error.

(** C12: an ignore rule makes the definition succeed. *)
Theorem C12_ignore : forall M S V kind marshals cs mkp mkb mkl set_error rules (ret : option V) (e : err M) s r s1 s2,
  reached rules (set_grpc_error M kind marshals cs S set_error e s) r s1 -> matches r s1 s2 ->
  r_action _ _ _ r = Ignore _ _ _ ->
  handle_call_error M kind marshals cs mkp mkb mkl S V set_error rules ret e s = ((ret, None), s2).
Proof. exact (fun M S V => @handle_ignore M S V). Qed.
Print Assumptions C12_ignore.

(** C12: an ignore_and_response rule makes it succeed with that response (nil if the expression fails:
    that failure is only logged). *)
Theorem C12_ignore_and_response :
  forall M S V kind marshals cs mkp mkb mkl set_error rules (ret : option V) (e : err M) s r s1 s2 ev res s3,
  reached rules (set_grpc_error M kind marshals cs S set_error e s) r s1 -> matches r s1 s2 ->
  r_action _ _ _ r = IgnoreAndResponse _ _ _ ev -> ev s2 = (res, s3) ->
  handle_call_error M kind marshals cs mkp mkb mkl S V set_error rules ret e s
    = ((match res with Ok v => Some v | Err _ => None end, None), s3).
Proof. exact (fun M S V => @handle_response M S V). Qed.
Print Assumptions C12_ignore_and_response.

(** C12: any other matching rule decides the status: its code, message and details, each falling back to
    the original error's. (A resulting code OK is C13.) *)
Theorem C12_matching_rule_decides_the_status :
  forall M S V kind marshals cs mkp mkb mkl set_error rules (ret : option V) (e : err M) s r s1 s2
         message details code m s3 ds s4,
  reached rules (set_grpc_error M kind marshals cs S set_error e s) r s1 -> matches r s1 s2 ->
  r_action _ _ _ r = Reply _ _ _ message details code ->
  message_is message (orig_message cs e) s2 m s3 -> details_give mkp mkb mkl details s3 ds s4 ->
  let c := match code with Some c => c | None => orig_code cs e end in
  c <> 0 ->
  handle_call_error M kind marshals cs mkp mkb mkl S V set_error rules ret e s =
    ((None, Some (ELogged _ (EStatus _
        (status_with marshals c m (match details with [] => orig_details cs e | _ => ds end)))
        (r_level _ _ _ r))), s4).
Proof. exact (fun M S V => @handle_reply M S V). Qed.
Print Assumptions C12_matching_rule_decides_the_status.

(** C12: if handling itself fails the original error is returned. *)
Theorem C12_failed_handling_returns_the_original_error :
  forall M S V kind marshals cs mkp mkb mkl set_error rules (ret : option V) (e : err M) s r s1,
  reached rules (set_grpc_error M kind marshals cs S set_error e s) r s1 ->
  (exists s2, undecided r s1 s2) \/
  (exists s2 message details code, matches r s1 s2 /\ r_action _ _ _ r = Reply _ _ _ message details code /\
     ((exists e' s', message_fails message s2 e' s') \/
      (exists m s3 e' s', message_is message (orig_message cs e) s2 m s3 /\
                          details_fail mkp mkb mkl details s3 e' s'))) ->
  exists s', handle_call_error M kind marshals cs mkp mkb mkl S V set_error rules ret e s
               = ((None, Some (ELogged _ e 8)), s').
Proof.
  intros M S V kind marshals cs mkp mkb mkl set_error rules ret e s r s1 H [(s2 & Hu)|(s2 & msg & ds & c & Hm & Ha & Hf)].
  - exists s2. exact (handle_undecided _ _ _ _ _ _ _ _ _ _ _ _ _ _ H Hu).
  - exact (handle_reply_fails _ _ _ _ _ _ _ _ _ _ _ _ _ _ _ _ _ H Hm Ha Hf).
Qed.
Print Assumptions C12_failed_handling_returns_the_original_error.

(** C13, in full: success after a failed call only if an ignore rule matched. *)
Definition C13_statement : Prop :=
  forall M S V kind marshals cs mkp mkb mkl set_error rules (ret : option V) (e : err M) (s : S) ret' s',
  handle_call_error M kind marshals cs mkp mkb mkl S V set_error rules ret e s = ((ret', None), s') ->
  exists r s1 s2, reached rules (set_grpc_error M kind marshals cs S set_error e s) r s1 /\ matches r s1 s2 /\
    match r_action _ _ _ r with Reply _ _ _ _ _ _ => False | _ => True end.

(** C13, proved part: ... or the matching rule's status has code OK, which is when the rule says `code: OK`,
    or says no code and the original error has no status. *)
Theorem C13_success_needs_ignore_partial :
  forall M S V kind marshals cs mkp mkb mkl set_error rules (ret : option V) (e : err M) (s : S) ret' s',
  handle_call_error M kind marshals cs mkp mkb mkl S V set_error rules ret e s = ((ret', None), s') ->
  exists r s1 s2, reached rules (set_grpc_error M kind marshals cs S set_error e s) r s1 /\ matches r s1 s2 /\
    match r_action _ _ _ r with
    | Ignore _ _ _ => True
    | IgnoreAndResponse _ _ _ _ => True
    | Reply _ _ _ _ _ code => match code with Some c => c | None => orig_code cs e end = 0
    end.
Proof. exact (fun M S V => @handle_success M S V). Qed.
Print Assumptions C13_success_needs_ignore_partial.

(** C13 is false: a rule that only sets a message turns an error without status (a panic, a failed retry
    condition) into success. *)
Definition only_message : rule nat unit nat :=
  {| r_defs := None; r_if := fun s => (Ok true, s);
     r_action := Reply _ _ _ (Some (fun s => (Ok "replaced"%string, s))) [] None; r_level := 8 |}.
Theorem C13_success_needs_ignore_refuted : ~ C13_statement.
Proof.
  intros H.
  destruct (H nat unit nat (fun _ => KCustom) (fun _ => true) (fun _ => ""%string) (fun _ => 0%nat) (fun _ => 0%nat)
              (fun _ _ => 0%nat) (fun _ s => s) [only_message] None (EPlain _ "retry condition failed"%string) tt None tt eq_refl)
    as (r & s1 & s2 & (pre & post & Heq & _) & _ & Ha).
  destruct pre as [|p pre]; [|destruct pre; discriminate]. injection Heq as <- _. exact Ha.
Qed.
Print Assumptions C13_success_needs_ignore_refuted.

(** C14, in full: every evaluation of a rule expression sees the error of its own call. *)
Definition C14_statement : Prop :=
  forall (G : Type) (before : option G) (calls : list (option G * nat)) (sched : list nat) i v,
  In (i, v) (log (run sched (start before calls))) ->
  exists g n, nth_error calls i = Some (Some g, n) /\ v = Some g.

(** C14, proved part: calls that fail with a status and are handled one after the other. *)
Theorem C14_rules_see_their_own_error_partial : forall G (before : option G) (calls : list (G * nat)),
  let cs := map (fun p => (Some (fst p), snd p)) calls in
  log (run (one_by_one 0 cs) (start before cs)) =
  concat (map (fun q => repeat (fst q, Some (fst (snd q))) (snd (snd q))) (combine (seq 0 (length calls)) calls)).
Proof.
  intros G before calls. exact (run_one_by_one calls [] (start before _) eq_refl).
Qed.
Print Assumptions C14_rules_see_their_own_error_partial.

(** C14 is false: two calls failing at the same time share the variable ... *)
Theorem C14_rules_see_their_own_error_refuted : ~ C14_statement.
Proof.
  intros H. destruct (H nat None [(Some 1%nat, 1%nat); (Some 2%nat, 1%nat)] [0; 1; 0]%nat 0%nat (Some 2%nat)) as (g & n & H1 & H2).
  - simpl. auto.
  - simpl in H1. congruence.
Qed.
Print Assumptions C14_rules_see_their_own_error_refuted.

(** ... and even a single call sees a stale error when its own has no status. *)
Theorem C14_stale_error_refuted : exists (sched : list nat),
  In (0%nat, Some 7%nat) (log (run sched (start (Some 7%nat) [(None, 1%nat)]))).
Proof. exists [0; 0]%nat. simpl. auto. Qed.
Print Assumptions C14_stale_error_refuted.

(** C15: the variable holds the message and code of the status, all details in order, and each detail in the
    list of its type, in order. Decoded details that cannot be encoded again do not exist in practice: the
    premise says so. *)
Theorem C15_error_variable_classifies_details :
  forall M kind marshals cs (e : err M) st,
  from_error M cs e = (st, true) -> (forall m, In m (decoded st) -> marshals m = true) ->
  0 <= st_code _ st < 2147483648 ->
  exists g, grpc_error M kind marshals cs e = Some g /\
    c_code _ g = st_code _ st /\ c_msg _ g = st_msg _ st /\ c_details _ g = decoded st /\
    forall k, field k g = filter (fun m => dkind_eqb (kind m) k) (decoded st).
Proof.
  intros M kind marshals cs e st H Hm Hc. destruct (grpc_error_spec kind marshals cs e st H) as (g & H1 & H2 & H3 & H4 & H5).
  exists g. rewrite H2, H3, H4, to_int32_small by exact Hc.
  rewrite (filter_true marshals (decoded st) Hm). repeat split; auto.
  intros k. rewrite H5, (filter_true marshals (decoded st) Hm). reflexivity.
Qed.
Print Assumptions C15_error_variable_classifies_details.

(** C15: details that cannot be encoded are the only ones dropped, from every list. *)
Theorem C15_only_unencodable_details_are_dropped :
  forall M kind marshals cs (e : err M) st, from_error M cs e = (st, true) ->
  exists g, grpc_error M kind marshals cs e = Some g /\
    c_code _ g = to_int32 (st_code _ st) /\ c_msg _ g = st_msg _ st /\
    c_details _ g = filter marshals (decoded st) /\
    forall k, field k g = filter (fun m => dkind_eqb (kind m) k) (filter marshals (decoded st)).
Proof. exact (fun M => @grpc_error_spec M). Qed.
Print Assumptions C15_only_unencodable_details_are_dropped.

(** C15: which errors have a status, and that wrapping a status keeps its code and details. *)
Theorem C15_errors_with_a_status : forall M cs (e : err M), snd (from_error M cs e) = has_status e.
Proof. exact (fun M => @from_error_has M). Qed.
Print Assumptions C15_errors_with_a_status.
Theorem C15_wrapping_keeps_code_and_details : forall M cs (e : err M) s, wraps e (EStatus _ s) ->
  snd (from_error M cs e) = true /\ st_code _ (fst (from_error M cs e)) = st_code _ s /\
  st_details _ (fst (from_error M cs e)) = st_details _ s.
Proof. exact (fun M => @wraps_from_error M). Qed.
Print Assumptions C15_wrapping_keeps_code_and_details.

(** C16: a validation definition with a non-OK code fails exactly when its condition is true or something
    fails to evaluate. *)
Definition C16_statement : Prop :=
  forall M S marshals cs mkp mkb mkl (v : vrule M S) s,
  fst (validation_def M marshals cs mkp mkb mkl S v s) = None <-> exists s', v_passes v s s'.

Theorem C16_validation_fails_iff_partial : forall M S marshals cs mkp mkb mkl (v : vrule M S) s,
  v_code _ _ v <> 0 ->
  (fst (validation_def M marshals cs mkp mkb mkl S v s) = None <-> exists s', v_passes v s s').
Proof.
  intros M S marshals cs mkp mkb mkl v s Hc. unfold validation_def. split.
  - intros H. destruct (validation_cases mkp mkb mkl v s) as [H1|[(m & ds & s' & H1)|(e & s' & H1)]]; [exact H1| |].
    + rewrite (validation_matches marshals mkp mkb mkl v s m ds s' H1) in H.
      destruct (Z.eqb_spec (v_code _ _ v) 0); [contradiction|]. simpl in H. discriminate.
    + rewrite (validation_error marshals mkp mkb mkl v s e s' H1) in H.
      destruct (snd (from_error M cs e)); discriminate.
  - intros (s' & H). rewrite (validation_passes marshals mkp mkb mkl v s s' H). reflexivity.
Qed.
Print Assumptions C16_validation_fails_iff_partial.

(** C16: the failure carries the rule's status ... *)
Theorem C16_failure_carries_the_status : forall M S marshals cs mkp mkb mkl (v : vrule M S) s m ds s',
  v_code _ _ v <> 0 -> v_status mkp mkb mkl v s m ds s' ->
  validation_def M marshals cs mkp mkb mkl S v s =
    (Some (ELogged _ (EStatus _ (status_with marshals (v_code _ _ v) m ds)) (v_level _ _ v)), s').
Proof.
  intros M S marshals cs mkp mkb mkl v s m ds s' Hc H. unfold validation_def.
  rewrite (validation_matches marshals mkp mkb mkl v s m ds s' H).
  destruct (Z.eqb_spec (v_code _ _ v) 0); [contradiction|]. reflexivity.
Qed.
Print Assumptions C16_failure_carries_the_status.

(** C16: ... and an evaluation error is reported, as INTERNAL if it is not a status. *)
Theorem C16_evaluation_error_is_reported : forall M S marshals cs mkp mkb mkl (v : vrule M S) s e s',
  v_error mkp mkb mkl v s e s' ->
  validation_def M marshals cs mkp mkb mkl S v s =
    (Some (if snd (from_error M cs e) then e
           else EStatus _ {| st_code := 13; st_msg := "failed running validations: " ++ error_text M cs e; st_details := [] |}), s').
Proof.
  intros M S marshals cs mkp mkb mkl v s e s' H. unfold validation_def.
  rewrite (validation_error marshals mkp mkb mkl v s e s' H). destruct (snd (from_error M cs e)); reflexivity.
Qed.
Print Assumptions C16_evaluation_error_is_reported.

(** C16: every validation is in one of these three cases. *)
Theorem C16_cases_are_exhaustive : forall M S mkp mkb mkl (v : vrule M S) s,
  (exists s', v_passes v s s') \/ (exists m ds s', v_status mkp mkb mkl v s m ds s') \/
  (exists e s', v_error mkp mkb mkl v s e s').
Proof. exact (fun M S => @validation_cases M S). Qed.
Print Assumptions C16_cases_are_exhaustive.

(** C16 is false for `code: OK`: the condition is true and the validation succeeds. *)
Theorem C16_validation_fails_iff_refuted : ~ C16_statement.
Proof.
  intros H.
  pose (v := {| v_defs := None; v_if := fun s => (Ok true, s); v_message := None; v_details := []; v_code := 0; v_level := 8 |}
             : vrule nat unit).
  destruct (proj1 (H nat unit (fun _ => true) (fun _ => ""%string) (fun _ => 0%nat) (fun _ => 0%nat) (fun _ _ => 0%nat) v tt) eq_refl)
    as (s' & s1 & _ & H2).
  simpl in H2. discriminate.
Qed.
Print Assumptions C16_validation_fails_iff_refuted.

(** C46: PreconditionFailure and BadRequest details hold exactly the violations all of whose expressions
    evaluate, in order; there is no detail if there is none. *)
Theorem C46_precondition_failure_keeps_what_evaluates : forall M S mkp (vs : list (eval M S string * eval M S string * eval M S string)) s o s',
  precondition_failure M mkp S vs s = (o, s') ->
  exists r, kept3 vs s r s' /\ o = match r with [] => None | _ => Some (mkp r) end.
Proof. exact (fun M S => @precondition_failure_spec M S). Qed.
Print Assumptions C46_precondition_failure_keeps_what_evaluates.
Theorem C46_bad_request_keeps_what_evaluates : forall M S mkb (vs : list (eval M S string * eval M S string)) s o s',
  bad_request M mkb S vs s = (o, s') ->
  exists r, kept2 vs s r s' /\ o = match r with [] => None | _ => Some (mkb r) end.
Proof. exact (fun M S => @bad_request_spec M S). Qed.
Print Assumptions C46_bad_request_keeps_what_evaluates.

(** Concrete cases. *)
Module Sample.
  Definition ev {A} (a : A) : eval nat nat A := fun s => (Ok a, S s).
  Definition bad {A} : eval nat nat A := fun s => (Err (EPlain _ "no"%string), S s).
  Definition k (m : nat) : dkind := match m with 1%nat => KErrorInfo | 2%nat => KHelp | _ => KCustom end.
  Definition cs (_ : Z) : string := "c".
  Definition st : status nat := {| st_code := 5; st_msg := "not found"; st_details := [Some 1; None; Some 2; Some 9; Some 1]%nat |}.
  Definition handle := handle_call_error nat k (fun m => Nat.ltb m 100) cs (fun l => 1000 + length l)%nat (fun l => 2000 + length l)%nat
    (fun _ _ => 3%nat) nat nat (fun g s => s).
  Definition r_no : rule nat nat nat := {| r_defs := None; r_if := ev false; r_action := Ignore _ _ _; r_level := 4 |}.
  Definition r_yes : rule nat nat nat :=
    {| r_defs := None; r_if := ev true; r_action := Reply _ _ _ None [] (Some 3); r_level := 4 |}.
  Definition r_broken : rule nat nat nat := {| r_defs := None; r_if := bad; r_action := Ignore _ _ _; r_level := 4 |}.
  Definition d1 : detail nat nat :=
    {| d_defs := None; d_if := ev true; d_messages := None; d_by := [ev (Some 8%nat); bad; ev None];
       d_preconditions := []; d_bad_requests := []; d_localized := [("en"%string, ev "hi"%string)] |}.
  Definition r_details : rule nat nat nat :=
    {| r_defs := None; r_if := ev true; r_action := Reply _ _ _ (Some (ev "m"%string)) [d1] None; r_level := 0 |}.
End Sample.

Example C12_sample :
  Sample.handle [Sample.r_no; Sample.r_yes; Sample.r_broken] None (EStatus _ Sample.st) 0%nat
    = ((None, Some (ELogged _ (EStatus _ {| st_code := 3; st_msg := "not found"; st_details := [Some 1; Some 2; Some 9; Some 1]%nat |}) 4)), 2%nat) /\
  Sample.handle [Sample.r_no; Sample.r_broken; Sample.r_yes] None (EStatus _ Sample.st) 0%nat
    = ((None, Some (ELogged _ (EStatus _ Sample.st) 8)), 2%nat) /\
  Sample.handle [Sample.r_no; Sample.r_details] None (EStatus _ Sample.st) 0%nat
    = ((None, Some (ELogged _ (EStatus _ {| st_code := 5; st_msg := "m"; st_details := [Some 8; Some 3]%nat |}) 0)), 8%nat).
Proof. vm_compute. auto. Qed.

Example C15_sample :
  match grpc_error nat Sample.k (fun m => Nat.ltb m 100) Sample.cs (EWrap _ "w"%string (EStatus _ Sample.st)) with
  | Some g => c_details _ g = [1; 2; 9; 1]%nat /\ c_error_info _ g = [1; 1]%nat /\ c_helps _ g = [2]%nat /\
              c_custom_messages _ g = [9]%nat /\ c_msg _ g = "w"%string /\ c_code _ g = 5
  | None => False
  end.
Proof. vm_compute. auto 10. Qed.

Example C16_sample :
  let v c := {| v_defs := None; v_if := c; v_message := None; v_details := [Sample.d1]; v_code := 9; v_level := 8 |} in
  let run c := fst (validation_def nat (fun _ => true) Sample.cs (fun _ => 0%nat) (fun _ => 0%nat) (fun _ _ => 3%nat) nat (v c) 0%nat) in
  run (Sample.ev false) = None /\
  run (Sample.ev true) = Some (ELogged _ (EStatus _ {| st_code := 9; st_msg := "error"; st_details := [Some 8; Some 3]%nat |}) 8) /\
  run Sample.bad = Some (EStatus _ {| st_code := 13; st_msg := "failed running validations: no"; st_details := [] |}).
Proof. vm_compute. auto. Qed.

Example C46_sample :
  precondition_failure nat (fun l => length l) nat
    [(Sample.ev "a", Sample.ev "b", Sample.ev "c"); (Sample.ev "a", Sample.bad, Sample.ev "c")]%string 0%nat = (Some 1%nat, 5%nat) /\
  precondition_failure nat (fun l => length l) nat [(Sample.bad, Sample.ev "b", Sample.ev "c")]%string 0%nat = (None, 1%nat).
Proof. vm_compute. auto. Qed.
