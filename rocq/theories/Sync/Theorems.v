(** C78: diagnostics follow the text.

    "When the editor has stopped changing a document and all validations have
    finished, the diagnostics that the editor shows for it are those of its current
    text with the import paths of the server, whatever the validations of this and of
    other documents did at the same time." *)

From Coq Require Import String List Arith Bool Lia.
From Verif.Sync Require Import Model Spec Proofs.
Import ListNotations.
Local Open Scope string_scope.
Local Open Scope list_scope.

(** Follows a schedule. *)
Ltac follow rw :=
  first [ eapply reach_change; [eassumption | cbn; reflexivity |]
        | eapply reach_step; [reflexivity | unfold advance, get_file, set_v, set_c; cbn; do 3 (rw; cbn); reflexivity |] ];
  cbn [tasks mem out set_nth app contents v_paths c_paths].

Section C78.
  Variable diags protos result : Type.
  Variable uri_path : string -> option string.
  Variable disk : string -> option string.
  Variable parses : string -> string -> bool.
  Variable rel : list string -> string -> string.
  Variable compile : list string -> string -> string -> string -> protos + diags.
  Variable resolve : list string -> protos -> result.
  Variable report : list string -> result -> diags.
  Variable ips : list string.

  Local Notation after_events es :=
    (run diags protos result uri_path disk parses rel compile resolve report ips es).
  Local Notation validations es := (tasks diags protos result (after_events es)).
  Local Notation screen es := (shown diags (out diags protos result (after_events es))).
  Local Notation text_is := (text_after uri_path disk).
  Local Notation diagnosis_of := (diagnosis diags protos result rel compile resolve report).
  Local Notation diagnosis_with := (diagnosis4 diags protos result rel compile resolve report).

  (** All validations have finished. *)
  Definition finished (es : list event) : Prop := forall t, In t (validations es) -> snd t = PDone.

  Definition C78_statement : Prop :=
    forall es u path text ts,
      In (Change u ts) es -> finished es ->
      uri_path u = Some path -> text_is path es text ->
      screen es u = Some (diagnosis_of ips path text).

  (** Whatever is shown for a document is the diagnosis of a text that it had at some
      time after a change of it, with import paths that are those of the server, some
      number of times or not at all. *)
  Theorem C78_some_text_partial : forall es u d,
    screen es u = Some d ->
    exists path text es1 es2,
      uri_path u = Some path /\ es = es1 ++ es2 /\ text_is path es1 text /\
      (exists ts, In (Change u ts) es1) /\ parses path text = true /\
      exists p1 p2 p3 p4,
        copies_of ips p1 /\ copies_of ips p2 /\ copies_of ips p3 /\ copies_of ips p4 /\
        d = diagnosis_with p1 p2 p3 p4 path text.
  Proof.
    intros es u d H. apply shown_in in H.
    destruct (run_inv diags protos result uri_path disk parses rel compile resolve report ips es)
      as (_ & _ & _ & O).
    destruct (proj1 (Forall_forall _ _) O _ H) as (path & text & (U & P & es1 & es2 & E & A & T) & D).
    exists path, text, es1, es2. auto 10.
  Qed.

  (** What a validation is about to publish is not older than the change that started
      it. *)
  Theorem C78_not_older : forall before u ts later path d,
    uri_path u = Some path ->
    nth_error (validations (before ++ Change u ts :: later)) (List.length (validations before))
      = Some (u, PPublish diags protos result d) ->
    exists q1 q2 text,
      later = q1 ++ q2 /\ text_is path (before ++ Change u ts :: q1) text /\
      exists p1 p2 p3 p4,
        copies_of ips p1 /\ copies_of ips p2 /\ copies_of ips p3 /\ copies_of ips p4 /\
        d = diagnosis_with p1 p2 p3 p4 path text.
  Proof.
    intros before u ts later path d U H.
    destruct (fresh diags protos result uri_path disk parses rel compile resolve report ips before u ts later path U)
      as (x & N & K). rewrite H in N. injection N as <-.
    destruct K as [K | [K | (text & (q1 & q2 & E & A) & P & W)]]; [discriminate K | discriminate K |].
    exists q1, q2, text. split; [exact E |]. split; [exact A | exact W].
  Qed.

  (** If no validation of the document is under way when it changes, and it does not
      change again, then the diagnostics of the new text are shown when the validation
      has finished, whatever happens to other documents, except that the import paths
      may be repeated or missing. *)
  Theorem C78_quiet_partial : forall before u ts text later path,
    uri_path u = Some path -> parses path text = true ->
    (forall t, In t (validations before) -> fst t = u -> snd t = PDone) ->
    Forall (no_change_of uri_path path) later ->
    nth_error (validations (before ++ Change u (ts ++ [text]) :: later)) (List.length (validations before))
      = Some (u, PDone) ->
    exists p1 p2 p3 p4,
      copies_of ips p1 /\ copies_of ips p2 /\ copies_of ips p3 /\ copies_of ips p4 /\
      screen (before ++ Change u (ts ++ [text]) :: later) u
        = Some (diagnosis_with p1 p2 p3 p4 path text).
  Proof.
    intros before u ts text later path U P D N F.
    destruct (quiet diags protos result uri_path disk parses rel compile resolve report ips
                before u ts text later path U) as (_ & x & Hx & H).
    - intros i x Hi. exact (D _ (nth_error_In _ _ Hi) eq_refl).
    - exact N.
    - rewrite F in Hx. injection Hx as <-.
      destruct H as [[X _] | [(_ & W & _) | [(_ & X & _) | (_ & _ & d & S & p1 & p2 & p3 & p4 & D1 & D2 & D3 & D4 & ->)]]].
      + discriminate X.
      + contradiction W.
      + rewrite P in X. discriminate X.
      + exists p1, p2, p3, p4. auto.
  Qed.

  (** If no validation at all is under way, and nothing changes again, then it is
      exactly the diagnosis of the new text. *)
  Theorem C78_alone_partial : forall before u ts text later path,
    uri_path u = Some path -> parses path text = true ->
    finished before -> Forall no_change later ->
    finished (before ++ Change u (ts ++ [text]) :: later) ->
    screen (before ++ Change u (ts ++ [text]) :: later) u = Some (diagnosis_of ips path text).
  Proof.
    intros before u ts text later path U P D N F.
    destruct (alone diags protos result uri_path disk parses rel compile resolve report ips
                before u ts text later path U P) as (_ & x & Hx & H).
    - intros i v x Hi. exact (D _ (nth_error_In _ _ Hi)).
    - exact N.
    - pose proof (F _ (nth_error_In _ _ Hx)) as X. cbn in X. rewrite X in H.
      destruct H as [H | [_ H]]; [contradiction H | exact H].
  Qed.

  (** A validation finishes: it has at most thirteen steps. *)
  Theorem C78_finishes : forall es later n u p,
    nth_error (validations es) n = Some (u, p) ->
    13 <= List.length (filter (fun e => match e with Step i => Nat.eqb i n | _ => false end) later) ->
    nth_error (validations (es ++ later)) n = Some (u, PDone).
  Proof.
    intros es later n u p H L.
    destruct (finishes diags protos result uri_path disk parses rel compile resolve report ips
                es later n u p H) as (p' & H' & K).
    rewrite H'. unfold steps_of in K.
    assert (B : left diags protos result p <= 13) by (destruct p; cbn; lia).
    destruct p'; cbn in K; try lia. reflexivity.
  Qed.

  (** Nothing is shown for a document that was opened but never changed. *)
  Theorem C78_only_changed : forall es u,
    (forall ts, ~ In (Change u ts) es) -> screen es u = None.
  Proof.
    intros es u N. destruct (screen es u) as [d |] eqn:E; [| reflexivity].
    destruct (C78_some_text_partial es u d E) as (_ & _ & es1 & es2 & _ & -> & _ & (ts & I) & _).
    exfalso. apply (N ts). apply in_or_app. auto.
  Qed.

  (** If a text cannot be parsed at all, what was shown before stays. *)
  Theorem C78_unparsable : forall before u ts text later path,
    uri_path u = Some path -> parses path text = false ->
    (forall t, In t (validations before) -> fst t = u -> snd t = PDone) ->
    Forall (no_change_of uri_path path) later ->
    screen (before ++ Change u (ts ++ [text]) :: later) u = screen before u.
  Proof.
    intros before u ts text later path U P D N.
    destruct (quiet diags protos result uri_path disk parses rel compile resolve report ips
                before u ts text later path U) as (_ & x & Hx & H).
    - intros i x Hi. exact (D _ (nth_error_In _ _ Hi) eq_refl).
    - exact N.
    - destruct H as [[_ H] | [(X & _) | [(_ & _ & H) | (_ & X & _)]]]; try exact H;
        rewrite P in X; discriminate X.
  Qed.

  (** The text that the server has of a document is the last one it was given, and
      that on disk only if it was given none; closing it makes no difference. *)
  Theorem C78_text : forall es u path text,
    get_file uri_path disk (mem diags protos result (after_events es)) u = Some (path, text) <->
    uri_path u = Some path /\ text_is path es text.
  Proof. apply get_file_after. Qed.

  Theorem C78_closed_stays : forall es u ts text path,
    uri_path u = Some path ->
    get_file uri_path disk (mem diags protos result (after_events (es ++ [Change u (ts ++ [text]); Close u]))) u
      = Some (path, text).
  Proof.
    intros es u ts text path U. apply C78_text. split; [exact U |].
    apply text_given; [constructor; exact U |]. intros e' t' [<- | []] G. inversion G.
  Qed.

  (** The full statement is false: an older validation may publish last. *)
  Theorem C78_stale : forall u path t1 t2,
    uri_path u = Some path -> parses path t1 = true -> parses path t2 = true ->
    exists es,
      In (Change u [t2]) es /\ finished es /\ text_is path es t2 /\
      screen es u = Some (diagnosis_of ips path t1).
  Proof.
    intros u path t1 t2 U P1 P2.
    set (k := match compile ips (rel ips path) path t1 with inl _ => 12 | inr _ => 8 end).
    exists ([Change u [t1]] ++ repeat (Step 0) k ++ Change u [t2] :: repeat (Step 1) 13 ++ [Step 0]).
    split; [apply in_or_app; right; apply in_or_app; right; left; reflexivity |].
    assert (R : exists m d2, after_events ([Change u [t1]] ++ repeat (Step 0) k ++ Change u [t2] :: repeat (Step 1) 13 ++ [Step 0])
      = {| mem := m; tasks := [(u, PDone); (u, PDone)];
           out := [(u, diagnosis_of ips path t1); (u, d2)] |}).
    { unfold k, diagnosis, diagnosis4, run, init. clear k.
      destruct (compile ips (rel ips path) path t1) as [q1 | d1] eqn:E1;
        destruct (compile ips (rel ips path) path t2) as [q2 | d2] eqn:E2; do 2 eexists;
        cbn [repeat app];
        repeat (follow ltac:(rewrite ?U, ?String.eqb_refl, ?P1, ?P2, ?E1, ?E2)); reflexivity. }
    destruct R as (m & d2 & R). unfold finished. rewrite R. split.
    - intros t [<- | [<- | []]]; reflexivity.
    - split; [| cbn; rewrite String.eqb_refl; reflexivity].
      rewrite app_assoc. apply (text_given uri_path disk path _ _ (Change u ([] ++ [t2])));
        [constructor; exact U |].
      intros e' t' I G. apply in_app_or in I. destruct I as [I | [<- | []]]; [| inversion G].
      apply repeat_spec in I. subst e'. inversion G.
  Qed.

  (** A change of another document can take the import paths away: the errors that a
      document would have without import paths are shown. *)
  Theorem C78_imports_lost : forall u1 u2 path1 path2 t1 t2 d,
    uri_path u1 = Some path1 -> uri_path u2 = Some path2 -> path1 <> path2 ->
    parses path1 t1 = true -> parses path2 t2 = true ->
    compile [] (rel [] path1) path1 t1 = inr d ->
    exists es,
      finished es /\ text_is path1 es t1 /\ text_is path2 es t2 /\ screen es u1 = Some d.
  Proof.
    intros u1 u2 path1 path2 t1 t2 d U1 U2 N P1 P2 E.
    assert (B1 : String.eqb path1 path2 = false) by (apply String.eqb_neq; exact N).
    assert (B2 : String.eqb path2 path1 = false) by (apply String.eqb_neq; congruence).
    assert (Nu : String.eqb u2 u1 = false).
    { apply String.eqb_neq. intros ->. rewrite U1 in U2. injection U2 as <-. apply N; reflexivity. }
    set (rest := repeat (Step 0) 6 ++ repeat (Step 1) 5 ++ repeat (Step 0) 3 ++ repeat (Step 1) 8).
    assert (K : forall e' t' path, In e' rest -> ~ gives uri_path path e' t').
    { intros e' t' path I G. unfold rest in I. rewrite !in_app_iff in I.
      destruct I as [I | [I | [I | I]]]; apply repeat_spec in I; subst e'; inversion G. }
    assert (R : exists m d2, after_events (Change u1 [t1] :: Change u2 [t2] :: rest)
      = {| mem := m; tasks := [(u1, PDone); (u2, PDone)]; out := [(u2, d2); (u1, d)] |}).
    { unfold rest, run, init. clear K rest.
      destruct (compile ips (rel ips path2) path2 t2) as [q2 | d2] eqn:E2; do 2 eexists; cbn [repeat app];
        do 24 (follow ltac:(rewrite ?U1, ?U2, ?String.eqb_refl, ?B1, ?B2, ?P1, ?P2, ?E, ?E2)); reflexivity. }
    clearbody rest. exists (Change u1 [t1] :: Change u2 [t2] :: rest).
    destruct R as (m & d2 & R). unfold finished. rewrite R.
    split; [intros t [<- | [<- | []]]; reflexivity |]. clear R. split.
    { apply (text_given uri_path disk path1 [] (Change u2 [t2] :: rest) (Change u1 [t1]) t1).
      - apply (gives_text uri_path path1 u1 [] t1 U1).
      - intros e' t' [<- | I]; [| apply K; exact I]. intro G. inversion G as [u ts t X]; subst.
        rewrite U2 in X. injection X as X. apply N. symmetry; exact X. }
    split; [| cbn; rewrite Nu, String.eqb_refl; reflexivity].
    apply (text_given uri_path disk path2 [Change u1 [t1]] rest (Change u2 [t2]) t2).
    - apply (gives_text uri_path path2 u2 [] t2 U2).
    - intros e' t' I. apply K. exact I.
  Qed.
End C78.
Print Assumptions C78_some_text_partial.
Print Assumptions C78_not_older.
Print Assumptions C78_quiet_partial.
Print Assumptions C78_alone_partial.
Print Assumptions C78_finishes.
Print Assumptions C78_only_changed.
Print Assumptions C78_unparsable.
Print Assumptions C78_text.
Print Assumptions C78_closed_stays.
Print Assumptions C78_stale.
Print Assumptions C78_imports_lost.

(** A server whose compiler finds the import only with import paths, and whose
    diagnostics tell the text. *)
Definition ex_compile (ps : list string) (r path text : string) : string + string :=
  match ps with
  | [] => inr "import not found"%string
  | _ => if String.eqb text "bad" then inr "syntax error"%string else inl text
  end.
Local Notation ex_run :=
  (run string string string (fun u => Some u) (fun _ => None) (fun _ t => negb (String.eqb t "")) (fun _ p => p)
       ex_compile (fun _ t => t) (fun _ t => ("ok " ++ t)%string) ["proto"%string]).
Local Notation ex_screen es := (shown string (out string string string (ex_run es))).

(** The statement is false of it. *)
Theorem C78_refuted :
  ~ (forall diags protos result uri_path disk parses rel compile resolve report ips,
       C78_statement diags protos result uri_path disk parses rel compile resolve report ips).
Proof.
  intro H.
  destruct (C78_stale string string string (fun u => Some u) (fun _ => None)
              (fun _ t => negb (String.eqb t "")) (fun _ p => p) ex_compile (fun _ t => t)
              (fun _ t => ("ok " ++ t)%string) ["proto"%string] "a.proto" "a.proto" "one" "two"
              eq_refl eq_refl eq_refl) as (es & I & F & T & S).
  rewrite (H _ _ _ _ _ _ _ _ _ _ _ es "a.proto"%string "a.proto"%string "two"%string _ I F eq_refl T) in S.
  discriminate S.
Qed.
Print Assumptions C78_refuted.

(** Two documents at the same time, and the first one again. *)
Definition ex_events : list event :=
  [Open "a.proto" "zero"; Change "a.proto" ["one"%string]; Change "b.proto" ["bad"%string]]
  ++ concat (repeat [Step 0; Step 1] 13)
  ++ [Change "a.proto" ["two"; "three"]%string] ++ repeat (Step 2) 13 ++ [Close "b.proto"].

Example C78_example :
  (forall t, In t (tasks string string string (ex_run ex_events)) -> snd t = PDone) /\
  ex_screen ex_events "a.proto"%string = Some "ok three"%string /\
  ex_screen ex_events "b.proto"%string = Some "syntax error"%string /\
  ex_screen ex_events "c.proto"%string = None.
Proof.
  assert (E : tasks string string string (ex_run ex_events)
              = [("a.proto"%string, PDone); ("b.proto"%string, PDone); ("a.proto"%string, PDone)])
    by (vm_compute; reflexivity).
  split; [| split; [vm_compute; reflexivity | split; vm_compute; reflexivity]].
  rewrite E. intros t I. destruct I as [<- | [<- | [<- | []]]]; reflexivity.
Qed.

(** The hypotheses of [C78_imports_lost] hold for two of its documents. *)
Example C78_imports_lost_example :
  ex_compile [] "a.proto" "a.proto" "one" = inr "import not found"%string /\
  ex_compile ["proto"%string] "a.proto" "a.proto" "one" = inl "one"%string.
Proof. split; reflexivity. Qed.
