(** C26: name resolution picks the declared entity. *)
From Coq Require Import String Ascii List Arith Bool Lia.
From Verif.Base Require Import Text TextProofs.
From Verif.Lookup Require Import Model Spec Proofs.
Import ListNotations.
Local Open Scope string_scope.

Lemma wf_apart' s (W : well_formed s) p q r i :
  In (p, q ++ r, i)%list (declared_messages s) \/ In (p, q ++ r, i)%list (declared_enums s) -> q <> [] -> r <> [] -> has_package s (join "." (p :: q)) = false.
Proof.
  intros D Nq Nr. destruct (declared_message_prefix _ _ _ _ _ Nq Nr D) as [i' D']. destruct (has_package s _) eqn:E; [|reflexivity].
  apply has_package_In in E. destruct E as [f [I E]]. elim (wf_apart s W _ f D' I). symmetry. exact E.
Qed.

(** From any file, and whatever was resolved before: the full name of a message, with or without a dot in front, resolves to it. *)
Theorem C26_full_names : forall s h cur d, well_formed s ->
  (In d (declared_messages s) -> snd (resolve_by_name (lookupMessage s) s (run (lookupMessage s) h) cur (full_name d)) = Some (snd d) /\
                                 snd (resolve_by_name (lookupMessage s) s (run (lookupMessage s) h) cur ("." ++ full_name d)) = Some (snd d)) /\
  (In d (declared_enums s) -> snd (resolve_by_name (lookupEnum s) s (run (lookupEnum s) h) cur (full_name d)) = Some (snd d) /\
                              snd (resolve_by_name (lookupEnum s) s (run (lookupEnum s) h) cur ("." ++ full_name d)) = Some (snd d)).
Proof.
  intros s h cur d W. split; intros I.
  - apply (by_full_name s (lookupMessage s) (declared_messages s)); auto.
    + apply lookupMessage_sound. + apply lookupMessage_found. + intros p path x J. apply (declared_path s p path x). auto.
    + apply W. + apply W. + intros p path x J. eapply (wf_simple s W). left. exact J.
    + intros p path x J. apply (declared_path s p path x). auto.
    + intros p q r x J. apply (wf_apart' s W p q r x). auto.
    + apply run_good; [apply lookupMessage_sound|]. intros p path x J. apply (declared_path s p path x). auto.
  - apply (by_full_name s (lookupEnum s) (declared_enums s)); auto.
    + apply lookupEnum_sound. + apply lookupEnum_found. + intros p path x J. apply (declared_path s p path x). auto.
    + apply W. + apply W. + intros p path x J. eapply (wf_simple s W). right. exact J.
    + intros p path x J. apply (declared_path s p path x). auto.
    + intros p q r x J. apply (wf_apart' s W p q r x). auto.
    + apply run_good; [apply lookupEnum_sound|]. intros p path x J. apply (declared_path s p path x). auto.
Qed.
Print Assumptions C26_full_names.

(** Whatever a name is resolved to has this name, as a full name or within the current package. *)
Theorem C26_only_the_named : forall s h cur n x, well_formed s ->
  (snd (resolve_by_name (lookupMessage s) s (run (lookupMessage s) h) cur n) = Some x ->
     exists d, In d (declared_messages s) /\ snd d = x /\ (full_name d = n \/ "." ++ full_name d = n \/ full_name d = cur ++ "." ++ n)) /\
  (snd (resolve_by_name (lookupEnum s) s (run (lookupEnum s) h) cur n) = Some x ->
     exists d, In d (declared_enums s) /\ snd d = x /\ (full_name d = n \/ "." ++ full_name d = n \/ full_name d = cur ++ "." ++ n)).
Proof.
  intros s h cur n x W. split; intros H.
  - eapply (by_name_sound s (lookupMessage s) (declared_messages s)); eauto.
    + apply lookupMessage_sound. + intros p path y J. apply (declared_path s p path y). auto.
    + apply run_good; [apply lookupMessage_sound|]. intros p path y J. apply (declared_path s p path y). auto.
  - eapply (by_name_sound s (lookupEnum s) (declared_enums s)); eauto.
    + apply lookupEnum_sound. + intros p path y J. apply (declared_path s p path y). auto.
    + apply run_good; [apply lookupEnum_sound|]. intros p path y J. apply (declared_path s p path y). auto.
Qed.
Print Assumptions C26_only_the_named.

(** The full statement for names of the current package: they need no prefix. *)
Definition C26_local_statement : Prop := forall s h cur path x, well_formed s -> In (cur, path, x) (declared_messages s) ->
  snd (resolve_by_name (lookupMessage s) s (run (lookupMessage s) h) cur (join "." path)) = Some x.
(** It is false: a package with the name of the outer message takes precedence. *)
Definition shadowed : schema :=
  [ {| package := "org"; messages := [MDesc 1 "User" [MDesc 2 "Address" [] []] []]; enums := []; services := [] |};
    {| package := "User"; messages := []; enums := []; services := [] |} ].
Lemma simple_all (l : list string) : forallb (fun n => negb (n =? "") && negb (has_char "." n)) l = true -> Forall simple l.
Proof.
  intros H. rewrite forallb_forall in H. apply Forall_forall. intros n I. specialize (H n I). apply andb_true_iff in H. destruct H as [A B].
  apply negb_true_iff, String.eqb_neq in A. apply negb_true_iff in B. split; assumption.
Qed.
Ltac wf_concrete :=
  constructor;
  [ intros f I; cbn in I; repeat (destruct I as [<-|I]; [cbn; match goal with |- qualified ?p => exists (split "." p) end; split; [discriminate|]; split; [apply simple_all; reflexivity | reflexivity]|]); destruct I
  | intros p path i [I|I]; vm_compute in I; repeat (destruct I as [I|I]; [injection I as <- <- <-; apply simple_all; reflexivity|]); destruct I
  | intros p path v I; vm_compute in I; repeat (destruct I as [I|I]; [injection I as <- <- <-; split; [apply simple_all; reflexivity | repeat constructor]|]); destruct I
  | vm_compute; repeat constructor; cbn; intuition discriminate ..
  | intros d f I J; vm_compute in I; cbn in J; repeat (destruct I as [<-|I]; [repeat (destruct J as [<-|J]; [discriminate|]); destruct J|]); destruct I ].
Lemma shadowed_wf : well_formed shadowed.
Proof. wf_concrete. Qed.
Theorem C26_local_refuted : ~ C26_local_statement.
Proof. intros S. specialize (S shadowed [] "org" ["User"; "Address"] 2 shadowed_wf). vm_compute in S. assert (E : @None nat = Some 2) by (apply S; auto). discriminate E. Qed.
Print Assumptions C26_local_refuted.
(** Proved part: all names of the current package that do not begin with the name of a package and a dot; in particular names without dot. *)
Theorem C26_local_partial : forall s h cur path x, well_formed s -> ~ begins_with_package s (join "." path) ->
  (In (cur, path, x) (declared_messages s) -> snd (resolve_by_name (lookupMessage s) s (run (lookupMessage s) h) cur (join "." path)) = Some x) /\
  (In (cur, path, x) (declared_enums s) -> snd (resolve_by_name (lookupEnum s) s (run (lookupEnum s) h) cur (join "." path)) = Some x).
Proof.
  intros s h cur path x W B. split; intros I.
  - apply (by_local_name s (lookupMessage s) (declared_messages s)); eauto.
    + apply lookupMessage_sound. + apply lookupMessage_found. + intros p q y J. apply (declared_path s p q y). auto.
    + apply W. + intros p q y J. eapply (wf_simple s W). left. exact J.
    + apply run_good; [apply lookupMessage_sound|]. intros p q y J. apply (declared_path s p q y). auto.
  - apply (by_local_name s (lookupEnum s) (declared_enums s)); eauto.
    + apply lookupEnum_sound. + apply lookupEnum_found. + intros p q y J. apply (declared_path s p q y). auto.
    + apply W. + intros p q y J. eapply (wf_simple s W). right. exact J.
    + apply run_good; [apply lookupEnum_sound|]. intros p q y J. apply (declared_path s p q y). auto.
Qed.
Print Assumptions C26_local_partial.
Corollary C26_local_simple_partial : forall s h cur n x, well_formed s -> In (cur, [n], x) (declared_messages s) ->
  snd (resolve_by_name (lookupMessage s) s (run (lookupMessage s) h) cur n) = Some x.
Proof.
  intros s h cur n x W I. apply (C26_local_partial s h cur [n] x W); [|exact I]. intros (f & r & _ & E). cbn in E.
  pose proof (wf_simple s W cur [n] x (or_introl I)) as S. inversion S as [|? ? [_ D] _]; subst. rewrite !has_char_app in D. cbn in D. rewrite orb_true_r in D. discriminate.
Qed.
Print Assumptions C26_local_simple_partial.

(** The full statement that resolution depends on nothing but the schema, the file and the name. *)
Definition C26_history_statement : Prop := forall s h h' cur n, well_formed s ->
  snd (resolve_by_name (lookupMessage s) s (run (lookupMessage s) h) cur n) = snd (resolve_by_name (lookupMessage s) s (run (lookupMessage s) h') cur n).
(** It is false: a message of a package below the current one is found by the rest of its name only after it has been resolved by its full name. *)
Definition below : schema :=
  [ {| package := "org"; messages := [MDesc 1 "User" [] []]; enums := []; services := [] |};
    {| package := "org.post"; messages := [MDesc 2 "Post" [] []]; enums := []; services := [] |} ].
Lemma below_wf : well_formed below.
Proof. wf_concrete. Qed.
Theorem C26_history_refuted : ~ C26_history_statement.
Proof. intros S. specialize (S below [] [("org.post", "Post")] "org" "post.Post" below_wf). vm_compute in S. discriminate S. Qed.
Print Assumptions C26_history_refuted.

(** The full statement for files without a package, whose messages protobuf calls ".Name" in fields. *)
Definition C26_no_package_statement : Prop := forall s n x, In ("", [n], x) (declared_messages s) -> simple n -> NoDup (map full_name (declared_messages s)) ->
  snd (resolve_by_name (lookupMessage s) s [] "" (full_name ("", [n], x))) = Some x.
Theorem C26_no_package_refuted : ~ C26_no_package_statement.
Proof.
  intros S. specialize (S [ {| package := ""; messages := [MDesc 1 "User" [] []]; enums := []; services := [] |} ] "User" 1). vm_compute in S.
  assert (E : @None nat = Some 1); [|discriminate E]. apply S; [auto | split; [discriminate | reflexivity] | repeat constructor; intros []].
Qed.
Print Assumptions C26_no_package_refuted.

(** Methods: "package.Service/Method", or "Service/Method" within the package, resolves to the method, and nothing else does. *)
Theorem C26_methods : forall s h cur p svc id ms m, well_formed s -> In (p, [svc], (id, ms)) (declared_services s) -> In m ms -> has_char "/" m = false ->
  snd (resolve_method s (run (lookupService s) h) cur (p ++ "." ++ svc ++ "/" ++ m)) = Some (id, m) /\
  snd (resolve_method s (run (lookupService s) h) p (svc ++ "/" ++ m)) = Some (id, m).
Proof.
  intros s h cur p svc id ms m W I Im Hm.
  assert (NE : forall p path v, In (p, path, v) (declared_services s) -> path <> []).
  { intros q path v J. unfold declared_services in J. apply (in_declared (fun f => map (fun v => ([fst v], snd v)) (services f))) in J. destruct J as (f & _ & _ & J). apply in_map_iff in J. destruct J as (e & E & _). injection E as <- _. discriminate. }
  destruct (wf_service_names s W _ _ _ I) as [S1 S2]. inversion S1 as [|? ? Sv _]; subst. inversion S2 as [|? ? Hp S3]; subst. inversion S3 as [|? ? Hs _]; subst.
  pose proof I as J. unfold declared_services in J. apply (in_declared (fun f => map (fun v => ([fst v], snd v)) (services f))) in J. destruct J as (f & If & P & _).
  assert (Q : qualified p) by (subst p; apply (wf_packages s W), If).
  assert (HP : has_package s p = true) by (apply has_package_In; exists f; auto).
  assert (G : good (declared_services s) (run (lookupService s) h)) by (apply run_good; [apply lookupService_sound | exact NE]).
  pose proof (resolve_declared (lookupService s) (declared_services s) (lookupService_sound s) (lookupService_found s) NE (wf_services s W) _ _ _ _ G I) as R.
  change (join "." [svc]) with svc in R.
  assert (Mm : existsb (String.eqb m) ms = true) by (apply existsb_exists; exists m; split; [exact Im | apply String.eqb_refl]).
  unfold resolve_method. rewrite split_method_full, split_method_local by assumption. rewrite HP.
  destruct (resolve_in (lookupService s) (run (lookupService s) h) p svc) as [c r]. cbn in R. subst r. rewrite Mm. auto.
Qed.
Print Assumptions C26_methods.
Theorem C26_methods_only : forall s h cur n id m, well_formed s -> snd (resolve_method s (run (lookupService s) h) cur n) = Some (id, m) ->
  exists d ms, In d (declared_services s) /\ snd d = (id, ms) /\ In m ms /\ (n = full_name d ++ "/" ++ m \/ cur ++ "." ++ n = full_name d ++ "/" ++ m).
Proof.
  intros s h cur n id m W H.
  assert (NE : forall p path v, In (p, path, v) (declared_services s) -> path <> []).
  { intros q path v J. unfold declared_services in J. apply (in_declared (fun f => map (fun v => ([fst v], snd v)) (services f))) in J. destruct J as (f & _ & _ & J). apply in_map_iff in J. destruct J as (e & E & _). injection E as <- _. discriminate. }
  assert (G : good (declared_services s) (run (lookupService s) h)) by (apply run_good; [apply lookupService_sound | exact NE]).
  unfold resolve_method in H. destruct (splitMethodFullName cur n) as [[[p svc] mm]|] eqn:E; [|discriminate]. destruct (has_package s p); [|discriminate].
  destruct (resolve_in (lookupService s) (run (lookupService s) h) p svc) as [c r] eqn:R. destruct r as [[i ms]|]; [|discriminate]. cbn in H.
  destruct (existsb (String.eqb mm) ms) eqn:M; [|discriminate]. injection H as <- <-.
  destruct (proj2 (resolve_good (lookupService s) (declared_services s) (lookupService_sound s) NE _ p svc G) (i, ms)) as (q & path & J & F); [rewrite R; reflexivity|].
  exists (q, path, (i, ms)), ms. split; [exact J|]. split; [reflexivity|].
  split; [apply existsb_exists in M; destruct M as (x & Ix & M); apply String.eqb_eq in M; now subst|].
  rewrite F. apply split_method_sound in E. destruct E as [E|[-> E]]; rewrite E, !sapp_assoc; auto.
Qed.
Print Assumptions C26_methods_only.

(** Nested messages and enums, a package within another, two files of one package. *)
Definition sample : schema :=
  [ {| package := "org.user"; messages := [MDesc 1 "User" [MDesc 2 "Address" [MDesc 3 "Zip" [] []] [("Kind", 10)]] []]; enums := [("Kind", 11)];
       services := [("UserService", (20, ["GetUser"; "GetUsers"]))] |};
    {| package := "org"; messages := [MDesc 4 "User" [] []; MDesc 5 "Zip" [] []]; enums := [("Kind", 12)]; services := [("UserService", (21, ["GetUser"]))] |};
    {| package := "org.user"; messages := [MDesc 6 "Zip" [] []]; enums := []; services := [] |} ].
Lemma sample_wf : well_formed sample.
Proof. wf_concrete. Qed.
Example C26_sample :
  snd (resolve_by_name (lookupMessage sample) sample [] "org" ".org.user.User.Address.Zip") = Some 3 /\
  snd (resolve_by_name (lookupMessage sample) sample [] "org.user" "User.Address") = Some 2 /\
  snd (resolve_by_name (lookupMessage sample) sample [] "org.user" "Zip") = Some 6 /\
  snd (resolve_by_name (lookupEnum sample) sample [] "org" "org.user.User.Address.Kind") = Some 10 /\
  snd (resolve_method sample [] "org" "org.user.UserService/GetUsers") = Some (20, "GetUsers") /\
  snd (resolve_method sample [] "org" "UserService/GetUser") = Some (21, "GetUser").
Proof. repeat split; reflexivity. Qed.
