(** C45: the attributes on log records. *)
From Coq Require Import List Arith Lia.
From Verif.Base Require Import Slice.
From Verif.Log Require Import Model Spec Proofs.
Import ListNotations.

(** The full property: whatever messages run in a request and whatever they add, in any order,
    - a context holds the attributes it was started with and those added to it since, in order;
    - its records show each of them, and each once. *)
Definition C45_scope_statement : Prop :=
  forall ops c r, nth_error (scopes (expected ops)) c = Some r ->
  exists a, Attrs (run ops) c = Some a /\ view (mem (run ops)) a = map Some (own r).
Definition C45_once_statement : Prop :=
  forall ops c r, Forall keeps_logger ops -> nth_error (scopes (expected ops)) c = Some r ->
  Logger (run ops) c = Some (shown r).

(** It is false: two messages entered from one context append to the same array (server.go.tmpl:543 hands LogAttrs(ctx) to
    NewLoggerRef...; context.go:70 appends in place when there is room). Message 1 loses its attribute 4 to message 2. *)
Definition two_messages : list op := [Request; Add 0 [1; 2; 3] 1; Message 0; Message 0; Add 1 [4] 0; Add 2 [5] 0].
Theorem C45_scope_refuted : ~ C45_scope_statement.
Proof.
  intros H. destruct (H two_messages 1 {| version := 2; own := [1; 2; 3; 4]; shown := [1; 2; 3; 4] |} eq_refl) as (a & Ha & Hv).
  vm_compute in Ha. injection Ha as <-. vm_compute in Hv. discriminate.
Qed.
Print Assumptions C45_scope_refuted.
(** Writing the log record of an error has the same effect: message 0 loses the attribute 4 it added to the status 9. *)
Theorem C45_error_log_refuted :
  ~ (forall before e x room c l, Logger (run before) c = Some l -> Logger (run (before ++ [Output e x room])) c = Some l).
Proof.
  intros H. specialize (H [Request; Add 0 [1; 2; 3] 1; NewError 0; Add 0 [4] 0] 0 9 0 0 [1; 2; 3; 4] eq_refl). vm_compute in H. discriminate.
Qed.
Print Assumptions C45_error_log_refuted.
(** And an attribute is on the records of a nested message once for every level below the one that added it. *)
Theorem C45_once_refuted : ~ C45_once_statement.
Proof.
  intros H. specialize (H [Request; Add 0 [1] 0; Message 0] 1 {| version := 1; own := [1]; shown := [1] |}).
  assert (K : Forall keeps_logger [Request; Add 0 [1] 0; Message 0]) by (repeat constructor).
  specialize (H K eq_refl). vm_compute in H. discriminate.
Qed.
Print Assumptions C45_once_refuted.

(** What holds: if no two holders of one list of attributes both add to it, every context and every error holds exactly its
    attributes, in order. Missing from the full property: histories in which two of them add (refuted above). *)
Theorem C45_scope_partial : forall ops s, linear ops s ->
  (forall c r, nth_error (scopes s) c = Some r ->
     exists a, Attrs (run ops) c = Some a /\ view (mem (run ops)) a = map Some (own r)) /\
  (forall e r, nth_error (errors s) e = Some r ->
     exists a, nth_error (errs (run ops)) e = Some a /\ view (mem (run ops)) a = map Some (own r)).
Proof.
  intros ops s L. pose proof (inv_run ops init start s inv_init L) as I. fold (run ops) in I. split.
  - intros c r H. destruct (nth_error (refs (run ops)) c) as [x|] eqn:E; [|rewrite (ref_none _ _ _ I E) in H; discriminate].
    destruct (held_ref _ _ _ _ I E) as (q & Eq & Hh). rewrite Eq in H. injection H as ->.
    exists (attrs x). unfold Attrs. rewrite E. split; [reflexivity|]. apply (i_held _ _ I _ _ Hh).
  - intros e r H. destruct (nth_error (errs (run ops)) e) as [a|] eqn:E; [|rewrite (err_none _ _ _ I E) in H; discriminate].
    destruct (held_err _ _ _ _ I E) as (q & Eq & Hh). rewrite Eq in H. injection H as ->.
    exists a. split; [reflexivity|]. apply (i_held _ _ I _ _ Hh).
Qed.
Print Assumptions C45_scope_partial.

(** Then the records of a context show the attributes of the context and of the contexts it was entered from, and no others, and
    end with those of the context in order. Missing: that each is there once (refuted above). *)
Theorem C45_visible_partial : forall ops s c r, linear ops s -> Forall keeps_logger ops -> nth_error (scopes s) c = Some r ->
  exists before, Logger (run ops) c = Some (before ++ own r) /\ forall x, In x (before ++ own r) <-> In x (shown r).
Proof.
  intros ops s c r L K H. pose proof (inv_run ops init start s inv_init L) as I. fold (run ops) in I.
  assert (S : shows (run ops) s).
  { apply (shows_run ops init start s inv_init); [|exact K|exact L]. intros c0 r0 q0 H0. destruct c0; discriminate. }
  destruct (nth_error (refs (run ops)) c) as [x|] eqn:E; [|rewrite (ref_none _ _ _ I E) in H; discriminate].
  destruct (held_ref _ _ _ _ I E) as (q & Eq & Hh). rewrite Eq in H. injection H as ->.
  exists (logger x). unfold Logger. rewrite E. cbn [option_map]. rewrite (proj1 (proj2 (proj2 (i_held _ _ I _ _ Hh)))), values_some. split; [reflexivity|].
  intros y. rewrite in_app_iff. exact (S c x r E Eq y).
Qed.
Print Assumptions C45_visible_partial.

(** A request with a message, a message below it and a custom resolver, each adding attributes, and an error: linear. *)
Definition sample : list op := [Request; Add 0 [1] 0; Message 0; Add 1 [2; 3] 2; Message 1; Add 2 [4] 0; Custom 2; Add 3 [5] 0; NewError 3; Output 0 9 0].
Definition sample_end : spec := match follows start sample with Some s => s | None => start end.
Example C45_sample : linear sample sample_end /\ Forall keeps_logger sample /\ map own (scopes sample_end) = [[1]; [1; 2; 3]; [1; 2; 3; 4]; [5]] /\
  map shown (scopes sample_end) = [[1]; [1; 2; 3]; [1; 2; 3; 4]; [1; 2; 3; 4; 5]] /\ Logger (run sample) 1 = Some [1; 1; 2; 3].
Proof. split; [reflexivity|]. split; [repeat constructor|]. repeat split; reflexivity. Qed.
