(** C27: variable names are unambiguous. *)
From Coq Require Import Ascii String List Arith Bool.
From Verif.Names Require Import Model Spec Proofs.
Import ListNotations.
Local Open Scope string_scope.

(** Two definitions of an accepted message, at whatever depth, never have the same name. *)
Theorem C27_distinct : forall m, accepted m = true -> NoDup (names false (resolve m)).
Proof.
  intros m H. unfold accepted in H. apply andb_true_iff in H. destruct H as [V C]. rewrite check_fold in C.
  apply (fold_NoDup _ [] (names_nonempty false m V) C).
Qed.
Print Assumptions C27_distinct.

(** Every name written in an accepted message is an identifier and not the reserved word. *)
Theorem C27_identifiers : forall m, accepted m = true -> Forall identifier (written m).
Proof. intros m H. unfold accepted in H. apply andb_true_iff in H. apply valid_message_spec, H. Qed.
Print Assumptions C27_identifiers.

(** A definition keeps the name it was given. *)
Theorem C27_kept : forall m n, accepted m = true -> In n (given m) -> In n (names false (resolve m)).
Proof. intros m n H. unfold accepted in H. apply andb_true_iff in H. apply given_kept_message, H. Qed.
Print Assumptions C27_kept.

(** A name that the message does not write, that of a definition or of an error detail's message, is no identifier, so that a name
    in an expression can only refer to a definition which was given this name. *)
Theorem C27_chosen : forall m n, accepted m = true -> In n (names true (resolve m)) -> In n (written m) \/ n <> "" /\ ~ identifier n.
Proof.
  intros m n H I. unfold accepted in H. apply andb_true_iff in H. destruct H as [V _].
  pose proof (message_origin true m V) as O. rewrite Forall_forall in O. destruct (O _ I) as [W|U]; [now left|right].
  split; [apply under_nonempty, U | apply under_not_identifier, U].
Qed.
Print Assumptions C27_chosen.

(** The full statement: also the messages of error details have a name of their own. *)
Definition C27_statement : Prop := forall m, accepted m = true -> NoDup (names true (resolve m)).
(** It is false: the name of a detail's message has neither the index of the error nor that of the outer definition. *)
Definition shared_message : omessage :=
  {| defs := [ODef "res" (OCall [ORule [] [ODetail [] 1]; ORule [] [ODetail [] 1]])]; oneofs := [] |}.
Theorem C27_refuted : ~ C27_statement.
Proof.
  intros S. specialize (S shared_message eq_refl). cbn in S.
  inversion S as [|? ? ? S1]; subst. inversion S1 as [|? ? NI ?]; subst. apply NI. now left.
Qed.
Print Assumptions C27_refuted.

(** The full statement of the other direction: a message whose written names are distinct identifiers is accepted. *)
Definition C27_accepts_statement : Prop := forall m, Forall identifier (written m) -> NoDup (written m) -> accepted m = true.
(** It is false: chosen names may clash, for the definitions of two errors of a call, or of two cases of a oneof. *)
Definition two_errors : omessage :=
  {| defs := [ODef "" (OCall [ORule [ODef "" Simple] []; ORule [ODef "" Simple] []])]; oneofs := [] |}.
Definition two_cases : omessage := {| defs := []; oneofs := [[ODef "" Simple]; [ODef "" Simple]] |}.
Theorem C27_accepts_refuted : ~ C27_accepts_statement.
Proof. intros S. specialize (S two_errors (Forall_nil _) (NoDup_nil _)). vm_compute in S. discriminate S. Qed.
Print Assumptions C27_accepts_refuted.
Example C27_accepts_refuted_cases : accepted two_cases = false.
Proof. reflexivity. Qed.

(** Proved part: it is accepted if definitions inside errors are named and at most one case of a oneof has definitions without a name. *)
Theorem C27_accepts_partial : forall m,
  Forall identifier (written m) -> NoDup (written m) ->
  Forall inner_named (defs m) -> Forall (Forall inner_named) (oneofs m) ->
  ForallOrdPairs (fun a b => Forall (fun d => ~ unnamed d) a \/ Forall (fun d => ~ unnamed d) b) (oneofs m) ->
  accepted m = true.
Proof. exact accepted_if. Qed.
Print Assumptions C27_accepts_partial.

(** Definitions with and without names, in errors, in details and in the cases of a oneof. *)
Definition sample : omessage :=
  {| defs := [ODef "" Simple; ODef "res" (OCall [ORule [ODef "a" Simple; ODef "b1" (OValidation (ORule [ODef "c" Simple] []))] [ODetail [ODef "d_" Simple] 2]]);
              ODef "" (OValidation (ORule [ODef "e" Simple] []))];
     oneofs := [[ODef "x" Simple]; [ODef "" Simple; ODef "Y" Simple; ODef "" Simple]] |}.
Example C27_sample : accepted sample = true /\
  names true (resolve sample) = ["_def0"; "res"; "a"; "b1"; "c"; "d_"; "_def1_err_detail0_msg0"; "_def1_err_detail0_msg1"; "_def2"; "e"; "x"; "_oneof_def0"; "Y"; "_oneof_def2"].
Proof. split; reflexivity. Qed.
Example C27_sample_accepts :
  Forall inner_named (defs sample) /\ Forall (Forall inner_named) (oneofs sample) /\ NoDup (written sample) /\
  ForallOrdPairs (fun a b => Forall (fun d => ~ unnamed d) a \/ Forall (fun d => ~ unnamed d) b) (oneofs sample).
Proof.
  repeat split; try (repeat constructor; cbn; intuition discriminate).
Qed.
Example C27_sample_rejects : accepted {| defs := [ODef "a" (OCall [ORule [ODef "b" Simple] [ODetail [ODef "a" Simple] 0]])]; oneofs := [] |} = false
  /\ accepted {| defs := [ODef "error" Simple]; oneofs := [] |} = false /\ accepted {| defs := [ODef "1a" Simple]; oneofs := [] |} = false.
Proof. repeat split; reflexivity. Qed.
