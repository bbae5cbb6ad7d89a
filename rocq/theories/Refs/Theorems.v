From Coq Require Import String List Arith Bool Lia.
From Verif.Refs Require Import Model Spec Proofs.
From Verif.Plan Require Import Model Spec.
From Verif.Exec Require Import Model Spec Theorems.
Import ListNotations.
Local Open Scope string_scope.

(** C29: whenever a definition's body starts, every variable it needs that is defined above it was evaluated without error. *)
Definition C29_statement : Prop := forall ds fuel gs sc st,
  NoDup (map name_of ds) -> setup fuel (map to_plan ds) = Planned gs -> run gs (node_key (map to_plan ds)) sc init = Some st ->
  forall l1 p j l2 i di dj, log st = (l1 ++ {| at_path := p; of_def := j; kind := EStart |} :: l2)%list ->
    nth_error ds i = Some di -> nth_error ds j = Some dj -> i < j -> name_of di <> "" ->
    needs dj (name_of di) -> evaluated l2 i true.

(** C29, part: it holds of the variables read other than by the condition of a request's field, the condition of a retry, the message or
    the ignore_and_response of an error, or an enum inside of a map, and that do not have the name of the definition's own iterator.
    Missing: those. *)
Theorem C29_variables_are_evaluated_before_use_partial : forall ds fuel gs sc st,
  NoDup (map name_of ds) -> setup fuel (map to_plan ds) = Planned gs -> run gs (node_key (map to_plan ds)) sc init = Some st ->
  forall l1 p j l2 i di dj, log st = (l1 ++ {| at_path := p; of_def := j; kind := EStart |} :: l2)%list ->
    nth_error ds i = Some di -> nth_error ds j = Some dj -> i < j -> name_of di <> "" ->
    counted dj (name_of di) -> ~ iterates_as dj (name_of di) -> evaluated l2 i true.
Proof.
  intros ds fuel gs sc st ND HS HR l1 p j l2 i di dj EL Ni Nj L E C IT.
  eapply (C03_evaluation_waits_for_dependencies (map to_plan ds)); [|exact HS|exact HR|exact EL|].
  - rewrite map_map. erewrite map_ext; [exact ND|]. intros d. apply vname_to_plan.
  - eapply counted_depends; eauto. lia.
Qed.
Print Assumptions C29_variables_are_evaluated_before_use_partial.

(** C29: the names found in a definition are exactly those read in the counted ways, and those of iterators and their sources. So no
    definition waits for a variable that nothing in it mentions. *)
Theorem C29_names_are_the_names_read : forall d n,
  (In n (def_names d) -> (exists u, ~ In u uncounted /\ reads_as u d n) \/ iter_in_d d n) /\
  (counted d n -> In n (def_names d)).
Proof.
  intros d n. split; [|apply counted_in].
  intros I. destruct (names_come d n I) as [[V (u & c & U & Ic & N)]|I']; [left|right; exact I'].
  exists u. split; [exact U|]. split; [exact V|]. exists c. auto.
Qed.
Print Assumptions C29_names_are_the_names_read.

(** C29 is false: each of the other uses lets a definition start before the variable it reads is evaluated. *)
Definition a_then (e : expr) : list def := [Def "a" [] (By []); Def "b" [] e].
Definition b_first : schedule := [([1], BodyOk); ([1], BodyOk)].
Lemma a_then_refutes e :
  needs (Def "b" [] e) "a" ->
  match setup 5 (map to_plan (a_then e)) with
  | Planned gs => option_map log (run gs (node_key (map to_plan (a_then e))) b_first init)
  | _ => None
  end = Some [{| at_path := [1]; of_def := 1; kind := EStart |}; {| at_path := [1]; of_def := 1; kind := EBegin |}] ->
  ~ C29_statement.
Proof.
  intros N E H. destruct (setup 5 (map to_plan (a_then e))) as [|?|gs|] eqn:ES; try discriminate.
  destruct (run gs (node_key (map to_plan (a_then e))) b_first init) as [st|] eqn:ER; [|discriminate].
  cbn in E. injection E as E.
  assert (ND : NoDup (map name_of (a_then e))) by (repeat constructor; cbn; intuition discriminate).
  destruct (H _ _ _ _ _ ND ES ER [] [1] 1 [{| at_path := [1]; of_def := 1; kind := EBegin |}] 0 (Def "a" [] (By [])) (Def "b" [] e)
              E eq_refl eq_refl) as [q [X|[]]]; cbn; try discriminate; auto.
Qed.
Ltac reads u c := left; exists u; split; [split; [split; discriminate|exists c; cbn; tauto]|cbn; intuition discriminate].
Theorem C29_retry_condition_refuted : ~ C29_statement.
Proof. apply (a_then_refutes (Call [] ["a"] [])); [reads RetryCondition ["a"]|vm_compute; reflexivity]. Qed.
Print Assumptions C29_retry_condition_refuted.
Theorem C29_request_field_condition_refuted : ~ C29_statement.
Proof. apply (a_then_refutes (Call [{| value := []; if_ := ["a"] |}] [] [])); [reads RequestFieldCondition ["a"]|vm_compute; reflexivity]. Qed.
Print Assumptions C29_request_field_condition_refuted.
Theorem C29_error_message_refuted : ~ C29_statement.
Proof. apply (a_then_refutes (Validation (GError [] [] ["a"] [] []))); [reads ErrorMessage ["a"]|vm_compute; reflexivity]. Qed.
Print Assumptions C29_error_message_refuted.
Theorem C29_error_response_refuted : ~ C29_statement.
Proof. apply (a_then_refutes (Call [] [] [GError [] [] [] ["a"] []])); [reads ErrorResponse ["a"]|vm_compute; reflexivity]. Qed.
Print Assumptions C29_error_response_refuted.
Theorem C29_enum_in_map_refuted : ~ C29_statement.
Proof.
  apply (a_then_refutes (Map (Some {| iname := "x"; isource := "y" |}) (MEnum ["a"]))); [|vm_compute; reflexivity].
  left. exists MapEnumBy. split; [split; [split; discriminate|exists ["a"]; cbn; auto]|].
  intros (nm & c & i & m & E & Ei). injection E as _ _ <- _. discriminate.
Qed.
Print Assumptions C29_enum_in_map_refuted.
Theorem C29_iterator_named_like_its_source_refuted : ~ C29_statement.
Proof.
  apply (a_then_refutes (Map (Some {| iname := "a"; isource := "a" |}) (MBy ["a"]))); [|vm_compute; reflexivity].
  right. eexists _, _, _, _. split; [reflexivity|]. split; [reflexivity|discriminate].
Qed.
Print Assumptions C29_iterator_named_like_its_source_refuted.

(** Not vacuous: a call whose argument, error condition and error detail read three variables. *)
Definition sample : list def :=
  [Def "id" [] (By [ARG]); Def "name" [] (By ["id"]); Def "locale" [] (By []);
   Def "res" ["name"]
     (Call [{| value := ["id"; ""]; if_ := [] |}] []
        [GError ["error"] [Def "why" [] (By ["name"])] [] [] [Detail ["why"] [] [] [] [[(["id"], [], [])]] [] [["locale"]]]])].
Example C29_sample : def_names (nth 3 sample (Def "" [] (By []))) = ["error"; "id"; "locale"; "name"; "why"].
Proof. vm_compute. reflexivity. Qed.
Example C29_sample_counted : counted (nth 3 sample (Def "" [] (By []))) "locale" /\ ~ iterates_as (nth 3 sample (Def "" [] (By []))) "locale" /\
  NoDup (map name_of sample) /\
  match setup 9 (map to_plan sample) with Planned gs => planned_defs gs | _ => [] end = [0; 2; 0; 1; 3].
Proof.
  split; [left; exists DetailText; split; [cbn; intuition discriminate|split; [split; discriminate|exists ["locale"]; cbn; split; [do 13 right; left; reflexivity|auto]]]|].
  split; [unfold iterates_as; cbn; intros X; destruct X as (nm & c & i & m & E & X); discriminate|]. split; [repeat constructor; cbn; intuition discriminate|vm_compute; reflexivity].
Qed.
