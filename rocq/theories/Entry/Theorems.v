(** C84: the methods of a server. *)
From Coq Require Import String List Bool ZArith Permutation.
From Verif.Args Require Import Model.
From Verif.Entry Require Import Model Spec Proofs.
Import ListNotations.
Local Open Scope string_scope.

(** The methods of a project that the resolver accepts: their rules have no errors, and what is resolved for them has a rule. *)
Definition accepted (parse : string -> option Z) (by_name : string -> option nat) (F : nat -> list field) (has_rule : nat -> bool) (ms : list method) : Prop :=
  (forall m, In m ms -> exists d, resolve_rule parse by_name F (response m) d = (m_rule m, [])) /\ valid_responses has_rule ms = true.

(** The full statement: every method of an accepted project works, in whatever order the map of methods is visited. *)
Definition C84_statement : Prop := forall parse by_name F has_rule inner ms order m, proper F -> accepted parse by_name F has_rule ms -> Permutation ms order ->
  In m ms -> works F inner order m.

(** It holds for a method without both a timeout and a response of its own, whose response is not used by other messages, and when the methods with
    the same response have the same request. *)
Theorem C84_works_partial : forall F inner ms order m, Permutation ms order -> In m ms ->
  (forall m' res, In m' ms -> resolves m res -> resolves m' res -> request m' = request m) ->
  (forall res, resolves m res -> inner res = None) ->
  (forall d, limited m d -> ~ replaced m) ->
  works F inner order m.
Proof.
  intros F inner ms order m P I A N L. assert (Io : In m order) by (eapply Permutation_in; eassumption).
  assert (E : arg_fields F inner order (federation_response m) = F (request m)).
  { unfold arg_fields. rewrite (N _ (federation_resolves m)), (lookup_request_agreed order m Io); [reflexivity|].
    intros m' res I'. apply A. apply Permutation_sym in P. eapply Permutation_in; eassumption. }
  split.
  - apply compiles_iff. rewrite E. split.
    + intros f J. exists (snd f). destruct f. split; [exact J | split; reflexivity].
    + apply returned_iff. intros d res Ld [R|[_ R]]; [|exact R]. exfalso. apply (L d Ld). destruct R as [r [A1 A2]]. exists r, res. auto.
  - intros. rewrite <- (literal_own F inner V zero order m req E). apply serve_answers, L.
Qed.
Print Assumptions C84_works_partial.

(** A method with a timeout and a response of its own does not compile. *)
Theorem C84_timeout_and_response : forall F inner order m d res, limited m d -> resolves m res -> res <> response m -> compiles F inner order m = false.
Proof.
  intros F inner order m d res L R N. destruct (compiles F inner order m) eqn:C; [|reflexivity]. exfalso. apply compiles_iff in C. destruct C as [_ C].
  apply N. apply (proj1 (returned_iff m) C d res L R).
Qed.
Print Assumptions C84_timeout_and_response.

(** What a method that compiles has: its fields are those of some method with the same response, or are given by the messages that use the response. *)
Theorem C84_compiles_needs : forall F inner ms order m res, Permutation ms order -> In m ms -> resolves m res -> compiles F inner order m = true ->
  (forall fs, inner res = Some fs -> forall f, In f (F (request m)) -> has_field fs f) /\
  (inner res = None -> exists m', In m' ms /\ resolves m' res /\ forall f, In f (F (request m)) -> has_field (F (request m')) f).
Proof.
  intros F inner ms order m res P I R C. apply compiles_iff in C. destruct C as [C _]. apply federation_is in R. rewrite R in C. unfold arg_fields in C. split.
  - intros fs E. rewrite E in C. exact C.
  - intros E. rewrite E in C. destruct (lookup_request_found order m) as [q Q]; [eapply Permutation_in; eassumption|]. rewrite R in Q. rewrite Q in C.
    destruct (lookup_request_some _ _ _ Q) as [m' [I' [R' <-]]]. exists m'. split; [apply Permutation_sym in P; eapply Permutation_in; eassumption|]. auto.
Qed.
Print Assumptions C84_compiles_needs.

(** Of two methods with the same response, each with a field that no other request has, one does not compile, in whatever order. *)
Theorem C84_shared_response : forall F inner ms order a b res fa fb, Permutation ms order -> In a ms -> In b ms -> resolves a res -> resolves b res -> inner res = None ->
  In fa (F (request a)) -> In fb (F (request b)) ->
  (forall m, In m ms -> resolves m res -> ~ (has_field (F (request m)) fa /\ has_field (F (request m)) fb)) ->
  compiles F inner order a = false \/ compiles F inner order b = false.
Proof.
  intros F inner ms order a b res fa fb P Ia Ib Ra Rb N Ja Jb X. destruct (compiles F inner order a) eqn:Ca; [|left; reflexivity].
  destruct (compiles F inner order b) eqn:Cb; [|right; reflexivity]. exfalso. apply compiles_iff in Ca. apply compiles_iff in Cb. destruct Ca as [Ca _], Cb as [Cb _].
  apply federation_is in Ra. apply federation_is in Rb. rewrite Ra in Ca. rewrite Rb in Cb. unfold arg_fields in Ca, Cb. rewrite N in Ca, Cb.
  destruct (lookup_request_found order a) as [q Q]; [eapply Permutation_in; eassumption|]. rewrite Ra in Q. rewrite Q in Ca, Cb.
  destruct (lookup_request_some _ _ _ Q) as [m [I [R <-]]]. apply (X m); [apply Permutation_sym in P; eapply Permutation_in; eassumption | exact R|]. split; [apply Ca, Ja | apply Cb, Jb].
Qed.
Print Assumptions C84_shared_response.

(** Whether a method compiles depends on the order in which a map is visited, which is another at every run. *)
Theorem C84_order_matters : forall F inner a b res f rest, resolves a res -> resolves b res -> inner res = None -> (forall d, ~ limited b d) ->
  In f (F (request b)) -> ~ has_field (F (request a)) f ->
  compiles F inner (a :: b :: rest) b = false /\ compiles F inner (b :: a :: rest) b = true.
Proof.
  intros F inner a b res f rest Ra Rb N L J X. apply federation_is in Ra. apply federation_is in Rb. split.
  - destruct (compiles F inner (a :: b :: rest) b) eqn:C; [|reflexivity]. exfalso. apply compiles_iff in C. destruct C as [C _]. apply X. specialize (C f J).
    unfold arg_fields, lookup_request in C. rewrite Rb, N in C. cbn [find] in C. rewrite Ra, Nat.eqb_refl in C. exact C.
  - apply compiles_iff. split.
    + intros g I. unfold arg_fields, lookup_request. rewrite Rb, N. cbn [find]. rewrite Rb, Nat.eqb_refl. cbn. exists (snd g). destruct g. split; [exact I | split; reflexivity].
    + apply returned_iff. intros d r Ld. elim (L d Ld).
Qed.
Print Assumptions C84_order_matters.

(** A response that other messages use has only the arguments that they give. *)
Theorem C84_inner_response : forall F inner order m res fs f, resolves m res -> inner res = Some fs -> In f (F (request m)) -> ~ has_field fs f ->
  compiles F inner order m = false.
Proof.
  intros F inner order m res fs f R N J X. destruct (compiles F inner order m) eqn:C; [|reflexivity]. exfalso. apply compiles_iff in C. destruct C as [C _].
  apply federation_is in R. apply X. specialize (C f J). unfold arg_fields in C. rewrite R, N in C. exact C.
Qed.
Print Assumptions C84_inner_response.

(** In a method that compiles every field of the request reaches the resolver, and what else it is given is empty. *)
Theorem C84_given : forall F inner V (zero : type -> V) order m req, compiles F inner order m = true ->
  (forall f, In f (F (request m)) -> In (fst f, req (fst f)) (literal F inner V zero order m req)) /\
  (forall n v, In (n, v) (literal F inner V zero order m req) -> (v = req n /\ In n (map fst (F (request m)))) \/ (~ In n (map fst (F (request m))) /\ exists t, v = zero t)).
Proof.
  intros F inner V zero order m req C. apply compiles_iff in C. destruct C as [C _].
  assert (H : forall n, existsb (fun f : field => fst f =? n) (F (request m)) = true <-> In n (map fst (F (request m)))).
  { intros n. rewrite existsb_exists, in_map_iff. split; intros [f [A B]]; exists f; [apply String.eqb_eq in B | split; [|apply String.eqb_eq]]; auto. }
  split.
  - intros f I. destruct (C f I) as [t [J _]]. unfold literal. apply in_map_iff. exists (fst f, t). split; [|exact J]. cbn [fst snd].
    match goal with |- context [existsb ?g ?l] => replace (existsb g l) with true; [reflexivity | symmetry; apply (H (fst f)), in_map, I] end.
  - intros n v I. unfold literal in I. apply in_map_iff in I. destruct I as [[k t] [E I]]. cbn [fst snd] in E.
    destruct (existsb (fun f => fst f =? k) (F (request m))) eqn:X; injection E as <- <-.
    + left. split; [reflexivity | apply H, X].
    + right. split; [intros J; apply H in J; change (existsb (fun f : field => fst f =? k) (F (request m)) = false) in X; rewrite J in X; discriminate X | exists t; reflexivity].
Qed.
Print Assumptions C84_given.

(** An error is recorded and logged exactly once and comes without a message; a message comes without either. *)
Theorem C84_errors_once : forall F inner V R E (zero : type -> V) resolve cast timed order m req,
  match serve F inner V R E zero resolve cast timed order m req with
  | (inl _, l) => l = []
  | (inr e, l) => l = [Span E e; Log E e]
  end.
Proof.
  intros. unfold serve. destruct (timeout m) as [d|].
  - destruct (timed d _); reflexivity.
  - destruct (custom m) as [c|].
    + destruct (resolve _ _) as [v|e]; [|reflexivity]. cbn. destruct (cast c (response m) v); reflexivity.
    + destruct (resolve _ _); reflexivity.
Qed.
Print Assumptions C84_errors_once.

(** A rule is accepted exactly when the timeout is a duration and the response has a field of the same kind for each of the declared response. *)
Theorem C84_rule : forall parse by_name F res d, proper F -> (snd (resolve_rule parse by_name F res (Some d)) = [] <-> good_rule parse by_name F res d).
Proof. exact rule_exact. Qed.
Print Assumptions C84_rule.
(** The rule has what its option says. *)
Theorem C84_rule_value : forall parse by_name F res d, snd (resolve_rule parse by_name F res (Some d)) = [] ->
  exists r, fst (resolve_rule parse by_name F res (Some d)) = Some r /\
    r_timeout r = (if d_timeout d =? "" then None else parse (d_timeout d)) /\ r_response r = (if d_response d =? "" then None else by_name (d_response d)).
Proof.
  intros parse by_name F res d. unfold resolve_rule. destruct (d_timeout d =? ""), (d_response d =? "").
  - intros _. eexists. split; [reflexivity|]. auto.
  - destruct (by_name (d_response d)) as [m|]; intros H; [|discriminate H]. eexists. split; [reflexivity|]. auto.
  - destruct (parse (d_timeout d)) as [z|]; intros H; [|discriminate H]. eexists. split; [reflexivity|]. auto.
  - destruct (parse (d_timeout d)) as [z|], (by_name (d_response d)) as [m|]; intros H; try discriminate H. eexists. split; [reflexivity|]. auto.
Qed.
Print Assumptions C84_rule_value.
(** A project is valid exactly when what its methods resolve has a rule. *)
Theorem C84_valid : forall has_rule ms, valid_responses has_rule ms = true <-> forall m res, In m ms -> resolves m res -> has_rule res = true.
Proof.
  intros. unfold valid_responses. rewrite forallb_forall. split.
  - intros H m res I R. apply federation_is in R. subst res. apply H, I.
  - intros H m I. apply (H m); [exact I | apply federation_resolves].
Qed.
Print Assumptions C84_valid.

(** * Counterexamples *)
Definition text : type := {| ty_kind := KOther 0; ty_repeated := false; ty_null := false |}.
Definition texts : type := {| ty_kind := KOther 0; ty_repeated := true; ty_null := false |}.
(** 0, 1: requests with an id, and with an id and a name; 2: a response; 3: a message with the same field; 4: one with a list in its place *)
Definition shop (m : nat) : list field :=
  match m with 0 => [("id", text)] | 1 => [("id", text); ("name", text)] | 2 => [("post", text)] | 3 => [("post", text); ("draft", text)] | 4 => [("post", texts)] | _ => [] end.
Lemma shop_proper : proper shop.
Proof.
  intros m. do 5 (destruct m as [|m]; [cbn; split; [repeat (constructor; [cbn; intuition discriminate|]); constructor | intros f I; repeat (destruct I as [<-|I]; [reflexivity|]); destruct I]|]).
  cbn. split; [constructor | intros f []].
Qed.
Definition names (n : string) : option nat := if n =? "Custom" then Some 3 else if n =? "Lists" then Some 4 else None.
Definition duration (s : string) : option Z := if s =? "1s" then Some 1000000000%Z else None.
Definition get : method := {| request := 0; response := 2; m_rule := None |}.
Definition find_post : method := {| request := 1; response := 2; m_rule := None |}.
Definition slow : method := {| request := 0; response := 2; m_rule := Some {| r_timeout := Some 1000000000%Z; r_response := Some 3 |} |}.

(** The full statement fails for two methods with one response. *)
Lemma two_accepted : accepted duration names shop (fun _ => true) [get; find_post].
Proof. split; [|reflexivity]. intros m [<-|[<-|[]]]; exists None; reflexivity. Qed.
Theorem C84_refuted : ~ C84_statement.
Proof.
  intros H. destruct (H duration names shop (fun _ => true) (fun _ => None) _ [get; find_post] find_post shop_proper two_accepted) as [C _].
  - apply Permutation_refl.
  - right. left. reflexivity.
  - discriminate C.
Qed.
Print Assumptions C84_refuted.
(** It fails as well for a single method with a timeout and a response of its own. *)
Definition C84_single_statement : Prop := forall parse by_name F has_rule m, proper F -> accepted parse by_name F has_rule [m] -> works F (fun _ => None) [m] m.
Theorem C84_single_refuted : ~ C84_single_statement.
Proof.
  intros H. destruct (H duration names shop (fun _ => true) slow shop_proper) as [C _].
  - split; [|reflexivity]. intros m [<-|[]]. exists (Some {| d_timeout := "1s"; d_response := "Custom" |}). reflexivity.
  - discriminate C.
Qed.
Print Assumptions C84_single_refuted.
(** The message of an error says that the fields must have the same types; a list is accepted for a single value. *)
Definition C84_response_types_statement : Prop := forall parse by_name F res d m, proper F -> snd (resolve_rule parse by_name F res (Some d)) = [] ->
  by_name (d_response d) = Some m -> forall f, In f (F res) -> has_field (F m) f.
Theorem C84_response_types_refuted : ~ C84_response_types_statement.
Proof.
  intros H. destruct (H duration names shop 2 {| d_timeout := ""; d_response := "Lists" |} 4 shop_proper eq_refl eq_refl ("post", text) (or_introl eq_refl)) as [t [[E|[]] [_ R]]].
  injection E as <-. discriminate R.
Qed.
Print Assumptions C84_response_types_refuted.

(** * Examples *)
Definition swapped : method := {| request := 1; response := 2; m_rule := Some {| r_timeout := None; r_response := Some 3 |} |}.
Definition timed_get : method := {| request := 0; response := 2; m_rule := Some {| r_timeout := Some 1000000000%Z; r_response := None |} |}.
(** three methods that work in any order: the conditions of C84_works_partial *)
Example works_case : forall order, Permutation [swapped; timed_get; get] order -> works shop (fun _ => None) order swapped /\ works shop (fun _ => None) order timed_get.
Proof.
  intros order P. split.
  - apply (C84_works_partial _ _ _ _ _ P); [left; reflexivity| |reflexivity|].
    + intros m' res [<-|[<-|[<-|[]]]] R R'; apply federation_is in R; apply federation_is in R'; cbn in *; try reflexivity; subst; discriminate.
    + intros d L. apply limited_iff in L. discriminate L.
  - apply (C84_works_partial _ _ _ _ _ P); [right; left; reflexivity| |reflexivity|].
    + intros m' res [<-|[<-|[<-|[]]]] R R'; apply federation_is in R; apply federation_is in R'; cbn in *; try reflexivity; subst; discriminate.
    + intros d _ Rp. apply replaced_iff in Rp. destruct Rp as [c Rp]. discriminate Rp.
Qed.
Example serve_case :
  serve shop (fun _ => None) string string string (fun _ => "") (fun m args => inl (String.concat "," (map (fun a => fst a ++ "=" ++ snd a) args)))
    (fun a b v => inl ("cast " ++ v)) (fun _ r => r) [swapped; get] swapped (fun n => n ++ "!") = (inl "cast id=id!,name=name!", []).
Proof. reflexivity. Qed.
Example order_case : compiles shop (fun _ => None) [get; find_post] find_post = false /\ compiles shop (fun _ => None) [find_post; get] find_post = true.
Proof. split; reflexivity. Qed.
(** two requests of which neither has the fields of the other *)
Definition other_shop (m : nat) : list field := match m with 0 => [("id", text)] | 1 => [("name", text)] | _ => [] end.
Example shared_case : forall m, In m [get; find_post] -> resolves m 2 -> ~ (has_field (other_shop (request m)) ("id", text) /\ has_field (other_shop (request m)) ("name", text)).
Proof.
  intros m [<-|[<-|[]]] _ [[t [I _]] [t' [I' _]]]; cbn in *; destruct I as [I|[]], I' as [I'|[]]; discriminate.
Qed.
Example inner_case : compiles shop (fun m => if Nat.eqb m 2 then Some [("name", text)] else None) [get] get = false.
Proof. reflexivity. Qed.
Example rule_case : resolve_rule duration names shop 2 (Some {| d_timeout := "1s"; d_response := "Custom" |}) =
  (Some {| r_timeout := Some 1000000000%Z; r_response := Some 3 |}, []) /\
  snd (resolve_rule duration names shop 3 (Some {| d_timeout := "soon"; d_response := "Lists" |})) = [BadTimeout; MissingFields ["draft"]].
Proof. split; reflexivity. Qed.
