(** * The arguments of a message while it is resolved (C70) *)

From Coq Require Import String List Bool.
From Verif.Ident Require Model.
From Verif.Reqs Require Import Model Spec Proofs.
Import ListNotations.
Local Open Scope string_scope.

(** An accepted message that is called with arguments is resolved as it says: [$.x] is the argument, and a custom resolver sees every argument and every variable. *)
Definition C70_statement : Prop := forall expr V E refs eval eval_bool zero custom custom_field (m : message expr) (passed : list (string * V)),
  reads expr V refs eval -> reads expr V refs eval_bool -> accepted expr refs m -> NoDup (map Ident.Model.public (map fst passed)) ->
  outcome expr V E eval eval_bool custom custom_field m passed (resolve expr V E refs eval eval_bool zero custom custom_field m passed).

(** It is, if no used variable has the Go name of an argument. *)
Theorem C70_partial : forall expr V E refs eval eval_bool zero custom custom_field (m : message expr) (passed : list (string * V)),
  reads expr V refs eval -> reads expr V refs eval_bool -> accepted expr refs m -> NoDup (map Ident.Model.public (map fst passed)) ->
  (forall d a, used expr refs m d \/ used_inside expr refs m d -> In a (map fst passed) -> Ident.Model.public (d_name _ d) <> Ident.Model.public a) ->
  outcome expr V E eval eval_bool custom custom_field m passed (resolve expr V E refs eval eval_bool zero custom custom_field m passed).
Proof.
  intros expr V E refs eval eval_bool zero custom custom_field m passed R1 R2 A N C. apply resolve_outcome; try assumption.
  intros n a I Ia. apply assigned_iff in I. destruct I as [d [-> U]]. apply C; assumption.
Qed.
Print Assumptions C70_partial.

(** For every accepted message: the definitions see the arguments; after them a used variable hides the arguments that have its Go name. *)
Theorem C70_exact : forall expr V E refs eval eval_bool zero custom custom_field (m : message expr) (passed : list (string * V)),
  reads expr V refs eval -> reads expr V refs eval_bool -> accepted expr refs m -> NoDup (map Ident.Model.public (map fst passed)) ->
  outcome_seen expr V E refs eval eval_bool custom custom_field zero m passed (resolve expr V E refs eval eval_bool zero custom custom_field m passed).
Proof. intros. apply resolve_seen; assumption. Qed.
Print Assumptions C70_exact.

(** ** Examples *)

Inductive ex := Num (n : nat) | Var (n : string) | Arg (n : string) | Sum (a b : ex).
Fixpoint ex_refs (e : ex) : list string := match e with Var n => [n] | Sum a b => (ex_refs a ++ ex_refs b)%list | _ => [] end.
Fixpoint ex_eval (e : ex) (vs args : string -> option nat) : nat + unit :=
  match e with
  | Num n => inl n
  | Var n => match vs n with Some x => inl x | None => inr tt end
  | Arg n => match args n with Some x => inl x | None => inr tt end
  | Sum a b => match ex_eval a vs args, ex_eval b vs args with inl x, inl y => inl (x + y) | _, _ => inr tt end
  end.
Definition ex_bool (e : ex) (vs args : string -> option nat) : bool + unit := match ex_eval e vs args with inl 0 => inl false | inl _ => inl true | inr e => inr e end.
Lemma ex_reads : reads ex nat ex_refs ex_eval.
Proof.
  intros e vs vs' args args' Hv Ha. induction e as [n | n | n | a IHa b IHb]; cbn in *.
  - reflexivity.
  - rewrite (Hv n (or_introl eq_refl)). reflexivity.
  - rewrite Ha. reflexivity.
  - rewrite IHa, IHb; [reflexivity | | ]; intros n I; apply Hv; apply in_or_app; [right | left]; exact I.
Qed.
Lemma ex_bool_reads : reads ex nat ex_refs ex_bool.
Proof. intros e vs vs' args args' Hv Ha. unfold ex_bool. rewrite (ex_reads e vs vs' args args' Hv Ha). reflexivity. Qed.
(** A resolver of the message that sets a field from an argument and a variable, and one of a field. *)
Definition ex_custom (ask : string -> option nat) : table nat + unit := match ask "Id", ask "Total" with Some x, Some y => inl [("a", x); ("b", y)] | _, _ => inr tt end.
Definition ex_custom_field (n : string) (ask : string -> option nat) (ret : option (table nat)) : nat + unit := match ask "Id" with Some x => inl x | None => inr tt end.
Notation ex_resolve := (resolve ex nat unit ex_refs ex_eval ex_bool (fun _ => 0) ex_custom ex_custom_field).
Notation ex_def n e := ({| d_name := n; d_expr := e |} : def ex).

Definition good : message ex :=
  {| m_defs := [ex_def "base" (Sum (Arg "id") (Num 1)); ex_def "total" (Sum (Var "base") (Arg "extra_cost"))];
     m_custom := true;
     m_fields := [ByExpr _ "sum" (Sum (Var "total") (Arg "id")); Custom _ "c";
                  Oneof _ [(Var "base", {| a_field := "first"; a_defs := [ex_def "x" (Arg "id")]; a_by := Var "x" |})] (Some {| a_field := "second"; a_defs := []; a_by := Num 0 |})] |}.
Ltac nodup := vm_compute; repeat constructor; cbn; intros H; repeat (destruct H as [H | H]; [discriminate H | ]); destruct H.
Lemma good_accepted : accepted ex ex_refs good.
Proof.
  split; [nodup | ]. intros before f after Ef e d Ie Id.
  destruct before as [ | f0 [ | f1 [ | f2 [ | f3 before]]]]; cbn in Ef; try (injection Ef; intros; subst; cbn in Id; destruct Id; fail).
  all: try discriminate Ef; injection Ef; intros; subst; try discriminate.
Qed.
Example C70_good : ex_resolve good [("id", 7); ("extra_cost", 10)] = inl [("a", 7); ("b", 18); ("sum", 25); ("c", 7); ("first", 7)] /\ accepted ex ex_refs good /\
  forall d a, used ex ex_refs good d \/ used_inside ex ex_refs good d -> In a ["id"; "extra_cost"] -> Ident.Model.public (d_name _ d) <> Ident.Model.public a.
Proof.
  split; [vm_compute; reflexivity | split; [exact good_accepted | ]]. intros d a U Ia.
  assert (I : In (d_name ex d) (all_names ex good)).
  { unfold all_names. apply in_map. apply in_or_app. destruct U as [U | U]; [left; apply (used_in _ _ _ _ U) | right; apply (used_inside_in _ _ _ _ U)]. }
  revert I. generalize (d_name ex d). intros n I. vm_compute in I.
  destruct I as [<- | [<- | [<- | []]]]; destruct Ia as [<- | [<- | []]]; vm_compute; discriminate.
Qed.

(** ** What goes wrong *)

(** A message with an argument and a variable of the same name: [$.id] is 7 in the definitions and 42 in the fields. *)
Definition hidden : message ex :=
  {| m_defs := [ex_def "before" (Arg "id"); ex_def "id" (Num 42)]; m_custom := false;
     m_fields := [ByExpr _ "b" (Var "before"); ByExpr _ "v" (Var "id"); ByExpr _ "a" (Arg "id")] |}.
Theorem C70_hidden : accepted ex ex_refs hidden /\ ex_resolve hidden [("id", 7)] = inl [("b", 7); ("v", 42); ("a", 42)].
Proof.
  split; [ | vm_compute; reflexivity]. split; [nodup | ]. intros before f after Ef e d Ie Id.
  destruct before as [ | f0 [ | f1 [ | f2 before]]]; cbn in Ef; try (injection Ef; intros; subst; cbn in Id; destruct Id; fail).
  injection Ef. intros X. destruct before; discriminate X.
Qed.
Print Assumptions C70_hidden.

Theorem C70_refuted : ~ C70_statement.
Proof.
  intros S. specialize (S ex nat unit ex_refs ex_eval ex_bool (fun _ => 0) ex_custom ex_custom_field hidden [("id", 7)] ex_reads ex_bool_reads (proj1 C70_hidden)).
  assert (N : NoDup (map Ident.Model.public (map fst [("id", 7)]))) by nodup. specialize (S N). rewrite (proj2 C70_hidden) in S. destruct S as [ask [_ S]]. discriminate S.
Qed.
Print Assumptions C70_refuted.

(** The same for names that differ only before they are turned into Go names. *)
Theorem C70_hidden_case : ex_resolve {| m_defs := [ex_def "user_id" (Num 42)]; m_custom := false; m_fields := [ByExpr _ "v" (Var "user_id"); ByExpr _ "a" (Arg "userId")] |} [("userId", 7)] = inl [("v", 42); ("a", 42)].
Proof. vm_compute. reflexivity. Qed.
Print Assumptions C70_hidden_case.

(** A variable of a oneof hides an argument before it has its own value. *)
Definition hidden_inside : message ex :=
  {| m_defs := []; m_custom := false;
     m_fields := [ByExpr _ "a" (Arg "id"); Oneof _ [] (Some {| a_field := "o"; a_defs := [ex_def "id" (Sum (Arg "id") (Num 1))]; a_by := Var "id" |})] |}.
Theorem C70_hidden_inside : accepted ex ex_refs hidden_inside /\ ex_resolve hidden_inside [("id", 7)] = inl [("a", 0); ("o", 1)].
Proof.
  split; [ | vm_compute; reflexivity]. split; [nodup | ]. intros before f after Ef e d Ie Id.
  destruct before as [ | f0 [ | f1 before]]; cbn in Ef; try (injection Ef; intros; subst; cbn in Id; destruct Id; fail).
  injection Ef. intros X. destruct before; discriminate X.
Qed.
Print Assumptions C70_hidden_inside.

(** A custom resolver gets the variable, not the argument. *)
Theorem C70_custom : ex_resolve {| m_defs := [ex_def "id" (Num 42); ex_def "total" (Num 1)]; m_custom := true; m_fields := [] |} [("id", 7)] = inl [("a", 42); ("b", 1)].
Proof. vm_compute. reflexivity. Qed.
Print Assumptions C70_custom.
