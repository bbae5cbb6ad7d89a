(** * C71: every text of the proto files reaches the generated code as it was written *)

From Coq Require Import Ascii String List Bool.
From Verif.Texts Require Import Model Spec Proofs.
Import ListNotations.
Local Open Scope string_scope.

(** The full property: for every list of generated items, Go reads the fixed text as code, and each text as a literal with just this value. *)
Definition C71_statement : Prop := forall items, go_tokens (generate items) = Some (meaning items).

(** It holds for all texts without backticks and carriage returns where these are raw literals, and without the end of a comment where they are repeated in one. *)
Theorem C71_partial : forall items, Forall harmless items -> go_tokens (generate items) = Some (meaning items).
Proof.
  intros items F. unfold generate, meaning. apply reads_all. apply Forall_flat_map. apply Forall_forall. intros i I. rewrite Forall_forall in F. apply harmless_reads, F, I.
Qed.
Print Assumptions C71_partial.

(** A raw literal is read as the text exactly if this has no backtick and no carriage return, whatever code follows. *)
Theorem C71_raw_exact : forall text rest, go_tokens rest <> None ->
  ((exists l, go_tokens ("`" ++ text ++ "`" ++ rest) = Some (Lit text :: l)) <-> ~ has "`" text /\ ~ has "013" text).
Proof. exact raw_exact. Qed.
Print Assumptions C71_raw_exact.

(** The comment above a definition ends before its end exactly if one of the texts of the definition has the end of a comment in it: no other text, no layout of the
    options and no quoting of other characters can end it. *)
Theorem C71_comment_exact : forall d,
  (exists a b, b <> "" /\ nl ++ def_format d ++ nl ++ "*/" = a ++ "*/" ++ b) <-> exists t, In t (def_texts d) /\ contains "*/" t.
Proof. exact comment_exact. Qed.
Print Assumptions C71_comment_exact.

(** The comments to the end of the line never end early: arguments and fields are safe in comments for all texts. *)
Theorem C71_lines : forall i text, In (Line text) (pieces i) -> ~ has newline text.
Proof.
  intros [d | a r | inline e | t s d | f d | l m | n v] text I H; cbn [pieces] in I.
  - repeat (apply in_app_or in I; destruct I as [I | I]).
    + destruct I as [I | [I | []]]; discriminate I.
    + destruct (d_if d); cbn in I; repeat (destruct I as [I | I]; [discriminate I | ]); destruct I.
    + repeat (destruct I as [I | I]; [discriminate I | ]); destruct I.
    + destruct (d_expr d) as [ | | | | i s [ | | ] | k [c [ | ] [ | ] ds]]; cbn in I; repeat (destruct I as [I | I]; [discriminate I | ]); destruct I.
    + repeat (destruct I as [I | I]; [discriminate I | ]); destruct I.
  - apply in_app_or in I. destruct I as [[I | []] | I].
    + injection I as <-. apply has_cons in H. destruct H as [H | H]; [discriminate H | exact (arg_newline _ _ H)].
    + destruct (g_if a); repeat (destruct I as [I | I]; [discriminate I | ]); destruct I.
  - destruct I as [I | I].
    + injection I as <-. apply (has_app newline " (grpc.federation.field).") in H. destruct H as [H | H]; [revert H; apply has_static; reflexivity | ].
      apply has_app in H. destruct H as [H | H]; [destruct inline; revert H; apply has_static; reflexivity | exact (quote_newline _ H)].
    + repeat (destruct I as [I | I]; [discriminate I | ]); destruct I.
  - repeat (destruct I as [I | I]; [discriminate I | ]); destruct I.
  - repeat (destruct I as [I | I]; [discriminate I | ]); destruct I.
  - repeat (destruct I as [I | I]; [discriminate I | ]); destruct I.
  - repeat (destruct I as [I | I]; [discriminate I | ]); destruct I.
Qed.
Print Assumptions C71_lines.

(** The literals of the program are the conditions, names and expressions of the options, each one once and in the order in which they belong to their definitions. *)
Theorem C71_values : forall items, Forall harmless items -> exists tokens, go_tokens (generate items) = Some tokens /\ values tokens = flat_map texts items.
Proof. intros items F. exists (meaning items). split; [exact (C71_partial items F) | exact (values_meaning items)]. Qed.
Print Assumptions C71_values.

(** The full property is false: [def { name: "all" by: "req.accept == '*/*'" }] ends the comment in the middle of the expression. *)
Definition accept : def := {| d_name := "all"; d_if := None; d_autobind := false; d_expr := By "req.accept == '*/*'" |}.
Theorem C71_refuted : ~ C71_statement.
Proof. intros H. specialize (H [Definition_ accept]). vm_compute in H. discriminate H. Qed.
Print Assumptions C71_refuted.

(** A backtick in an expression ends the literal: what follows is read as Go code. Here the text of a proto file adds a statement to the program. *)
Theorem C71_injected :
  let e := "`})" ++ nl ++ "panic(0)" ++ nl ++ "f(P{ Expr: `" in
  exists a b, go_tokens (generate [Field false e]) = Some (a ++ code_tokens ("})" ++ nl ++ "panic(0)" ++ nl ++ "f(P{ Expr: ") ++ b)%list /\ ~ In (Lit e) (a ++ b).
Proof.
  intros e. exists (Ch "010" :: code_tokens "if err := grpcfed.SetCELValue(ctx, &grpcfed.SetCELValueParam{ Expr: " ++ [Lit ""])%list, (Lit "" :: code_tokens "})").
  split; [vm_compute; reflexivity | ]. intros I. apply in_app_or in I.
  assert (N : forall s, ~ In (Lit e) (code_tokens s)) by (induction s as [ | c s IH]; intros K; [destruct K | destruct K as [K | K]; [discriminate K | exact (IH K)]]).
  destruct I as [[I | I] | [I | I]]; [discriminate I | | discriminate I | exact (N _ I)].
  apply in_app_or in I. destruct I as [I | [I | []]]; [exact (N _ I) | discriminate I].
Qed.
Print Assumptions C71_injected.

(** A carriage return between quotes disappears without a word: the expression is evaluated without it. *)
Theorem C71_carriage_return :
  go_tokens (generate [Attribute "sep" (String "013" nl)]) = Some (meaning [Attribute "sep" nl]).
Proof. vm_compute. reflexivity. Qed.
Print Assumptions C71_carriage_return.

(** A definition with a condition, quotes, backslashes, line breaks and slashes in its texts is read as meant. *)
Definition rich : list item :=
  [Definition_ {| d_name := "post"; d_if := Some "req.id != """" && req.path.startsWith('/*')"; d_autobind := true;
                  d_expr := Validation "v" {| e_code := NotFound; e_if := Some ("req.a" ++ nl ++ " == 'x\n'"); e_message := Some "'not // found'";
                                              e_details := [{| t_if := "true"; t_messages := 1; t_preconditions := 2; t_bad_requests := 0; t_localized := 0 |}] |} |};
   Argument {| g_name := "id"; g_inline := false; g_value := "$.id + '" ++ nl ++ "*/'"; g_if := Some "a" |} true;
   Field true "post"; Precondition "'t'" "'*/'" "'d'"; BadRequest "'f'" "d"; Localized "en-US" "'hello'"; Attribute "n" "C:\d ""q"""].
Example rich_harmless : Forall harmless rich.
Proof.
  assert (C : forall t, hit t = false -> ~ contains "*/" t) by (intros t H K; apply hit_iff in K; rewrite K in H; discriminate H).
  unfold rich. repeat (apply Forall_cons; [split | ]); [ .. | apply Forall_nil].
  all: try exact I.
  all: try (split; [ | split]; apply has_static; reflexivity).
  all: intros t H; cbn in H; repeat (destruct H as [<- | H]; [first [split; apply has_static; reflexivity | apply C; reflexivity] | ]); destruct H.
Qed.
Example rich_read : go_tokens (generate rich) = Some (meaning rich).
Proof. exact (C71_partial rich rich_harmless). Qed.
Example rich_values : exists tokens, go_tokens (generate rich) = Some tokens /\ In "$.id + '" (map (fun v => String.substring 0 8 v) (values tokens)).
Proof.
  destruct (C71_values rich rich_harmless) as [l [E V]]. exists l. split; [exact E | ]. rewrite V. do 5 right. left. reflexivity.
Qed.
Example accept_ends : exists a b, b <> "" /\ nl ++ def_format accept ++ nl ++ "*/" = a ++ "*/" ++ b.
Proof. apply C71_comment_exact. exists "req.accept == '*/*'". split; [right; left; reflexivity | exists "req.accept == '", "*'"; reflexivity]. Qed.
