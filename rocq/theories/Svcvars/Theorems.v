(** * The variables of a service (C69) *)

From Coq Require Import Ascii String List Bool Arith Lia.
From Verif.Names Require Model.
From Verif.Ident Require Model.
From Verif.Svcvars Require Import Model Spec Proofs.
Import ListNotations.
Local Open Scope string_scope.

(** The generator accepts exactly the lists that are right; the code for an accepted list is valid Go (no two fields of the struct have the same name), and the
    service starts, or fails to, as the list says. *)
Definition C69_statement : Prop := forall expr other V E check check_other eval eval_other zero as_bool as_text (vs : list (var expr other)),
  ((exists l, Resolve expr other check check_other vs = Answer _ _ l []) <-> right expr other check check_other [] [] vs) /\
  Resolve expr other check check_other vs <> Crash _ _ /\
  forall l, Resolve expr other check check_other vs = Answer _ _ l [] ->
    NoDup (fields _ _ l) /\
    exists out, boots expr other V E check check_other eval eval_other zero as_bool as_text [] (fun _ => None) vs out /\
      agrees V E (Init expr other V E check check_other eval eval_other zero as_bool as_text l) out.

(** Right lists without conditions, with at most one validation and names that stay different in Go: accepted, valid, and started as they say. *)
Theorem C69_partial : forall expr other V E check check_other eval eval_other zero as_bool as_text (vs : list (var expr other)),
  right expr other check check_other [] [] vs -> Forall (fun v => v_if _ _ v = None) vs -> validations _ _ vs <= 1 ->
  NoDup (map Ident.Model.public (filter (fun n => negb (String.eqb n "")) (map (v_name _ _) vs))) ->
  exists l, Resolve expr other check check_other vs = Answer _ _ l [] /\ NoDup (fields _ _ l) /\
    exists out, boots expr other V E check check_other eval eval_other zero as_bool as_text [] (fun _ => None) vs out /\
      agrees V E (Init expr other V E check check_other eval eval_other zero as_bool as_text l) out.
Proof.
  intros expr other V E check check_other eval eval_other zero as_bool as_text vs R F Cn Nd.
  assert (A : accepts expr other check check_other [] [] vs) by (apply (right_accepts _ _ _ _ vs [] [] [] R F); [intros n _ [] | exact Cn]).
  apply accepted_iff in A. destruct A as [l A]. exists l. split; [exact A | ].
  destruct (resolve_names _ _ _ _ _ _ _ _ A) as [An [Nn [_ [Vn _]]]]. rewrite (filter_all _ _ vs F) in An.
  assert (Nf : NoDup (fields _ _ l)) by (apply fields_names; [exact Vn | exact Nn | rewrite An; exact Nd]). split; [exact Nf | ].
  destruct (init_agrees expr other V E check check_other eval eval_other zero as_bool as_text vs l A (right_plain _ _ _ _ _ _ _ R) Nf) as [out [B G]].
  rewrite (filter_all _ _ vs F) in B. exists out. split; assumption.
Qed.
Print Assumptions C69_partial.

(** Which lists are accepted. *)
Theorem C69_accepted_exact : forall expr other check check_other (vs : list (var expr other)),
  (exists l, Resolve expr other check check_other vs = Answer _ _ l []) <-> accepts expr other check check_other [] [] vs.
Proof. intros. apply accepted_iff. Qed.
Print Assumptions C69_accepted_exact.

(** The names of an accepted service are those of the variables without a condition; the struct is valid exactly if they stay different in Go. *)
Theorem C69_names : forall expr other check check_other (vs : list (var expr other)) l, Resolve expr other check check_other vs = Answer _ _ l [] ->
  map (s_name _ _) l = map (v_name _ _) (filter (unconditional _ _) vs) /\
  (NoDup (fields _ _ l) <-> NoDup (map Ident.Model.public (filter (fun n => negb (String.eqb n "")) (map (v_name _ _) (filter (unconditional _ _) vs))))).
Proof.
  intros expr other check check_other vs l A. destruct (resolve_names _ _ _ _ _ _ _ _ A) as [An [Nn [_ [Vn _]]]]. split; [exact An | ].
  rewrite <- An. apply fields_names; assumption.
Qed.
Print Assumptions C69_names.

(** An accepted service whose validations have no names starts as the list without the conditional variables says; in particular every expression compiles. *)
Theorem C69_exact_partial : forall expr other V E check check_other eval eval_other zero as_bool as_text (vs : list (var expr other)) l,
  Resolve expr other check check_other vs = Answer _ _ l [] -> Forall (plain _ _) vs -> NoDup (fields _ _ l) ->
  exists out, boots expr other V E check check_other eval eval_other zero as_bool as_text [] (fun _ => None) (filter (unconditional _ _) vs) out /\
    agrees V E (Init expr other V E check check_other eval eval_other zero as_bool as_text l) out.
Proof. intros. apply init_agrees; assumption. Qed.
Print Assumptions C69_exact_partial.

(** Two validations without names are never accepted. *)
Theorem C69_two_validations : forall expr other check check_other (a b c : list (var expr other)) v w,
  v_name _ _ v = "" -> v_if _ _ v = None -> v_name _ _ w = "" ->
  ~ exists l, Resolve expr other check check_other (a ++ v :: b ++ w :: c) = Answer _ _ l [].
Proof.
  intros expr other check check_other a b c v w Ev Ei Ew H. apply accepted_iff in H. apply accepts_app in H. destruct H as [env [seen H]].
  assert (X : exists env' seen', In "" seen' /\ accepts _ _ check check_other env' seen' (b ++ w :: c)).
  { inversion H as [ | ? ? ? ? d N I K A | ? ? ? ? t N I T A | ? ? ? ? d e N I B K1 K2 A]; subst; [congruence | | ];
      (eexists; eexists; split; [ | exact A]; left; exact Ev). }
  destruct X as [env' [seen' [S A]]]. apply (accepts_unnamed _ _ _ _ _ _ _ A S w); [apply in_or_app; right; left; reflexivity | exact Ew].
Qed.
Print Assumptions C69_two_validations.

(** ** Examples *)

(** Numbers, booleans, texts, lists of booleans, names, sums and comparison. *)
Inductive ex := Num (n : nat) | Boo (b : bool) | Txt (s : string) | Bools | Ref (n : string) | Plus (a b : ex) | Less (a b : ex).
Inductive val := VNum (n : nat) | VBool (b : bool) | VTxt (s : string) | VBools.
Definition scalar (k : kind) : ty := {| t_kind := k; t_repeated := false |}.
Definition KNum := KOther 0.
Fixpoint lookup (env : decls) (n : string) : option ty := match env with [] => None | (m, t) :: r => if String.eqb m n then Some t else lookup r n end.
Fixpoint ex_check (env : decls) (e : ex) : option ty :=
  match e with
  | Num _ => Some (scalar KNum) | Boo _ => Some (scalar KBool) | Txt _ => Some (scalar KString)
  | Bools => Some {| t_kind := KBool; t_repeated := true |}
  | Ref n => lookup env n
  | Plus a b => match ex_check env a, ex_check env b with Some {| t_kind := KOther 0 |}, Some {| t_kind := KOther 0 |} => Some (scalar KNum) | _, _ => None end
  | Less a b => match ex_check env a, ex_check env b with Some {| t_kind := KOther 0 |}, Some {| t_kind := KOther 0 |} => Some (scalar KBool) | _, _ => None end
  end.
Fixpoint ex_eval (e : ex) (m : vals val) : result val unit :=
  match e with
  | Num n => Got _ _ (VNum n) | Boo b => Got _ _ (VBool b) | Txt s => Got _ _ (VTxt s) | Bools => Got _ _ VBools
  | Ref n => match m n with Some x => Got _ _ x | None => Failed _ _ tt end
  | Plus a b => match ex_eval a m, ex_eval b m with Got _ _ (VNum x), Got _ _ (VNum y) => Got _ _ (VNum (x + y)) | _, _ => Failed _ _ tt end
  | Less a b => match ex_eval a m, ex_eval b m with Got _ _ (VNum x), Got _ _ (VNum y) => Got _ _ (VBool (Nat.ltb x y)) | _, _ => Failed _ _ tt end
  end.
Definition ex_zero (t : ty) : val := match t_kind t with KBool => VBool false | KString => VTxt "" | _ => VNum 0 end.
Definition ex_bool (x : val) : option bool := match x with VBool b => Some b | _ => None end.
Definition ex_text (x : val) : option string := match x with VTxt s => Some s | _ => None end.
Definition no_other (_ : decls) (o : Empty_set) : option ty := match o with end.
Definition no_other_eval (o : Empty_set) (_ : vals val) : result val unit := match o with end.
Notation ex_resolve := (Resolve ex Empty_set ex_check no_other).
Notation ex_init := (Init ex Empty_set val unit ex_check no_other ex_eval no_other_eval ex_zero ex_bool ex_text).
Notation ex_boots := (boots ex Empty_set val unit ex_check no_other ex_eval no_other_eval ex_zero ex_bool ex_text).
Notation ex_var n c b := ({| v_name := n; v_if := c; v_body := b |} : var ex Empty_set).
Notation by_ e := (By ex Empty_set e).
Notation validation c e := (Validation ex Empty_set (Some c) (Some e)).

(** A service with three variables and a validation. *)
Definition good : list (var ex Empty_set) :=
  [ex_var "limit" None (by_ (Num 3)); ex_var "page_size" None (by_ (Plus (Ref "limit") (Num 1)));
   ex_var "" None (validation (Less (Ref "page_size") (Num 2)) (Txt "page_size is too small")); ex_var "small" None (by_ (Less (Ref "limit") (Ref "page_size")))].
Example C69_good : exists l, ex_resolve good = Answer _ _ l [] /\
  ex_init l = Started _ _ [("Limit", VNum 3); ("PageSize", VNum 4); ("Small", VBool true)] /\
  right ex Empty_set ex_check no_other [] [] good /\ validations _ _ good <= 1 /\ NoDup (map Ident.Model.public (filter (fun n => negb (String.eqb n "")) (map (v_name _ _) good))).
Proof.
  eexists. split; [vm_compute; reflexivity | ]. split; [vm_compute; reflexivity | ]. split; [ | split; [vm_compute; lia | ]].
  - apply R_value with (t := scalar KNum); [intros c X; discriminate X | discriminate | reflexivity | intros [] | reflexivity | ].
    apply R_value with (t := scalar KNum); [intros c X; discriminate X | discriminate | reflexivity | intros [X | []]; discriminate X | reflexivity | ].
    eapply R_validation; [intros c X; discriminate X | reflexivity | reflexivity | exists (scalar KBool); split; reflexivity | reflexivity | reflexivity | ].
    apply R_value with (t := scalar KBool); [intros c X; discriminate X | discriminate | reflexivity | intros [X | [X | []]]; discriminate X | reflexivity | constructor].
  - vm_compute. repeat constructor; cbn; intros H; repeat (destruct H as [H | H]; [discriminate H | ]); destruct H.
Qed.
(** The validation of another list fails. *)
Example C69_invalid : exists l, ex_resolve [ex_var "n" None (by_ (Num 1)); ex_var "" None (validation (Less (Ref "n") (Num 2)) (Txt "small"))] = Answer _ _ l [] /\ ex_init l = Stopped _ _ (Internal _ "small").
Proof. eexists. split; vm_compute; reflexivity. Qed.

(** ** What goes wrong *)

(** A variable with a condition is accepted and left out, whether the condition holds or not: nothing has its value, and a later use of it is refused. *)
Definition conditional : list (var ex Empty_set) := [ex_var "limit" (Some (Boo true)) (by_ (Num 3))].
Theorem C69_conditional : right ex Empty_set ex_check no_other [] [] conditional /\ ex_resolve conditional = Answer _ _ [] [] /\ ex_init [] = Started _ _ [] /\
  ~ (exists l, ex_resolve (conditional ++ [ex_var "more" None (by_ (Plus (Ref "limit") (Num 1)))]) = Answer _ _ l []).
Proof.
  split; [ | split; [reflexivity | split; [reflexivity | ]]].
  - apply R_value with (t := scalar KNum); [intros c X; injection X as <-; exists (scalar KBool); split; reflexivity | discriminate | reflexivity | intros [] | reflexivity | constructor].
  - intros [l H]. vm_compute in H. discriminate H.
Qed.
Print Assumptions C69_conditional.

Theorem C69_refuted : ~ C69_statement.
Proof.
  intros S. destruct (S ex Empty_set val unit ex_check no_other ex_eval no_other_eval ex_zero ex_bool ex_text conditional) as [_ [_ H]].
  destruct (H [] eq_refl) as [_ [out [B A]]].
  inversion B as [ | ? ? ? ? f Ap | ? ? ? ? t o Ap T B' | ? ? ? ? t x o Ap T G B' | ? ? ? ? f Ap G | ? ? ? ? c e o Ap Eb | ? ? ? ? c e o Ap Eb | ? ? ? ? c e o Ap Eb | ? ? ? ? c e o Ap Eb]; subst; try discriminate Eb.
  - exact A.
  - inversion B'; subst; cbn in A; destruct A as [_ A]; discriminate A.
  - inversion B'; subst; cbn in A; destruct A as [_ A]; discriminate A.
  - exact A.
Qed.
Print Assumptions C69_refuted.

(** A validation with a name declares it for the variables after it, but nothing sets it: the service does not start. *)
Definition named_validation : list (var ex Empty_set) := [ex_var "checked" None (validation (Boo false) (Txt "no")); ex_var "copy" None (by_ (Ref "checked"))].
Theorem C69_named_validation : exists l, ex_resolve named_validation = Answer _ _ l [] /\ ex_init l = Stopped _ _ (NotCompiled _).
Proof. eexists. split; vm_compute; reflexivity. Qed.
Print Assumptions C69_named_validation.

(** A condition that is a list of booleans is accepted; the service does not start. *)
Theorem C69_list_condition : exists l, ex_resolve [ex_var "" None (validation Bools (Txt "no"))] = Answer _ _ l [] /\ ex_init l = Stopped _ _ (NotConverted _).
Proof. eexists. split; vm_compute; reflexivity. Qed.
Print Assumptions C69_list_condition.

(** A variable without an expression crashes the generator. *)
Theorem C69_no_expression : forall expr other check check_other n (vs : list (var expr other)), n <> "" -> Names.Model.validateName n = true ->
  Resolve expr other check check_other ({| v_name := n; v_if := None; v_body := Nothing _ _ |} :: vs) = Crash _ _.
Proof.
  intros expr other check check_other n vs N V. unfold Resolve. cbn [resolve]. unfold resolve_var. cbn [v_name v_if v_body is_validation]. apply String.eqb_neq in N. rewrite N, V. reflexivity.
Qed.
Print Assumptions C69_no_expression.

(** Two names with the same Go name: the struct is invalid. *)
Theorem C69_same_field : exists l, ex_resolve [ex_var "a_b" None (by_ (Num 1)); ex_var "aB" None (by_ (Num 2))] = Answer _ _ l [] /\ ~ NoDup (fields _ _ l).
Proof. eexists. split; [vm_compute; reflexivity | ]. vm_compute. intros N. inversion N as [ | ? ? X _]; subst. apply X. left. reflexivity. Qed.
Print Assumptions C69_same_field.
