From Coq Require Import String List Arith Bool.
From Verif.Cache Require Import Model Spec Proofs.
Import ListNotations.

(** C31: the code of a service has exactly its expressions, each with an index of its own other than zero. *)
Theorem C31_every_expression_has_its_own_index : forall s,
  map fst (generate s) = service_exprs s /\ NoDup (map snd (generate s)) /\ (forall e i, In (e, i) (generate s) -> i <> 0).
Proof.
  intros s. split; [apply generate_exprs|]. split; [rewrite generate_indices; apply seq_NoDup|]. apply index_nonzero.
Qed.
Print Assumptions C31_every_expression_has_its_own_index.

(** C31: however the evaluations made by a service's code interleave, the program used for an expression was compiled from that very
    expression, by some evaluation at the same place; and an evaluation fails to get a program only if its expression does not compile. *)
Theorem C31_programs_are_never_mixed_up : forall env program (compile : env -> text -> option program) s (l : list (action env)),
  (forall r, In r (calls_of l) -> made_by s r) ->
  forall r ph, In (r, ph) (calls (run compile l)) ->
    In r (calls_of l) /\
    (forall p, ph = Uses p -> exists r', In r' (calls_of l) /\ r_expr r' = r_expr r /\ r_index r' = r_index r /\ compile (r_env r') (r_expr r) = Some p) /\
    (ph = Failed -> compile (r_env r) (r_expr r) = None).
Proof.
  intros env program compile s l M r ph I. pose proof (inv_run compile l) as V. pose proof (i_known _ _ _ V r ph I) as K.
  split; [exact K|]. split.
  - intros p ->. destruct (i_uses _ _ _ V r p I) as (r' & I' & E & C).
    assert (Ee : r_expr r' = r_expr r).
    { apply (index_own s _ _ (r_index r)); [rewrite <- E; apply (M r' I')|apply (M r K)]. }
    exists r'. rewrite Ee in C. auto.
  - intros ->. destruct (i_failed _ _ _ V r I) as [Z|C]; [|exact C]. destruct (index_nonzero s _ _ (M r K) Z).
Qed.
Print Assumptions C31_programs_are_never_mixed_up.

(** C31: if the variables an expression uses are declared the same way whenever it is evaluated, the cache makes no difference. *)
Theorem C31_cache_is_invisible : forall env program (compile : env -> text -> option program) s (l : list (action env)),
  (forall r, In r (calls_of l) -> made_by s r) ->
  (forall r r', In r (calls_of l) -> In r' (calls_of l) -> r_index r = r_index r' -> compile (r_env r) (r_expr r) = compile (r_env r') (r_expr r)) ->
  forall r p, In (r, Uses p) (calls (run compile l)) -> compile (r_env r) (r_expr r) = Some p.
Proof.
  intros env program compile s l M S r p I. destruct (C31_programs_are_never_mixed_up env program compile s l M r (Uses p) I) as (K & U & _).
  destruct (U p eq_refl) as (r' & I' & Ee & Ei & C). rewrite (S r r' K I' (eq_sym Ei)). exact C.
Qed.
Print Assumptions C31_cache_is_invisible.

(** Not vacuous: a service with nested expressions, and two evaluations of one of them racing. *)
Local Open Scope string_scope.
Definition sample : service :=
  {| s_vars := [VDef (Def "v" None (By "1")); VValidation "v == 1" "'bad'"];
     s_messages := [{| m_defs := [Def "id" (Some "true") (By "$.id");
       Def "res" None (Call [{| a_if := Some "id != ''"; a_cel := Some "id" |}] (Some "error.code == 14")
         [GError "error.code == 5" [Def "x" None (By "id")] (Status (Some "'not found'") [Detail [] "true" [Def "m" None (Message [])] ["x"] [[("a", "b", "c")]] [[("f", "d")]] ["l"]]);
          GError "true" [] (IgnoreAndResponse "Res{}")])];
       m_fields := [FCel "res.id"; FOneof [{| o_if := Some "res.a"; o_defs := []; o_by := Some "res.b" |}] (Some {| o_if := None; o_defs := []; o_by := Some "res.c" |}); FOther] |}] |}.
Example C31_sample : generate sample =
  [("1", 1); ("v == 1", 2); ("'bad'", 3); ("true", 4); ("$.id", 5); ("id != ''", 6); ("id", 7); ("error.code == 14", 8); ("id", 9);
   ("error.code == 5", 10); ("'not found'", 11); ("true", 12); ("m", 13); ("x", 14); ("a", 15); ("b", 16); ("c", 17); ("f", 18); ("d", 19); ("l", 20);
   ("true", 21); ("Res{}", 22); ("res.id", 23); ("res.a", 24); ("res.b", 25); ("res.c", 26)].
Proof. vm_compute. reflexivity. Qed.
Definition two : list (action nat) :=
  let r := {| r_expr := "id"; r_index := 7; r_env := 0 |} in let q := {| r_expr := "id"; r_index := 9; r_env := 1 |} in
  [Call_ r; Call_ r; Call_ q; Move 0; Move 1; Move 2; Move 0; Move 1; Move 0; Move 1; Move 2; Move 2].
Example C31_sample_run : (forall r, In r (calls_of two) -> made_by sample r) /\
  map snd (calls (run (fun e t => Some (e, t)) two)) = [Uses (0, "id"); Uses (0, "id"); Uses (1, "id")].
Proof.
  split; [|vm_compute; reflexivity]. intros r I. unfold made_by. rewrite C31_sample. cbn in I.
  destruct I as [<-|[<-|[<-|[]]]]; cbn [r_expr r_index]; cbn; auto 20.
Qed.
