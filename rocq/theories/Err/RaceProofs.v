From Coq Require Import List Arith Lia.
From Verif.Err Require Import Race.
Import ListNotations.

Section P.
  Context {G : Type}.
  Implicit Types c : config G.

  Lemma pop_cons (p : list (op G)) ps i : pop (S i) (p :: ps) = 
    match pop i ps with Some (o, ps'') => Some (o, p :: ps'') | None => None end.
  Proof. destruct p; reflexivity. Qed.

  Lemma pop_app (pre : list (list (op G))) o p ps i :
    i = length pre -> pop i (pre ++ (o :: p) :: ps) = Some (o, pre ++ p :: ps).
  Proof.
    intros ->. induction pre as [|q pre IH]; [reflexivity|].
    cbn [length app]. rewrite pop_cons, IH. reflexivity.
  Qed.

  Lemma run_app s1 s2 c : run (s1 ++ s2) c = run s2 (run s1 c).
  Proof. unfold run. apply fold_left_app. Qed.

  Lemma run_cons i l c : run (i :: l) c = run l (step i c).
  Proof. reflexivity. Qed.

  Lemma pop_done (pre : list (list (op G))) ps i : i = length pre -> pop i (pre ++ [] :: ps) = None.
  Proof. intros ->. induction pre as [|q pre IH]; [reflexivity|]. cbn [length app]. rewrite pop_cons, IH. reflexivity. Qed.

  (** Reading [k] times in a row. *)
  Lemma run_sees pre ps k : forall n c, progs c = pre ++ repeat See n :: ps ->
    let c' := run (repeat (length pre) k) c in
    var c' = var c /\ log c' = log c ++ repeat (length pre, var c) (Nat.min n k) /\
    progs c' = pre ++ repeat See (n - k) :: ps.
  Proof.
    induction k as [|k IH]; intros n c H; cbn zeta.
    - rewrite Nat.min_0_r, Nat.sub_0_r. simpl. rewrite app_nil_r. auto.
    - cbn [repeat]. rewrite run_cons. destruct n as [|n].
      + assert (Hs : step (length pre) c = c) by (unfold step; rewrite H; cbn [repeat]; rewrite pop_done; reflexivity).
        rewrite Hs. destruct (IH 0 c H) as (A & B & C). simpl in *. auto.
      + assert (Hs : step (length pre) c =
          {| var := var c; progs := pre ++ repeat See n :: ps; log := log c ++ [(length pre, var c)] |})
          by (unfold step; rewrite H; cbn [repeat]; rewrite pop_app; reflexivity).
        rewrite Hs. match goal with |- context [run (repeat _ k) ?c1] => destruct (IH n c1 eq_refl) as (A & B & C) end.
        simpl in A, B, C. rewrite A, B, C. simpl. rewrite <- app_assoc. auto.
  Qed.

  Lemma run_call pre ps g n k c :
    progs c = pre ++ handling (Some g) n :: ps ->
    let c' := run (repeat (length pre) (S k)) c in
    var c' = Some g /\ log c' = log c ++ repeat (length pre, Some g) (Nat.min n k) /\
    progs c' = pre ++ repeat See (n - k) :: ps.
  Proof.
    intros H. cbn zeta. cbn [repeat]. rewrite run_cons.
    assert (Hs : step (length pre) c = {| var := Some g; progs := pre ++ repeat See n :: ps; log := log c |})
      by (unfold step; rewrite H; unfold handling; rewrite pop_app; reflexivity).
    rewrite Hs. match goal with |- context [run (repeat _ k) ?c1] => destruct (run_sees pre ps k n c1 eq_refl) as (A & B & C) end.
    auto.
  Qed.

  Lemma one_by_one_cons i0 (a : option G * nat) calls : one_by_one i0 (a :: calls) = repeat i0 (S (snd a)) ++ one_by_one (S i0) calls.
  Proof. reflexivity. Qed.

  Lemma run_one_by_one (gs : list (G * nat)) : forall pre c,
    progs c = pre ++ map (fun p => handling (fst p) (snd p)) (map (fun p => (Some (fst p), snd p)) gs) ->
    log (run (one_by_one (length pre) (map (fun p => (Some (fst p), snd p)) gs)) c)
    = log c ++ concat (map (fun q => repeat (fst q, Some (fst (snd q))) (snd (snd q))) (combine (seq (length pre) (length gs)) gs)).
  Proof.
    induction gs as [|[g n] gs IH]; intros pre c H; cbn [map length seq combine concat].
    - unfold run. simpl. rewrite app_nil_r. reflexivity.
    - rewrite one_by_one_cons, run_app. cbn [fst snd]. cbn [map fst snd] in H.
      destruct (run_call pre _ g n n c H) as (_ & B & C).
      rewrite Nat.sub_diag in C. rewrite Nat.min_id in B.
      assert (L : S (length pre) = length (pre ++ [@nil (op G)])) by (rewrite app_length; simpl; lia).
      rewrite L, (IH (pre ++ [[]])).
      + rewrite B, <- app_assoc, <- L. reflexivity.
      + rewrite C, <- app_assoc. reflexivity.
  Qed.
End P.
