From Coq Require Import List NArith Arith Lia.
From Verif.Base Require Import Result.
From Verif.Call Require Import Retry Spec.
Import ListNotations.

Section P.
  Context {T E : Type}.
  Implicit Types w : world T E.

  Lemma op_again w k e : operation w k = Again _ _ e <-> body w k = Err e /\ cond w k = Ok true.
  Proof.
    unfold operation. destruct (body w k) as [v|e']; [split; [discriminate|intros [? _]; discriminate]|].
    destruct (cond w k) as [[]|ce]; split; try discriminate.
    - intros [= ->]. auto.
    - intros [[= ->] _]. reflexivity.
    - intros [_ ?]. discriminate.
    - intros [_ ?]. discriminate.
  Qed.

  Lemma loop_spec fuel max w : forall k tries r n, retry_loop fuel max w k tries = Some (r, n) ->
    (max <> 0%N -> (tries <= max)%N) ->
    (k < n) /\ r = reported w (n - 1) /\
    (forall i, k <= i -> i < n - 1 -> wants_retry w i /\ ctx_done w i = false /\ base_stop w i = false) /\
    (max <> 0%N -> (N.of_nat (n - 1 - k) <= max - tries)%N) /\
    (wants_retry w (n - 1) -> ctx_done w (n - 1) = true \/ base_stop w (n - 1) = true \/
       (max <> 0%N /\ (N.of_nat (n - 1 - k) + tries = max)%N)).
  Proof.
    induction fuel as [|fuel IH]; intros k tries r n H Ht; [discriminate|]. cbn [retry_loop] in H.
    destruct (operation w k) as [v|e|e] eqn:Eo.
    - injection H as <- <-. replace (S k - 1) with k by lia. unfold operation in Eo.
      unfold reported. destruct (body w k) as [v'|e] eqn:Eb; [|destruct (cond w k) as [[]|]; discriminate].
      injection Eo as <-. repeat split; try lia. intros [[e He] _]. congruence.
    - pose proof (proj1 (op_again w k e) Eo) as [Hb Hc].
      destruct (next_backoff max w k tries) as [stop tries'] eqn:En. destruct stop.
      + injection H as <- <-. replace (S k - 1) with k by lia. unfold reported. rewrite Hb, Hc.
        repeat split; try lia. intros _. unfold next_backoff in En. destruct (ctx_done w k); [auto|].
        right. destruct (N.eqb_spec max 0); [injection En as -> _; auto|].
        destruct (N.leb_spec max tries); [right|injection En as -> _; auto]. split; [assumption|].
        specialize (Ht n). lia.
      + unfold next_backoff in En. destruct (ctx_done w k) eqn:Ed; [discriminate|].
        assert (Hbs : base_stop w k = false /\ (max = 0%N -> tries' = tries) /\
                      (max <> 0%N -> (tries < max)%N /\ tries' = (tries + 1)%N)).
        { destruct (N.eqb_spec max 0) as [Em|Em].
          - injection En as -> ->. repeat split; auto; congruence.
          - destruct (N.leb_spec max tries); [discriminate|]. injection En as -> <-. repeat split; auto; congruence. }
        destruct Hbs as (Hbs & Hz & Hnz).
        destruct (IH (S k) tries' r n H) as (A & B & C & D & F).
        { intros Hm. destruct (Hnz Hm). lia. }
        split; [lia|]. split; [exact B|]. split; [|split].
        * intros i Hi1 Hi2. destruct (Nat.eq_dec i k) as [->|]; [|apply C; lia].
          split; [split; [eauto|exact Hc]|auto].
        * intros Hm. specialize (D Hm). destruct (Hnz Hm). lia.
        * intros Hw. destruct (F Hw) as [?|[?|[Hm ?]]]; [auto|auto|]. right; right. split; [exact Hm|].
          destruct (Hnz Hm). lia.
    - injection H as <- <-. replace (S k - 1) with k by lia. unfold operation in Eo. unfold reported.
      destruct (body w k) as [v'|e'] eqn:Eb; [discriminate|].
      destruct (cond w k) as [[]|ce] eqn:Ec; [discriminate| |]; injection Eo as <-.
      + repeat split; try lia. intros [_ Hc]. congruence.
      + repeat split; try lia. intros [_ Hc]. congruence.
  Qed.

  (** Enough fuel: with a bound the loop ends. *)
  Lemma loop_ends max w : max <> 0%N -> forall d k tries, (N.of_nat d + tries = max)%N ->
    exists r, retry_loop (S d) max w k tries = Some r.
  Proof.
    intros Hm. induction d as [|d IH]; intros k tries Hd.
    - cbn [retry_loop]. destruct (operation w k); eauto. unfold next_backoff.
      destruct (ctx_done w k); eauto. destruct (N.eqb_spec max 0); [contradiction|].
      destruct (N.leb_spec max tries); [eauto|lia].
    - remember (S d) as m eqn:Em. cbn [retry_loop]. destruct (operation w k); eauto. unfold next_backoff.
      destruct (ctx_done w k); eauto. destruct (N.eqb_spec max 0); [contradiction|].
      destruct (N.leb_spec max tries); eauto. destruct (base_stop w k); eauto.
      subst m. apply IH. lia.
  Qed.

  Lemma loop_mono max w fuel fuel' : fuel <= fuel' -> forall k tries r,
    retry_loop fuel max w k tries = Some r -> retry_loop fuel' max w k tries = Some r.
  Proof.
    intros Hf. revert fuel' Hf. induction fuel as [|fuel IH]; intros fuel' Hf k tries r H; [discriminate|].
    destruct fuel' as [|fuel']; [lia|]. cbn [retry_loop] in *.
    destruct (operation w k); auto. destruct (next_backoff max w k tries) as [[] t']; auto.
    apply IH; [lia|exact H].
  Qed.

  (** Without a bound the loop goes on as long as attempts ask for more. *)
  Lemma loop_unbounded w fuel : forall k tries,
    (forall i, k <= i -> wants_retry w i /\ ctx_done w i = false /\ base_stop w i = false) ->
    retry_loop fuel 0 w k tries = None.
  Proof.
    induction fuel as [|fuel IH]; intros k tries H; [reflexivity|]. cbn [retry_loop].
    destruct (H k (le_n k)) as (((e & Hb) & Hc) & Hd & Hs).
    rewrite (proj2 (op_again w k e) (conj Hb Hc)). unfold next_backoff. rewrite Hd, N.eqb_refl, Hs.
    apply IH. intros i Hi. apply H. lia.
  Qed.
End P.
