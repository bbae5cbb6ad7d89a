From Coq Require Import List.
From Verif.Base Require Import Result.
From Verif.Call Require Import Timeout Spec.
Import ListNotations.

Section P.
  Context {T E : Type}.
  Variable recovered : E -> E.
  Notation state := (state T E).
  Notation step := (step recovered).
  Notation reachable := (reachable recovered).

  Definition inv (s : state) : Prop :=
    match wk s with
    | Running => how s = None /\ chan s = None /\ ret s = None /\
        match caller s with Some (Own _ _) => False | _ => True end
    | Sending e => exists c, how s = Some c /\ own recovered c = (ret s, e) /\ chan s = None /\
        match caller s with Some (Own _ _) => False | _ => True end
    | Done => exists c, how s = Some c /\ fst (own recovered c) = ret s /\
        (chan s = None \/ chan s = Some (snd (own recovered c))) /\
        match caller s with
        | Some (Own r e) => (r, e) = own recovered c /\ chan s = None
        | _ => chan s = Some (snd (own recovered c))
        end
    end /\
    match caller s with Some (DeadlineExceeded c) => done s = Some c | _ => True end.

  Lemma inv_init : inv init.
  Proof. unfold inv; simpl; auto. Qed.

  Lemma inv_step s ev s' : inv s -> step s ev = Some s' -> inv s'.
  Proof.
    unfold inv. destruct s as [w h r ch d c]; cbn. intros [H1 H2] H.
    destruct ev as [ce| |cz| |]; cbn in H.
    - destruct w; try discriminate. destruct H1 as (-> & -> & -> & H1).
      destruct ce as [r0 e0|v]; injection H as <-; cbn; (split; [|exact H2]); eexists; repeat split; auto.
    - destruct w; try discriminate. destruct ch; [discriminate|]. injection H as <-. cbn.
      destruct H1 as (c0 & -> & Ho & _ & H1). split; [|exact H2]. exists c0. rewrite Ho. repeat split; auto.
      destruct c as [[]|]; auto; tauto.
    - destruct d; [discriminate|]. injection H as <-. cbn. split; [exact H1|].
      destruct c as [[|]|]; auto. discriminate.
    - destruct c; [discriminate|]. destruct d; [|discriminate]. injection H as <-. cbn. split; [|reflexivity].
      destruct w; auto.
    - destruct c; [discriminate|]. destruct ch as [e0|]; [|discriminate]. injection H as <-. cbn. split; [|exact I].
      destruct w; cbn in *.
      + destruct H1 as (_ & ? & _). discriminate.
      + destruct H1 as (? & _ & _ & ? & _). discriminate.
      + destruct H1 as (c0 & -> & Hr & _ & Hc). exists c0. repeat split; auto.
        injection Hc as ->. rewrite <- Hr. destruct (own recovered c0); reflexivity.
  Qed.

  Lemma inv_reachable s : reachable s -> inv s.
  Proof.
    intros (evs & H). assert (G : forall evs s0, inv s0 -> runs recovered s0 evs = Some s -> inv s).
    { clear evs H. induction evs as [|ev evs IH]; intros s0 H0 H; cbn in H; [congruence|].
      destruct (step s0 ev) as [s1|] eqn:E1; [|discriminate]. apply (IH s1); [|exact H]. eapply inv_step; eassumption. }
    exact (G evs init inv_init H).
  Qed.

  Lemma outcome_spec (s : state) o : reachable s -> caller s = Some o ->
    match o with
    | Own r e => exists c, how s = Some c /\ (r, e) = own recovered c
    | DeadlineExceeded c => done s = Some c
    end.
  Proof.
    intros H Hc. apply inv_reachable in H. unfold inv in H. rewrite Hc in H. destruct o as [r e|c].
    - destruct H as [H _]. destruct (wk s).
      + destruct H as (_ & _ & _ & []).
      + destruct H as (c & _ & _ & _ & []).
      + destruct H as (c & Hh & _ & _ & Ho & _). exists c. auto.
    - apply H.
  Qed.

  (** Once returned, nothing changes what was returned. *)
  Lemma returned_once (s : state) o ev s' : caller s = Some o -> step s ev = Some s' -> caller s' = Some o.
  Proof.
    intros Hc H. destruct s as [w h r ch d c]; cbn in *. subst c. destruct ev as [ce| |cz| |]; cbn in H.
    - destruct w; try discriminate. destruct ce; injection H as <-; reflexivity.
    - destruct w; try discriminate. destruct ch; try discriminate. injection H as <-. reflexivity.
    - destruct d; try discriminate. injection H as <-. reflexivity.
    - discriminate.
    - discriminate.
  Qed.

  (** The caller never waits once the context is done or the call has delivered its result. *)
  Lemma caller_not_blocked (s : state) : reachable s -> caller s = None ->
    done s <> None \/ wk s = Done -> exists ev s', (ev = ReturnDone \/ ev = ReturnOwn) /\ step s ev = Some s' /\ caller s' <> None.
  Proof.
    intros H Hc [Hd|Hw].
    - destruct (done s) as [c|] eqn:Ed; [|congruence]. exists ReturnDone. cbn. rewrite Hc, Ed.
      eexists; split; [auto|split; [reflexivity|cbn; discriminate]].
    - apply inv_reachable in H. unfold inv in H. rewrite Hw, Hc in H. destruct H as ((c & _ & _ & _ & Hch) & _).
      exists ReturnOwn. cbn. rewrite Hc, Hch. eexists; split; [auto|split; [reflexivity|cbn; discriminate]].
  Qed.

  (** The goroutine never blocks on delivering its result. *)
  Lemma worker_not_blocked (s : state) e : reachable s -> wk s = Sending e -> exists s', step s Send = Some s' /\ wk s' = Done.
  Proof.
    intros H Hw. apply inv_reachable in H. unfold inv in H. rewrite Hw in H. destruct H as ((c & _ & _ & Hch & _) & _).
    cbn. rewrite Hw, Hch. eexists; split; reflexivity.
  Qed.
End P.
