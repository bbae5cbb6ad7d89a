From Coq Require Import String List Arith Bool Lia.
From Verif.Base Require Import Result Slice SliceProofs.
From Verif.Def Require Import Model Spec.
Import ListNotations.

Section P.
  Context {V E CT W : Type}.
  Variable zero : V.
  Variable of_list : list V -> V.
  Variable room : nat.
  Notation state := (state V CT W).
  Notation def := (def V E CT W).
  Notation eval := (eval_def V E CT W zero room).
  Notation name d := (d_name _ _ _ _ d).
  Notation ty d := (d_type _ _ _ _ d).
  Notation body d := (d_body _ _ _ _ d).
  Notation setter d := (d_setter _ _ _ _ d).
  Notation wd st := (world _ _ _ st).

  Lemma assign_spec (d : def) v (st : state) serr st' :
    is_valid st -> assign V E CT W room d v st = (serr, st') ->
    with_variable (name d) (ty d) v st st' /\ setter d v (wd st) = (serr, wd st') /\ is_valid st'.
  Proof.
    unfold assign. intros Hv. destruct (d_setter _ _ _ _ d v (wd st)) as [se w] eqn:Es.
    pose proof (append_view room (hp _ _ _ st) (opts _ (lv _ _ _ st)) [Some (name d, ty d)] Hv) as Ha.
    pose proof (append_valid room (hp _ _ _ st) (opts _ (lv _ _ _ st)) [Some (name d, ty d)] Hv) as Hval.
    destruct (append _ _ _ _) as [h s]. simpl in Ha, Hval. intros [= <- <-]. unfold with_variable, declared, value_of; simpl.
    split; [|split; [reflexivity|exact Hval]]. split; [exact Ha|]. unfold set_val. split.
    - rewrite String.eqb_refl. reflexivity.
    - intros x Hx. destruct (String.eqb_spec x (name d)); congruence.
  Qed.

  Lemma def_cond_err (d : def) st e st1 : cond_gives d st (Err e) st1 -> eval d st = ([e], st1).
  Proof.
    unfold cond_gives, eval_def. destruct (d_if _ _ _ _ d) as [c|]; [|intros [H _]; discriminate].
    intros ->. reflexivity.
  Qed.

  Lemma def_cond_false (d : def) st st1 errs st' : cond_gives d st (Ok false) st1 ->
    is_valid st1 -> eval d st = (errs, st') ->
    with_variable (name d) (ty d) zero st1 st' /\
    exists serr, setter d zero (wd st1) = (serr, wd st') /\
      errs = match serr with Some e => [e] | None => [] end.
  Proof.
    unfold cond_gives, eval_def. destruct (d_if _ _ _ _ d) as [c|]; [|intros [H _]; discriminate].
    intros -> Hv. destruct (assign _ _ _ _ _ d zero st1) as [serr st2] eqn:Ea. intros [= <- <-].
    apply assign_spec in Ea as (H1 & H2 & _); [|exact Hv]. split; [exact H1|]. exists serr. auto.
  Qed.

  Lemma def_cond_true (d : def) st st1 ret rerr st2 errs st' : cond_gives d st (Ok true) st1 ->
    body d st1 = ((ret, rerr), st2) -> is_valid st2 -> eval d st = (errs, st') ->
    let v := match ret with Some v => v | None => zero end in
    with_variable (name d) (ty d) v st2 st' /\
    exists serr, setter d v (wd st2) = (serr, wd st') /\
      errs = match rerr with Some e => [e] | None => [] end ++ match serr with Some e => [e] | None => [] end.
  Proof.
    intros Hc Hb Hv He v.
    assert (Hrun : eval d st = let '(serr, st3) := assign V E CT W room d v st2 in
      (match rerr with Some e => [e] | None => [] end ++ match serr with Some e => [e] | None => [] end, st3)).
    { unfold cond_gives in Hc. unfold eval_def. destruct (d_if _ _ _ _ d) as [c|].
      - rewrite Hc, Hb. unfold v. destruct ret, rerr; destruct (assign _ _ _ _ _ _ _ _); reflexivity.
      - destruct Hc as [_ ->]. rewrite Hb. unfold v. destruct ret, rerr; destruct (assign _ _ _ _ _ _ _ _); reflexivity. }
    rewrite He in Hrun. clear He. destruct (assign _ _ _ _ _ d v st2) as [serr st3] eqn:Ea.
    injection Hrun as -> ->. apply assign_spec in Ea as (H1 & H2 & _); [|exact Hv].
    split; [exact H1|]. exists serr. auto.
  Qed.

  (** Bodies are not run unless the condition is true. *)
  Lemma def_body_irrelevant (d1 d2 : def) st r st1 :
    name d1 = name d2 -> ty d1 = ty d2 -> d_if _ _ _ _ d1 = d_if _ _ _ _ d2 -> setter d1 = setter d2 ->
    cond_gives d1 st r st1 -> r <> Ok true -> eval d1 st = eval d2 st.
  Proof.
    intros Hn Ht Hi Hs Hc Hr. unfold eval_def, assign. rewrite <- Hi. unfold cond_gives in Hc.
    destruct (d_if _ _ _ _ d1) as [c|]; [|destruct Hc; congruence]. rewrite Hc.
    destruct r as [[]|e]; [congruence| |reflexivity]. rewrite Hn, Ht, Hs. reflexivity.
  Qed.

  (** Maps. *)
  Notation mapping := (mapping V E CT W).
  Notation sv := (set_val V).

  Lemma set_val_twice m x a b : forall k, sv (sv m x a) x b k = sv m x b k.
  Proof. intros k. unfold set_val. destruct (String.eqb k x); reflexivity. Qed.

  Lemma copy_fresh (h : heap (decl CT)) (base : slice) x :
    let '(h1, s1) := append room h (empty_slice h) (view h base) in
    let '(h2, s2) := append room h1 s1 [x] in
    view h2 s2 = view h base ++ [x] /\ (forall a, a < length h -> cells h2 a = cells h a) /\ length h <= length h2.
  Proof.
    assert (V0 : valid h (empty_slice h)) by (unfold valid; simpl; lia).
    destruct (append room h (empty_slice h) (view h base)) as [h1 s1] eqn:E1.
    destruct (append room h1 s1 [x]) as [h2 s2] eqn:E2.
    pose proof (append_view room h (empty_slice h) (view h base) V0) as A1. rewrite E1 in A1. simpl in A1.
    pose proof (append_valid room h (empty_slice h) (view h base) V0) as B1. rewrite E1 in B1. simpl in B1.
    pose proof (append_view room h1 s1 [x] B1) as A2. rewrite E2 in A2. simpl in A2.
    pose proof (append_grows room h (empty_slice h) (view h base)) as G1. rewrite E1 in G1. simpl in G1.
    pose proof (append_grows room h1 s1 [x]) as G2. rewrite E2 in G2. simpl in G2.
    assert (Hs : arr s1 = length h).
    { unfold append in E1. destruct (_ <=? _) in E1; injection E1 as <- <-; reflexivity. }
    split; [|split].
    - rewrite A2, A1. reflexivity.
    - intros a Ha.
      pose proof (append_cells_other room h1 s1 [x] a ltac:(lia) ltac:(lia)) as C2. rewrite E2 in C2. simpl in C2.
      pose proof (append_cells_other room h (empty_slice h) (view h base) a ltac:(simpl; lia) Ha) as C1.
      rewrite E1 in C1. simpl in C1. congruence.
    - lia.
  Qed.

  Lemma map_loop_spec (m : mapping) base :
    (forall env f g w, (forall k, f k = g k) -> m_iter _ _ _ _ m env f w = m_iter _ _ _ _ m env g w) ->
    forall src ms ms0 h w acc r h' w',
    (forall x k, sv ms (m_name _ _ _ _ m) x k = sv ms0 (m_name _ _ _ _ m) x k) ->
    arr base < length h \/ len base = 0 ->
    map_loop V E CT W room m base ms src h w acc = (r, (h', w')) ->
    (exists r0, maps (fun x w => m_iter _ _ _ _ m (view h base ++ [Some (m_name _ _ _ _ m, m_type _ _ _ _ m)])
                      (sv ms0 (m_name _ _ _ _ m) x) w) src w r0 w' /\
       r = match r0 with Ok vs => Ok (acc ++ vs) | Err e => Err e end) /\
    (forall a, a < length h -> cells h' a = cells h a) /\ length h <= length h'.
  Proof.
    intros Hext. induction src as [|x src IH]; intros ms ms0 h w acc r h' w' Hms Hb H.
    - simpl in H. injection H as <- <- <-. split; [|split; [auto|lia]].
      exists (Ok []). split; [constructor|]. rewrite app_nil_r. reflexivity.
    - cbn [map_loop] in H.
      pose proof (copy_fresh h base (Some (m_name _ _ _ _ m, m_type _ _ _ _ m))) as C.
      destruct (append room h (empty_slice h) (view h base)) as [h1 s1].
      destruct (append room h1 s1 _) as [h2 s2]. destruct C as (C1 & C2 & C3).
      rewrite C1 in H. cbv zeta in H.
      set (cl := fun x w => m_iter _ _ _ _ m (view h base ++ [Some (m_name _ _ _ _ m, m_type _ _ _ _ m)])
                      (sv ms0 (m_name _ _ _ _ m) x) w).
      match type of H with context [m_iter _ _ _ _ m ?e ?f w] =>
        assert (Hcall : m_iter _ _ _ _ m e f w = cl x w) by (apply Hext, Hms) end.
      rewrite Hcall in H. destruct (cl x w) as [[v|e] w1] eqn:Ei.
      + apply (IH _ ms0) in H as ((r0 & M & ->) & M2 & M3).
        * assert (Hview : view h2 base = view h base).
          { destruct Hb as [Hb|Hb]; [unfold view; rewrite (C2 _ Hb); reflexivity|unfold view; rewrite Hb; reflexivity]. }
          rewrite Hview in M. fold cl in M. split; [|split; [|lia]].
          -- destruct r0 as [vs|e].
             ++ exists (Ok (v :: vs)). split; [eapply maps_ok; eassumption|]. rewrite <- app_assoc. reflexivity.
             ++ exists (Err e). split; [eapply maps_later; eassumption|reflexivity].
          -- intros a Ha. rewrite M2 by lia. apply C2, Ha.
        * intros y k. rewrite set_val_twice. apply Hms.
        * destruct Hb; [left; lia|right; assumption].
      + injection H as <- <- <-. split; [|split; [exact C2|exact C3]].
        exists (Err e). split; [apply maps_now, Ei|reflexivity].
  Qed.

  Lemma eval_map_spec (m : mapping) (st : state) r st' :
    (forall env f g w, (forall k, f k = g k) -> m_iter _ _ _ _ m env f w = m_iter _ _ _ _ m env g w) ->
    is_valid st -> eval_map V E CT W room m st = (r, st') ->
    maps (fun x w => m_iter _ _ _ _ m (declared st ++ [Some (m_name _ _ _ _ m, m_type _ _ _ _ m)])
                       (fun k => if String.eqb k (m_name _ _ _ _ m) then Some x else value_of st k) w)
         (m_source _ _ _ _ m (lv _ _ _ st) (wd st)) (wd st) r (wd st') /\
    lv _ _ _ st' = lv _ _ _ st /\
    (forall t, arr t < length (hp _ _ _ st) -> view (hp _ _ _ st') t = view (hp _ _ _ st) t).
  Proof.
    intros Hext Hv. unfold eval_map.
    destruct (map_loop V E CT W room m _ _ _ _ _ []) as [r0 [h w]] eqn:E0. intros [= <- <-].
    apply (map_loop_spec m _ Hext _ _ (vals _ (lv _ _ _ st))) in E0 as ((r1 & M & ->) & M2 & _).
    - split; [|split; [reflexivity|]].
      + destruct r1; exact M.
      + intros t Ht. unfold view; simpl. rewrite M2 by exact Ht. reflexivity.
    - reflexivity.
    - unfold is_valid, valid, cap in Hv. destruct (cells (hp _ _ _ st) (arr (opts _ (lv _ _ _ st)))) eqn:Ec.
      + right. simpl in Hv. lia.
      + left. apply cells_in. congruence.
  Qed.
  Lemma eval_map_valid (m : mapping) (st : state) r st' :
    (forall env f g w, (forall k, f k = g k) -> m_iter _ _ _ _ m env f w = m_iter _ _ _ _ m env g w) ->
    is_valid st -> eval_map V E CT W room m st = (r, st') -> is_valid st' /\ declared st' = declared st.
  Proof.
    intros Hext Hv. unfold eval_map.
    destruct (map_loop V E CT W room m _ _ _ _ _ []) as [r0 [h w]] eqn:E0. intros [= <- <-].
    unfold is_valid, valid, cap, declared in *; simpl.
    assert (Hd : arr (opts _ (lv _ _ _ st)) < length (hp _ _ _ st) \/ len (opts _ (lv _ _ _ st)) = 0).
    { destruct (cells (hp _ _ _ st) (arr (opts _ (lv _ _ _ st)))) eqn:Ec.
      - right. simpl in Hv. lia.
      - left. apply cells_in. congruence. }
    apply (map_loop_spec m _ Hext _ _ (vals _ (lv _ _ _ st))) in E0 as (_ & M2 & _); [| |exact Hd].
    - unfold view. destruct Hd as [Hd|Hd].
      + rewrite (M2 _ Hd). auto.
      + rewrite Hd. split; [lia|reflexivity].
    - reflexivity.
  Qed.

  Lemma eval_def_map_spec (d : def) (m : mapping) st st1 r st2 errs st' :
    (forall env f g w, (forall k, f k = g k) -> m_iter _ _ _ _ m env f w = m_iter _ _ _ _ m env g w) ->
    cond_gives d st (Ok true) st1 -> is_valid st1 -> eval_map V E CT W room m st1 = (r, st2) ->
    eval_def_map V E CT W zero of_list room d m st = (errs, st') ->
    let v := match r with Ok l => of_list l | Err _ => zero end in
    with_variable (name d) (ty d) v st1 st' /\
    exists serr, setter d v (wd st2) = (serr, wd st') /\
      errs = match r with Ok _ => [] | Err e => [e] end ++ match serr with Some e => [e] | None => [] end.
  Proof.
    intros Hext Hc Hv Hm He v.
    pose proof (eval_map_spec m st1 r st2 Hext Hv Hm) as (_ & Hlv & _).
    pose proof (eval_map_valid m st1 r st2 Hext Hv Hm) as (Hv2 & Hdecl).
    unfold eval_def_map in He.
    match type of He with eval_def _ _ _ _ _ _ ?dd _ = _ => set (d' := dd) in He end.
    assert (Hb : body d' st1 = ((match r with Ok l => Some (of_list l) | Err _ => None end,
                                 match r with Ok _ => None | Err e => Some e end), st2))
      by (simpl; rewrite Hm; destruct r; reflexivity).
    destruct (def_cond_true d' st st1 _ _ st2 errs st' Hc Hb Hv2 He) as ((A1 & A2 & A3) & serr & B1 & B2).
    simpl in *. split.
    - unfold with_variable, value_of in *. rewrite <- Hdecl, <- Hlv. unfold v. destruct r; auto.
    - exists serr. unfold v. destruct r; auto.
  Qed.
End P.

Lemma maps_ok_length {X V E W} (call : X -> W -> result V E * W) xs w r w' :
  maps call xs w r w' -> forall vs, r = Ok vs ->
  length vs = length xs /\
  forall i x, nth_error xs i = Some x -> exists v w1 w2, nth_error vs i = Some v /\ call x w1 = (Ok v, w2).
Proof.
  induction 1 as [w|x xs w v w1 vs w2 Hc Hm IH|x xs w v w1 e w2 Hc Hm IH|x xs w e w1 Hc]; intros vs' E0; try discriminate.
  - injection E0 as <-. split; [reflexivity|]. intros [|i] x; discriminate.
  - injection E0 as <-. destruct (IH vs eq_refl) as [I1 I2]. split; [simpl; congruence|].
    intros [|i] y Hy; simpl in *.
    + injection Hy as <-. eauto.
    + apply I2, Hy.
Qed.

Lemma maps_err_first {X V E W} (call : X -> W -> result V E * W) xs w r w' :
  maps call xs w r w' -> forall e, r = Err e ->
  exists pre x post vs w1, xs = pre ++ x :: post /\ maps call pre w (Ok vs) w1 /\ call x w1 = (Err e, w').
Proof.
  induction 1 as [w|x xs w v w1 vs w2 Hc Hm IH|x xs w v w1 e w2 Hc Hm IH|x xs w e w1 Hc]; intros e' E0; try discriminate.
  - injection E0 as <-. destruct (IH e eq_refl) as (pre & y & post & vs & w3 & -> & M & C).
    exists (x :: pre), y, post, (v :: vs), w3. split; [reflexivity|]. split; [eapply maps_ok; eassumption|exact C].
  - injection E0 as <-. exists [], x, xs, [], w. split; [reflexivity|]. split; [constructor|exact Hc].
Qed.

Lemma maps_fun {X V E W} (call : X -> W -> result V E * W) xs w r w' :
  maps call xs w r w' -> forall r2 w2', maps call xs w r2 w2' -> r = r2 /\ w' = w2'.
Proof.
  induction 1 as [w|x xs w v w1 vs w2 Hc Hm IH|x xs w v w1 e w2 Hc Hm IH|x xs w e w1 Hc]; intros r2 w2' M2.
  - inversion M2; subst; auto.
  - inversion M2 as [|? ? ? v' w1' vs' w2'' Hc' Hm'|? ? ? v' w1' e' w2'' Hc' Hm'|? ? ? e' w1' Hc']; subst; rewrite Hc in Hc'; try discriminate;
      injection Hc' as <- <-; destruct (IH _ _ Hm') as [E1 E2]; split; congruence.
  - inversion M2 as [|? ? ? v' w1' vs' w2'' Hc' Hm'|? ? ? v' w1' e' w2'' Hc' Hm'|? ? ? e' w1' Hc']; subst; rewrite Hc in Hc'; try discriminate;
      injection Hc' as <- <-; destruct (IH _ _ Hm') as [E1 E2]; split; congruence.
  - inversion M2 as [|? ? ? v' w1' vs' w2'' Hc' Hm'|? ? ? v' w1' e' w2'' Hc' Hm'|? ? ? e' w1' Hc']; subst; rewrite Hc in Hc'; try discriminate.
    injection Hc' as <- <-. auto.
Qed.
