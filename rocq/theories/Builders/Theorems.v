(** * C75: builders of locations are values

    Every error of the compiler has a location, and every location is made by a
    chain of calls on a builder.  A user relies on the location naming exactly
    the parts of the chain, whatever other locations were made before, between
    or after. *)

From Coq Require Import String List Arith Bool Lia.
Import ListNotations.
Local Open Scope string_scope.
Local Open Scope list_scope.

From Verif.Builders Require Import Model Spec Proofs.

(** For every program that makes and uses builders: it does not panic, and
    every builder says what was asked of it. *)
Definition C75_statement : Prop :=
  forall ops, exists st,
    run start ops = Some st /\
    forall i q, said st i q = meant_says ops i q.

(** It holds of every careful program: one that uses a builder made with
    ToLazy… once, and a builder for a variable of an environment, or one with a
    part that copies do not keep, only for its location. *)
Theorem C75_partial : forall ops,
  careful [] ops ->
  exists st, run start ops = Some st /\
    forall i q, said st i q = meant_says ops i q.
Proof.
  intros ops Hc. destruct (run_ok ops start [] [] start_ok Hc) as (st & us & Hr & Hall).
  exists st. split; [exact Hr |]. intros i q. exact (said_meant _ _ _ i q Hall).
Qed.
Print Assumptions C75_partial.

(** A chain of calls for the name of a variable's option in a message, two
    other builders from the same parts, and an error about a message found
    through a plugin. *)
Definition sample : list op :=
  [ONew "a.proto"; OEnter 0 "Location.Message" "A"; OEnter 1 "Message.Option" "";
   OEnter 2 "MessageOption.Def" "3"; OFlag 3 "VariableDefinitionOption.Name" "";
   OEnter 1 "Message.Field" "f"; OLazy 3 "Location.Message" "B";
   OEnter 6 "Message.Option" ""].

Example C75_partial_example :
  careful [] sample /\
  exists st, run start sample = Some st /\
    said st 4 ["Location.Message"] = Some "A" /\
    said st 4 ["Location.Message"; "Message.Option"; "MessageOption.Def"] = Some "3" /\
    said st 3 ["Location.Message"; "Message.Option"; "MessageOption.Def";
               "VariableDefinitionOption.Name"] = None /\
    said st 5 ["Location.Message"; "Message.Option"] = None /\
    said st 6 ["Location.Message"] = Some "A" /\
    said st 7 ["Location.Message"] = Some "B".
Proof. split; [exact I |]. eexists. split; [vm_compute; reflexivity |]. repeat split. Qed.

(** Nothing that happens later changes what a builder says. *)
Theorem C75_persistent : forall ops more st st',
  careful [] (ops ++ more) ->
  run start ops = Some st -> run start (ops ++ more) = Some st' ->
  forall i q, i < List.length (st_builders st) -> said st' i q = said st i q.
Proof.
  intros ops more st st' Hc Hr Hr' i q Hi.
  destruct (run_ok _ start [] [] start_ok Hc) as (st1 & us1 & E1 & A1).
  rewrite Hr' in E1. injection E1 as <-.
  destruct (run_ok _ start [] [] start_ok (careful_app _ _ _ Hc)) as (st2 & us2 & E2 & A2).
  rewrite Hr in E2. injection E2 as <-.
  rewrite (said_meant _ _ _ i q A1), (said_meant _ _ _ i q A2).
  rewrite fold_left_app. destruct (meant_keeps more (fold_left made ops [])) as (m & E).
  rewrite E. rewrite nth_error_app1; [reflexivity |]. destruct A2 as (L & _). rewrite <- L. exact Hi.
Qed.
Print Assumptions C75_persistent.

Example C75_persistent_example :
  careful [] ([ONew "a.proto"; OEnter 0 "Location.Message" "A"] ++ [OEnter 1 "Message.Field" "f"]).
Proof. exact I. Qed.

(** ** A builder made with ToLazy… *)

(** Two calls in a row on it, the second on the result of the first, always
    panic, in every program. *)
Theorem C75_lazy_twice : forall ops st i l x l1 x1 l2 x2,
  run start ops = Some st -> i < List.length (st_builders st) ->
  let n := List.length (st_builders st) in
  run start (ops ++ [OLazy i l x; OEnter n l1 x1; OEnter (S n) l2 x2]) = None /\
  run start (ops ++ [OLazy i l x; OEnter n l1 x1; OFlag (S n) l2 x2]) = None.
Proof.
  intros ops st i l x l1 x1 l2 x2 Hr Hi n. rewrite !run_app, Hr.
  pose proof (run_pointed ops start st start_pointed Hr) as Hp.
  destruct (nth_error (st_builders st) i) as [b |] eqn:Eb; [| apply nth_error_None in Eb; lia].
  destruct (nth_error (st_heap st) (b_root b)) as [t |] eqn:Et; [| exfalso; exact (Hp i b Eb Et)].
  cbn [run step]. rewrite Eb. unfold to_lazy. rewrite Et. cbn [push run step st_builders st_heap].
  unfold n. rewrite (nth_last builder).
  set (lb := {| b_root := List.length (st_heap st); b_sel := SLazy l x |}).
  assert (Hl : lazy_b (st_heap st ++ [clone t]) lb).
  { exists (clone t), l, x. split; [apply nth_last | reflexivity]. }
  destruct (enter_lazy _ lb l1 x1 Hl) as (t1 & b1 & l0 & x0 & He & Hs). rewrite He.
  cbn [push run step st_builders st_heap].
  assert (E : nth_error ((st_builders st ++ [lb]) ++ [b1]) (S (List.length (st_builders st)))
              = Some b1).
  { replace (S (List.length (st_builders st)))
      with (List.length (st_builders st ++ [lb])) by (rewrite app_length; cbn; lia).
    apply nth_last. }
  rewrite E. unfold enter, flag. rewrite (with_lazy_sub b1 l0 x0 l1 l2 x2 _ Hs).
  split; reflexivity.
Qed.
Print Assumptions C75_lazy_twice.

Example C75_lazy_twice_example :
  run start ([ONew "a.proto"; OEnter 0 "Location.Export" "plugin"] ++
             [OLazy 1 "Location.Message" "B"; OEnter 2 "Message.NestedMessage" "B";
              OEnter 3 "Message.Field" "f"]) = None.
Proof. vm_compute. reflexivity. Qed.

Theorem C75_refuted : ~ C75_statement.
Proof.
  intros H. destruct (H [ONew "a.proto"; OLazy 0 "Location.Message" "B";
                         OEnter 1 "Message.NestedMessage" "B"; OEnter 2 "Message.Field" "f"])
    as (st & E & _).
  vm_compute in E. discriminate E.
Qed.
Print Assumptions C75_refuted.

(** ** A variable of an environment *)

(** Whatever is set on its builder is missing in the location that is returned,
    and appears in the location of the builder it was set on. *)
Theorem C75_env_lost : forall ops i v x l y,
  careful [] (ops ++ [OVar i x]) -> nth_error (meant ops) i = Some v ->
  volatile l = false ->
  exists st st',
    run start ops = Some st /\
    run start (ops ++ [OVar i x; OFlag (List.length (st_builders st)) l y]) = Some st' /\
    let n := List.length (st_builders st) in
    let part := v_at v ++ ["Env.Var"] ++ [l] in
    said st' n part = Some y /\ said st' (S n) part = None.
Proof.
  intros ops i v x l y Hc Hv Hvol.
  destruct (free_at ops i (OVar i x) v Hc Hv) as (st & b & Hr & Hb & t & Ht & Hsay & Hcl & Hs & Hg & Hl).
  { intros us H1 H2. cbn [careful1] in H2. destruct (nth_error us i) as [[| |] |]; try reflexivity;
      exfalso; [apply H2; reflexivity | apply H2; reflexivity | apply H1; reflexivity]. }
  exists st. rewrite run_app, Hr. cbn [run step]. rewrite Hb. unfold enter_var.
  rewrite (with_free b "Env.Var" x (st_heap st) t (v_at v) Ht Hcl Hs Hg).
  cbn [push run step st_builders st_heap]. rewrite (nth_last builder).
  set (h := st_heap st). set (p := v_at v) in *.
  set (t1 := put t p "Env.Var" (Node x [])).
  assert (C1 : clone t1 = t1) by (apply clean_put; [exact Hcl | reflexivity | reflexivity]).
  assert (G1 : get t1 p <> None) by (apply put_keeps_parent; exact Hg).
  assert (G2 : get t1 (p ++ ["Env.Var"]) = Some (Node x [])) by (apply put_there; exact Hg).
  unfold flag, with_field. cbn [b_root b_sel]. rewrite (nth_last tree).
  cbn [find].
  assert (N1 : nth_error ((h ++ [t1]) ++ [clone t1]) (List.length h) = Some t1).
  { rewrite nth_error_app1 by (rewrite app_length; cbn; lia). apply nth_last. }
  rewrite (find_path (b_sel b) p (List.length h) _ t1 Hs N1 G1). rewrite N1, G2.
  rewrite N1. rewrite C1.
  set (t2 := put t1 (p ++ ["Env.Var"]) l (Node y [])).
  assert (S2 : set_nth (List.length h) t2 ((h ++ [t1]) ++ [t1]) = (h ++ [t2]) ++ [t1]).
  { generalize t2. clear. intros t2. induction h as [| a h IH]; [reflexivity |].
    cbn. f_equal. exact IH. }
  rewrite S2. cbn [push]. eexists. split; [reflexivity |]. split; [reflexivity |].
  unfold said. cbn [st_builders st_heap].
  set (b1 := {| b_root := List.length h; b_sel := SSub (SOld (List.length h) (b_sel b)) "Env.Var" |}).
  assert (B1 : forall b2, nth_error ((st_builders st ++ [b1]) ++ [b2]) (List.length (st_builders st))
               = Some b1).
  { intros b2. rewrite nth_error_app1 by (rewrite app_length; cbn; lia). apply nth_last. }
  assert (B2 : forall b2, nth_error ((st_builders st ++ [b1]) ++ [b2]) (S (List.length (st_builders st)))
               = Some b2).
  { intros b2. replace (S (List.length (st_builders st)))
      with (List.length (st_builders st ++ [b1])) by (rewrite app_length; cbn; lia).
    apply nth_last. }
  rewrite B1, B2. unfold location. cbn [b_root b1].
  assert (N2 : nth_error ((h ++ [t2]) ++ [t1]) (List.length h) = Some t2).
  { rewrite nth_error_app1 by (rewrite app_length; cbn; lia). apply nth_last. }
  assert (N3 : nth_error ((h ++ [t2]) ++ [t1]) (List.length (h ++ [t1])) = Some t1).
  { replace (List.length (h ++ [t1])) with (List.length (h ++ [t2]))
      by (rewrite !app_length; reflexivity). apply nth_last. }
  rewrite N2, N3. rewrite !app_assoc. split.
  - unfold t2. rewrite put_there; [reflexivity |]. rewrite G2. discriminate.
  - rewrite get_app, G2. reflexivity.
Qed.
Print Assumptions C75_env_lost.

Example C75_env_lost_example :
  exists st, run start [ONew "a.proto"; OEnter 0 "Location.Service" "S";
                        OEnter 1 "Service.Option" ""; OEnter 2 "ServiceOption.Env" "";
                        OVar 3 "0"; OFlag 4 "EnvVar.Name" ""] = Some st /\
    said st 5 ["Location.Service"; "Service.Option"; "ServiceOption.Env"; "Env.Var";
               "EnvVar.Name"] = None.
Proof. eexists. split; [vm_compute; reflexivity | reflexivity]. Qed.

(** ** The parts that a copy does not keep *)

(** When such a part is set and then anything else, the part is gone. *)
Theorem C75_copy_lost : forall ops i v l x l' x',
  careful [] (ops ++ [OVar i ""]) -> nth_error (meant ops) i = Some v ->
  volatile l = true -> l' <> l ->
  exists st st',
    run start ops = Some st /\
    run start (ops ++ [OFlag i l x; OFlag (List.length (st_builders st)) l' x']) = Some st' /\
    let n := List.length (st_builders st) in
    said st' n (v_at v ++ [l]) = Some x /\ said st' (S n) (v_at v ++ [l]) = None /\
    said st' (S n) (v_at v ++ [l']) = Some x'.
Proof.
  intros ops i v l x l' x' Hc Hv Hvol Hne.
  destruct (free_at ops i (OVar i "") v Hc Hv) as (st & b & Hr & Hb & t & Ht & Hsay & Hcl & Hs & Hg & Hl).
  { intros us H1 H2. cbn [careful1] in H2. destruct (nth_error us i) as [[| |] |]; try reflexivity;
      exfalso; [apply H2; reflexivity | apply H2; reflexivity | apply H1; reflexivity]. }
  exists st. rewrite run_app, Hr. cbn [run step]. rewrite Hb. unfold flag at 1.
  rewrite (with_free b l x (st_heap st) t (v_at v) Ht Hcl Hs Hg).
  cbn [push run step st_builders st_heap]. rewrite (nth_last builder).
  set (h := st_heap st). set (p := v_at v) in *. set (t1 := put t p l (Node x [])).
  assert (G1 : get t1 p <> None) by (apply put_keeps_parent; exact Hg).
  assert (G2 : get (clone t1) p <> None).
  { rewrite clone_get by exact (clean_path p t Hcl Hg). destruct (get t1 p); [discriminate | exact G1]. }
  unfold flag, with_field. cbn [b_root b_sel]. rewrite (nth_last tree).
  rewrite (find_path (b_sel b) p _ _ (clone t1) Hs (nth_last _ (h ++ [t1]) _) G2).
  rewrite (nth_last tree). rewrite set_last. cbn [push].
  eexists. split; [reflexivity |]. split; [reflexivity |].
  unfold said. cbn [st_builders st_heap].
  set (b1 := {| b_root := List.length h; b_sel := b_sel b |}).
  assert (B1 : forall b2, nth_error ((st_builders st ++ [b1]) ++ [b2]) (List.length (st_builders st))
               = Some b1).
  { intros b2. rewrite nth_error_app1 by (rewrite app_length; cbn; lia). apply nth_last. }
  assert (B2 : forall b2, nth_error ((st_builders st ++ [b1]) ++ [b2]) (S (List.length (st_builders st)))
               = Some b2).
  { intros b2. replace (S (List.length (st_builders st)))
      with (List.length (st_builders st ++ [b1])) by (rewrite app_length; cbn; lia).
    apply nth_last. }
  rewrite B1, B2. unfold location. cbn [b_root b1].
  rewrite (nth_last tree (h ++ [t1])).
  rewrite (nth_grow _ _ _ _ _ (nth_last _ h t1)).
  split; [| split].
  - unfold t1. rewrite put_there by exact Hg. reflexivity.
  - pose proof (put_says p (clone t1) l' x' (p ++ [l]) G2) as P. unfold tsays in P. rewrite P.
    unfold now. rewrite (starts_sibling p l' l Hne).
    rewrite (clone_lost p t1 l Hvol). reflexivity.
  - rewrite put_there by exact G2. reflexivity.
Qed.
Print Assumptions C75_copy_lost.

Example C75_copy_lost_example :
  careful [] ([ONew "a.proto"; OEnter 0 "Location.Message" "A"] ++ [OVar 1 ""]) /\
  volatile "RetryOption.If" = true.
Proof. split; [exact I | reflexivity]. Qed.

(** ** Where the resolver makes them *)

(** Resolving a message with a builder that was made in the ordinary way never
    panics. *)
Theorem C75_resolve_message : forall ops st i b name m,
  Forall plain ops -> run start ops = Some st -> nth_error (st_builders st) i = Some b ->
  resolve_message b name m (st_heap st) <> None.
Proof.
  intros ops st i b name m Hp Hr Hb.
  destruct (message_roomy m b name (st_heap st) (plain_roomy ops st i b Hp Hr Hb)) as (h & r & E).
  rewrite E. discriminate.
Qed.
Print Assumptions C75_resolve_message.

Example C75_resolve_message_example :
  exists st, run start [ONew "a.proto"; OEnter 0 "Location.Message" "A"] = Some st /\
    List.length (st_builders st) = 2 /\
    Forall plain [ONew "a.proto"; OEnter 0 "Location.Message" "A"].
Proof.
  eexists. split; [vm_compute; reflexivity |]. split; [reflexivity |].
  repeat constructor.
Qed.

(** And it reports every option that cannot be read, once. *)
Theorem C75_all_reported : forall ops st i b name m,
  Forall plain ops -> run start ops = Some st -> nth_error (st_builders st) i = Some b ->
  exists h rep, resolve_message b name m (st_heap st) = Some (h, rep) /\
                List.length rep = unreadable m.
Proof.
  intros ops st i b name m Hp Hr Hb. pose proof (plain_roomy ops st i b Hp Hr Hb) as R.
  destruct (message_roomy m b name (st_heap st) R) as (h & r & E).
  eexists _, _. split; [exact E |]. exact (message_count _ _ _ _ _ _ R E).
Qed.
Print Assumptions C75_all_reported.

Example C75_all_reported_example :
  unreadable (M "A" [M "B" [] [("E", ["X"; "Y"])] true [] []] [] false [("o", true); ("p", false)] [])
  = 4.
Proof. reflexivity. Qed.

(** With a lazy one, it panics exactly when the message has a message in it that
    has anything in it, or an enum in it with a value whose option cannot be
    read. *)
Theorem C75_resolve_lazy : forall ops st i b l x name m h lb,
  run start ops = Some st -> nth_error (st_builders st) i = Some b ->
  to_lazy b l x (st_heap st) = Some (h, lb) ->
  (resolve_message lb name m h = None <-> two_levels m).
Proof.
  intros ops st i b l x name m h lb Hr Hb Hz. unfold to_lazy in Hz.
  destruct (nth_error (st_heap st) (b_root b)) as [t |]; [| discriminate Hz].
  injection Hz as <- <-.
  set (lb := {| b_root := List.length (st_heap st); b_sel := SLazy l x |}).
  assert (Hl : lazy_b (st_heap st ++ [clone t]) lb).
  { exists (clone t), l, x. split; [apply nth_last | reflexivity]. }
  destruct (message_lazy m lb name _ Hl) as [[H E] | [H (h' & r & E)]]; rewrite E; split; intros H'.
  - exact H.
  - reflexivity.
  - discriminate H'.
  - exfalso. exact (H H').
Qed.
Print Assumptions C75_resolve_lazy.

(** A message with a map field has a nested entry message with two fields. *)
Example C75_resolve_lazy_example :
  two_levels (M "B" [M "LabelsEntry" [] [] false [] ["key"; "value"]] [] false [] ["labels"]).
Proof.
  left. eexists. split; [left; reflexivity |].
  right. right. right. right. discriminate.
Qed.

(** An error that resolveMessage reports inside a message nested in [name] is
    located in a nested message that is called [name] as well, whatever the
    nested message is called. *)
Theorem C75_nested_name : forall file name m st b h rep t,
  run start [ONew file; OEnter 0 "Location.Message" name] = Some st ->
  nth_error (st_builders st) 1 = Some b ->
  resolve_message b name m (st_heap st) = Some (h, rep) -> In t rep ->
  tsays t [] = Some file /\ tsays t ["Location.Message"] = Some name /\
  (tsays t ["Location.Message"; "Message.NestedMessage"] = None \/
   tsays t ["Location.Message"; "Message.NestedMessage"] = Some name).
Proof.
  intros file name m st b h rep t Hr Hb Hm Hin.
  assert (Hroom : roomy (st_heap st) b).
  { apply (plain_roomy [ONew file; OEnter 0 "Location.Message" name] st 1 b); [| exact Hr | exact Hb].
    constructor; [exact I |]. constructor; [reflexivity | constructor]. }
  cbn in Hr. injection Hr as <-. cbn in Hb. injection Hb as <-.
  cbn [st_heap] in *.
  set (b := {| b_root := 1; b_sel := SSub SRoot "Location.Message" |}) in *.
  set (hp := [Node file []; Node file [("Location.Message", Node name [])]]) in *.
  pose proof (message_keep m b name hp h rep Hroom Hm) as K.
  assert (A1 : apart ["Location.Message"] []) by (intros E; discriminate E).
  assert (A2 : apart ["Location.Message"] ["Location.Message"]) by (intros _; reflexivity).
  split; [rewrite (K _ ["Location.Message"] [] t eq_refl eq_refl A1 Hin); reflexivity |].
  split; [rewrite (K _ ["Location.Message"] ["Location.Message"] t eq_refl eq_refl A2 Hin); reflexivity |].
  clear K A1 A2. exact (nested_named m file name h rep t Hroom Hm Hin).
Qed.
Print Assumptions C75_nested_name.

Example C75_nested_name_example :
  exists st b h t, run start [ONew "a.proto"; OEnter 0 "Location.Message" "A"] = Some st /\
    nth_error (st_builders st) 1 = Some b /\
    resolve_message b "A" (M "A" [M "B" [] [] true [] []] [] false [] []) (st_heap st)
      = Some (h, [t]) /\
    tsays t ["Location.Message"; "Message.NestedMessage"] = Some "A" /\
    tsays t ["Location.Message"; "Message.NestedMessage"; "Message.Option"] = Some "".
Proof.
  eexists _, _, _, _. split; [vm_compute; reflexivity |]. split; [reflexivity |].
  split; [vm_compute; reflexivity |]. split; reflexivity.
Qed.
