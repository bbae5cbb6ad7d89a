From Coq Require Import String Ascii List Arith Bool Lia.
From Verif.Base Require Import Text TextProofs.
From Verif.Lookup Require Import Model Spec.
Import ListNotations.
Local Open Scope string_scope.

(** * Strings *)
Lemma sapp_assoc : forall a b c : string, (a ++ b) ++ c = a ++ (b ++ c).
Proof. induction a; cbn; intros; [reflexivity | rewrite IHa; reflexivity]. Qed.
Lemma join_app : forall a b, a <> [] -> b <> [] -> join "." (a ++ b) = join "." a ++ "." ++ join "." b.
Proof.
  induction a as [|x a IH]; intros b Ha Hb; [contradiction|]. destruct a as [|y a].
  - destruct b; [contradiction | reflexivity].
  - cbn [app]. change (join "." (x :: y :: (a ++ b))) with (x ++ "." ++ join "." ((y :: a) ++ b)).
    rewrite IH by (assumption || discriminate). change (join "." (x :: y :: a)) with (x ++ "." ++ join "." (y :: a)).
    rewrite !sapp_assoc. reflexivity.
Qed.
Lemma join_snoc : forall a n, a <> [] -> join "." (a ++ [n]) = join "." a ++ "." ++ n.
Proof. intros. rewrite join_app by (assumption || discriminate). reflexivity. Qed.
Lemma snoc_ne : forall (a : list string) n, (a ++ [n])%list <> [].
Proof. intros [] n; discriminate. Qed.
Lemma split_join : forall l, l <> [] -> Forall simple l -> split "." (join "." l) = l.
Proof.
  induction l as [|x l IH]; intros N F; [contradiction|]. inversion F as [|? ? [Hx Hd] F']; subst. destruct l as [|y l].
  - cbn. apply split_no_sep, Hd.
  - change (join "." (x :: y :: l)) with (x ++ String "." (join "." (y :: l))). rewrite split_app by exact Hd. rewrite IH by (assumption || discriminate). reflexivity.
Qed.
Lemma trim_dot : forall l, l <> [] -> Forall simple l -> trim_prefix1 "." (join "." l) = join "." l.
Proof.
  intros l N F. destruct l as [|x l]; [contradiction|]. inversion F as [|? ? [Hx Hd] F']; subst.
  destruct x as [|c x]; [contradiction|].
  assert (E : exists r, join "." (String c x :: l) = String c r) by (destruct l; cbn; eexists; reflexivity).
  destruct E as [r ->]. cbn [trim_prefix1]. cbn [has_char] in Hd. apply orb_false_iff in Hd. destruct Hd as [Hd _]. rewrite Ascii.eqb_sym, Hd. reflexivity.
Qed.
Lemma trim_dotted : forall s, trim_prefix1 "." ("." ++ s) = s.
Proof. reflexivity. Qed.
Lemma cut_app : forall p s, cut_prefix p (p ++ s) = Some s.
Proof. induction p; cbn; intros; [reflexivity|]. rewrite Ascii.eqb_refl. apply IHp. Qed.
Lemma cut_some : forall p s r, cut_prefix p s = Some r -> s = p ++ r.
Proof.
  induction p as [|a p IH]; intros s r H; [destruct s; injection H as <-; reflexivity|]. destruct s as [|b s]; [discriminate|]. cbn in H.
  destruct (Ascii.eqb a b) eqn:E; [|discriminate]. apply Ascii.eqb_eq in E. subst. cbn. f_equal. apply IH, H.
Qed.
Lemma join_dot : forall a b, a <> [] -> b <> [] -> has_char "." (join "." (a ++ b)) = true.
Proof. intros. rewrite join_app by assumption. rewrite !has_char_app. cbn. rewrite orb_true_r. reflexivity. Qed.

(** * Lookup *)
Lemma first_some : forall {A B} (f : A -> option B) l y, first f l = Some y -> exists x, In x l /\ f x = Some y.
Proof.
  induction l as [|x l IH]; cbn; intros y H; [discriminate|]. destruct (f x) eqn:E.
  - injection H as <-. exists x. auto.
  - destruct (IH _ H) as [z [I F]]. exists z. auto.
Qed.
Lemma first_none : forall {A B} (f : A -> option B) l, first f l = None -> forall x, In x l -> f x = None.
Proof.
  induction l as [|x l IH]; cbn; intros H y I; [destruct I|]. destruct (f x) eqn:E; [discriminate|]. destruct I as [<-|I]; auto.
Qed.
Section MInd.
  Variable P : mdesc -> Prop.
  Hypothesis H : forall i n l es, Forall P l -> P (MDesc i n l es).
  Fixpoint mdesc_ind' (m : mdesc) : P m :=
    match m with MDesc i n l es => H i n l es ((fix go l : Forall P l := match l with [] => Forall_nil _ | x :: l => Forall_cons _ (mdesc_ind' x) (go l) end) l) end.
End MInd.

Lemma messageRecursive_sound : forall name m parents id, parents <> [] -> lookupMessageRecursive name (join "." parents) m = Some id ->
  exists path, In (path, id) (message_paths parents m) /\ join "." path = name.
Proof.
  intros name m. induction m as [i n l es IH] using mdesc_ind'. intros parents id N H. cbn [lookupMessageRecursive message_paths] in *.
  rewrite <- join_snoc in H by exact N. destruct (join "." (parents ++ [n]) =? name) eqn:E.
  - injection H as <-. apply String.eqb_eq in E. exists (parents ++ [n])%list. cbn. auto.
  - apply first_some in H. destruct H as [m [I H]]. rewrite Forall_forall in IH.
    destruct (IH _ I (parents ++ [n])%list _ (snoc_ne parents n) H) as [path [J K]]. exists path. split; [|exact K]. right.
    apply in_concat. eexists. split; [apply in_map, I | exact J].
Qed.
Lemma messageRecursive_found : forall name m parents id path, parents <> [] -> In (path, id) (message_paths parents m) -> join "." path = name ->
  lookupMessageRecursive name (join "." parents) m <> None.
Proof.
  intros name m. induction m as [i n l es IH] using mdesc_ind'. intros parents id path N I E. cbn [lookupMessageRecursive message_paths] in *.
  rewrite <- join_snoc by exact N. destruct (join "." (parents ++ [n]) =? name) eqn:Q; [discriminate|].
  destruct I as [I|I]; [injection I as <- <-; apply String.eqb_neq in Q; contradiction|].
  apply in_concat in I. destruct I as [x [J I]]. apply in_map_iff in J. destruct J as [m [<- J]]. rewrite Forall_forall in IH.
  intros F. apply (IH _ J (parents ++ [n])%list id path ltac:(destruct parents; discriminate) I E). exact (first_none _ _ F _ J).
Qed.
Lemma enumRecursive_sound : forall name m parents id, parents <> [] -> lookupEnumRecursive name (join "." parents) m = Some id ->
  exists path, In (path, id) (enum_paths parents m) /\ join "." path = name.
Proof.
  intros name m. induction m as [i n l es IH] using mdesc_ind'. intros parents id N H. cbn [lookupEnumRecursive enum_paths] in *.
  rewrite <- join_snoc in H by exact N. destruct (first _ es) eqn:E.
  - injection H as ->. apply first_some in E. destruct E as [e [I E]].
    destruct ((join "." (parents ++ [n]) ++ "." ++ fst e) =? name) eqn:Q; [|discriminate]. injection E as <-. apply String.eqb_eq in Q.
    exists (parents ++ [n; fst e])%list. split; [apply in_or_app; left; apply in_map_iff; exists e; auto|].
    rewrite <- Q, <- join_snoc by (destruct parents; discriminate). rewrite <- app_assoc. reflexivity.
  - apply first_some in H. destruct H as [m [I H]]. rewrite Forall_forall in IH.
    destruct (IH _ I (parents ++ [n])%list _ (snoc_ne parents n) H) as [path [J K]]. exists path. split; [|exact K]. apply in_or_app. right.
    apply in_concat. eexists. split; [apply in_map, I | exact J].
Qed.
Lemma enumRecursive_found : forall name m parents id path, parents <> [] -> In (path, id) (enum_paths parents m) -> join "." path = name ->
  lookupEnumRecursive name (join "." parents) m <> None.
Proof.
  intros name m. induction m as [i n l es IH] using mdesc_ind'. intros parents id path N I E. cbn [lookupEnumRecursive enum_paths] in *.
  rewrite <- join_snoc by exact N. destruct (first _ es) eqn:Q; [discriminate|].
  apply in_app_or in I. destruct I as [I|I].
  - apply in_map_iff in I. destruct I as [e [P I]]. injection P as <- <-. pose proof (first_none _ _ Q _ I) as R. cbn beta in R.
    rewrite <- join_snoc in R by (destruct parents; discriminate). rewrite <- app_assoc in R. cbn [app] in R. rewrite E, String.eqb_refl in R. discriminate R.
  - apply in_concat in I. destruct I as [x [J I]]. apply in_map_iff in J. destruct J as [m [<- J]]. rewrite Forall_forall in IH.
    intros F. apply (IH _ J (parents ++ [n])%list id path ltac:(destruct parents; discriminate) I E). exact (first_none _ _ F _ J).
Qed.

Lemma files_of_In : forall s p f, In f (files_of s p) <-> In f s /\ package f = p.
Proof. intros. unfold files_of. rewrite filter_In, String.eqb_eq. reflexivity. Qed.
Lemma in_declared : forall {A} (g : fdesc -> list (list string * A)) s p path x,
  In (p, path, x) (concat (map (fun f => in_package f (g f)) s)) <-> exists f, In f s /\ package f = p /\ In (path, x) (g f).
Proof.
  intros. rewrite in_concat. split.
  - intros [l [J I]]. apply in_map_iff in J. destruct J as [f [<- J]]. apply in_map_iff in I. destruct I as [[q y] [E I]].
    injection E as <- <- <-. exists f. auto.
  - intros [f [J [<- I]]]. exists (in_package f (g f)). split; [apply (in_map (fun f => in_package f (g f))), J|].
    apply in_map_iff. exists (path, x). auto.
Qed.
Lemma lookupMessage_sound : forall s p n id, lookupMessage s p n = Some id -> exists path, In (p, path, id) (declared_messages s) /\ join "." path = n.
Proof.
  intros s p n id H. unfold lookupMessage in H. apply first_some in H. destruct H as [f [I H]]. apply files_of_In in I. destruct I as [I P].
  apply first_some in H. destruct H as [[i m l es] [J H]]. cbn [mname mid mnested] in H.
  assert (G : exists path, In (path, id) (message_paths [] (MDesc i m l es)) /\ join "." path = n).
  { cbn [message_paths app]. destruct (m =? n) eqn:E.
    - injection H as <-. apply String.eqb_eq in E. exists [m]. split; [now left | exact E].
    - apply first_some in H. destruct H as [m' [K H]]. change m with (join "." [m]) in H.
      destruct (messageRecursive_sound _ _ [m] _ ltac:(discriminate) H) as [path [L Q]]. exists path. split; [|exact Q]. right.
      apply in_concat. eexists. split; [apply in_map, K | exact L]. }
  destruct G as [path [K Q]]. exists path. split; [|exact Q]. unfold declared_messages.
  apply (in_declared (fun f => concat (map (message_paths []) (messages f)))). exists f. split; [exact I|]. split; [exact P|].
  apply in_concat. eexists. split; [apply in_map, J | exact K].
Qed.
Lemma lookupMessage_found : forall s p path id, In (p, path, id) (declared_messages s) -> lookupMessage s p (join "." path) <> None.
Proof.
  intros s p path id D H. apply (in_declared (fun f => concat (map (message_paths []) (messages f)))) in D. destruct D as [f [I [P D]]].
  apply in_concat in D. destruct D as [x [J D]]. apply in_map_iff in J. destruct J as [[i m l es] [<- J]].
  assert (I' : In f (files_of s p)) by (apply files_of_In; auto). unfold lookupMessage in H.
  pose proof (first_none _ _ (first_none _ _ H _ I') _ J) as R. cbn [mname mid mnested] in R. cbn [message_paths app] in D.
  destruct (m =? join "." path) eqn:E; [discriminate|]. destruct D as [D|D].
  - injection D as <- <-. cbn in E. rewrite String.eqb_refl in E. discriminate.
  - apply in_concat in D. destruct D as [x [K D]]. apply in_map_iff in K. destruct K as [m' [<- K]].
    apply (messageRecursive_found (join "." path) m' [m] id path ltac:(discriminate) D eq_refl). exact (first_none _ _ R _ K).
Qed.
Lemma lookupEnum_sound : forall s p n id, lookupEnum s p n = Some id -> exists path, In (p, path, id) (declared_enums s) /\ join "." path = n.
Proof.
  intros s p n id H. unfold lookupEnum in H. apply first_some in H. destruct H as [f [I H]]. apply files_of_In in I. destruct I as [I P].
  assert (G : exists path, In (path, id) (map (fun e => ([fst e], snd e)) (enums f) ++ concat (map (enum_paths []) (messages f)))%list /\ join "." path = n).
  { destruct (first _ (enums f)) eqn:E.
    - injection H as ->. apply first_some in E. destruct E as [e [J E]]. destruct (fst e =? n) eqn:Q; [|discriminate]. injection E as <-.
      apply String.eqb_eq in Q. exists [fst e]. split; [|exact Q]. apply in_or_app. left. apply in_map_iff. exists e. auto.
    - clear E. apply first_some in H. destruct H as [[i m l es] [J H]]. cbn [mname mid mnested menums] in H.
      assert (G : exists path, In (path, id) (enum_paths [] (MDesc i m l es)) /\ join "." path = n).
      { cbn [enum_paths app]. destruct (first _ es) eqn:E.
        - injection H as ->. apply first_some in E. destruct E as [e [K E]]. destruct ((m ++ "." ++ fst e) =? n) eqn:Q; [|discriminate].
          injection E as <-. apply String.eqb_eq in Q. exists [m; fst e]. split; [|exact Q]. apply in_or_app. left. apply in_map_iff. exists e. auto.
        - apply first_some in H. destruct H as [m' [K H]]. change m with (join "." [m]) in H.
          destruct (enumRecursive_sound _ _ [m] _ ltac:(discriminate) H) as [path [L Q]]. exists path. split; [|exact Q]. apply in_or_app. right.
          apply in_concat. eexists. split; [apply in_map, K | exact L]. }
      destruct G as [path [K Q]]. exists path. split; [|exact Q]. apply in_or_app. right. apply in_concat. eexists. split; [apply in_map, J | exact K]. }
  destruct G as [path [K Q]]. exists path. split; [|exact Q]. unfold declared_enums.
  apply (in_declared (fun f => (map (fun e => ([fst e], snd e)) (enums f) ++ concat (map (enum_paths []) (messages f)))%list)). exists f. auto.
Qed.
Lemma lookupEnum_found : forall s p path id, In (p, path, id) (declared_enums s) -> lookupEnum s p (join "." path) <> None.
Proof.
  intros s p path id D H. apply (in_declared (fun f => (map (fun e => ([fst e], snd e)) (enums f) ++ concat (map (enum_paths []) (messages f)))%list)) in D.
  destruct D as [f [I [P D]]]. assert (I' : In f (files_of s p)) by (apply files_of_In; auto). unfold lookupEnum in H.
  pose proof (first_none _ _ H _ I') as R. cbn beta in R. destruct (first _ (enums f)) eqn:E; [discriminate|].
  apply in_app_or in D. destruct D as [D|D].
  - apply in_map_iff in D. destruct D as [e [Q J]]. injection Q as <- <-. pose proof (first_none _ _ E _ J) as T. cbn in T.
    rewrite String.eqb_refl in T. discriminate.
  - apply in_concat in D. destruct D as [x [J D]]. apply in_map_iff in J. destruct J as [[i m l es] [<- J]].
    pose proof (first_none _ _ R _ J) as T. cbn [mname mid mnested menums] in T. cbn [enum_paths app] in D. clear E.
    destruct (first _ es) eqn:E; [discriminate|]. apply in_app_or in D. destruct D as [D|D].
    + apply in_map_iff in D. destruct D as [e [Q K]]. injection Q as <- <-. pose proof (first_none _ _ E _ K) as U. cbn beta in U.
      change (join "." [m; fst e]) with (m ++ "." ++ fst e) in U. rewrite String.eqb_refl in U. discriminate.
    + apply in_concat in D. destruct D as [x [K D]]. apply in_map_iff in K. destruct K as [m' [<- K]].
      apply (enumRecursive_found (join "." path) m' [m] id path ltac:(discriminate) D eq_refl). exact (first_none _ _ T _ K).
Qed.
Lemma lookupService_sound : forall s p n v, lookupService s p n = Some v -> exists path, In (p, path, v) (declared_services s) /\ join "." path = n.
Proof.
  intros s p n v H. unfold lookupService in H. apply first_some in H. destruct H as [f [I H]]. apply files_of_In in I. destruct I as [I P].
  apply first_some in H. destruct H as [e [J E]]. destruct (fst e =? n) eqn:Q; [|discriminate]. injection E as <-. apply String.eqb_eq in Q.
  exists [fst e]. split; [|exact Q]. apply (in_declared (fun f => map (fun v => ([fst v], snd v)) (services f))). exists f.
  split; [exact I|]. split; [exact P|]. apply in_map_iff. exists e. auto.
Qed.
Lemma lookupService_found : forall s p path v, In (p, path, v) (declared_services s) -> lookupService s p (join "." path) <> None.
Proof.
  intros s p path v D H. apply (in_declared (fun f => map (fun v => ([fst v], snd v)) (services f))) in D. destruct D as [f [I [P D]]].
  assert (I' : In f (files_of s p)) by (apply files_of_In; auto). unfold lookupService in H. apply in_map_iff in D. destruct D as [e [Q J]].
  injection Q as <- <-. pose proof (first_none _ _ (first_none _ _ H _ I') _ J) as R. cbn in R. rewrite String.eqb_refl in R. discriminate.
Qed.

(** paths *)
Lemma message_path_shape : forall m parents path id, In (path, id) (message_paths parents m) -> exists r, r <> [] /\ path = (parents ++ r)%list.
Proof.
  intros m. induction m as [i n l es IH] using mdesc_ind'. intros parents path id I. cbn [message_paths] in I. destruct I as [I|I].
  - injection I as <- <-. exists [n]. split; [discriminate | reflexivity].
  - apply in_concat in I. destruct I as [x [J I]]. apply in_map_iff in J. destruct J as [m [<- J]]. rewrite Forall_forall in IH.
    destruct (IH _ J _ _ _ I) as [r [N ->]]. exists (n :: r). split; [discriminate|]. rewrite <- app_assoc. reflexivity.
Qed.
Lemma enum_path_shape : forall m parents path id, In (path, id) (enum_paths parents m) -> exists r, r <> [] /\ path = (parents ++ r)%list.
Proof.
  intros m. induction m as [i n l es IH] using mdesc_ind'. intros parents path id I. cbn [enum_paths] in I. apply in_app_or in I. destruct I as [I|I].
  - apply in_map_iff in I. destruct I as [e [Q J]]. injection Q as <- <-. exists [n; fst e]. split; [discriminate | reflexivity].
  - apply in_concat in I. destruct I as [x [J I]]. apply in_map_iff in J. destruct J as [m [<- J]]. rewrite Forall_forall in IH.
    destruct (IH _ J _ _ _ I) as [r [N ->]]. exists (n :: r). split; [discriminate|]. rewrite <- app_assoc. reflexivity.
Qed.
(** every proper beginning of a path, longer than the parents, is a message *)
Lemma message_path_prefix : forall m parents q r id, q <> [] -> r <> [] -> In (parents ++ q ++ r, id)%list (message_paths parents m) ->
  exists id', In (parents ++ q, id')%list (message_paths parents m).
Proof.
  intros m. induction m as [i n l es IH] using mdesc_ind'. intros parents q r id Nq Nr I. cbn [message_paths] in *. destruct I as [I|I].
  - injection I as E <-. apply app_inv_head in E. destruct q as [|a q]; [contradiction|]. injection E as _ E. symmetry in E. apply app_eq_nil in E. destruct E; contradiction.
  - apply in_concat in I. destruct I as [x [J I]]. apply in_map_iff in J. destruct J as [m [<- J]].
    destruct (message_path_shape _ _ _ _ I) as [t [Nt E]]. rewrite <- app_assoc in E. apply app_inv_head in E.
    destruct q as [|a q]; [contradiction|]. cbn in E. injection E as -> E.
    destruct q as [|b q]; [exists i; now left|]. rewrite Forall_forall in IH.
    replace (parents ++ (n :: b :: q) ++ r)%list with ((parents ++ [n]) ++ (b :: q) ++ r)%list in I by (rewrite <- app_assoc; reflexivity).
    destruct (IH _ J (parents ++ [n])%list (b :: q) r _ ltac:(discriminate) Nr I) as [id' I']. exists id'. right. apply in_concat. eexists. split; [apply in_map, J|].
    rewrite <- app_assoc in I'. exact I'.
Qed.
Lemma enum_path_prefix : forall m parents q r id, q <> [] -> r <> [] -> In (parents ++ q ++ r, id)%list (enum_paths parents m) ->
  exists id', In (parents ++ q, id')%list (message_paths parents m).
Proof.
  intros m. induction m as [i n l es IH] using mdesc_ind'. intros parents q r id Nq Nr I. cbn [message_paths enum_paths] in *. apply in_app_or in I. destruct I as [I|I].
  - apply in_map_iff in I. destruct I as [e [E I]]. injection E as E <-. apply app_inv_head in E. destruct q as [|a q]; [contradiction|]. cbn in E. injection E as -> E.
    destruct q as [|b q]; [exists i; now left|]. cbn in E. injection E as _ E. symmetry in E. apply app_eq_nil in E. destruct E; contradiction.
  - apply in_concat in I. destruct I as [x [J I]]. apply in_map_iff in J. destruct J as [m [<- J]].
    destruct (enum_path_shape _ _ _ _ I) as [t [Nt E]]. rewrite <- app_assoc in E. apply app_inv_head in E.
    destruct q as [|a q]; [contradiction|]. cbn in E. injection E as -> E.
    destruct q as [|b q]; [exists i; now left|]. rewrite Forall_forall in IH.
    replace (parents ++ (n :: b :: q) ++ r)%list with ((parents ++ [n]) ++ (b :: q) ++ r)%list in I by (rewrite <- app_assoc; reflexivity).
    destruct (IH _ J (parents ++ [n])%list (b :: q) r _ ltac:(discriminate) Nr I) as [id' I']. exists id'. right. apply in_concat. eexists. split; [apply in_map, J|].
    rewrite <- app_assoc in I'. exact I'.
Qed.
Lemma declared_message_prefix : forall s p q r id, q <> [] -> r <> [] ->
  In (p, q ++ r, id)%list (declared_messages s) \/ In (p, q ++ r, id)%list (declared_enums s) -> exists id', In (p, q, id') (declared_messages s).
Proof.
  intros s p q r id Nq Nr [D|D].
  - apply (in_declared (fun f => concat (map (message_paths []) (messages f)))) in D. destruct D as [f [I [P D]]].
    apply in_concat in D. destruct D as [x [J D]]. apply in_map_iff in J. destruct J as [m [<- J]].
    destruct (message_path_prefix m [] q r id Nq Nr D) as [id' D']. exists id'.
    apply (in_declared (fun f => concat (map (message_paths []) (messages f)))). exists f. split; [exact I|]. split; [exact P|].
    apply in_concat. eexists. split; [apply in_map, J | exact D'].
  - apply (in_declared (fun f => (map (fun e => ([fst e], snd e)) (enums f) ++ concat (map (enum_paths []) (messages f)))%list)) in D. destruct D as [f [I [P D]]].
    apply in_app_or in D. destruct D as [D|D].
    { apply in_map_iff in D. destruct D as [e [E _]]. injection E as E _. destruct q as [|a q]; [contradiction|]. cbn in E. injection E as _ E.
      symmetry in E. apply app_eq_nil in E. destruct E; contradiction. }
    apply in_concat in D. destruct D as [x [J D]]. apply in_map_iff in J. destruct J as [m [<- J]].
    destruct (enum_path_prefix m [] q r id Nq Nr D) as [id' D']. exists id'.
    apply (in_declared (fun f => concat (map (message_paths []) (messages f)))). exists f. split; [exact I|]. split; [exact P|].
    apply in_concat. eexists. split; [apply in_map, J | exact D'].
Qed.
Lemma declared_path : forall s p path id, In (p, path, id) (declared_messages s) \/ In (p, path, id) (declared_enums s) -> path <> [] /\ exists f, In f s /\ package f = p.
Proof.
  intros s p path id [D|D].
  - apply (in_declared (fun f => concat (map (message_paths []) (messages f)))) in D. destruct D as [f [I [P D]]]. split; [|exists f; auto].
    apply in_concat in D. destruct D as [x [J D]]. apply in_map_iff in J. destruct J as [m [<- J]]. destruct (message_path_shape _ _ _ _ D) as [r [N ->]]. exact N.
  - apply (in_declared (fun f => (map (fun e => ([fst e], snd e)) (enums f) ++ concat (map (enum_paths []) (messages f)))%list)) in D. destruct D as [f [I [P D]]].
    split; [|exists f; auto]. apply in_app_or in D. destruct D as [D|D].
    { apply in_map_iff in D. destruct D as [e [E _]]. injection E as <- _. discriminate. }
    apply in_concat in D. destruct D as [x [J D]]. apply in_map_iff in J. destruct J as [m [<- J]]. destruct (enum_path_shape _ _ _ _ D) as [r [N ->]]. exact N.
Qed.

(** * Packages *)
Lemma has_package_In : forall s p, has_package s p = true <-> exists f, In f s /\ package f = p.
Proof.
  intros. unfold has_package. rewrite existsb_exists. split; intros [f [I E]]; exists f; (split; [exact I|]); now apply String.eqb_eq.
Qed.
Lemma longest_package_is : forall s names i k, i <= k -> 0 < i -> has_package s (join "." (firstn i names)) = true ->
  (forall j, i < j -> j <= k -> has_package s (join "." (firstn j names)) = false) -> longest_package s names k = Some (join "." (firstn i names)).
Proof.
  intros s names i k L Pi Hi Hj. induction k as [|k IH]; [lia|]. cbn [longest_package].
  destruct (Nat.eq_dec i (S k)) as [->|N].
  - rewrite Hi. reflexivity.
  - rewrite (Hj (S k)) by lia. apply IH; [lia|]. intros j A B. apply Hj; lia.
Qed.
Lemma longest_package_sound : forall s names k p, longest_package s names k = Some p -> has_package s p = true /\ exists i, 0 < i /\ i <= k /\ p = join "." (firstn i names).
Proof.
  intros s names k. induction k as [|k IH]; intros p H; [discriminate|]. cbn [longest_package] in H. destruct (has_package _ _) eqn:E.
  - injection H as <-. split; [exact E|]. exists (S k). repeat split; lia.
  - destruct (IH _ H) as [A [i [B [C D]]]]. split; [exact A|]. exists i. repeat split; try assumption; lia.
Qed.
Lemma lookupPackage_sound : forall s n p, lookupPackage s n = Some p -> has_package s p = true /\ exists r, trim_prefix1 "." n = p ++ "." ++ r.
Proof.
  intros s n p H. unfold lookupPackage in H. set (names := split "." (trim_prefix1 "." n)) in *.
  destruct (length names <=? 1)%nat eqn:L; [discriminate|]. apply Nat.leb_gt in L.
  destruct (longest_package_sound _ _ _ _ H) as [A [i [B [C D]]]]. split; [exact A|]. exists (join "." (skipn i names)).
  rewrite <- (join_split "." (trim_prefix1 "." n)). fold names. rewrite <- (firstn_skipn i names) at 1. rewrite D. apply join_app.
  - intros E. apply (f_equal (@length string)) in E. rewrite firstn_length in E. cbn in E. lia.
  - intros E. apply (f_equal (@length string)) in E. rewrite skipn_length in E. cbn in E. lia.
Qed.
Lemma trimPackage_of : forall n p r, trim_prefix1 "." n = p ++ "." ++ r -> trimPackage p n = r.
Proof.
  intros n p r E. unfold trimPackage. rewrite E. replace (has_char "." (p ++ "." ++ r)) with true.
  - cbn [negb]. unfold trim_prefix. rewrite <- sapp_assoc, cut_app. reflexivity.
  - rewrite !has_char_app. cbn. rewrite orb_true_r. reflexivity.
Qed.

Section Generic.
  Context {A : Type}.
  Variable s : schema.
  Variable lookup : string -> string -> option A.
  Variable D : list (decl A).
  Hypothesis sound : forall p n x, lookup p n = Some x -> exists path, In (p, path, x) D /\ join "." path = n.
  Hypothesis found : forall p path x, In (p, path, x) D -> lookup p (join "." path) <> None.
  Hypothesis nonempty : forall p path x, In (p, path, x) D -> path <> [].
  Hypothesis unique : NoDup (map full_name D).

  Lemma full_of : forall p path x, In (p, path, x) D -> full_name (p, path, x) = p ++ "." ++ join "." path.
  Proof. intros p path x I. apply nonempty in I. unfold full_name. apply (join_app [p] path); [discriminate | exact I]. Qed.
  Lemma same : forall d d', In d D -> In d' D -> full_name d = full_name d' -> d = d'.
  Proof.
    clear - unique. intros d d' I I' E. induction D as [|a l IH]; [destruct I|]. inversion unique as [|? ? NI U]; subst.
    destruct I as [<-|I], I' as [<-|I']; [reflexivity | | | apply IH; assumption].
    - elim NI. rewrite E. apply in_map, I'.
    - elim NI. rewrite <- E. apply in_map, I.
  Qed.
  Definition good (c : cache A) : Prop := forall k x, In (k, x) c -> exists p path, In (p, path, x) D /\ full_name (p, path, x) = k.
  Lemma cached_In : forall (c : cache A) k x, cached c k = Some x -> In (k, x) c.
  Proof.
    intros c k x H. unfold cached in H. destruct (find _ c) as [[k' y]|] eqn:E; [|discriminate]. cbn in H. injection H as ->.
    apply find_some in E. destruct E as [I E]. cbn in E. apply String.eqb_eq in E. subst. exact I.
  Qed.
  Lemma resolve_good : forall c p n, good c -> good (fst (resolve_in lookup c p n)) /\
    forall x, snd (resolve_in lookup c p n) = Some x -> exists q path, In (q, path, x) D /\ full_name (q, path, x) = p ++ "." ++ n.
  Proof.
    intros c p n G. unfold resolve_in. destruct (cached c _) eqn:E.
    - split; [exact G|]. intros x H. cbn in H. injection H as <-. apply cached_In, G in E. exact E.
    - destruct (lookup p n) eqn:L; [|split; [exact G | discriminate]]. destruct (sound _ _ _ L) as [path [I Q]].
      assert (F : full_name (p, path, a) = p ++ "." ++ n) by (rewrite (full_of _ _ _ I), Q; reflexivity).
      split.
      + intros k x [H|H]; [injection H as <- <-; exists p, path; auto | apply G, H].
      + intros x H. cbn in H. injection H as <-. exists p, path. auto.
  Qed.
  Lemma run_good : forall h, good (run lookup h).
  Proof.
    intros h. unfold run. assert (G : good []) by (intros k x []). revert G. generalize (@nil (string * A)). induction h as [|r h IH]; intros c G; [exact G|].
    cbn. apply IH. apply resolve_good, G.
  Qed.
  Lemma resolve_declared : forall c p path x, good c -> In (p, path, x) D -> snd (resolve_in lookup c p (join "." path)) = Some x.
  Proof.
    intros c p path x G I. destruct (snd (resolve_in lookup c p (join "." path))) as [y|] eqn:E.
    - destruct (proj2 (resolve_good c p (join "." path) G) y E) as [q [path' [J F]]]. rewrite <- (full_of _ _ _ I) in F.
      apply same in F; [|assumption..]. injection F as _ _ ->. reflexivity.
    - exfalso. unfold resolve_in in E. destruct (cached c _); [discriminate E|]. destruct (lookup p (join "." path)) eqn:L; [discriminate E|].
      apply (found _ _ _ I L).
  Qed.

  (** names *)
  Hypothesis packages : forall f, In f s -> qualified (package f).
  Hypothesis simple_paths : forall p path x, In (p, path, x) D -> Forall simple path.
  Hypothesis in_schema : forall p path x, In (p, path, x) D -> exists f, In f s /\ package f = p.
  Hypothesis apart : forall p q r x, In (p, (q ++ r)%list, x) D -> q <> [] -> r <> [] -> has_package s (join "." (p :: q)) = false.

  Lemma package_of : forall p path x, In (p, path, x) D -> lookupPackage s (full_name (p, path, x)) = Some p /\ lookupPackage s ("." ++ full_name (p, path, x)) = Some p
    /\ trimPackage p (full_name (p, path, x)) = join "." path /\ trimPackage p ("." ++ full_name (p, path, x)) = join "." path /\ has_char "." (full_name (p, path, x)) = true.
  Proof.
    intros p path x I. destruct (in_schema _ _ _ I) as [f [If P]]. destruct (packages _ If) as [parts [N [S E]]]. rewrite P in E.
    pose proof (simple_paths _ _ _ I) as Sp. pose proof (nonempty _ _ _ I) as Np.
    assert (F : full_name (p, path, x) = join "." (parts ++ path)) by (rewrite (full_of _ _ _ I), E; symmetry; apply join_app; assumption).
    assert (Na : (parts ++ path)%list <> []) by (destruct parts; [contradiction | discriminate]).
    assert (Sa : Forall simple (parts ++ path)) by (apply Forall_app; auto).
    assert (T1 : trim_prefix1 "." (full_name (p, path, x)) = full_name (p, path, x)) by (rewrite F; apply trim_dot; assumption).
    assert (T2 : trim_prefix1 "." ("." ++ full_name (p, path, x)) = full_name (p, path, x)) by reflexivity.
    assert (L : forall n, trim_prefix1 "." n = full_name (p, path, x) -> lookupPackage s n = Some p).
    { intros n T. unfold lookupPackage. rewrite T, F, split_join by assumption.
      assert (Lp : 0 < length parts) by (destruct parts; [contradiction | cbn; lia]). assert (Lq : 0 < length path) by (destruct path; [contradiction | cbn; lia]).
      rewrite app_length. destruct (length parts + length path <=? 1)%nat eqn:Q; [apply Nat.leb_le in Q; lia|]. clear Q.
      rewrite (longest_package_is s (parts ++ path) (length parts)); try lia.
      - rewrite firstn_app, Nat.sub_diag, firstn_all, app_nil_r, <- E. reflexivity.
      - rewrite firstn_app, Nat.sub_diag, firstn_all, app_nil_r, <- E. apply has_package_In. exists f. auto.
      - intros j Hj Hk. rewrite firstn_app, firstn_all2 by lia.
        assert (N1 : firstn (j - length parts) path <> []) by (intros Z; apply (f_equal (@length string)) in Z; rewrite firstn_length in Z; cbn in Z; lia).
        rewrite join_app by assumption. rewrite <- E. pose proof (apart p (firstn (j - length parts) path) (skipn (j - length parts) path) x) as Ap.
        rewrite firstn_skipn in Ap. specialize (Ap I N1).
        assert (N2 : skipn (j - length parts) path <> []) by (intros Z; apply (f_equal (@length string)) in Z; rewrite skipn_length in Z; cbn in Z; lia).
        specialize (Ap N2). change (join "." (p :: firstn (j - length parts) path)) with (join "." ([p] ++ firstn (j - length parts) path)) in Ap.
        rewrite join_app in Ap by (assumption || discriminate). exact Ap. }
    split; [apply L, T1|]. split; [apply L, T2|].
    assert (T : forall n, trim_prefix1 "." n = full_name (p, path, x) -> trimPackage p n = join "." path).
    { intros n T. apply trimPackage_of. rewrite T. apply full_of, I. }
    split; [apply T, T1|]. split; [apply T, T2|]. rewrite F. apply join_dot; assumption.
  Qed.
  Lemma by_full_name : forall c cur d, good c -> In d D -> snd (resolve_by_name lookup s c cur (full_name d)) = Some (snd d) /\ snd (resolve_by_name lookup s c cur ("." ++ full_name d)) = Some (snd d).
  Proof.
    intros c cur [[p path] x] G I. destruct (package_of _ _ _ I) as [A1 [A2 [A3 [A4 A5]]]]. unfold resolve_by_name. rewrite A5.
    change (has_char "." ("." ++ full_name (p, path, x))) with true. cbv iota. rewrite A1, A2, A3, A4. cbn [snd]. split; apply resolve_declared; assumption.
  Qed.
  Lemma by_local_name : forall c cur n x, good c -> (exists path, In (cur, path, x) D /\ n = join "." path) -> ~ begins_with_package s n -> snd (resolve_by_name lookup s c cur n) = Some x.
  Proof.
    intros c cur n x G [path [I ->]] B. unfold resolve_by_name.
    assert (R : snd (resolve_in lookup c cur (join "." path)) = Some x) by (apply resolve_declared; assumption).
    destruct (has_char "." (join "." path)) eqn:H; [|exact R]. destruct (lookupPackage s (join "." path)) as [p|] eqn:L; [|exact R].
    exfalso. apply B. destruct (lookupPackage_sound _ _ _ L) as [P [r E]]. apply has_package_In in P. destruct P as [f [If P]].
    rewrite trim_dot in E by (eapply nonempty || eapply simple_paths; exact I). exists f, r. rewrite P. auto.
  Qed.
  Lemma by_name_sound : forall c cur n x, good c -> snd (resolve_by_name lookup s c cur n) = Some x ->
    exists d, In d D /\ snd d = x /\ (full_name d = n \/ "." ++ full_name d = n \/ full_name d = cur ++ "." ++ n).
  Proof.
    intros c cur n x G H. unfold resolve_by_name in H.
    assert (Loc : forall y, snd (resolve_in lookup c cur n) = Some y -> exists d, In d D /\ snd d = y /\ full_name d = cur ++ "." ++ n).
    { intros y Hy. destruct (proj2 (resolve_good c cur n G) _ Hy) as [q [path [J F]]]. exists (q, path, y). auto. }
    assert (Loc' : snd (resolve_in lookup c cur n) = Some x -> exists d, In d D /\ snd d = x /\ (full_name d = n \/ "." ++ full_name d = n \/ full_name d = cur ++ "." ++ n)).
    { intros Hy. destruct (Loc _ Hy) as [d [A1 [A2 A3]]]. exists d. auto. }
    destruct (has_char "." n); [|auto]. destruct (lookupPackage s n) as [p|] eqn:L; [|auto].
    destruct (lookupPackage_sound _ _ _ L) as [P [r E]]. rewrite (trimPackage_of _ _ _ E) in H.
    destruct (proj2 (resolve_good c p r G) _ H) as [q [path [J F]]]. exists (q, path, x). split; [exact J|]. split; [reflexivity|].
    rewrite <- E in F. destruct n as [|a n]; [cbn in F; auto|]. cbn [trim_prefix1] in F. destruct (Ascii.eqb "." a) eqn:Q; [|auto].
    apply Ascii.eqb_eq in Q. subst a. right. left. rewrite F. reflexivity.
  Qed.
End Generic.

(** * Methods *)
Lemma split_method_full : forall cur p svc m, qualified p -> simple svc -> has_char "/" p = false -> has_char "/" svc = false -> has_char "/" m = false ->
  splitMethodFullName cur (p ++ "." ++ svc ++ "/" ++ m) = Some (p, svc, m).
Proof.
  intros cur p svc m [parts [N [S E]]] Ss Hp Hs Hm. unfold splitMethodFullName.
  replace (p ++ "." ++ svc ++ "/" ++ m) with ((p ++ "." ++ svc) ++ String "/" m) by (rewrite !sapp_assoc; reflexivity).
  rewrite split_app by (rewrite !has_char_app, Hp, Hs; reflexivity). rewrite (split_no_sep "/" m Hm).
  replace (has_char "." (p ++ "." ++ svc)) with true by (rewrite !has_char_app; cbn; rewrite orb_true_r; reflexivity). cbn [negb].
  replace (p ++ "." ++ svc) with (join "." (parts ++ [svc])) by (rewrite join_snoc, E by exact N; reflexivity).
  rewrite split_join; [|apply snoc_ne | apply Forall_app; split; [exact S | constructor; [exact Ss | constructor]]].
  rewrite app_length. cbn [length]. destruct (length parts + 1 <=? 1)%nat eqn:Q; [apply Nat.leb_le in Q; destruct parts; [contradiction | cbn in Q; lia]|].
  rewrite removelast_last, last_last, <- E. reflexivity.
Qed.
Lemma split_method_local : forall cur svc m, simple svc -> has_char "/" svc = false -> has_char "/" m = false ->
  splitMethodFullName cur (svc ++ "/" ++ m) = Some (cur, svc, m).
Proof.
  intros cur svc m [_ Ss] Hs Hm. unfold splitMethodFullName. change (svc ++ "/" ++ m) with (svc ++ String "/" m).
  rewrite split_app by exact Hs. rewrite (split_no_sep "/" m Hm), Ss. reflexivity.
Qed.
Lemma split_method_sound : forall cur n p svc m, splitMethodFullName cur n = Some (p, svc, m) ->
  n = p ++ "." ++ svc ++ "/" ++ m \/ p = cur /\ n = svc ++ "/" ++ m.
Proof.
  intros cur n p svc m H. unfold splitMethodFullName in H. pose proof (join_split "/" n) as J.
  destruct (split "/" n) as [|a [|b [|? ?]]]; try discriminate H. change (join "/" [a; b]) with (a ++ "/" ++ b) in J.
  destruct (has_char "." a) eqn:Q; cbn [negb] in H; [|injection H as <- <- <-; right; auto].
  pose proof (join_split "." a) as K. destruct (length (split "." a) <=? 1)%nat eqn:L; [discriminate|]. apply Nat.leb_gt in L.
  injection H as <- <- <-. left.
  assert (N : split "." a <> []) by apply split_nonempty.
  rewrite (app_removelast_last "" N) in K. rewrite join_snoc in K.
  - rewrite <- J. rewrite <- K at 1. rewrite !sapp_assoc. reflexivity.
  - intros Z. rewrite (app_removelast_last "" N), Z in L. cbn in L. lia.
Qed.
