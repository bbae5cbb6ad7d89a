(** * Lemmas about the positions of locations *)

From Coq Require Import Ascii String List Arith Bool Lia.
From Verif.Base Require Import Text.
From Verif.Locate Require Import Model Spec.
Import ListNotations.
Local Open Scope string_scope.
Local Open Scope list_scope.

Lemma value_id_node : forall v, value_id v = node v.
Proof. intro v; destruct v; reflexivity. Qed.

Lemma first_written : forall f i es, first es f = hd_error (written f (VMsg i es)).
Proof.
  intros f i es; unfold written; induction es as [|[g v] es IH]; [reflexivity|].
  cbn [first filter fst]. destruct (String.eqb g f); [reflexivity|exact IH].
Qed.

Definition lit_of (v : value) : list lit :=
  match v with VMsg i es => [(i, es)] | _ => [] end.

Lemma message_list_messages : forall v, message_list v = flat_map lit_of (messages v).
Proof.
  intro v; destruct v as [i t|i t|i|i es|i l]; try reflexivity.
  cbn [message_list messages].
  induction l as [|w l IH]; [reflexivity|].
  cbn [flat_map filter]. destruct w; cbn [is_msg flat_map lit_of app]; rewrite IH; reflexivity.
Qed.

Lemma collect_written : forall f i es,
  collect es f = flat_map lit_of (flat_map messages (written f (VMsg i es))).
Proof.
  intros f i es; unfold written; induction es as [|[g v] es IH]; [reflexivity|].
  cbn [collect filter fst]. destruct (String.eqb g f); [|exact IH].
  cbn [map flat_map snd]. rewrite flat_map_app, <- message_list_messages, IH. reflexivity.
Qed.

Lemma messages_are : forall v, Forall (fun w => is_msg w = true) (messages v).
Proof.
  intro v; destruct v; cbn [messages]; auto.
  apply Forall_forall. intros w Hw. apply filter_In in Hw. apply Hw.
Qed.

Lemma nth_lit : forall l k w,
  Forall (fun w => is_msg w = true) l -> nth_error l k = Some w ->
  exists i es, w = VMsg i es /\ nth_error (flat_map lit_of l) k = Some (i, es).
Proof.
  intros l k w H; revert k; induction H as [|x l Hx Hl IH]; intros k E.
  - destruct k; discriminate E.
  - destruct x as [| | |i es|]; try discriminate Hx.
    destruct k as [|k].
    + cbn in E. injection E as <-. exists i, es. split; reflexivity.
    + cbn in E. destruct (IH k E) as (j & es' & -> & E'). exists j, es'. split; [reflexivity|].
      cbn [flat_map lit_of app nth_error]. exact E'.
Qed.

Lemma all_messages : forall l, Forall (fun w => is_msg w = true) (flat_map messages l).
Proof.
  induction l as [|v l IH]; [constructor|]. cbn [flat_map]. apply Forall_app.
  split; [apply messages_are|exact IH].
Qed.

(** ** One step *)

Lemma one_first : forall f k here es w,
  follow (VMsg here es) (One f k) = Some w -> first es f = Some w /\ of_kind k w = true.
Proof.
  intros f k here es w H. cbn [follow] in H. rewrite (first_written f here es).
  destruct (written f (VMsg here es)) as [|x [|y l]]; try discriminate H.
  destruct (of_kind k x) eqn:K; [|discriminate H]. injection H as <-. split; [reflexivity|exact K].
Qed.

Lemma str_found : forall f here es w,
  follow (VMsg here es) (One f Str) = Some w -> plain (In_value w) = true ->
  on_str es f here = Found (node w).
Proof.
  intros f here es w H P. destruct (one_first _ _ _ _ _ H) as [E K]. unfold on_str. rewrite E.
  destruct w; try discriminate K; try discriminate P; reflexivity.
Qed.

Lemma cat_lost : forall f here es w,
  follow (VMsg here es) (One f Str) = Some w -> plain (In_value w) = false ->
  on_str es f here = Nil.
Proof.
  intros f here es w H P. destruct (one_first _ _ _ _ _ H) as [E K]. unfold on_str. rewrite E.
  destruct w; try discriminate K; try discriminate P; reflexivity.
Qed.

Lemma any_found : forall f k here es w,
  follow (VMsg here es) (One f k) = Some w -> on_any es f here = Found (node w).
Proof.
  intros f k here es w H. destruct (one_first _ _ _ _ _ H) as [E K]. unfold on_any. rewrite E.
  rewrite value_id_node. reflexivity.
Qed.

Lemma word_found : forall f here es w,
  follow (VMsg here es) (One f Word) = Some w -> on_ident es f here = Found (node w).
Proof.
  intros f here es w H. destruct (one_first _ _ _ _ _ H) as [E K]. unfold on_ident. rewrite E.
  destruct w; try discriminate K; reflexivity.
Qed.

Lemma msg_found : forall f here es w,
  follow (VMsg here es) (One f Msg) = Some w ->
  exists i es', w = VMsg i es' /\ forall K, on_msg es f here K = K i es'.
Proof.
  intros f here es w H. destruct (one_first _ _ _ _ _ H) as [E K]. unfold on_msg. rewrite E.
  destruct w as [| | |i es'|]; try discriminate K. exists i, es'. split; reflexivity.
Qed.

Lemma item_found : forall f n here es w,
  follow (VMsg here es) (Nth f n) = Some w ->
  exists i es', w = VMsg i es' /\ forall K, on_item es f here n K = K i es'.
Proof.
  intros f n here es w H. cbn [follow] in H.
  destruct (nth_lit _ _ _ (all_messages _) H) as (i & es' & -> & E).
  exists i, es'. split; [reflexivity|]. intro K. unfold on_item.
  rewrite (collect_written f here es).
  match goal with |- match ?m with _ => _ end = _ => change m with
    (flat_map lit_of (flat_map messages (written f (VMsg here es)))) end.
  revert E. destruct (flat_map lit_of (flat_map messages (written f (VMsg here es)))) as [|x l];
    intro E.
  - destruct n; discriminate E.
  - rewrite E. reflexivity.
Qed.

(** ** The parts of options *)

Ltac at_here H := cbn [at_path] in H; injection H as <-; reflexivity.

Lemma at_path_cons : forall v s r,
  at_path v (s :: r) = match follow v s with Some w => at_path w r | None => None end.
Proof. reflexivity. Qed.

Ltac step_in H :=
  match type of H with
  | at_path ?v (?s :: ?r) = Some _ =>
      rewrite at_path_cons in H; let E := fresh "E" in destruct (follow v s) as [?x|] eqn:E;
      [|discriminate H]
  end.

Ltac leaf H := step_in H; cbn [at_path] in H; injection H as <-.

Ltac str H :=
  leaf H; match goal with E : follow _ _ = Some _ |- _ => apply (str_found _ _ _ _ E); assumption end.

Ltac into H :=
  step_in H;
  match goal with
  | E : follow _ (One _ Msg) = Some _ |- _ =>
      destruct (msg_found _ _ _ _ E) as (?i & ?es & -> & ?R); clear E
  | E : follow _ (Nth _ _) = Some _ |- _ =>
      destruct (item_found _ _ _ _ _ E) as (?i & ?es & -> & ?R); clear E
  end.

Lemma arg_found : forall p here es w,
  arg_ok p = true -> at_path (VMsg here es) (arg_path p) = Some w -> plain (In_value w) = true ->
  by_argument here es p = Found (node w).
Proof.
  intros p here es w O H P; destruct p; try discriminate O; cbn [arg_path by_argument] in *.
  - at_here H.
  - str H.
  - str H.
Qed.

Lemma message_expr_found : forall g here es w,
  msg_ok g = true -> at_path (VMsg here es) (msg_path g) = Some w -> plain (In_value w) = true ->
  by_message_expr here es g = Found (node w).
Proof.
  intros g here es w O H P; destruct g as [| |n p]; cbn [msg_path by_message_expr] in *.
  - at_here H.
  - str H.
  - into H. rewrite R. apply arg_found; assumption.
Qed.

Lemma enum_expr_found : forall n here es w,
  at_path (VMsg here es) (enum_path n) = Some w -> plain (In_value w) = true ->
  by_enum_expr here es n = Found (node w).
Proof.
  intros n here es w H P; destruct n; cbn [enum_path by_enum_expr] in *; [at_here H|str H|str H].
Qed.

Lemma iterator_found : forall part here es i es' w,
  follow (VMsg here es) (One "iterator" Msg) = Some (VMsg i es') ->
  first es' part = Some w -> iterator es part here = Found (node w).
Proof.
  intros part here es i es' w H F. destruct (one_first _ _ _ _ _ H) as [E _]. clear H.
  induction es as [|[f v] es IH]; [discriminate E|].
  cbn [first iterator] in *. destruct (String.eqb f "iterator") eqn:Q.
  - injection E as ->. rewrite F, value_id_node. reflexivity.
  - exact (IH E).
Qed.

Lemma map_found : forall m here es w,
  map_ok m = true -> at_path (VMsg here es) (map_path m) = Some w -> plain (In_value w) = true ->
  by_map_expr here es m = Found (node w).
Proof.
  intros m here es w O H P; destruct m as [| | | |g|n]; cbn [map_path by_map_expr] in *.
  - at_here H.
  - str H.
  - step_in H. destruct (msg_found _ _ _ _ E) as (i & es' & -> & _).
    leaf H. apply one_first in E0. apply (iterator_found _ _ _ _ _ _ E). apply E0.
  - step_in H. destruct (msg_found _ _ _ _ E) as (i & es' & -> & _).
    leaf H. apply one_first in E0. apply (iterator_found _ _ _ _ _ _ E). apply E0.
  - into H. rewrite R. apply message_expr_found; assumption.
  - into H. rewrite R. apply enum_expr_found; assumption.
Qed.

Lemma retry_found : forall r here es w,
  at_path (VMsg here es) (retry_path r) = Some w -> plain (In_value w) = true ->
  by_retry here es r = Found (node w).
Proof.
  intros r here es w H P; destruct r; cbn [retry_path by_retry] in *; [at_here H|str H| | |];
    into H; rewrite R; leaf H; eapply any_found; exact E.
Qed.

Lemma req_found : forall q here es w,
  at_path (VMsg here es) (req_path q) = Some w -> plain (In_value w) = true ->
  by_request here es q = Found (node w).
Proof.
  intros q here es w H P; destruct q; cbn [req_path by_request] in *; [at_here H|str H|str H|str H].
Qed.

Scheme def_part_mut := Induction for def_part Sort Prop
  with call_part_mut := Induction for call_part Sort Prop
  with err_part_mut := Induction for err_part Sort Prop
  with detail_part_mut := Induction for detail_part Sort Prop.
Combined Scheme parts_ind from def_part_mut, call_part_mut, err_part_mut, detail_part_mut.

Lemma parts_found :
  (forall p here es w, def_ok p = true -> at_path (VMsg here es) (def_path p) = Some w ->
     plain (In_value w) = true -> by_def here es p = Found (node w))
  /\ (forall c here es w, call_ok c = true -> at_path (VMsg here es) (call_path c) = Some w ->
     plain (In_value w) = true -> by_call here es c = Found (node w))
  /\ (forall e here es w, err_ok e = true -> at_path (VMsg here es) (err_path e) = Some w ->
     plain (In_value w) = true -> by_error here es e = Found (node w))
  /\ (forall t here es w, detail_ok t = true -> at_path (VMsg here es) (detail_path t) = Some w ->
     plain (In_value w) = true -> by_detail here es t = Found (node w)).
Proof.
  apply parts_ind; intros;
    cbn [def_ok call_ok err_ok detail_ok def_path call_path err_path detail_path] in *;
    cbn [by_def by_call by_error by_detail];
    try match goal with O : false = true |- _ => discriminate O end;
    match goal with H : at_path _ _ = Some _ |- _ =>
      first [ at_here H
            | solve [str H]
            | solve [leaf H; eapply any_found; eassumption]
            | solve [leaf H; eapply word_found; eassumption]
            | idtac ] end;
    match goal with H : at_path _ _ = Some _ |- _ =>
      into H; rewrite R; clear R;
      first [ solve [apply map_found; assumption]
            | solve [apply message_expr_found; assumption]
            | solve [apply enum_expr_found; assumption]
            | solve [apply retry_found; assumption]
            | solve [apply req_found; assumption]
            | solve [match goal with IH : forall here es w, _ |- _ => apply IH; assumption end]
            | at_here H
            | solve [unfold by_named; str H]
            | idtac ] end.
  - into H1. rewrite R. apply H; assumption.
  - into H0. rewrite R. unfold by_named. str H0.
  - into H0. rewrite R. unfold by_named. str H0.
Qed.

Lemma def_found : forall p here es w,
  def_ok p = true -> at_path (VMsg here es) (def_path p) = Some w -> plain (In_value w) = true ->
  by_def here es p = Found (node w).
Proof. exact (proj1 parts_found). Qed.

(** ** Option statements *)

Lemma prefix_app : forall a b, String.prefix a (a ++ b) = true.
Proof.
  induction a as [|c a IH]; intro b; [destruct b; reflexivity|].
  cbn. destruct (ascii_dec c c) as [_|N]; [apply IH|exfalso; apply N; reflexivity].
Qed.

Lemma concat_head : forall e r, exists t, String.concat "." (e :: r) = (e ++ t)%string.
Proof.
  intros e r. destruct r as [|x r].
  - exists "". cbn. induction e as [|c e IH]; [reflexivity|]. cbn. rewrite <- IH. reflexivity.
  - exists ("." ++ String.concat "." (x :: r))%string. reflexivity.
Qed.

Definition undotted (ext : string) : Prop := trim_dot ext = ext /\ ext <> "".

Lemma trim_undotted : forall ext t, undotted ext -> trim_dot (ext ++ t) = (ext ++ t)%string.
Proof.
  intros ext t [H N]. destruct ext as [|c ext]; [contradiction N; reflexivity|].
  cbn in *. destruct c as [[] [] [] [] [] [] [] []]; try reflexivity.
  exfalso. assert (L : String.length ext = S (String.length ext)) by (rewrite H at 1; reflexivity). lia.
Qed.

Lemma sets_match : forall ext s,
  undotted ext -> sets ext s = true -> match_option (option_name s) ext = true.
Proof.
  intros ext s U H. unfold sets in H. unfold match_option, option_name.
  destruct (o_parts s) as [|e r]; [discriminate H|].
  destruct (concat_head e r) as [t ->].
  apply orb_true_iff in H. destruct H as [H|H]; apply String.eqb_eq in H; subst e.
  - rewrite (trim_undotted ext t U). apply prefix_app.
  - cbn. apply prefix_app.
Qed.

Lemma match_starts : forall ext s,
  match_option (option_name s) ext = true -> starts ext (String.concat "." (o_parts s)) = true.
Proof.
  intros ext s H. unfold match_option, option_name in H. unfold starts.
  set (n := String.concat "." (o_parts s)) in *. apply orb_true_iff.
  destruct n as [|c n]; [left; exact H|].
  destruct c as [[] [] [] [] [] [] [] []]; cbn [trim_dot] in H; try (left; exact H).
  right. cbn. exact H.
Qed.

Definition exact_names (ext : string) (opts : list stmt) : Prop :=
  forall s, In s opts -> starts ext (String.concat "." (o_parts s)) = true -> sets ext s = true.

Lemma option_stmt_filter : forall ext opts,
  undotted ext -> exact_names ext opts -> option_stmt opts ext = hd_error (filter (sets ext) opts).
Proof.
  intros ext opts U X. unfold option_stmt. induction opts as [|s opts IH]; [reflexivity|].
  cbn [find filter]. destruct (sets ext s) eqn:S.
  - rewrite (sets_match _ _ U S). reflexivity.
  - destruct (match_option (option_name s) ext) eqn:M.
    + apply match_starts in M. rewrite (X s (or_introl eq_refl) M) in S. discriminate S.
    + apply IH. intros x Hx. apply X. right. exact Hx.
Qed.

(** The statement of an option written once as a block. *)
Lemma block_at : forall ext opts p t,
  undotted ext -> exact_names ext opts ->
  (filter (sets ext) opts = []
   \/ exists s, filter (sets ext) opts = [s] /\ as_block ext s) ->
  at_option opts ext p = Some t ->
  exists s i es, option_stmt opts ext = Some s /\ o_val s = VMsg i es
    /\ tl (o_parts s) = [] /\ (o_parts s = [ext] \/ o_parts s = [("." ++ ext)%string])
    /\ ((p = [] /\ t = Whole (o_id s))
        \/ (p <> [] /\ exists w, at_path (VMsg (o_id s) es) p = Some w /\ t = In_value w)).
Proof.
  intros ext opts p t U X B H. rewrite (option_stmt_filter ext opts U X).
  unfold at_option in H. destruct B as [B|(s & B & Q & i & es & V)]; rewrite B in *; [discriminate H|].
  exists s, i, es.
  assert (T : tl (o_parts s) = []) by (destruct Q as [-> | ->]; reflexivity).
  split; [reflexivity|]. split; [exact V|]. split; [exact T|]. split; [exact Q|].
  destruct p as [|a p].
  - left. injection H as <-. split; reflexivity.
  - right. split; [discriminate|]. cbn [flat_map] in H. unfold contribution in H.
    rewrite T, V in H. cbn [wrap] in H. rewrite app_nil_r in H.
    destruct (at_path (VMsg (o_id s) es) (a :: p)) as [w|]; [|discriminate H].
    exists w. injection H as <-. split; reflexivity.
Qed.

Lemma ext_undotted : forall k, undotted (extension_of k).
Proof. intro k; destruct k; split; (reflexivity || discriminate). Qed.

(** [found]: the result is the place. *)
Ltac whole H := destruct H as [[? ->]|[NE _]]; [reflexivity|contradiction NE; reflexivity].
Ltac inner H := destruct H as [[NE _]|[_ (w & H & ->)]]; [discriminate NE|].

Lemma message_option_found : forall s i es o t,
  o_val s = VMsg i es -> mopt_ok o = true ->
  ((mopt_path o = [] /\ t = Whole (o_id s))
   \/ (mopt_path o <> [] /\ exists w, at_path (VMsg (o_id s) es) (mopt_path o) = Some w
                                      /\ t = In_value w)) ->
  plain t = true -> by_message_option s o = Found (target_node t).
Proof.
  intros s i es o t V O H P. unfold by_message_option. rewrite V.
  destruct o as [| |n p]; cbn [mopt_path] in *.
  - whole H.
  - inner H. leaf H. eapply any_found. exact E.
  - inner H. into H. rewrite R. apply def_found; assumption.
Qed.

Lemma has_suffix_ext : forall s, o_parts s = [field_option] \/ o_parts s = [("." ++ field_option)%string] ->
  has_suffix "oneof" (option_name s) = false.
Proof. intros s H. unfold option_name. destruct H as [-> | ->]; reflexivity. Qed.

Lemma field_option_found : forall s i es o t,
  o_val s = VMsg i es -> fopt_ok o = true ->
  (o_parts s = [field_option] \/ o_parts s = [("." ++ field_option)%string]) ->
  ((fopt_path o = [] /\ t = Whole (o_id s))
   \/ (fopt_path o <> [] /\ exists w, at_path (VMsg (o_id s) es) (fopt_path o) = Some w
                                      /\ t = In_value w)) ->
  plain t = true -> by_field_option s o = Found (target_node t).
Proof.
  intros s i es o t V O Q H P. unfold by_field_option. rewrite V.
  destruct o as [| | |p]; cbn [fopt_path] in *; try discriminate O.
  - whole H.
  - inner H. str H.
  - rewrite (has_suffix_ext s Q). inner H. into H. rewrite R.
    destruct p; cbn [oneof_path by_field_oneof] in *; try discriminate O.
    + at_here H.
    + str H.
    + leaf H. eapply any_found; exact E.
    + str H.
Qed.

Lemma enum_value_option_found : forall s i es o t,
  o_val s = VMsg i es ->
  ((vopt_path o = [] /\ t = Whole (o_id s))
   \/ (vopt_path o <> [] /\ exists w, at_path (VMsg (o_id s) es) (vopt_path o) = Some w
                                      /\ t = In_value w)) ->
  plain t = true -> by_enum_value_option s o = Found (target_node t).
Proof.
  intros s i es o t V H P. unfold by_enum_value_option. rewrite V.
  destruct o as [| | |n b]; cbn [vopt_path] in *.
  - whole H.
  - inner H. leaf H. eapply any_found; exact E.
  - inner H. leaf H. eapply any_found; exact E.
  - inner H. into H. rewrite R. destruct b; cbn [attr_path by_attribute] in *; [at_here H|str H|str H].
Qed.

Lemma service_option_found : forall s i es o t,
  o_val s = VMsg i es -> sopt_ok o = true ->
  ((sopt_path o = [] /\ t = Whole (o_id s))
   \/ (sopt_path o <> [] /\ exists w, at_path (VMsg (o_id s) es) (sopt_path o) = Some w
                                      /\ t = In_value w)) ->
  plain t = true -> by_service_option s o = Found (target_node t).
Proof.
  intros s i es o t V O H P. unfold by_service_option. rewrite V.
  destruct o as [|y|n v]; cbn [sopt_path] in *.
  - whole H.
  - inner H. into H. rewrite R. destruct y as [| |m w']; cbn [env_path by_env] in *; [at_here H|str H|].
    into H. rewrite R0. destruct w'; cbn [envvar_path by_env_var] in *; try discriminate O;
      [at_here H|str H].
  - inner H. into H. rewrite R.
    destruct v as [| | | |m|g|e|j]; cbn [svar_path by_service_variable] in *;
      [at_here H|str H|str H|str H| | | |].
    + into H. rewrite R0. apply map_found; assumption.
    + into H. rewrite R0. apply message_expr_found; assumption.
    + into H. rewrite R0. apply enum_expr_found; assumption.
    + into H. rewrite R0. destruct j; cbn [svalid_path by_service_validation] in *;
        [at_here H|str H|str H].
Qed.

Lemma method_option_found : forall s i es m t,
  o_val s = VMsg i es ->
  ((mtd_path m = [] /\ t = Whole (o_id s))
   \/ (mtd_path m <> [] /\ exists w, at_path (VMsg (o_id s) es) (mtd_path m) = Some w
                                      /\ t = In_value w)) ->
  plain t = true -> by_method_option s m = Found (target_node t).
Proof.
  intros s i es m t V H P. unfold by_method_option. rewrite V.
  destruct m; cbn [mtd_path] in *; try (whole H); inner H; str H.
Qed.

(** ** Declarations *)

Lemma is_decl_filter : forall k name ds,
  all_named k name ds = filter (is_decl k name) ds.
Proof.
  intros k name ds. unfold all_named. induction ds as [|d ds IH]; [reflexivity|].
  cbn [filter]. rewrite IH. unfold is_decl. destruct (d_kind d), k; reflexivity.
Qed.

Lemma named_filter : forall k name ds, named k name ds = only (filter (is_decl k name) ds).
Proof. intros k name ds. rewrite <- is_decl_filter. reflexivity. Qed.

Lemma find_filter : forall {A} (p : A -> bool) l, find p l = hd_error (filter p l).
Proof.
  intros A p l. induction l as [|x l IH]; [reflexivity|]. cbn. destruct (p x); [reflexivity|exact IH].
Qed.

Lemma named_find : forall k name ds d,
  named k name ds = Some d -> find (is_decl k name) ds = Some d /\ In d ds /\ d_kind d = k.
Proof.
  intros k name ds d H. rewrite named_filter in H. rewrite find_filter.
  destruct (filter (is_decl k name) ds) as [|x [|y l]] eqn:F; try discriminate H.
  injection H as ->. split; [reflexivity|].
  assert (I : In d (filter (is_decl k name) ds)) by (rewrite F; left; reflexivity).
  apply filter_In in I. destruct I as [I D]. split; [exact I|].
  unfold is_decl in D. apply andb_true_iff in D. destruct D as [D _].
  destruct (d_kind d), k; (reflexivity || discriminate D).
Qed.

Definition good_decl (d : decl) : Prop :=
  exact_names (extension_of (d_kind d)) (d_opts d)
  /\ (filter (sets (extension_of (d_kind d))) (d_opts d) = []
      \/ exists s, filter (sets (extension_of (d_kind d))) (d_opts d) = [s]
                   /\ as_block (extension_of (d_kind d)) s).

Definition good (ds : list decl) : Prop := forall d, inside d ds -> good_decl d.

Lemma good_in : forall ds d, good ds -> In d ds -> good_decl d /\ good (d_body d).
Proof.
  intros ds d G I. split; [apply G; constructor; exact I|].
  intros x X. apply G. apply (inside_deeper x d ds I X).
Qed.

Lemma with_oneof_in : forall ds x, In x (with_oneof_fields ds) ->
  In x ds \/ exists d, In d ds /\ In x (d_body d).
Proof.
  intros ds x H. unfold with_oneof_fields in H. apply in_flat_map in H. destruct H as (d & I & H).
  destruct (d_kind d); try (destruct H as [->|[]]; left; exact I). right. exists d. split; assumption.
Qed.

Ltac use_block G H :=
  destruct G as [?X ?B];
  match type of H with
  | at_option (d_opts ?d) ?e ?p = Some ?t =>
      let K := fresh "K" in
      destruct (block_at e (d_opts d) p t) as (?s & ?i & ?es & ?S & ?V & ?T & ?Q & ?W);
      [ | assumption | assumption | exact H | ]
  end.

Lemma field_found : forall d p t,
  good_decl d -> d_kind d = KField -> field_ok p = true -> at_field d p = Some t -> plain t = true ->
  by_field d p = Found (target_node t).
Proof.
  intros d p t [X B] K O H P. rewrite K in *. destruct p as [| |o]; cbn [at_field by_field] in *.
  - injection H as <-. reflexivity.
  - destruct (d_ty d); [|discriminate H]. injection H as <-. reflexivity.
  - destruct (block_at _ _ _ _ (ext_undotted KField) X B H) as (s & i & es & S & V & T & Q & W).
    change field_option with (extension_of KField). rewrite S.
    apply (field_option_found s i es); assumption.
Qed.

Lemma enum_value_found : forall d p t,
  good_decl d -> d_kind d = KEnumValue -> at_enum_value d p = Some t -> plain t = true ->
  by_enum_value d p = Found (target_node t).
Proof.
  intros d p t [X B] K H P. rewrite K in *. destruct p as [|o]; cbn [at_enum_value by_enum_value] in *.
  - injection H as <-. reflexivity.
  - destruct (block_at _ _ _ _ (ext_undotted KEnumValue) X B H) as (s & i & es & S & V & T & Q & W).
    change enum_value_option with (extension_of KEnumValue). rewrite S.
    apply (enum_value_option_found s i es); assumption.
Qed.

Lemma enum_found : forall d x t,
  good_decl d -> good (d_body d) -> d_kind d = KEnum -> at_enum d x = Some t -> plain t = true ->
  by_enum d x = Found (target_node t).
Proof.
  intros d x t [X B] G K H P. rewrite K in *. destruct x as [| |name p]; cbn [at_enum by_enum] in *.
  - injection H as <-. reflexivity.
  - destruct (block_at _ _ _ _ (ext_undotted KEnum) X B H) as (s & i & es & S & V & T & Q & W).
    change enum_option with (extension_of KEnum). rewrite S.
    unfold by_enum_option. rewrite V. inner W. leaf W. eapply any_found; exact E.
  - destruct (named KEnumValue name (d_body d)) as [v|] eqn:N; [|discriminate H]. cbn [bind] in H.
    destruct (named_find _ _ _ _ N) as (F & I & KV). rewrite F.
    apply enum_value_found; try assumption. exact (proj1 (good_in _ _ G I)).
Qed.

Lemma method_found : forall d m t,
  good_decl d -> d_kind d = KRpc ->
  match m with THereM | TRequest | TResponse => false | _ => true end = true ->
  at_method d m = Some t -> plain t = true -> by_method d m = Found (target_node t).
Proof.
  intros d m t [X B] K O H P. rewrite K in *.
  destruct m; try discriminate O; cbn [at_method by_method] in *;
    destruct (block_at _ _ _ _ (ext_undotted KRpc) X B H) as (s & i & es & S & V & T & Q & W);
    change method_option with (extension_of KRpc); rewrite S;
    apply (method_option_found s i es); assumption.
Qed.

Lemma service_found : forall d z t,
  good_decl d -> good (d_body d) -> d_kind d = KService -> svc_ok z = true ->
  at_service d z = Some t -> plain t = true -> by_service d z = Found (target_node t).
Proof.
  intros d z t [X B] G K O H P. rewrite K in *.
  destruct z as [|o|name m]; cbn [at_service by_service svc_ok] in *.
  - injection H as <-. reflexivity.
  - destruct (block_at _ _ _ _ (ext_undotted KService) X B H) as (s & i & es & S & V & T & Q & W).
    change service_option with (extension_of KService). rewrite S.
    apply (service_option_found s i es); assumption.
  - destruct (named KRpc name (d_body d)) as [v|] eqn:N; [|discriminate H]. cbn [bind] in H.
    destruct (named_find _ _ _ _ N) as (F & I & KV). rewrite F.
    apply method_found; try assumption. exact (proj1 (good_in _ _ G I)).
Qed.

Lemma filter_app_nil : forall {A} (p : A -> bool) a b x,
  filter p (a ++ b) = [x] ->
  (filter p a = [x] /\ filter p b = []) \/ (filter p a = [] /\ filter p b = [x]).
Proof.
  intros A p a b x H. rewrite filter_app in H.
  destruct (filter p a) as [|y [|z l]].
  - right. split; [reflexivity|exact H].
  - cbn in H. injection H as -> ->. left. split; reflexivity.
  - discriminate H.
Qed.

Lemma message_field_found : forall ds name p here x res,
  named KField name (with_oneof_fields ds) = Some x ->
  by_field x p = Found res -> message_field ds name p here = Found res.
Proof.
  intros ds name p here x res H R. rewrite named_filter in H.
  destruct (filter (is_decl KField name) (with_oneof_fields ds)) as [|y [|z l]] eqn:F;
    try discriminate H. cbn [only] in H. injection H as ->.
  induction ds as [|d ds IH]; [discriminate F|].
  unfold with_oneof_fields in F. cbn [flat_map] in F. fold (with_oneof_fields ds) in F.
  cbn [message_field]. destruct (is_decl KField name d) eqn:D.
  - assert (K : d_kind d = KField)
      by (unfold is_decl in D; destruct (d_kind d); (reflexivity || discriminate D)).
    rewrite K in F. cbn [app filter] in F. rewrite D in F. injection F as -> _. exact R.
  - destruct (kind_eqb (d_kind d) KOneof) eqn:KO.
    + assert (K : d_kind d = KOneof) by (destruct (d_kind d); (reflexivity || discriminate KO)).
      rewrite K in F. rewrite find_filter.
      destruct (filter_app_nil _ _ _ _ F) as [[A B]|[A B]]; rewrite A; cbn [hd_error].
      * rewrite R. reflexivity.
      * exact (IH B).
    + apply IH. destruct (d_kind d); try discriminate KO; cbn [app filter] in F;
        rewrite D in F; exact F.
Qed.

Lemma message_found : forall l d t,
  good_decl d -> good (d_body d) -> d_kind d = KMessage -> msg_loc_ok l = true ->
  at_message d l = Some t -> plain t = true -> by_message d l = Found (target_node t).
Proof.
  induction l as [|o|name p|name|name l IH|name x]; intros d t GD G K O H P;
    cbn [msg_loc_ok] in O.
  - cbn in *. injection H as <-. reflexivity.
  - destruct GD as [X B]. rewrite K in *. cbn [at_message by_message] in *.
    destruct (block_at _ _ _ _ (ext_undotted KMessage) X B H) as (s & i & es & S & V & T & Q & W).
    change message_option with (extension_of KMessage). rewrite S.
    apply (message_option_found s i es); assumption.
  - cbn [at_message by_message] in *.
    destruct (named KField name (with_oneof_fields (d_body d))) as [v|] eqn:N; [|discriminate H].
    cbn [bind] in H. apply (message_field_found _ _ _ _ v _ N).
    destruct (named_find _ _ _ _ N) as (_ & I & KV).
    apply field_found; try assumption.
    destruct (with_oneof_in _ _ I) as [I'|(e & I1 & I2)].
    + exact (proj1 (good_in _ _ G I')).
    + exact (proj1 (good_in _ _ (proj2 (good_in _ _ G I1)) I2)).
  - discriminate O.
  - cbn [at_message by_message] in *.
    destruct (named KMessage name (d_body d)) as [v|] eqn:N; [|discriminate H]. cbn [bind] in H.
    destruct (named_find _ _ _ _ N) as (F & I & KV).
    destruct (good_in _ _ G I) as [GV GB].
    pose proof (IH v t GV GB KV O H P) as R. clear N I.
    induction (d_body d) as [|y ds IHd]; [discriminate F|].
    cbn [find] in F. destruct (is_decl KMessage name y).
    + injection F as ->. rewrite R. reflexivity.
    + apply IHd; [|exact F]. intros z Z. apply G. inversion Z; subst.
      * apply inside_here. right. assumption.
      * eapply inside_deeper; [right; eassumption|assumption].
  - cbn [at_message by_message] in *.
    destruct (named KEnum name (d_body d)) as [v|] eqn:N; [|discriminate H]. cbn [bind] in H.
    destruct (named_find _ _ _ _ N) as (F & I & KV). rewrite F.
    destruct (good_in _ _ G I) as [GV GB]. apply enum_found; assumption.
Qed.

Lemma file_good : forall f, no_lookalikes f -> blocks f -> good (f_decls f).
Proof.
  intros f N B d I. split; [|exact (B d I)]. intros s S E. exact (N d s I S E).
Qed.

Lemma file_found : forall f l t,
  no_lookalikes f -> blocks f -> looked_up l = true -> node_at f l = Some t -> plain t = true ->
  node_info f l = Found (target_node t).
Proof.
  intros f l t NL B O H P. pose proof (file_good f NL B) as G.
  destruct l as [n| |n|name l|name x|name z]; cbn [node_at node_info looked_up] in *;
    try discriminate H.
  - destruct (named KMessage name (f_decls f)) as [d|] eqn:N; [|discriminate H]. cbn [bind] in H.
    destruct (named_find _ _ _ _ N) as (F & I & K). rewrite F.
    destruct (good_in _ _ G I) as [GD GB]. apply message_found; assumption.
  - destruct (named KEnum name (f_decls f)) as [d|] eqn:N; [|discriminate H]. cbn [bind] in H.
    destruct (named_find _ _ _ _ N) as (F & I & K). rewrite F.
    destruct (good_in _ _ G I) as [GD GB]. apply enum_found; assumption.
  - destruct (named KService name (f_decls f)) as [d|] eqn:N; [|discriminate H]. cbn [bind] in H.
    destruct (named_find _ _ _ _ N) as (F & I & K). rewrite F.
    destruct (good_in _ _ G I) as [GD GB]. apply service_found; assumption.
Qed.

(** ** Concatenated strings *)

Ltac cat H :=
  leaf H; match goal with E : follow _ _ = Some _ |- _ => apply (cat_lost _ _ _ _ E); assumption end.

Lemma no_cat_here : forall here es w,
  Some (VMsg here es) = Some w -> plain (In_value w) = false -> False.
Proof. intros here es w H P. injection H as <-. discriminate P. Qed.

Lemma arg_lost : forall p here es w,
  arg_ok p = true -> at_path (VMsg here es) (arg_path p) = Some w -> plain (In_value w) = false ->
  by_argument here es p = Nil.
Proof.
  intros p here es w O H P; destruct p; try discriminate O; cbn [arg_path by_argument] in *.
  - destruct (no_cat_here _ _ _ H P).
  - cat H.
  - cat H.
Qed.

Lemma message_expr_lost : forall g here es w,
  msg_ok g = true -> at_path (VMsg here es) (msg_path g) = Some w -> plain (In_value w) = false ->
  by_message_expr here es g = Nil.
Proof.
  intros g here es w O H P; destruct g as [| |n p]; cbn [msg_path by_message_expr] in *.
  - destruct (no_cat_here _ _ _ H P).
  - cat H.
  - into H. rewrite R. eapply arg_lost; eassumption.
Qed.

Lemma enum_expr_lost : forall n here es w,
  at_path (VMsg here es) (enum_path n) = Some w -> plain (In_value w) = false ->
  by_enum_expr here es n = Nil.
Proof.
  intros n here es w H P; destruct n; cbn [enum_path by_enum_expr] in *;
    [destruct (no_cat_here _ _ _ H P)|cat H|cat H].
Qed.

Lemma map_lost : forall m here es w,
  map_ok m = true -> map_strict m = true -> at_path (VMsg here es) (map_path m) = Some w ->
  plain (In_value w) = false -> by_map_expr here es m = Nil.
Proof.
  intros m here es w O T H P; destruct m as [| | | |g|n]; try discriminate T;
    cbn [map_path by_map_expr] in *.
  - destruct (no_cat_here _ _ _ H P).
  - cat H.
  - into H. rewrite R. eapply message_expr_lost; eassumption.
  - into H. rewrite R. eapply enum_expr_lost; eassumption.
Qed.

Lemma retry_lost : forall r here es w,
  retry_strict r = true -> at_path (VMsg here es) (retry_path r) = Some w ->
  plain (In_value w) = false -> by_retry here es r = Nil.
Proof.
  intros r here es w T H P; destruct r; try discriminate T; cbn [retry_path by_retry] in *;
    [destruct (no_cat_here _ _ _ H P)|cat H].
Qed.

Lemma req_lost : forall q here es w,
  at_path (VMsg here es) (req_path q) = Some w -> plain (In_value w) = false ->
  by_request here es q = Nil.
Proof.
  intros q here es w H P; destruct q; cbn [req_path by_request] in *;
    [destruct (no_cat_here _ _ _ H P)|cat H|cat H|cat H].
Qed.

Lemma parts_lost :
  (forall p here es w, def_ok p = true -> def_strict p = true ->
     at_path (VMsg here es) (def_path p) = Some w ->
     plain (In_value w) = false -> by_def here es p = Nil)
  /\ (forall c here es w, call_ok c = true -> call_strict c = true ->
     at_path (VMsg here es) (call_path c) = Some w ->
     plain (In_value w) = false -> by_call here es c = Nil)
  /\ (forall e here es w, err_ok e = true -> err_strict e = true ->
     at_path (VMsg here es) (err_path e) = Some w ->
     plain (In_value w) = false -> by_error here es e = Nil)
  /\ (forall t here es w, detail_ok t = true -> detail_strict t = true ->
     at_path (VMsg here es) (detail_path t) = Some w ->
     plain (In_value w) = false -> by_detail here es t = Nil).
Proof.
  apply parts_ind; intros;
    cbn [def_ok call_ok err_ok detail_ok def_path call_path err_path detail_path
         def_strict call_strict err_strict detail_strict] in *;
    cbn [by_def by_call by_error by_detail];
    try match goal with O : false = true |- _ => discriminate O end;
    match goal with H : at_path _ _ = Some _, P : plain _ = false |- _ =>
      first [ solve [destruct (no_cat_here _ _ _ H P)]
            | solve [cat H]
            | solve [leaf H;
                     match goal with E : follow _ _ = Some _ |- _ =>
                       apply one_first in E; destruct E as [_ E];
                       match type of P with plain (In_value ?y) = _ =>
                         destruct y; (discriminate E || discriminate P) end end]
            | idtac ] end;
    match goal with H : at_path _ _ = Some _ |- _ =>
      into H; rewrite R; clear R;
      first [ solve [eapply map_lost; eassumption]
            | solve [eapply message_expr_lost; eassumption]
            | solve [eapply enum_expr_lost; eassumption]
            | solve [eapply retry_lost; eassumption]
            | solve [eapply req_lost; eassumption]
            | solve [match goal with IH : forall here es w, _ |- _ => eapply IH; eassumption end]
            | solve [destruct (no_cat_here _ _ _ H ltac:(eassumption))]
            | solve [unfold by_named; cat H]
            | idtac ] end.
  - into H2. rewrite R. eapply H; eassumption.
  - into H1. rewrite R. unfold by_named. cat H1.
  - into H1. rewrite R. unfold by_named. cat H1.
Qed.

Lemma def_lost : forall f name i p t,
  no_lookalikes f -> blocks f -> def_ok p = true -> def_strict p = true ->
  node_at f (TopMessage name (LOpt (MODef i p))) = Some t -> plain t = false ->
  node_info f (TopMessage name (LOpt (MODef i p))) = Nil.
Proof.
  intros f name i p t NL B O T H P. pose proof (file_good f NL B) as G.
  cbn [node_at node_info] in *.
  destruct (named KMessage name (f_decls f)) as [d|] eqn:N; [|discriminate H]. cbn [bind] in H.
  destruct (named_find _ _ _ _ N) as (F & I & K). rewrite F.
  destruct (good_in _ _ G I) as [[X BD] _]. rewrite K in *. cbn [at_message by_message] in *.
  destruct (block_at _ _ _ _ (ext_undotted KMessage) X BD H) as (s & j & es & S & V & TL & Q & W).
  change message_option with (extension_of KMessage). rewrite S.
  unfold by_message_option. rewrite V. cbn [mopt_path] in W. inner W. into W. rewrite R.
  eapply (proj1 parts_lost); eassumption.
Qed.

(** ** Only nodes on the way *)

Lemma along_here : forall v p, In (node v) (along v p).
Proof. intros v p; destruct p; left; reflexivity. Qed.

Lemma along_cons : forall v s r w id,
  In w (follow_all v s) -> In id (along w r) -> In id (along v (s :: r)).
Proof.
  intros v s r w id W I. cbn [along]. right. apply in_flat_map. exists w. split; assumption.
Qed.

Lemma first_in : forall es f v here, first es f = Some v -> In v (written f (VMsg here es)).
Proof.
  intros es f v here H. rewrite (first_written f here es) in H.
  destruct (written f (VMsg here es)); [discriminate H|]. injection H as ->. left. reflexivity.
Qed.

Lemma first_along : forall es f k v here,
  first es f = Some v -> In (node v) (along (VMsg here es) [One f k]).
Proof.
  intros es f k v here H. apply (along_cons _ _ _ v).
  - exact (first_in _ _ _ here H).
  - apply along_here.
Qed.

Lemma str_way : forall es f k here id,
  on_str es f here = Found id -> In id (along (VMsg here es) [One f k]).
Proof.
  intros es f k here id H. unfold on_str in H. destruct (first es f) as [v|] eqn:E.
  - pose proof (first_along es f k v here E) as A.
    destruct v; try discriminate H. injection H as <-. exact A.
  - injection H as <-. left. reflexivity.
Qed.

Lemma any_way : forall es f k here id,
  on_any es f here = Found id -> In id (along (VMsg here es) [One f k]).
Proof.
  intros es f k here id H. unfold on_any in H. destruct (first es f) as [v|] eqn:E.
  - injection H as <-. rewrite value_id_node. exact (first_along es f k v here E).
  - injection H as <-. left. reflexivity.
Qed.

Lemma ident_way : forall es f k here id,
  on_ident es f here = Found id -> In id (along (VMsg here es) [One f k]).
Proof.
  intros es f k here id H. unfold on_ident in H. destruct (first es f) as [v|] eqn:E.
  - pose proof (first_along es f k v here E) as A.
    destruct v; try discriminate H. injection H as <-. exact A.
  - injection H as <-. left. reflexivity.
Qed.

Lemma msg_way : forall es f k here K r id,
  (forall i es', K i es' = Found id -> In id (along (VMsg i es') r)) ->
  on_msg es f here K = Found id -> In id (along (VMsg here es) (One f k :: r)).
Proof.
  intros es f k here K r id HK H. unfold on_msg in H. destruct (first es f) as [v|] eqn:E.
  - apply (along_cons _ _ _ v); [exact (first_in _ _ _ here E)|].
    destruct v as [| | |i es'|]; try discriminate H. exact (HK _ _ H).
  - injection H as <-. left. reflexivity.
Qed.

Lemma nth_lit_back : forall l n i es,
  Forall (fun w => is_msg w = true) l -> nth_error (flat_map lit_of l) n = Some (i, es) ->
  nth_error l n = Some (VMsg i es).
Proof.
  intros l n i es H; revert n; induction H as [|x l Hx Hl IH]; intros n E.
  - destruct n; discriminate E.
  - destruct x as [| | |j es'|]; try discriminate Hx. destruct n as [|n].
    + cbn in E. injection E as -> ->. reflexivity.
    + cbn. apply IH. exact E.
Qed.

Lemma item_way : forall es f here n K r id,
  (forall i es', K i es' = Found id -> In id (along (VMsg i es') r)) ->
  on_item es f here n K = Found id -> In id (along (VMsg here es) (Nth f n :: r)).
Proof.
  intros es f here n K r id HK H. unfold on_item in H.
  destruct (collect es f) as [|c l] eqn:C.
  - injection H as <-. left. reflexivity.
  - destruct (nth_error (c :: l) n) as [[i es']|] eqn:E; [|discriminate H].
    rewrite <- C, (collect_written f here es) in E.
    apply nth_lit_back in E; [|apply all_messages].
    apply (along_cons _ _ _ (VMsg i es')); [|exact (HK _ _ H)].
    cbn [follow_all]. unfold written in *. rewrite E. left. reflexivity.
Qed.

Lemma found_here : forall here es p id, Found here = Found id -> In id (along (VMsg here es) p).
Proof. intros here es p id H. injection H as <-. apply (along_here (VMsg here es)). Qed.

Ltac way_leaf :=
  first [ apply found_here; assumption
        | apply str_way; assumption
        | apply any_way; assumption
        | apply ident_way; assumption ].

Lemma arg_way : forall p here es id,
  by_argument here es p = Found id -> In id (along (VMsg here es) (arg_path p)).
Proof. intros p here es id H; destruct p; cbn [by_argument arg_path] in *; way_leaf. Qed.

Lemma message_expr_way : forall g here es id,
  by_message_expr here es g = Found id -> In id (along (VMsg here es) (msg_path g)).
Proof.
  intros g here es id H; destruct g as [| |n p]; cbn [by_message_expr msg_path] in *; try way_leaf.
  eapply item_way; [|exact H]. intros i es' E. apply arg_way. exact E.
Qed.

Lemma enum_expr_way : forall n here es id,
  by_enum_expr here es n = Found id -> In id (along (VMsg here es) (enum_path n)).
Proof. intros n here es id H; destruct n; cbn [by_enum_expr enum_path] in *; way_leaf. Qed.

Lemma iterator_way : forall part es here id,
  iterator es part here = Found id ->
  id = here \/ exists i es' w, In (VMsg i es') (written "iterator" (VMsg here es))
                               /\ first es' part = Some w /\ id = node w.
Proof.
  intros part es here id. induction es as [|[f v] es IH]; intro H.
  - injection H as <-. left. reflexivity.
  - cbn [iterator] in H. unfold written. cbn [filter fst]. destruct (String.eqb f "iterator").
    + destruct v as [| | |i es'|]; try discriminate H.
      destruct (first es' part) as [w|] eqn:F.
      * injection H as <-. right. exists i, es', w. rewrite value_id_node.
        split; [left; reflexivity|]. split; [exact F|reflexivity].
      * destruct (IH H) as [->|(j & es2 & w & W & F2 & E)]; [left; reflexivity|].
        right. exists j, es2, w. split; [right; exact W|]. split; assumption.
    + exact (IH H).
Qed.

Lemma iterator_along : forall part es here id,
  iterator es part here = Found id ->
  In id (along (VMsg here es) [One "iterator" Msg; One part Str]).
Proof.
  intros part es here id H. destruct (iterator_way part es here id H) as [->|(i & es' & w & W & F & ->)].
  - left. reflexivity.
  - apply (along_cons _ _ _ (VMsg i es')); [exact W|]. apply first_along. exact F.
Qed.

Lemma map_way : forall m here es id,
  by_map_expr here es m = Found id -> In id (along (VMsg here es) (map_path m)).
Proof.
  intros m here es id H; destruct m as [| | | |g|n]; cbn [by_map_expr map_path] in *;
    try way_leaf; try (apply iterator_along; exact H).
  - eapply msg_way; [|exact H]. intros i es' E. apply message_expr_way. exact E.
  - eapply msg_way; [|exact H]. intros i es' E. apply enum_expr_way. exact E.
Qed.

Lemma retry_way : forall r here es id,
  by_retry here es r = Found id -> In id (along (VMsg here es) (retry_path r)).
Proof.
  intros r here es id H; destruct r; cbn [by_retry retry_path] in *; try way_leaf;
    (eapply msg_way; [|exact H]; intros i es' E; apply any_way; exact E).
Qed.

Lemma req_way : forall q here es id,
  by_request here es q = Found id -> In id (along (VMsg here es) (req_path q)).
Proof. intros q here es id H; destruct q; cbn [by_request req_path] in *; way_leaf. Qed.

Lemma validation_name_way : forall es here id,
  validation_name es here = Found id -> In id (along (VMsg here es) [One "name" Str]).
Proof.
  intros es here id H.
  assert (D : id = here \/ exists v, first es "name" = Some v /\ id = node v).
  { induction es as [|[f v] es IH].
    - injection H as <-. left. reflexivity.
    - cbn [validation_name first] in *. destruct (String.eqb f "name").
      + destruct v; try discriminate H. injection H as <-. right. eexists. split; reflexivity.
      + destruct (String.eqb f "error"); [destruct v; discriminate H|]. exact (IH H). }
  destruct D as [->|(v & F & ->)]; [left; reflexivity|apply first_along; exact F].
Qed.

Lemma parts_way :
  (forall p here es id, def_nodm p = true -> by_def here es p = Found id ->
     In id (along (VMsg here es) (def_path p)))
  /\ (forall c here es id, call_nodm c = true -> by_call here es c = Found id ->
     In id (along (VMsg here es) (call_path c)))
  /\ (forall e here es id, err_nodm e = true -> by_error here es e = Found id ->
     In id (along (VMsg here es) (err_path e)))
  /\ (forall t here es id, detail_nodm t = true -> by_detail here es t = Found id ->
     In id (along (VMsg here es) (detail_path t))).
Proof.
  apply parts_ind; intros;
    cbn [def_nodm call_nodm err_nodm detail_nodm def_path call_path err_path detail_path] in *;
    cbn [by_def by_call by_error by_detail] in *;
    try match goal with O : false = true |- _ => discriminate O end;
    try (solve [way_leaf]);
    match goal with H : _ = Found _ |- _ =>
      first [ eapply msg_way; [|exact H] | eapply item_way; [|exact H] ] end;
    clear dependent here; intros i0 es0 E;
    first [ solve [apply map_way; assumption]
          | solve [apply message_expr_way; assumption]
          | solve [apply enum_expr_way; assumption]
          | solve [apply retry_way; assumption]
          | solve [apply req_way; assumption]
          | solve [apply validation_name_way; assumption]
          | solve [match goal with IH : forall here es id, _ |- _ => apply IH; assumption end]
          | solve [way_leaf]
          | solve [unfold by_named in *; way_leaf]
          | idtac ].
  - eapply msg_way; [|exact E]. intros j es2 E2. apply H; assumption.
  - eapply item_way; [|exact E]. intros j' es2 E2. unfold by_named in E2. apply str_way. exact E2.
  - eapply item_way; [|exact E]. intros j' es2 E2. unfold by_named in E2. apply str_way. exact E2.
Qed.

Lemma block_stmt : forall ext opts s,
  undotted ext -> exact_names ext opts ->
  (filter (sets ext) opts = []
   \/ exists s, filter (sets ext) opts = [s] /\ as_block ext s) ->
  option_stmt opts ext = Some s ->
  filter (sets ext) opts = [s] /\ (o_parts s = [ext] \/ o_parts s = [("." ++ ext)%string])
  /\ exists i es, o_val s = VMsg i es.
Proof.
  intros ext opts s U X B H. rewrite (option_stmt_filter ext opts U X) in H.
  destruct B as [B|(s' & B & Q & V)]; rewrite B in H; [discriminate H|].
  injection H as ->. split; [exact B|]. split; assumption.
Qed.

Lemma along_shift : forall a b es p id,
  In id (along (VMsg a es) p) -> In id (a :: along (VMsg b es) p).
Proof.
  intros a b es p id H. destruct p as [|s p]; cbn [along node] in *.
  - destruct H as [->|[]]. left. reflexivity.
  - destruct H as [->|H]; [left; reflexivity|]. right. right.
    replace (follow_all (VMsg b es) s) with (follow_all (VMsg a es) s) by (destruct s; reflexivity).
    exact H.
Qed.

Lemma option_way : forall ext opts s i es p id,
  filter (sets ext) opts = [s] -> (o_parts s = [ext] \/ o_parts s = [("." ++ ext)%string]) ->
  o_val s = VMsg i es -> In id (along (VMsg (o_id s) es) p) -> In id (along_option opts ext p).
Proof.
  intros ext opts s i es p id F Q V H. unfold along_option. rewrite F. cbn [flat_map].
  rewrite app_nil_r. replace (tl (o_parts s)) with (@nil string) by (destruct Q as [-> | ->]; reflexivity).
  cbn [wrap]. rewrite V. apply along_shift. exact H.
Qed.

Ltac with_stmt X B k :=
  match goal with
  | H : match option_stmt ?o ?e with Some _ => _ | None => _ end = Found _ |- _ =>
      let S := fresh "S" in
      destruct (option_stmt o e) as [?s|] eqn:S;
      [ destruct (block_stmt (extension_of k) _ _ (ext_undotted k) X B S) as (?FS & ?Q & ?i & ?es & ?V)
      | try discriminate H ]
  end.

Lemma field_way : forall d p id,
  good_decl d -> d_kind d = KField -> 
  match p with FOpt (FOOneof (ODef _ q)) => def_nodm q | _ => true end = true ->
  by_field d p = Found id -> In id (along_field p d).
Proof.
  intros d p id [X B] K M H. rewrite K in *. destruct p as [| |o]; unfold along_field; cbn [by_field] in *.
  - injection H as <-. left. reflexivity.
  - destruct (d_ty d); injection H as <-; cbn [In]; auto.
  - with_stmt X B KField; [|injection H as <-; left; reflexivity].
    right. apply (option_way _ _ s i es _ _ FS Q V). clear FS S.
    unfold by_field_option in H. rewrite V in H.
    destruct o as [| | |p]; cbn [fopt_path]; try way_leaf.
    rewrite (has_suffix_ext s Q) in H. eapply msg_way; [|exact H]. clear H. intros j es' H.
    destruct p as [| | | |n q]; cbn [by_field_oneof oneof_path] in *; try way_leaf.
    destruct (first es' "def") as [v|] eqn:F; [|apply found_here; exact H].
    destruct (nth_error (message_list v) n) as [[a es2]|] eqn:E; [|discriminate H].
    assert (E' : nth_error (collect es' "def") n = Some (a, es2)).
    { revert F. clear -E. induction es' as [|[g x] es' IH]; [discriminate|].
      cbn [first collect]. destruct (String.eqb g "def").
      - intro F. injection F as ->. rewrite nth_error_app1; [exact E|].
        apply nth_error_Some. rewrite E. discriminate.
      - exact IH. }
    rewrite (collect_written "def" j es') in E'. apply nth_lit_back in E'; [|apply all_messages].
    apply (along_cons _ _ _ (VMsg a es2)).
    + unfold follow_all. rewrite E'. left. reflexivity.
    + exact (proj1 parts_way _ _ _ _ M H).
Qed.

Lemma enum_value_way : forall d p id,
  good_decl d -> d_kind d = KEnumValue -> by_enum_value d p = Found id -> In id (along_enum_value p d).
Proof.
  intros d p id [X B] K H. rewrite K in *. destruct p as [|o]; unfold along_enum_value; cbn [by_enum_value] in *.
  - injection H as <-. left. reflexivity.
  - with_stmt X B KEnumValue; [|injection H as <-; left; reflexivity].
    right. apply (option_way _ _ s i es _ _ FS Q V).
    unfold by_enum_value_option in H. rewrite V in H.
    destruct o as [| | |n b]; cbn [vopt_path]; try way_leaf.
    eapply item_way; [|exact H]. intros j es' E. destruct b; cbn [by_attribute attr_path] in *; way_leaf.
Qed.

Lemma find_all_named : forall k name ds d,
  find (is_decl k name) ds = Some d -> In d (all_named k name ds) /\ In d ds /\ d_kind d = k.
Proof.
  intros k name ds d H. rewrite is_decl_filter. destruct (find_some _ _ H) as [I D].
  split; [apply filter_In; split; assumption|]. split; [exact I|].
  unfold is_decl in D. destruct (d_kind d), k; (reflexivity || discriminate D).
Qed.

Ltac with_decl H G :=
  match type of H with
  | match find (is_decl ?k ?name) ?ds with Some _ => _ | None => _ end = Found _ =>
      let F := fresh "F" in
      destruct (find (is_decl k name) ds) as [?v|] eqn:F;
      [ destruct (find_all_named _ _ _ _ F) as (?A & ?I & ?KV);
        destruct (good_in _ _ G I) as [?GV ?GB]
      | try discriminate H ]
  end.

Lemma enum_way : forall d x id,
  good_decl d -> good (d_body d) -> d_kind d = KEnum -> by_enum d x = Found id -> In id (along_enum x d).
Proof.
  intros d x id [X B] G K H. rewrite K in *. destruct x as [| |name p]; unfold along_enum; cbn [by_enum] in *.
  - injection H as <-. left. reflexivity.
  - with_stmt X B KEnum; [|injection H as <-; left; reflexivity].
    right. apply (option_way _ _ s i es _ _ FS Q V).
    unfold by_enum_option in H. rewrite V in H. way_leaf.
  - with_decl H G; [|injection H as <-; left; reflexivity].
    right. apply in_flat_map. exists v. split; [exact A|]. apply enum_value_way; assumption.
Qed.

Lemma service_way : forall d z id,
  good_decl d -> good (d_body d) -> d_kind d = KService -> by_service d z = Found id ->
  In id (along_service z d).
Proof.
  intros d z id [X B] G K H. rewrite K in *.
  destruct z as [|o|name m]; unfold along_service; cbn [by_service] in *.
  - injection H as <-. left. reflexivity.
  - with_stmt X B KService; [|injection H as <-; left; reflexivity].
    right. apply (option_way _ _ s i es _ _ FS Q V). clear FS S.
    unfold by_service_option in H. rewrite V in H.
    destruct o as [|y|n v]; cbn [sopt_path]; try way_leaf.
    + eapply msg_way; [|exact H]. clear H. intros j es' H.
      destruct y as [| |n w]; cbn [by_env env_path] in *; try way_leaf.
      eapply item_way; [|exact H]. clear H. intros j' es2 H.
      destruct w; cbn [by_env_var envvar_path] in *; way_leaf.
    + eapply item_way; [|exact H]. clear H. intros j es' H.
      destruct v as [| | | |m|g|e|q]; cbn [by_service_variable svar_path] in *; try way_leaf;
        (eapply msg_way; [|exact H]; clear H; intros j' es2 H).
      * apply map_way; exact H.
      * apply message_expr_way; exact H.
      * apply enum_expr_way; exact H.
      * destruct q; cbn [by_service_validation svalid_path] in *; way_leaf.
  - with_decl H G; [|injection H as <-; left; reflexivity].
    right. apply in_flat_map. exists v. split; [exact A|]. unfold along_method. right.
    destruct GV as [XV BV]. rewrite KV in *.
    destruct m; cbn [by_method] in H; try discriminate H;
      (with_stmt XV BV KRpc; apply (option_way _ _ s i es _ _ FS Q V);
       unfold by_method_option in H; rewrite V in H; cbn [mtd_path]; way_leaf).
Qed.

Lemma message_field_way : forall ds name p here id,
  (forall x, In x (all_named KField name (with_oneof_fields ds)) ->
     by_field x p = Found id -> In id (along_field p x)) ->
  message_field ds name p here = Found id ->
  id = here \/ In id (flat_map (along_field p) (all_named KField name (with_oneof_fields ds))).
Proof.
  intros ds name p here id. rewrite is_decl_filter.
  induction ds as [|d ds IH]; intros HF H; [injection H as <-; left; reflexivity|].
  unfold with_oneof_fields in *. cbn [flat_map] in *. fold (with_oneof_fields ds) in *.
  rewrite filter_app in *. rewrite flat_map_app.
  assert (TAIL : message_field ds name p here = Found id ->
    id = here \/ In id (flat_map (along_field p)
      (filter (is_decl KField name) match d_kind d with KOneof => d_body d | _ => [d] end) ++
      flat_map (along_field p) (filter (is_decl KField name) (with_oneof_fields ds)))).
  { intro R. destruct (IH (fun x I => HF x (in_or_app _ _ _ (or_intror I))) R) as [->|I];
      [left; reflexivity|right; apply in_or_app; right; exact I]. }
  cbn [message_field] in H. destruct (is_decl KField name d) eqn:D.
  - assert (K : d_kind d = KField)
      by (unfold is_decl in D; destruct (d_kind d); (reflexivity || discriminate D)).
    right. apply in_or_app. left. rewrite K in *. cbn [filter] in *. rewrite D in *.
    cbn [flat_map]. rewrite app_nil_r. apply HF; [left; reflexivity|exact H].
  - destruct (kind_eqb (d_kind d) KOneof) eqn:KO; [|exact (TAIL H)].
    assert (K : d_kind d = KOneof) by (destruct (d_kind d); (reflexivity || discriminate KO)).
    rewrite K in *. destruct (find (is_decl KField name) (d_body d)) as [x|] eqn:F; [|exact (TAIL H)].
    destruct (by_field x p) eqn:R; [|exact (TAIL H)|discriminate H].
    injection H as ->. right. apply in_or_app. left. apply in_flat_map. exists x.
    assert (IX : In x (filter (is_decl KField name) (d_body d)))
      by (destruct (find_some _ _ F); apply filter_In; split; assumption).
    split; [exact IX|]. apply HF; [apply in_or_app; left; exact IX|exact R].
Qed.

Lemma message_way : forall l d id,
  good_decl d -> good (d_body d) -> d_kind d = KMessage -> msg_nodm l = true ->
  by_message d l = Found id -> In id (along_message l d).
Proof.
  induction l as [|o|name p|name|name l IH|name x]; intros d id GD G K M H.
  - cbn in H. injection H as <-. left. reflexivity.
  - destruct GD as [X B]. rewrite K in *. cbn [by_message along_message] in *.
    with_stmt X B KMessage; [|injection H as <-; left; reflexivity].
    right. apply (option_way _ _ s i es _ _ FS Q V).
    unfold by_message_option in H. rewrite V in H.
    destruct o as [| |n p]; cbn [mopt_path msg_nodm] in *; try way_leaf.
    eapply item_way; [|exact H]. intros j es' E. exact (proj1 parts_way _ _ _ _ M E).
  - cbn [by_message along_message] in *.
    destruct (message_field_way (d_body d) name p (d_id d) id) as [->|I];
      [|exact H|left; reflexivity|right; exact I].
    intros x I R. rewrite is_decl_filter in I. apply filter_In in I. destruct I as [I D].
    apply field_way; try assumption.
    + destruct (with_oneof_in _ _ I) as [I'|(e & I1 & I2)];
        [exact (proj1 (good_in _ _ G I'))|exact (proj1 (good_in _ _ (proj2 (good_in _ _ G I1)) I2))].
    + unfold is_decl in D. destruct (d_kind x); (reflexivity || discriminate D).
  - cbn in H. injection H as <-. left. reflexivity.
  - cbn [by_message along_message msg_nodm] in *.
    assert (E : id = d_id d \/ exists v, In v (all_named KMessage name (d_body d))
                /\ In v (d_body d) /\ d_kind v = KMessage /\ by_message v l = Found id).
    { rewrite is_decl_filter. clear IH G. induction (d_body d) as [|y ds IHd].
      - injection H as <-. left. reflexivity.
      - destruct (is_decl KMessage name y) eqn:D.
        + assert (KY : d_kind y = KMessage)
            by (unfold is_decl in D; destruct (d_kind y); (reflexivity || discriminate D)).
          cbn [filter]. rewrite D.
          destruct (by_message y l) eqn:R; [| |discriminate H].
          * injection H as ->. right. exists y. repeat split; auto with datatypes.
          * destruct (IHd H) as [->|(v & A & I & KV & RV)]; [left; reflexivity|].
            right. exists v. repeat split; auto with datatypes.
        + cbn [filter]. rewrite D.
          destruct (IHd H) as [->|(v & A & I & KV & RV)]; [left; reflexivity|].
          right. exists v. repeat split; auto with datatypes. }
    destruct E as [->|(v & A & I & KV & RV)]; [left; reflexivity|]. right.
    apply in_flat_map. exists v. split; [exact A|].
    destruct (good_in _ _ G I) as [GV GB]. apply IH; assumption.
  - cbn [by_message along_message] in *. with_decl H G; [|injection H as <-; left; reflexivity].
    right. apply in_flat_map. exists v. split; [exact A|]. apply enum_way; assumption.
Qed.

Lemma file_way : forall f l id,
  no_lookalikes f -> blocks f -> no_detail_message l = true ->
  match l with TopMessage _ _ | TopEnum _ _ | TopService _ _ => true | _ => false end = true ->
  node_info f l = Found id -> In id (way f l).
Proof.
  intros f l id NL B M T H. pose proof (file_good f NL B) as G.
  destruct l as [n| |n|name l|name x|name z]; try discriminate T;
    cbn [node_info way no_detail_message] in *; with_decl H G;
    apply in_flat_map; exists v; (split; [exact A|]).
  - apply message_way; assumption.
  - apply enum_way; assumption.
  - apply service_way; assumption.
Qed.

(** ** Panics *)

Lemma str_safe : forall es f here, on_str es f here <> Panic.
Proof. intros es f here. unfold on_str. destruct (first es f) as [[]|]; discriminate. Qed.
Lemma any_safe : forall es f here, on_any es f here <> Panic.
Proof. intros es f here. unfold on_any. destruct (first es f); discriminate. Qed.
Lemma ident_safe : forall es f here, on_ident es f here <> Panic.
Proof. intros es f here. unfold on_ident. destruct (first es f) as [[]|]; discriminate. Qed.
Lemma msg_safe : forall es f here K, (forall i es', K i es' <> Panic) -> on_msg es f here K <> Panic.
Proof. intros es f here K H. unfold on_msg. destruct (first es f) as [[]|]; try discriminate. apply H. Qed.
Lemma item_safe : forall es f here n K,
  (forall i es', K i es' <> Panic) -> on_item es f here n K <> Panic.
Proof.
  intros es f here n K H. unfold on_item. destruct (collect es f) as [|c l]; [discriminate|].
  destruct (nth_error (c :: l) n) as [[]|]; [apply H|discriminate].
Qed.
Lemma iterator_safe : forall es part here, iterator es part here <> Panic.
Proof.
  intros es part here. induction es as [|[f v] es IH]; [discriminate|]. cbn [iterator].
  destruct (String.eqb f "iterator"); [|exact IH]. destruct v; try discriminate.
  destruct (first elems part); [discriminate|exact IH].
Qed.

Ltac safe :=
  first [ discriminate | apply str_safe | apply any_safe | apply ident_safe | apply iterator_safe ].

Lemma message_expr_safe : forall g here es, by_message_expr here es g <> Panic.
Proof.
  intros g here es; destruct g as [| |n p]; cbn [by_message_expr]; try safe.
  apply item_safe. intros i es'. destruct p; cbn [by_argument]; safe.
Qed.
Lemma enum_expr_safe : forall n here es, by_enum_expr here es n <> Panic.
Proof. intros n here es; destruct n; cbn [by_enum_expr]; safe. Qed.
Lemma map_safe : forall m here es, by_map_expr here es m <> Panic.
Proof.
  intros m here es; destruct m as [| | | |g|n]; cbn [by_map_expr]; try safe; apply msg_safe; intros i es'.
  - apply message_expr_safe.
  - apply enum_expr_safe.
Qed.
Lemma retry_safe : forall r here es, by_retry here es r <> Panic.
Proof. intros r here es; destruct r; cbn [by_retry]; try safe; apply msg_safe; intros; safe. Qed.
Lemma req_safe : forall q here es, by_request here es q <> Panic.
Proof. intros q here es; destruct q; cbn [by_request]; safe. Qed.

Lemma parts_safe :
  (forall p here es, def_vname p = false -> by_def here es p <> Panic)
  /\ (forall c here es, call_vname c = false -> by_call here es c <> Panic)
  /\ (forall e here es, err_vname e = false -> by_error here es e <> Panic)
  /\ (forall t here es, detail_vname t = false -> by_detail here es t <> Panic).
Proof.
  apply parts_ind; intros; cbn [def_vname call_vname err_vname detail_vname] in *;
    cbn [by_def by_call by_error by_detail]; try safe;
    try match goal with O : true = false |- _ => discriminate O end;
    first [ apply msg_safe | apply item_safe ]; intros i0 es0;
    first [ solve [apply map_safe] | solve [apply message_expr_safe] | solve [apply enum_expr_safe]
          | solve [apply retry_safe] | solve [apply req_safe] | solve [safe]
          | solve [unfold by_named; safe]
          | solve [match goal with IH : forall here es, _ -> _ |- _ => apply IH; assumption end]
          | first [apply msg_safe | apply item_safe]; intros i1 es1;
            first [ solve [match goal with IH : forall here es, _ -> _ |- _ => apply IH; assumption end]
                  | solve [apply message_expr_safe]
                  | solve [unfold by_named; safe] ] ].
Qed.

Lemma field_safe : forall d p,
  match p with FOpt (FOOneof (ODef _ q)) => def_vname q | _ => false end = false ->
  by_field d p <> Panic.
Proof.
  intros d p H. destruct p as [| |o]; cbn [by_field]; [discriminate|destruct (d_ty d); discriminate|].
  destruct (option_stmt (d_opts d) field_option) as [s|]; [|discriminate].
  unfold by_field_option.
  assert (A : forall i es q, o = FOOneof q -> by_field_oneof i es q <> Panic).
  { intros i es q ->. destruct q as [| | | |n r]; cbn [by_field_oneof]; try safe.
    destruct (first es "def"); [|discriminate].
    destruct (nth_error (message_list v) n) as [[]|]; [|discriminate].
    apply (proj1 parts_safe). exact H. }
  destruct (o_val s) as [i t| | |i es|]; try discriminate.
  - destruct o; try discriminate. destruct (has_suffix "by" (option_name s)); discriminate.
  - destruct o as [| | |q]; try safe.
    destruct (has_suffix "oneof" (option_name s)); [apply A; reflexivity|].
    apply msg_safe. intros j es'. apply A. reflexivity.
Qed.

Lemma enum_value_safe : forall d p, by_enum_value d p <> Panic.
Proof.
  intros d p. destruct p as [|o]; cbn [by_enum_value]; [discriminate|].
  destruct (option_stmt (d_opts d) enum_value_option) as [s|]; [|discriminate].
  unfold by_enum_value_option. destruct (o_val s); try discriminate.
  - destruct o; try discriminate;
      [destruct (has_suffix "alias" (option_name s))|destruct (has_suffix "default" (option_name s))];
      discriminate.
  - destruct o as [| | |n b]; try safe. apply item_safe. intros j es'.
    destruct b; cbn [by_attribute]; safe.
Qed.

Lemma enum_safe : forall d x, by_enum d x <> Panic.
Proof.
  intros d x. destruct x as [| |name p]; cbn [by_enum]; [discriminate| |].
  - destruct (option_stmt (d_opts d) enum_option) as [s|]; [|discriminate].
    unfold by_enum_option. destruct (o_val s); try discriminate; [|apply any_safe].
    destruct (has_suffix "alias" (option_name s)); discriminate.
  - destruct (find (is_decl KEnumValue name) (d_body d)); [apply enum_value_safe|discriminate].
Qed.

Lemma message_safe : forall l d, msg_vname l = false -> by_message d l <> Panic.
Proof.
  induction l as [|o|name p|name|name l IH|name x]; intros d H; cbn [by_message];
    try discriminate.
  - destruct (option_stmt (d_opts d) message_option) as [s|]; [|discriminate].
    unfold by_message_option. destruct (o_val s); try discriminate.
    + destruct o; try discriminate. destruct (has_suffix "alias" (option_name s)); discriminate.
    + destruct o as [| |n p]; try safe. apply item_safe. intros j es'.
      apply (proj1 parts_safe). exact H.
  - induction (d_body d) as [|y ds IHd]; [discriminate|]. cbn [message_field].
    destruct (is_decl KField name y); [apply field_safe; exact H|].
    destruct (kind_eqb (d_kind y) KOneof); [|exact IHd].
    destruct (find (is_decl KField name) (d_body y)) as [v|]; [|exact IHd].
    destruct (by_field v p) eqn:R; [discriminate|exact IHd|].
    exfalso. apply (field_safe v p H R).
  - induction (d_body d) as [|y ds IHd]; [discriminate|].
    destruct (is_decl KMessage name y); [|exact IHd].
    destruct (by_message y l) eqn:R; [discriminate|exact IHd|].
    exfalso. apply (IH y H R).
  - destruct (find (is_decl KEnum name) (d_body d)); [apply enum_safe|discriminate].
Qed.

Lemma service_safe : forall d z, by_service d z <> Panic.
Proof.
  intros d z. destruct z as [|o|name m]; cbn [by_service]; [discriminate| |].
  - destruct (option_stmt (d_opts d) service_option) as [s|]; [|discriminate].
    unfold by_service_option. destruct (o_val s); try discriminate.
    destruct o as [|y|n v]; try safe.
    + apply msg_safe. intros j es'. destruct y as [| |n w]; cbn [by_env]; try safe.
      apply item_safe. intros k es2. destruct w; cbn [by_env_var]; safe.
    + apply item_safe. intros j es'.
      destruct v as [| | | |m|g|e|q]; cbn [by_service_variable]; try safe; apply msg_safe; intros k es2.
      * apply map_safe.
      * apply message_expr_safe.
      * apply enum_expr_safe.
      * destruct q; cbn [by_service_validation]; safe.
  - destruct (find (is_decl KRpc name) (d_body d)) as [v|]; [|discriminate].
    destruct m; cbn [by_method]; try discriminate;
      (destruct (option_stmt (d_opts v) method_option) as [s|]; [|discriminate];
       unfold by_method_option; destruct (o_val s); try discriminate; try safe).
    + destruct (has_suffix "timeout" (option_name s)); discriminate.
    + destruct (has_suffix "response" (option_name s)); discriminate.
Qed.

Lemma file_safe : forall f l, names_validation l = false -> node_info f l <> Panic.
Proof.
  intros f l H. destruct l as [n| |n|name l|name x|name z]; cbn [node_info].
  - destruct (find _ (f_imports f)) as [[]|]; [discriminate|].
    destruct (find (has_text n) (flat_map import_values (f_opts f))); discriminate.
  - destruct (option_stmt (f_opts f) "go_package"); discriminate.
  - discriminate.
  - destruct (find (is_decl KMessage name) (f_decls f)); [apply message_safe; exact H|discriminate].
  - destruct (find (is_decl KEnum name) (f_decls f)); [apply enum_safe|discriminate].
  - destruct (find (is_decl KService name) (f_decls f)); [apply service_safe|discriminate].
Qed.
