(** * Proofs about the location of the cursor *)

From Coq Require Import Ascii String List Arith Bool Lia.
From Verif.Locate Require Import Model Spec Proofs.
From Verif.Pos Require Import Model Spec.
Import ListNotations.
Local Open Scope string_scope.
Local Open Scope list_scope.

(** ** Loops *)

Lemma each_hit : forall (X A : Type) (f : X -> turn A) l a,
  each f l = Hit a -> exists x, In x l /\ f x = Hit a.
Proof.
  intros X A f l a. induction l as [|x r IH]; intro H; cbn in H; [discriminate H|].
  destruct (f x) as [| |b] eqn:E; [|discriminate H|].
  - destruct (IH H) as (y & I & F). exists y. split; [right; exact I|exact F].
  - exists x. split; [left; reflexivity|]. rewrite E. exact H.
Qed.

Lemma each_from_hit : forall (X A : Type) (f : nat -> X -> turn A) l n a,
  each_from f n l = Hit a -> exists k x, nth_error l k = Some x /\ f (n + k) x = Hit a.
Proof.
  intros X A f l. induction l as [|x r IH]; intros n a H; cbn in H; [discriminate H|].
  destruct (f n x) as [| |b] eqn:E; [|discriminate H|].
  - destruct (IH _ _ H) as (k & y & I & F). exists (S k), y. split; [exact I|].
    replace (n + S k) with (S n + k) by lia. exact F.
  - exists 0, x. split; [reflexivity|]. rewrite Nat.add_0_r, E. exact H.
Qed.

Lemma each_app : forall (X A : Type) (f : X -> turn A) l x r a,
  (forall y, In y l -> f y = Next) -> f x = Hit a -> each f (l ++ x :: r) = Hit a.
Proof.
  intros X A f l x r a N H. induction l as [|y l IH]; cbn.
  - rewrite H. reflexivity.
  - rewrite (N y (or_introl eq_refl)). apply IH. intros z I. apply N. right. exact I.
Qed.

Lemma each_none : forall (X A : Type) (f : X -> turn A) l,
  (forall y, In y l -> f y = Next) -> each f l = Next.
Proof.
  intros X A f l N. induction l as [|y l IH]; cbn; [reflexivity|].
  rewrite (N y (or_introl eq_refl)). apply IH. intros z I. apply N. right. exact I.
Qed.

Lemma each_from_app : forall (X A : Type) (f : nat -> X -> turn A) l x r n a,
  (forall k y, In y l -> f k y = Next) -> f (n + List.length l) x = Hit a -> each_from f n (l ++ x :: r) = Hit a.
Proof.
  intros X A f l. induction l as [|y l IH]; intros x r n a N H; cbn.
  - cbn in H. rewrite Nat.add_0_r in H. rewrite H. reflexivity.
  - rewrite (N n y (or_introl eq_refl)). apply IH; [intros k z I; apply N; right; exact I|].
    cbn in H. replace (S n + List.length l) with (n + S (List.length l)) by lia. exact H.
Qed.

Lemma ends_some : forall (A : Type) (t : turn A) d a, ends t d = Some a -> t = Hit a \/ (t = Next /\ d = Some a).
Proof. intros A [| |b] d a H; cbn in H; [right; auto|discriminate H|left; congruence]. Qed.

Lemma found_hit : forall (A : Type) (o : option A) a, found o = Hit a -> o = Some a.
Proof. intros A [b|] a H; cbn in H; [congruence|discriminate H]. Qed.

(** ** Values *)

Definition lit_value (x : lit) : value := VMsg (fst x) (snd x).

Lemma messages_list : forall v, messages v = map lit_value (message_list v).
Proof.
  intros [i t|i t|i|i es|i l]; try reflexivity. cbn. induction l as [|w l IH]; [reflexivity|].
  cbn. rewrite IH. destruct w; reflexivity.
Qed.

Lemma written_in : forall i es f v, In v (written f (VMsg i es)) <-> In (f, v) es.
Proof.
  intros i es f v. cbn. rewrite in_map_iff. split.
  - intros ((g & w) & E & I). apply filter_In in I. destruct I as [I Q]. cbn in *. apply String.eqb_eq in Q. subst. exact I.
  - intro I. exists (f, v). split; [reflexivity|]. apply filter_In. split; [exact I|]. cbn. apply String.eqb_refl.
Qed.

Lemma single : forall f v w, List.length (written f v) <= 1 -> In w (written f v) -> written f v = [w].
Proof.
  intros f v w L I. destruct (written f v) as [|x [|y r]]; [destruct I| |cbn in L; lia].
  destruct I as [->|[]]. reflexivity.
Qed.

Lemma nth_message : forall f v w n x, List.length (written f v) <= 1 -> In w (written f v) ->
  nth_error (message_list w) n = Some x -> nth_error (flat_map messages (written f v)) n = Some (lit_value x).
Proof.
  intros f v w n x L I H. rewrite (single f v w L I). cbn. rewrite app_nil_r, messages_list. apply map_nth_error, H.
Qed.

Lemma part_trans : forall a b c, part a b -> part b c -> part a c.
Proof.
  intros a b c H. induction H as [v|i es f w u I P IH|i l w u I P IH]; intro Q; [exact Q| |].
  - eapply part_field; [exact I|apply IH, Q].
  - eapply part_elem; [exact I|apply IH, Q].
Qed.

Lemma part_message : forall v x, In x (message_list v) -> part v (lit_value x).
Proof.
  intros v x H. assert (I : In (lit_value x) (messages v)) by (rewrite messages_list; apply in_map, H).
  destruct v as [i t|i t|i|i es|i l]; try (destruct I; fail).
  - destruct I as [<-|[]]. constructor.
  - cbn in I. apply filter_In in I. destruct I as [I _]. eapply part_elem; [exact I|constructor].
Qed.

Lemma node_value_id : forall v, node v = value_id v.
Proof. reflexivity. Qed.

Section Sound.
Variable span : spans.
Variable pos : position.
Local Notation ON := (on span pos).

Lemma contains_on : forall i, contains span pos i = true <-> ON i.
Proof.
  intro i. unfold contains, on, not_after. destruct (span i) as [[a b] [c d]]. destruct pos as [l k]. cbn [fst snd].
  destruct (Nat.ltb_spec l a); [split; [discriminate|lia]|].
  destruct (Nat.eqb_spec a l); destruct (Nat.ltb_spec k b); cbn [andb]; try (split; [discriminate|lia]);
    (destruct (Nat.ltb_spec c l); [split; [discriminate|lia]|]);
    (destruct (Nat.eqb_spec c l); destruct (Nat.ltb_spec d k); cbn [andb]; split; try discriminate; try lia; intros _; split; lia).
Qed.

Lemma on_node_some : forall (A : Type) i (a b : A), on_node span pos i a = Some b -> a = b /\ ON i.
Proof.
  intros A i a b H. unfold on_node in H. destruct (contains span pos i) eqn:C; [|discriminate H].
  split; [congruence|apply contains_on, C].
Qed.

Lemma on_string_hit : forall (A : Type) v (a b : A), on_string span pos v a = Hit b -> a = b /\ ON (node v).
Proof.
  intros A v a b H. unfold on_string in H. destruct v as [i t|i t|i|i es|i l]; try discriminate H.
  destruct (contains span pos i) eqn:C; [|discriminate H]. split; [congruence|apply contains_on, C].
Qed.

Ltac names H :=
  repeat match type of H with
  | (if String.eqb ?f ?n then _ else _) = _ => destruct (String.eqb_spec f n) as [->|_]
  end.

(** ** Options of messages *)

Lemma place_text : forall v f k w, In w (written f v) -> place v [One f k] (node w).
Proof. intros v f k w I. eapply place_one; [exact I|constructor]. Qed.

Lemma find_arguments_sound : forall l n p, find_arguments span pos l = Some (n, p) ->
  exists x i, nth_error l n = Some x /\ place (lit_value x) (arg_path p) i /\ ON i.
Proof.
  intros l n p H. unfold find_arguments in H. apply ends_some in H. destruct H as [H|[_ H]]; [|discriminate H].
  apply each_from_hit in H. destruct H as (k & x & Nx & H). cbn in H. apply each_hit in H.
  destruct H as ((f & v) & I & H). exists x, (node v).
  assert (W : forall g, f = g -> In v (written g (lit_value x))) by (intros g <-; apply written_in, I).
  names H; try (exfalso; discriminate H); apply on_string_hit in H; destruct H as [E O]; injection E as <- <-;
    (split; [exact Nx|split; [|exact O]]); apply place_text, W; reflexivity.
Qed.

Lemma find_request_sound : forall l n q, find_request span pos l = Some (n, q) ->
  exists x i, nth_error l n = Some x /\ place (lit_value x) (req_path q) i /\ ON i.
Proof.
  intros l n p H. unfold find_request in H. apply ends_some in H. destruct H as [H|[_ H]]; [|discriminate H].
  apply each_from_hit in H. destruct H as (k & x & Nx & H). cbn in H.
  match type of H with match ?e with _ => _ end = _ => destruct e as [| |a] eqn:E end; [|discriminate H|].
  - apply found_hit, on_node_some in H. destruct H as [Q O]. injection Q as <- <-.
    exists x, (fst x). split; [exact Nx|split; [constructor 1|exact O]].
  - injection H as ->. apply each_hit in E. destruct E as ((f & v) & I & H). exists x, (node v).
    assert (W : forall g, f = g -> In v (written g (lit_value x))) by (intros g <-; apply written_in, I).
    names H; try (exfalso; discriminate H); apply on_string_hit in H; destruct H as [Q O]; injection Q as <- <-;
      (split; [exact Nx|split; [|exact O]]); apply place_text, W; reflexivity.
Qed.

Definition lists (v : value) : Prop :=
  forall u, part v u -> List.length (written "request" u) <= 1 /\ List.length (written "args" u) <= 1.

Lemma find_message_expr_sound : forall idx i es o, lists (VMsg i es) ->
  find_message_expr span pos idx i es = Some o ->
  (exists g j, o = MODef idx (DMessage g) /\ place (VMsg i es) (msg_path g) j /\ ON j) \/ (o = MOHere /\ ON i).
Proof.
  intros idx i es o L H. unfold find_message_expr in H. apply ends_some in H. destruct H as [H|[_ H]].
  - left. apply each_hit in H. destruct H as ((f & v) & I & H). names H; try discriminate H.
    + apply on_string_hit in H. destruct H as [<- O]. exists GName, (node v).
      split; [reflexivity|split; [|exact O]]. apply place_text, written_in, I.
    + destruct (find_arguments span pos (message_list v)) as [[n p]|] eqn:E; [|discriminate H]. injection H as <-.
      apply find_arguments_sound in E. destruct E as (x & j & Nx & P & O).
      exists (GArgs n p), j. split; [reflexivity|split; [|exact O]].
      eapply place_nth; [|exact P]. eapply nth_message; [|apply written_in, I|exact Nx].
      apply (L (VMsg i es)). constructor.
  - right. apply on_node_some in H. destruct H as [<- O]. split; [reflexivity|exact O].
Qed.

Lemma find_call_sound : forall idx i es o, lists (VMsg i es) ->
  find_call span pos idx i es = Some o ->
  exists c j, o = MODef idx (DCall c) /\ place (VMsg i es) (call_path c) j /\ ON j.
Proof.
  intros idx i es o L H. unfold find_call in H. apply ends_some in H. destruct H as [H|[_ H]].
  - apply each_hit in H. destruct H as ((f & v) & I & H). names H; try discriminate H.
    + apply on_string_hit in H. destruct H as [<- O]. exists CMethod, (node v).
      split; [reflexivity|split; [|exact O]]. apply place_text, written_in, I.
    + destruct (find_request span pos (message_list v)) as [[n p]|] eqn:E; [|discriminate H]. injection H as <-.
      apply find_request_sound in E. destruct E as (x & j & Nx & P & O).
      exists (CRequest n p), j. split; [reflexivity|split; [|exact O]].
      eapply place_nth; [|exact P]. eapply nth_message; [|apply written_in, I|exact Nx].
      apply (L (VMsg i es)). constructor.
  - apply on_node_some in H. destruct H as [<- O]. exists CHere, i. split; [reflexivity|split; [constructor 1|exact O]].
Qed.

Lemma find_def_sound : forall v o, lists v -> find_def span pos (message_list v) = Some o ->
  (exists idx p x j, o = MODef idx p /\ nth_error (message_list v) idx = Some x /\
     place (lit_value x) (def_path p) j /\ ON j) \/
  (o = MOHere /\ exists u, part v u /\ ON (node u)).
Proof.
  intros v o L H. unfold find_def in H. apply ends_some in H. destruct H as [H|[_ H]].
  - apply each_from_hit in H. destruct H as (k & x & Nx & H). cbn in H. apply each_hit in H.
    destruct H as ((f & w) & I & H).
    assert (Px : part v (lit_value x)) by (apply part_message; eapply nth_error_In; exact Nx).
    assert (Lw : forall i es, w = VMsg i es -> lists (VMsg i es)).
    { intros i es -> u Q. apply L. eapply part_trans; [exact Px|]. eapply part_field; [exact I|exact Q]. }
    names H; try discriminate H.
    + apply on_string_hit in H. destruct H as [<- O]. left. exists k, DName, x, (node w).
      split; [reflexivity|split; [exact Nx|split; [|exact O]]]. apply place_text, written_in, I.
    + apply on_string_hit in H. destruct H as [<- O]. left. exists k, DIf, x, (node w).
      split; [reflexivity|split; [exact Nx|split; [|exact O]]]. apply place_text, written_in, I.
    + apply on_string_hit in H. destruct H as [<- O]. left. exists k, DBy, x, (node w).
      split; [reflexivity|split; [exact Nx|split; [|exact O]]]. apply place_text, written_in, I.
    + unfold on_literal in H. destruct w as [i t|i t|i|i es|i l]; try discriminate H. apply found_hit in H.
      apply find_call_sound in H; [|apply Lw; reflexivity]. destruct H as (c & j & -> & P & O).
      left. exists k, (DCall c), x, j. split; [reflexivity|split; [exact Nx|split; [|exact O]]].
      eapply place_one; [apply written_in, I|exact P].
    + unfold on_literal in H. destruct w as [i t|i t|i|i es|i l]; try discriminate H. apply found_hit in H.
      apply find_message_expr_sound in H; [|apply Lw; reflexivity]. destruct H as [(g & j & -> & P & O)|[-> O]].
      * left. exists k, (DMessage g), x, j. split; [reflexivity|split; [exact Nx|split; [|exact O]]].
        eapply place_one; [apply written_in, I|exact P].
      * right. split; [reflexivity|]. exists (VMsg i es). split; [|exact O].
        eapply part_trans; [exact Px|]. eapply part_field; [exact I|constructor].
  - destruct (message_list v) as [|x r] eqn:M; [discriminate H|]. apply on_node_some in H. destruct H as [<- O].
    right. split; [reflexivity|]. exists (lit_value x). split; [|exact O].
    apply part_message. rewrite M. left. reflexivity.
Qed.

(** ** Statements *)

(** What [usual] says of one statement. *)
Definition fits (ext : string) (s : stmt) : Prop :=
  sets ext s = true /\
  match o_val s with
  | VMsg _ _ => tl (o_parts s) = []
  | VStr _ _ => exists f, tl (o_parts s) = [f] /\ In f ["alias"; "by"; "default"; "timeout"; "response"]
  | _ => True
  end.

Lemma fits_head : forall ext s, fits ext s -> exists e, (e = ext \/ e = ("." ++ ext)%string) /\ o_parts s = e :: tl (o_parts s).
Proof.
  intros ext s [S _]. unfold sets in S. destruct (o_parts s) as [|e r]; [discriminate S|].
  exists e. split; [|reflexivity]. apply orb_true_iff in S. destruct S as [S|S]; apply String.eqb_eq in S; auto.
Qed.

Lemma in_together : forall t ext s f v, In s (options t) -> sets ext s = true -> In (f, v) (contribution s) ->
  In v (written f (together t ext)).
Proof.
  intros t ext s f v I S C. apply written_in. apply in_flat_map. exists s. split; [|exact C].
  apply filter_In. split; [exact I|exact S].
Qed.

Lemma block_contribution : forall ext s i es, fits ext s -> o_val s = VMsg i es -> contribution s = es.
Proof.
  intros ext s i es [_ F] V. rewrite V in F. unfold contribution. rewrite F, V. reflexivity.
Qed.

Lemma text_contribution : forall ext g s i x, fits ext s -> o_val s = VStr i x ->
  In ext ["grpc.federation.message"; "grpc.federation.field"; "grpc.federation.enum";
          "grpc.federation.enum_value"; "grpc.federation.method"] ->
  In g ["alias"; "by"; "default"; "timeout"] -> has_suffix g (option_name s) = true ->
  contribution s = [(g, VStr i x)].
Proof.
  intros ext g s i x F V E G H. destruct (fits_head ext s F) as (e & Q & P).
  destruct F as [_ F]. rewrite V in F. destruct F as (f & T & J).
  unfold contribution. rewrite T, V. cbn. assert (f = g) as ->; [|reflexivity].
  rewrite T in P. unfold option_name in H. rewrite P in H. clear P T V.
  destruct E as [<-|[<-|[<-|[<-|[<-|[]]]]]]; destruct Q as [->| ->];
    destruct J as [<-|[<-|[<-|[<-|[<-|[]]]]]]; destruct G as [<-|[<-|[<-|[<-|[]]]]];
    try reflexivity; vm_compute in H; discriminate H.
Qed.

(** ** Options of declarations *)

(** What the conditions of the specification say of one declaration. *)
Definition tidy (d : tree) : Prop := well_nested span d /\ usual d /\ as_lists d /\ in_order d.

Lemma matched_fits : forall t s, tidy t -> In s (options t) ->
  match_option (option_name s) (extension_of (t_kind t)) = true -> fits (extension_of (t_kind t)) s.
Proof.
  intros t s (_ & U & _ & _) I M. apply (U s I). apply match_starts, M.
Qed.

Lemma lists_of : forall t s, tidy t -> In s (options t) -> lists (o_val s).
Proof. intros t s (_ & _ & (_ & A) & _) I u P. apply (A s u I P). Qed.

Lemma lists_part : forall v u, lists v -> part v u -> lists u.
Proof. intros v u L P w Q. apply L. eapply part_trans; [exact P|exact Q]. Qed.

Lemma find_message_option_sound : forall t s o, t_kind t = KMessage -> tidy t -> In s (options t) ->
  match_option (option_name s) message_option = true -> find_message_option span pos s = Some o ->
  exists i, ON i /\ match o with
                    | Some p => option_place t "grpc.federation.message" (mopt_path p) i
                    | None => i = t_id t
                    end.
Proof.
  intros t s o K T I M H.
  assert (F : fits "grpc.federation.message" s).
  { pose proof (matched_fits t s T I) as F. rewrite K in F. apply F, M. }
  assert (S : sets "grpc.federation.message" s = true) by apply F.
  assert (N : forall u, part (o_val s) u -> ON (node u) -> ON (o_id s) /\ ON (t_id t)).
  { destruct T as (W & _). intros u P O. apply (W s u pos I P O). }
  assert (HERE : forall u, part (o_val s) u -> ON (node u) ->
    exists i, ON i /\ option_place t "grpc.federation.message" (mopt_path MOHere) i).
  { intros u P O. exists (o_id s). split; [apply (N u P O)|]. exists s. split; [exact I|split; [exact S|reflexivity]]. }
  unfold find_message_option in H. destruct (o_val s) as [i x|i x|i|i es|i l] eqn:V.
  - destruct (has_suffix "alias" (option_name s)) eqn:X; cbn [andb] in H.
    + destruct (contains span pos i) eqn:C.
      * injection H as <-. exists i. split; [apply contains_on, C|].
        change (place (together t "grpc.federation.message") [One "alias" Any] (node (VStr i x))).
        apply place_text. eapply in_together; [exact I|exact S|].
        erewrite text_contribution; [left; reflexivity|exact F|exact V|cbn; auto|cbn; auto|exact X].
      * apply on_node_some in H. destruct H as [_ O]. apply contains_on in O. rewrite O in C. discriminate C.
    + apply on_node_some in H. destruct H as [<- O]. exists (t_id t). split; [|reflexivity].
      apply (N (VStr i x)); [constructor|exact O].
  - apply on_node_some in H. destruct H as [<- O]. exists (t_id t). split; [|reflexivity].
    apply (N (VCat i x)); [constructor|exact O].
  - apply on_node_some in H. destruct H as [<- O]. exists (t_id t). split; [|reflexivity].
    apply (N (VIdent i)); [constructor|exact O].
  - pose proof (block_contribution _ _ _ _ F V) as B.
    apply ends_some in H. destruct H as [H|[_ H]].
    + apply each_hit in H. destruct H as ((f & v) & J & H).
      assert (W : In v (written f (together t "grpc.federation.message"))).
      { eapply in_together; [exact I|exact S|]. rewrite B. exact J. }
      assert (P : part (VMsg i es) v) by (eapply part_field; [exact J|constructor]).
      names H; try discriminate H.
      * apply found_hit, on_node_some in H. destruct H as [<- O]. exists (node v). split; [exact O|].
        apply place_text, W.
      * apply found_hit in H. destruct (find_def span pos (message_list v)) as [p|] eqn:D; [|discriminate H].
        injection H as <-. apply find_def_sound in D.
        { destruct D as [(idx & q & x & j & -> & Nx & Q & O)|(-> & u & Q & O)].
          - exists j. split; [exact O|]. cbn [mopt_path option_place]. eapply place_nth; [|exact Q].
            eapply nth_message; [|exact W|exact Nx]. destruct T as (_ & _ & (A & _) & _). rewrite K in A. exact A.
          - apply (HERE u); [eapply part_trans; [exact P|exact Q]|exact O]. }
        eapply lists_part; [|exact P]. rewrite <- V. apply (lists_of t s T I).
    + apply on_node_some in H. destruct H as [<- O]. apply (HERE (VMsg i es)); [constructor|exact O].
  - apply on_node_some in H. destruct H as [<- O]. exists (t_id t). split; [|reflexivity].
    apply (N (VArr i l)); [constructor|exact O].
Qed.

Lemma find_field_option_sound : forall t s o, t_kind t = KField -> tidy t -> In s (options t) ->
  match_option (option_name s) field_option = true -> find_field_option span pos s = Some o ->
  exists i, ON i /\ option_place t "grpc.federation.field" (fopt_path o) i.
Proof.
  intros t s o K T I M H.
  assert (F : fits "grpc.federation.field" s).
  { pose proof (matched_fits t s T I) as F. rewrite K in F. apply F, M. }
  assert (S : sets "grpc.federation.field" s = true) by apply F.
  unfold find_field_option in H. destruct (o_val s) as [i x|i x|i|i es|i l] eqn:V; try discriminate H.
  - destruct (has_suffix "by" (option_name s)) eqn:X; [|discriminate H].
    apply on_node_some in H. destruct H as [<- O]. exists i. split; [exact O|].
    change (place (together t "grpc.federation.field") [One "by" Str] (node (VStr i x))).
    apply place_text. eapply in_together; [exact I|exact S|].
    erewrite text_contribution; [left; reflexivity|exact F|exact V|cbn; auto|cbn; auto|exact X].
  - pose proof (block_contribution _ _ _ _ F V) as B.
    apply ends_some in H. destruct H as [H|[_ H]]; [|discriminate H].
    apply each_hit in H. destruct H as ((f & v) & J & H). names H; try discriminate H.
    apply on_string_hit in H. destruct H as [<- O]. exists (node v). split; [exact O|].
    apply place_text. eapply in_together; [exact I|exact S|]. rewrite B. exact J.
Qed.

Lemma on_stmt_hit : forall (A : Type) ext (f : stmt -> option A) x a, on_stmt ext f x = Hit a ->
  exists s, x = IOpt s /\ match_option (option_name s) ext = true /\ f s = Some a.
Proof.
  intros A ext f [s|y|y] a H; cbn in H; try discriminate H.
  destruct (match_option (option_name s) ext) eqn:M; [|discriminate H].
  exists s. split; [reflexivity|split; [exact M|apply found_hit, H]].
Qed.

Lemma in_options : forall t s, In (IOpt s) (t_items t) -> In s (options t).
Proof. intros t s I. apply in_flat_map. exists (IOpt s). split; [exact I|left; reflexivity]. Qed.

Lemma find_field_sound : forall t p, t_kind t = KField -> tidy t -> find_field span pos t = Some p ->
  exists i, ON i /\ field_place t p i.
Proof.
  intros t p K T H. unfold find_field in H.
  assert (TY : match t_ty t with Some i => on_node span pos i FType | None => None end = Some p ->
    exists i, ON i /\ field_place t p i).
  { intro Q. destruct (t_ty t) as [i|] eqn:Y; [|discriminate Q]. apply on_node_some in Q. destruct Q as [<- O].
    exists i. split; [exact O|exact Y]. }
  match type of H with match ?e with _ => _ end = _ => destruct e as [| |o] eqn:E end; [apply TY, H|apply TY, H|].
  injection H as <-. apply each_hit in E. destruct E as (x & J & H). apply on_stmt_hit in H.
  destruct H as (s & -> & M & H). apply (find_field_option_sound t s o K T (in_options t s J) M H).
Qed.

Lemma find_oneof_hit : forall its last ls, find_oneof span pos its last = inl ls ->
  exists x p, In (ISub x) its /\ t_kind x = KField /\ find_field span pos x = Some p /\ ls = [LField (t_name x) p].
Proof.
  intros its. induction its as [|x r IH]; intros last ls H; [discriminate H|].
  assert (R : forall lst, find_oneof span pos r lst = inl ls -> exists y p, In (ISub y) (x :: r) /\ t_kind y = KField /\
    find_field span pos y = Some p /\ ls = [LField (t_name y) p]).
  { intros lst Q. destruct (IH _ _ Q) as (y & p & I & J). exists y, p. split; [right; exact I|exact J]. }
  destruct x as [s|y|y]; try (apply (R _ H)). destruct y as [k n i ty its']. destruct k; try (apply (R _ H)).
  cbn [find_oneof] in H. destruct (find_field span pos (Tree KField n i ty its')) as [p|] eqn:E; [|apply (R _ H)].
  injection H as <-. exists (Tree KField n i ty its'), p. split; [left; reflexivity|auto].
Qed.

Lemma find_enum_option_sound : forall t s x, t_kind t = KEnum -> tidy t -> In s (options t) ->
  match_option (option_name s) enum_option = true -> find_enum_option span pos s = Some x ->
  x = XOpt /\ exists i, ON i /\ enum_place t XOpt i.
Proof.
  intros t s o K T I M H.
  assert (F : fits "grpc.federation.enum" s).
  { pose proof (matched_fits t s T I) as F. rewrite K in F. apply F, M. }
  assert (S : sets "grpc.federation.enum" s = true) by apply F.
  unfold find_enum_option in H. destruct (o_val s) as [i x|i x|i|i es|i l] eqn:V; try discriminate H.
  - destruct (has_suffix "alias" (option_name s)) eqn:X; [|discriminate H].
    apply on_node_some in H. destruct H as [<- O]. split; [reflexivity|]. exists i. split; [exact O|].
    change (place (together t "grpc.federation.enum") [One "alias" Any] (node (VStr i x))).
    apply place_text. eapply in_together; [exact I|exact S|].
    erewrite text_contribution; [left; reflexivity|exact F|exact V|cbn; auto|cbn; auto|exact X].
  - pose proof (block_contribution _ _ _ _ F V) as B.
    apply ends_some in H. destruct H as [H|[_ H]]; [|discriminate H].
    apply each_hit in H. destruct H as ((f & v) & J & H). names H; try discriminate H.
    apply on_string_hit in H. destruct H as [<- O]. split; [reflexivity|]. exists (node v). split; [exact O|].
    apply place_text. eapply in_together; [exact I|exact S|]. rewrite B. exact J.
Qed.

Lemma find_enum_value_option_sound : forall t s o, t_kind t = KEnumValue -> tidy t -> In s (options t) ->
  match_option (option_name s) enum_value_option = true -> find_enum_value_option span pos s = Some o ->
  exists i, ON i /\ value_place t (UOpt o) i.
Proof.
  intros t s o K T I M H.
  assert (F : fits "grpc.federation.enum_value" s).
  { pose proof (matched_fits t s T I) as F. rewrite K in F. apply F, M. }
  assert (S : sets "grpc.federation.enum_value" s = true) by apply F.
  unfold find_enum_value_option in H. destruct (o_val s) as [i x|i x|i|i es|i l] eqn:V; try discriminate H.
  - destruct (has_suffix "alias" (option_name s) && contains span pos i) eqn:X.
    + apply andb_true_iff in X. destruct X as [X C]. injection H as <-. exists i. split; [apply contains_on, C|].
      change (place (together t "grpc.federation.enum_value") [One "alias" Any] (node (VStr i x))).
      apply place_text. eapply in_together; [exact I|exact S|].
      erewrite text_contribution; [left; reflexivity|exact F|exact V|cbn; auto|cbn; auto|exact X].
    + destruct (has_suffix "default" (option_name s) && contains span pos i) eqn:Y; [|discriminate H].
      apply andb_true_iff in Y. destruct Y as [Y C]. injection H as <-. exists i. split; [apply contains_on, C|].
      change (place (together t "grpc.federation.enum_value") [One "default" Word] (node (VStr i x))).
      apply place_text. eapply in_together; [exact I|exact S|].
      erewrite text_contribution; [left; reflexivity|exact F|exact V|cbn; auto 6|cbn; auto|exact Y].
  - pose proof (block_contribution _ _ _ _ F V) as B.
    apply ends_some in H. destruct H as [H|[_ H]]; [|discriminate H].
    apply each_hit in H. destruct H as ((f & v) & J & H).
    assert (W : In v (written f (together t "grpc.federation.enum_value"))).
    { eapply in_together; [exact I|exact S|]. rewrite B. exact J. }
    names H; try discriminate H.
    + destruct v as [j x|j x|j|j es'|j l]; try discriminate H.
      * apply found_hit, on_node_some in H. destruct H as [<- O]. exists j. split; [exact O|].
        change (place (together t "grpc.federation.enum_value") [One "alias" Any] (node (VStr j x))).
        apply place_text, W.
      * apply each_hit in H. destruct H as (w & Iw & H). destruct w as [k x|k x|k|k es'|k l']; try discriminate H.
        apply found_hit, on_node_some in H. destruct H as [<- O]. exists k. split; [exact O|].
        change (place (together t "grpc.federation.enum_value") [One "alias" Any] (node (VStr k x))).
        eapply place_any; [exact W|exact Iw].
    + apply on_string_hit in H. destruct H as [<- O]. exists (node v). split; [exact O|].
      apply place_text, W.
Qed.

Lemma find_method_option_sound : forall t s m, t_kind t = KRpc -> tidy t -> In s (options t) ->
  match_option (option_name s) method_option = true -> find_method_option span pos s = Some m ->
  m = TOptTimeout /\ exists i, ON i /\ option_place t "grpc.federation.method" (mtd_path TOptTimeout) i.
Proof.
  intros t s o K T I M H.
  assert (F : fits "grpc.federation.method" s).
  { pose proof (matched_fits t s T I) as F. rewrite K in F. apply F, M. }
  assert (S : sets "grpc.federation.method" s = true) by apply F.
  unfold find_method_option in H. destruct (o_val s) as [i x|i x|i|i es|i l] eqn:V; try discriminate H.
  - destruct (has_suffix "timeout" (option_name s)) eqn:X; [|discriminate H].
    apply on_node_some in H. destruct H as [<- O]. split; [reflexivity|]. exists i. split; [exact O|].
    change (place (together t "grpc.federation.method") [One "timeout" Str] (node (VStr i x))).
    apply place_text. eapply in_together; [exact I|exact S|].
    erewrite text_contribution; [left; reflexivity|exact F|exact V|cbn; auto 6|cbn; auto|exact X].
  - pose proof (block_contribution _ _ _ _ F V) as B.
    apply ends_some in H. destruct H as [H|[_ H]]; [|discriminate H].
    apply each_hit in H. destruct H as ((f & v) & J & H). names H; try discriminate H.
    apply on_string_hit in H. destruct H as [<- O]. split; [reflexivity|]. exists (node v). split; [exact O|].
    apply place_text. eapply in_together; [exact I|exact S|]. rewrite B. exact J.
Qed.

Lemma find_service_option_sound : forall t s z, tidy t -> In s (options t) ->
  find_service_option span pos s = Some z -> z = ZHere /\ ON (t_id t).
Proof.
  intros t s z (W & _) I H.
  assert (N : forall u, part (o_val s) u -> ON (node u) -> ON (t_id t)).
  { intros u P O. apply (W s u pos I P O). }
  unfold find_service_option in H.
  destruct (o_val s) as [i x|i x|i|i es|i l] eqn:V;
    try (apply on_node_some in H; destruct H as [<- O]; split; [reflexivity|]; eapply N; [constructor|exact O]).
  apply ends_some in H. destruct H as [H|[_ H]].
  - apply each_hit in H. destruct H as ((f & v) & J & H). names H; try discriminate H.
    unfold on_literal in H. destruct v as [j x|j x|j|j es'|j l]; try discriminate H. apply found_hit in H.
    assert (P : part (VMsg i es) (VMsg j es')) by (eapply part_field; [exact J|constructor]).
    apply ends_some in H. destruct H as [H|[_ H]].
    + apply each_hit in H. destruct H as ((f & v) & J' & H).
      assert (P' : part (VMsg i es) v) by (eapply part_trans; [exact P|eapply part_field; [exact J'|constructor]]).
      names H; try discriminate H.
      * apply found_hit, on_node_some in H. destruct H as [<- O]. split; [reflexivity|]. apply (N v P' O).
      * unfold on_literal in H. destruct v as [k x|k x|k|k es''|k l]; try discriminate H. apply found_hit in H.
        apply ends_some in H. destruct H as [H|[_ H]].
        { apply each_hit in H. destruct H as ((f & v) & J'' & H). names H; try discriminate H.
          apply found_hit, on_node_some in H. destruct H as [<- O]. split; [reflexivity|]. apply (N v); [|exact O].
          eapply part_trans; [exact P'|]. eapply part_field; [exact J''|constructor]. }
        apply on_node_some in H. destruct H as [<- O]. split; [reflexivity|]. apply (N _ P' O).
    + apply on_node_some in H. destruct H as [<- O]. split; [reflexivity|]. apply (N _ P O).
  - apply on_node_some in H. destruct H as [<- O]. split; [reflexivity|]. eapply N; [constructor|exact O].
Qed.

(** ** Declarations *)

(** The name left over is that of a member before. *)
Definition left_over (pre : list item) (last : option string) : Prop :=
  last = None \/ exists x, In x pre /\ member x.

Lemma left_over_none : forall t pre y r last, in_order t -> t_items t = pre ++ y :: r -> left_over pre last ->
  heading y -> last = None.
Proof.
  intros t pre y r last O E [L|(x & I & M)] Hy; [exact L|]. exfalso.
  apply in_split in I. destruct I as (a & b & ->). apply (O a x b y r); [|exact M|exact Hy].
  rewrite E, <- app_assoc. reflexivity.
Qed.

Lemma left_over_app : forall pre x last, left_over pre last -> left_over (pre ++ [x]) last.
Proof.
  intros pre x last [L|(y & I & M)]; [left; exact L|right]. exists y. split; [apply in_or_app; left; exact I|exact M].
Qed.

Lemma left_over_new : forall pre x last, member x -> left_over (pre ++ [x]) last.
Proof.
  intros pre x last M. right. exists x. split; [apply in_or_app; right; left; reflexivity|exact M].
Qed.

Definition settled (t : tree) : Prop := forall d, declared t d -> tidy d.

Lemma settled_here : forall t, settled t -> tidy t.
Proof. intros t S. apply S. constructor. Qed.

Lemma settled_in : forall t x, settled t -> In (ISub x) (t_items t) -> settled x.
Proof. intros t x S I d D. apply S. eapply declared_in; [left; exact I|exact D]. Qed.

Lemma find_enum_sound : forall t, t_kind t = KEnum -> settled t -> forall its pre last xs,
  t_items t = pre ++ its -> left_over pre last -> find_enum span pos its last = Some xs ->
  exists x i, xs = [x] /\ ON i /\ enum_place t x i.
Proof.
  intros t K S its. induction its as [|x r IH]; intros pre last xs E L H; [discriminate H|].
  assert (E' : t_items t = (pre ++ [x]) ++ r) by (rewrite E, <- app_assoc; reflexivity).
  assert (Ix : In x (t_items t)) by (rewrite E; apply in_or_app; right; left; reflexivity).
  assert (SKIP : find_enum span pos r last = Some xs -> exists x0 i, xs = [x0] /\ ON i /\ enum_place t x0 i).
  { intro Q. eapply IH; [exact E'|apply left_over_app, L|exact Q]. }
  destruct x as [s|y|y]; cbn [find_enum] in H; [|destruct y as [k n i ty its']; destruct k; try (apply SKIP, H)|apply SKIP, H].
  - destruct (match_option (option_name s) enum_option) eqn:M; [|apply SKIP, H].
    destruct (find_enum_option span pos s) as [o|] eqn:F; [|apply SKIP, H].
    rewrite (left_over_none t pre _ _ _ (proj2 (proj2 (proj2 (settled_here t S)))) E L Logic.I) in H. injection H as <-.
    destruct (find_enum_option_sound t s o K (settled_here t S) (in_options t s Ix) M F) as (-> & i & O & P).
    exists XOpt, i. split; [reflexivity|split; [exact O|exact P]].
  - destruct (ends (each (on_stmt enum_value_option (find_enum_value_option span pos)) its') None) as [o|] eqn:F.
    + injection H as <-. apply ends_some in F. destruct F as [F|[_ F]]; [|discriminate F].
      apply each_hit in F. destruct F as (x & J & F). apply on_stmt_hit in F. destruct F as (s & -> & M & F).
      set (v := Tree KEnumValue n i ty its') in *.
      destruct (find_enum_value_option_sound v s o eq_refl (settled_here v (settled_in t v S Ix)) (in_options v s J) M F)
        as (j & O & P).
      exists (XValue n (UOpt o)), j. split; [reflexivity|split; [exact O|]].
      exists v. split; [exact Ix|split; [reflexivity|split; [reflexivity|exact P]]].
    + eapply IH; [exact E'| |exact H]. apply left_over_new. exact Logic.I.
Qed.

Lemma find_service_sound : forall t, settled t -> forall its pre last zs,
  t_items t = pre ++ its -> left_over pre last -> find_service span pos its last = Some zs ->
  exists z i, zs = [z] /\ ON i /\ service_place t z i.
Proof.
  intros t S its. induction its as [|x r IH]; intros pre last xs E L H; [discriminate H|].
  assert (E' : t_items t = (pre ++ [x]) ++ r) by (rewrite E, <- app_assoc; reflexivity).
  assert (Ix : In x (t_items t)) by (rewrite E; apply in_or_app; right; left; reflexivity).
  assert (SKIP : find_service span pos r last = Some xs -> exists x0 i, xs = [x0] /\ ON i /\ service_place t x0 i).
  { intro Q. eapply IH; [exact E'|apply left_over_app, L|exact Q]. }
  destruct x as [s|y|y]; cbn [find_service] in H; [|destruct y as [k n i ty its']; destruct k; try (apply SKIP, H)|apply SKIP, H].
  - destruct (match_option (option_name s) service_option) eqn:M; [|apply SKIP, H].
    destruct (find_service_option span pos s) as [o|] eqn:F; [|apply SKIP, H].
    rewrite (left_over_none t pre _ _ _ (proj2 (proj2 (proj2 (settled_here t S)))) E L Logic.I) in H. injection H as <-.
    destruct (find_service_option_sound t s o (settled_here t S) (in_options t s Ix) F) as (-> & O).
    exists ZHere, (t_id t). split; [reflexivity|split; [exact O|reflexivity]].
  - destruct (ends (each (on_stmt method_option (find_method_option span pos)) its') None) as [o|] eqn:F.
    + injection H as <-. apply ends_some in F. destruct F as [F|[_ F]]; [|discriminate F].
      apply each_hit in F. destruct F as (x & J & F). apply on_stmt_hit in F. destruct F as (s & -> & M & F).
      set (v := Tree KRpc n i ty its') in *.
      destruct (find_method_option_sound v s o eq_refl (settled_here v (settled_in t v S Ix)) (in_options v s J) M F)
        as (-> & j & O & P).
      exists (ZMethod n TOptTimeout), j. split; [reflexivity|split; [exact O|]].
      exists v. split; [exact Ix|split; [reflexivity|split; [reflexivity|exact P]]].
    + eapply IH; [exact E'| |exact H]. apply left_over_new. exact Logic.I.
Qed.

(** The loop of [find_message]. *)
Definition scan (fm : tree -> option string -> option (list msg_loc)) :=
  fix go (its : list item) (last : option string) {struct its} : option (list msg_loc) :=
    match its with
    | [] => None
    | IOpt s :: r =>
        if match_option (option_name s) message_option then
          match find_message_option span pos s with
          | Some o => Some (option_location last o)
          | None => go r last
          end
        else go r last
    | ISub x :: r =>
        match t_kind x with
        | KField =>
            match find_field span pos x with
            | Some p => Some [LField (t_name x) p]
            | None => go r (Some (t_name x))
            end
        | KMessage =>
            match fm x last with
            | Some ls => Some (map (LNested (t_name x)) ls)
            | None => go r last
            end
        | KEnum =>
            match find_enum span pos (t_items x) None with
            | Some xs => Some (field_left last ++ map (LEnum (t_name x)) xs)
            | None => go r last
            end
        | KOneof =>
            match find_oneof span pos (t_items x) last with
            | inl ls => Some ls
            | inr last' => go r last'
            end
        | _ => go r last
        end
    | IMap _ :: r => go r last
    end.

Lemma find_message_scan : forall t last, find_message span pos t last = scan (find_message span pos) (t_items t) last.
Proof. intros [k n i ty its] last. reflexivity. Qed.

Lemma tree_rec' : forall P : tree -> Prop,
  (forall t, (forall x, In (ISub x) (t_items t) -> P x) -> P t) -> forall t, P t.
Proof.
  intros P H. fix IH 1. intros [k n i ty its]. apply H. cbn.
  induction its as [|x r IHr]; intros y I; [destruct I|].
  destruct I as [I|I]; [|apply IHr, I]. destruct x as [s|z|z]; try discriminate I.
  injection I as <-. apply IH.
Qed.

Lemma find_message_sound : forall t, t_kind t = KMessage -> settled t -> forall ls,
  find_message span pos t None = Some ls -> exists l i, ls = [l] /\ ON i /\ message_place t l i.
Proof.
  intro t. induction t as [t IHt] using tree_rec'. intros K S ls H. rewrite find_message_scan in H.
  assert (G : forall its pre last, t_items t = pre ++ its -> left_over pre last ->
    scan (find_message span pos) its last = Some ls -> exists l i, ls = [l] /\ ON i /\ message_place t l i).
  2:{ apply (G (t_items t) [] None); [reflexivity|left; reflexivity|exact H]. }
  clear H. intro its. induction its as [|x r IH]; intros pre last E L H; [discriminate H|].
  assert (E' : t_items t = (pre ++ [x]) ++ r) by (rewrite E, <- app_assoc; reflexivity).
  assert (Ix : In x (t_items t)) by (rewrite E; apply in_or_app; right; left; reflexivity).
  assert (SKIP : scan (find_message span pos) r last = Some ls -> exists l i, ls = [l] /\ ON i /\ message_place t l i).
  { intro Q. eapply IH; [exact E'|apply left_over_app, L|exact Q]. }
  assert (NEW : forall n, member x -> scan (find_message span pos) r n = Some ls ->
    exists l i, ls = [l] /\ ON i /\ message_place t l i).
  { intros n M Q. eapply IH; [exact E'|apply left_over_new, M|exact Q]. }
  pose proof (left_over_none t pre x r last (proj2 (proj2 (proj2 (settled_here t S)))) E L) as LN.
  destruct x as [s|y|y]; cbn [scan] in H; [| |apply SKIP, H].
  - destruct (match_option (option_name s) message_option) eqn:M; [|apply SKIP, H].
    destruct (find_message_option span pos s) as [o|] eqn:F; [|apply SKIP, H].
    rewrite (LN Logic.I) in H. injection H as <-.
    destruct (find_message_option_sound t s o K (settled_here t S) (in_options t s Ix) M F) as (i & O & P).
    destruct o as [o|]; cbn.
    + exists (LOpt o), i. split; [reflexivity|split; [exact O|]]. constructor. exact P.
    + exists LHere, i. split; [reflexivity|split; [exact O|]]. rewrite P. constructor.
  - destruct (t_kind y) eqn:Ky; try (apply SKIP, H).
    + cbn [heading] in LN. rewrite Ky in LN. rewrite (LN Logic.I) in H.
      destruct (find_message span pos y None) as [ls'|] eqn:F; [|apply SKIP; rewrite <- H, (LN Logic.I); reflexivity].
      injection H as <-. destruct (IHt y Ix Ky (settled_in t y S Ix) _ F) as (l & i & -> & O & P).
      exists (LNested (t_name y) l), i. split; [reflexivity|split; [exact O|]]. apply mp_nested; assumption.
    + destruct (find_field span pos y) as [p|] eqn:F.
      * injection H as <-. destruct (find_field_sound y p Ky (settled_here y (settled_in t y S Ix)) F) as (i & O & P).
        exists (LField (t_name y) p), i. split; [reflexivity|split; [exact O|]]. apply mp_field; [|exact P].
        apply field_own; [left; exact Ix|exact Ky].
      * apply (NEW _) in H; [exact H|]. cbn. rewrite Ky. exact Logic.I.
    + destruct (find_oneof span pos (t_items y) last) as [ls'|last'] eqn:F.
      * injection H as ->. apply find_oneof_hit in F. destruct F as (x & p & I & Kx & F & ->).
        destruct (find_field_sound x p Kx (settled_here x (settled_in y x (settled_in t y S Ix) I)) F) as (i & O & P).
        exists (LField (t_name x) p), i. split; [reflexivity|split; [exact O|]]. apply mp_field; [|exact P].
        eapply field_oneof; [exact Ix|exact Ky|exact I|exact Kx].
      * apply (NEW _) in H; [exact H|]. cbn. rewrite Ky. exact Logic.I.
    + cbn [heading] in LN. rewrite Ky in LN.
      destruct (find_enum span pos (t_items y) None) as [xs|] eqn:F; [|apply SKIP, H].
      rewrite (LN Logic.I) in H. injection H as <-.
      destruct (find_enum_sound y Ky (settled_in t y S Ix) (t_items y) [] None xs eq_refl (or_introl eq_refl) F)
        as (e & i & -> & O & P).
      exists (LEnum (t_name y) e), i. split; [reflexivity|split; [exact O|]]. apply mp_enum; assumption.
Qed.

Lemma find_location_sound : forall ds, (forall d, in_file ds d -> tidy d) -> forall ls,
  find_location span pos ds = Some ls -> exists l i, ls = [l] /\ location_place ds l i /\ ON i.
Proof.
  intros ds T.
  assert (S : forall t, In (TopD t) ds -> settled t).
  { intros t I d D. apply T. exists t. split; [exact I|exact D]. }
  clear T. assert (G : forall r, (forall x, In x r -> In x ds) -> forall ls,
    find_location span pos r = Some ls -> exists l i, ls = [l] /\ location_place ds l i /\ ON i).
  2:{ apply (G ds). auto. }
  intro r. induction r as [|x r IH]; intros IN ls H; [discriminate H|].
  assert (SKIP : find_location span pos r = Some ls -> exists l i, ls = [l] /\ location_place ds l i /\ ON i).
  { intro Q. apply IH; [intros y I; apply IN; right; exact I|exact Q]. }
  pose proof (IN x (or_introl eq_refl)) as Ix.
  destruct x as [n i|t]; cbn [find_location] in H.
  - destruct (contains span pos i) eqn:C; [|apply SKIP, H]. injection H as <-.
    exists (TopImport n), i. split; [reflexivity|split; [exact Ix|apply contains_on, C]].
  - destruct (t_kind t) eqn:K; try (apply SKIP, H).
    + destruct (find_message span pos t None) as [ms|] eqn:F; [|apply SKIP, H]. injection H as <-.
      destruct (find_message_sound t K (S t Ix) _ F) as (l & i & -> & O & P).
      exists (TopMessage (t_name t) l), i. split; [reflexivity|split; [|exact O]]. exists t. auto.
    + destruct (find_service span pos (t_items t) None) as [ms|] eqn:F; [|apply SKIP, H]. injection H as <-.
      destruct (find_service_sound t (S t Ix) (t_items t) [] None _ eq_refl (or_introl eq_refl) F) as (l & i & -> & O & P).
      exists (TopService (t_name t) l), i. split; [reflexivity|split; [|exact O]]. exists t. auto.
Qed.

End Sound.

Section Complete.
Variable span : spans.
Variable pos : position.
Local Notation ON := (on span pos).

Ltac names H :=
  repeat match type of H with
  | (if String.eqb ?f ?n then _ else _) = _ => destruct (String.eqb_spec f n) as [->|_]
  end.

(** ** A search that finds something stands on something *)

Definition touches (v : value) : Prop := exists u, part v u /\ ON (node u).

Lemma touches_in : forall v u, part v u -> touches u -> touches v.
Proof. intros v u P (w & Q & O). exists w. split; [eapply part_trans; [exact P|exact Q]|exact O]. Qed.

Lemma touches_field : forall i es f w, In (f, w) es -> touches w -> touches (VMsg i es).
Proof. intros i es f w I. apply touches_in. eapply part_field; [exact I|constructor]. Qed.

Lemma touches_node : forall v, ON (node v) -> touches v.
Proof. intros v O. exists v. split; [constructor|exact O]. Qed.

Lemma touches_message : forall v x, In x (message_list v) -> touches (lit_value x) -> touches v.
Proof. intros v x I. apply touches_in, part_message, I. Qed.

Lemma string_touches : forall (A : Type) v (a b : A), on_string span pos v a = Hit b -> touches v.
Proof. intros A v a b H. apply on_string_hit in H. apply touches_node, H. Qed.

Lemma find_arguments_touches : forall v r, find_arguments span pos (message_list v) = Some r -> touches v.
Proof.
  intros v r H. unfold find_arguments in H. apply ends_some in H. destruct H as [H|[_ H]]; [|discriminate H].
  apply each_from_hit in H. destruct H as (k & x & Nx & H). apply each_hit in H. destruct H as ((f & w) & I & H).
  apply nth_error_In in Nx. apply (touches_message _ _ Nx), (touches_field _ _ _ _ I).
  names H; try discriminate H; apply string_touches in H; exact H.
Qed.

Lemma find_request_touches : forall v r, find_request span pos (message_list v) = Some r -> touches v.
Proof.
  intros v r H. unfold find_request in H. apply ends_some in H. destruct H as [H|[_ H]]; [|discriminate H].
  apply each_from_hit in H. destruct H as (k & x & Nx & H). apply nth_error_In in Nx. apply (touches_message _ _ Nx).
  match type of H with match ?e with _ => _ end = _ => destruct e as [| |a] eqn:E end; [|discriminate H|].
  - apply found_hit, on_node_some in H. destruct H as [_ O]. apply touches_node. exact O.
  - apply each_hit in E. destruct E as ((f & w) & I & E). apply (touches_field _ _ _ _ I).
    names E; try discriminate E; apply string_touches in E; exact E.
Qed.

Lemma find_message_expr_touches : forall idx i es r, find_message_expr span pos idx i es = Some r -> touches (VMsg i es).
Proof.
  intros idx i es r H. unfold find_message_expr in H. apply ends_some in H. destruct H as [H|[_ H]].
  - apply each_hit in H. destruct H as ((f & w) & I & H). apply (touches_field _ _ _ _ I).
    names H; try discriminate H; [apply string_touches in H; exact H|].
    destruct (find_arguments span pos (message_list w)) as [[n p]|] eqn:E; [|discriminate H].
    eapply find_arguments_touches. exact E.
  - apply on_node_some in H. destruct H as [_ O]. apply touches_node. exact O.
Qed.

Lemma find_call_touches : forall idx i es r, find_call span pos idx i es = Some r -> touches (VMsg i es).
Proof.
  intros idx i es r H. unfold find_call in H. apply ends_some in H. destruct H as [H|[_ H]].
  - apply each_hit in H. destruct H as ((f & w) & I & H). apply (touches_field _ _ _ _ I).
    names H; try discriminate H; [apply string_touches in H; exact H|].
    destruct (find_request span pos (message_list w)) as [[n p]|] eqn:E; [|discriminate H].
    eapply find_request_touches. exact E.
  - apply on_node_some in H. destruct H as [_ O]. apply touches_node. exact O.
Qed.

Definition def_turn (idx : nat) (e : string * value) : turn mopt_part :=
  let (f, v) := e in
  if String.eqb f "name" then on_string span pos v (MODef idx DName)
  else if String.eqb f "if" then on_string span pos v (MODef idx DIf)
  else if String.eqb f "by" then on_string span pos v (MODef idx DBy)
  else if String.eqb f "call" then on_literal v (find_call span pos idx)
  else if String.eqb f "message" then on_literal v (find_message_expr span pos idx)
  else Next.

Lemma def_turn_touches : forall idx f v o, def_turn idx (f, v) = Hit o -> touches v.
Proof.
  intros idx f v o H. unfold def_turn in H.
  names H; try discriminate H; try (apply string_touches in H; exact H);
    unfold on_literal in H; destruct v as [i t|i t|i|i es|i l]; try discriminate H; apply found_hit in H.
  - eapply find_call_touches. exact H.
  - eapply find_message_expr_touches. exact H.
Qed.

Lemma find_def_touches : forall v o, find_def span pos (message_list v) = Some o -> touches v.
Proof.
  intros v o H. unfold find_def in H. apply ends_some in H. destruct H as [H|[_ H]].
  - apply each_from_hit in H. destruct H as (k & x & Nx & H). apply each_hit in H. destruct H as ((f & w) & I & H).
    apply nth_error_In in Nx. apply (touches_message _ _ Nx), (touches_field _ _ _ _ I).
    eapply def_turn_touches. exact H.
  - destruct (message_list v) as [|x r] eqn:M; [discriminate H|]. apply on_node_some in H. destruct H as [_ O].
    apply (touches_message v x); [rewrite M; left; reflexivity|]. apply touches_node. exact O.
Qed.

Lemma find_message_option_touches : forall s o, find_message_option span pos s = Some o -> touches (o_val s).
Proof.
  intros s o H. unfold find_message_option in H. destruct (o_val s) as [i x|i x|i|i es|i l].
  - destruct (has_suffix "alias" (option_name s) && contains span pos i) eqn:X.
    + apply andb_true_iff in X. apply touches_node, contains_on, X.
    + apply on_node_some in H. destruct H as [_ O]. apply touches_node. exact O.
  - apply on_node_some in H. destruct H as [_ O]. apply touches_node. exact O.
  - apply on_node_some in H. destruct H as [_ O]. apply touches_node. exact O.
  - apply ends_some in H. destruct H as [H|[_ H]].
    + apply each_hit in H. destruct H as ((f & w) & I & H). apply (touches_field _ _ _ _ I).
      names H; try discriminate H; apply found_hit in H.
      * apply on_node_some in H. destruct H as [_ O]. apply touches_node. exact O.
      * destruct (find_def span pos (message_list w)) as [p|] eqn:E; [|discriminate H].
        eapply find_def_touches. exact E.
    + apply on_node_some in H. destruct H as [_ O]. apply touches_node. exact O.
  - apply on_node_some in H. destruct H as [_ O]. apply touches_node. exact O.
Qed.

Lemma find_field_option_touches : forall s o, find_field_option span pos s = Some o -> touches (o_val s).
Proof.
  intros s o H. unfold find_field_option in H. destruct (o_val s) as [i x|i x|i|i es|i l]; try discriminate H.
  - destruct (has_suffix "by" (option_name s)); [|discriminate H].
    apply on_node_some in H. destruct H as [_ O]. apply touches_node. exact O.
  - apply ends_some in H. destruct H as [H|[_ H]]; [|discriminate H].
    apply each_hit in H. destruct H as ((f & w) & I & H). apply (touches_field _ _ _ _ I).
    names H; try discriminate H. apply string_touches in H; exact H.
Qed.

Lemma find_enum_option_touches : forall s o, find_enum_option span pos s = Some o -> touches (o_val s).
Proof.
  intros s o H. unfold find_enum_option in H. destruct (o_val s) as [i x|i x|i|i es|i l]; try discriminate H.
  - destruct (has_suffix "alias" (option_name s)); [|discriminate H].
    apply on_node_some in H. destruct H as [_ O]. apply touches_node. exact O.
  - apply ends_some in H. destruct H as [H|[_ H]]; [|discriminate H].
    apply each_hit in H. destruct H as ((f & w) & I & H). apply (touches_field _ _ _ _ I).
    names H; try discriminate H. apply string_touches in H; exact H.
Qed.

Lemma find_enum_value_option_touches : forall s o, find_enum_value_option span pos s = Some o -> touches (o_val s).
Proof.
  intros s o H. unfold find_enum_value_option in H. destruct (o_val s) as [i x|i x|i|i es|i l]; try discriminate H.
  - apply touches_node, contains_on. cbn [node].
    destruct (contains span pos i); [reflexivity|]. rewrite !andb_false_r in H. discriminate H.
  - apply ends_some in H. destruct H as [H|[_ H]]; [|discriminate H].
    apply each_hit in H. destruct H as ((f & w) & I & H). apply (touches_field _ _ _ _ I).
    names H; try discriminate H; [|apply string_touches in H; exact H].
    destruct w as [j x|j x|j|j es'|j l]; try discriminate H.
    + apply found_hit, on_node_some in H. destruct H as [_ O]. apply touches_node. exact O.
    + apply each_hit in H. destruct H as (w & Iw & H). destruct w as [k x|k x|k|k es'|k l']; try discriminate H.
      apply found_hit, on_node_some in H. destruct H as [_ O].
      exists (VStr k x). split; [eapply part_elem; [exact Iw|constructor]|exact O].
Qed.

Lemma find_method_option_touches : forall s o, find_method_option span pos s = Some o -> touches (o_val s).
Proof.
  intros s o H. unfold find_method_option in H. destruct (o_val s) as [i x|i x|i|i es|i l]; try discriminate H.
  - destruct (has_suffix "timeout" (option_name s)); [|discriminate H].
    apply on_node_some in H. destruct H as [_ O]. apply touches_node. exact O.
  - apply ends_some in H. destruct H as [H|[_ H]]; [|discriminate H].
    apply each_hit in H. destruct H as ((f & w) & I & H). apply (touches_field _ _ _ _ I).
    names H; try discriminate H. apply string_touches in H; exact H.
Qed.

Lemma find_service_option_touches : forall s o, find_service_option span pos s = Some o -> touches (o_val s).
Proof.
  intros s o H. unfold find_service_option in H.
  destruct (o_val s) as [i x|i x|i|i es|i l];
    try (apply on_node_some in H; destruct H as [_ O]; apply touches_node; exact O).
  apply ends_some in H. destruct H as [H|[_ H]];
    [|apply on_node_some in H; destruct H as [_ O]; apply touches_node; exact O].
  apply each_hit in H. destruct H as ((f & v) & I & H). apply (touches_field _ _ _ _ I). names H; try discriminate H.
  unfold on_literal in H. destruct v as [j x|j x|j|j es'|j l]; try discriminate H. apply found_hit in H.
  apply ends_some in H. destruct H as [H|[_ H]];
    [|apply on_node_some in H; destruct H as [_ O]; apply touches_node; exact O].
  apply each_hit in H. destruct H as ((f & v) & J & H). apply (touches_field _ _ _ _ J). names H; try discriminate H.
  - apply found_hit, on_node_some in H. destruct H as [_ O]. apply touches_node. exact O.
  - unfold on_literal in H. destruct v as [k x|k x|k|k es''|k l]; try discriminate H. apply found_hit in H.
    apply ends_some in H. destruct H as [H|[_ H]];
      [|apply on_node_some in H; destruct H as [_ O]; apply touches_node; exact O].
    apply each_hit in H. destruct H as ((f & v) & L & H). apply (touches_field _ _ _ _ L). names H; try discriminate H.
    apply found_hit, on_node_some in H. destruct H as [_ O]. apply touches_node. exact O.
Qed.

Lemma away_touches : forall v, away span pos v -> ~ touches v.
Proof. intros v A (u & P & O). apply (A u P O). Qed.

(** A declaration with an option or a type under the cursor. *)
Definition under (t : tree) : Prop :=
  exists d, declared t d /\ ((exists s, In s (options d) /\ touches (o_val s)) \/ exists i, t_ty d = Some i /\ ON i).

Lemma away_under : forall t, away_tree span pos t -> ~ under t.
Proof.
  intros t A (d & D & [(s & I & T)|(i & Y & O)]); destruct (A d D) as [B C].
  - apply (away_touches _ (B s I) T).
  - apply (C i Y O).
Qed.

Lemma under_option : forall t s, In (IOpt s) (t_items t) -> touches (o_val s) -> under t.
Proof. intros t s I T. exists t. split; [constructor|left]. exists s. split; [apply in_options, I|exact T]. Qed.

Lemma under_in : forall t x, In (ISub x) (t_items t) -> under x -> under t.
Proof. intros t x I (d & D & U). exists d. split; [eapply declared_in; [left; exact I|exact D]|exact U]. Qed.

Lemma stmts_under : forall (A : Type) ext (f : stmt -> option A) t a,
  (forall s b, f s = Some b -> touches (o_val s)) -> each (on_stmt ext f) (t_items t) = Hit a -> under t.
Proof.
  intros A ext f t a F H. apply each_hit in H. destruct H as (x & I & H). apply on_stmt_hit in H.
  destruct H as (s & -> & _ & H). apply (under_option t s I (F s a H)).
Qed.

Lemma find_field_under : forall t p, find_field span pos t = Some p -> under t.
Proof.
  intros t p H. unfold find_field in H.
  assert (Y : match t_ty t with Some i => on_node span pos i FType | None => None end = Some p -> under t).
  { intro Q. destruct (t_ty t) as [i|] eqn:Y; [|discriminate Q]. apply on_node_some in Q. destruct Q as [_ O].
    exists t. split; [constructor|right]. exists i. auto. }
  match type of H with match ?e with _ => _ end = _ => destruct e as [| |o] eqn:E end; [apply Y, H|apply Y, H|].
  eapply stmts_under; [apply find_field_option_touches|exact E].
Qed.

Lemma find_enum_under : forall t its last xs, (forall x, In x its -> In x (t_items t)) ->
  find_enum span pos its last = Some xs -> under t.
Proof.
  intros t its. induction its as [|x r IH]; intros last xs S H; [discriminate H|].
  assert (Ix : In x (t_items t)) by (apply S; left; reflexivity).
  assert (SKIP : forall lst, find_enum span pos r lst = Some xs -> under t).
  { intros lst Q. eapply IH; [intros y I; apply S; right; exact I|exact Q]. }
  destruct x as [s|y|y]; cbn [find_enum] in H;
    [|destruct y as [k n i ty its']; destruct k; try (apply (SKIP _ H))|apply (SKIP _ H)].
  - destruct (match_option (option_name s) enum_option); [|apply (SKIP _ H)].
    destruct (find_enum_option span pos s) as [o|] eqn:F; [|apply (SKIP _ H)].
    apply (under_option t s Ix), (find_enum_option_touches s o F).
  - destruct (ends (each (on_stmt enum_value_option (find_enum_value_option span pos)) its') None) as [o|] eqn:F;
      [|apply (SKIP _ H)].
    apply ends_some in F. destruct F as [F|[_ F]]; [|discriminate F]. apply (under_in t _ Ix).
    eapply (stmts_under _ _ _ (Tree KEnumValue n i ty its')); [apply find_enum_value_option_touches|exact F].
Qed.

Lemma find_service_under : forall t its last xs, (forall x, In x its -> In x (t_items t)) ->
  find_service span pos its last = Some xs -> under t.
Proof.
  intros t its. induction its as [|x r IH]; intros last xs S H; [discriminate H|].
  assert (Ix : In x (t_items t)) by (apply S; left; reflexivity).
  assert (SKIP : forall lst, find_service span pos r lst = Some xs -> under t).
  { intros lst Q. eapply IH; [intros y I; apply S; right; exact I|exact Q]. }
  destruct x as [s|y|y]; cbn [find_service] in H;
    [|destruct y as [k n i ty its']; destruct k; try (apply (SKIP _ H))|apply (SKIP _ H)].
  - destruct (match_option (option_name s) service_option); [|apply (SKIP _ H)].
    destruct (find_service_option span pos s) as [o|] eqn:F; [|apply (SKIP _ H)].
    apply (under_option t s Ix), (find_service_option_touches s o F).
  - destruct (ends (each (on_stmt method_option (find_method_option span pos)) its') None) as [o|] eqn:F;
      [|apply (SKIP _ H)].
    apply ends_some in F. destruct F as [F|[_ F]]; [|discriminate F]. apply (under_in t _ Ix).
    eapply (stmts_under _ _ _ (Tree KRpc n i ty its')); [apply find_method_option_touches|exact F].
Qed.

Lemma find_message_under : forall t last ls, find_message span pos t last = Some ls -> under t.
Proof.
  intro t. induction t as [t IHt] using tree_rec'. intros last ls H. rewrite find_message_scan in H.
  assert (G : forall its last, (forall x, In x its -> In x (t_items t)) ->
    scan span pos (find_message span pos) its last = Some ls -> under t).
  2:{ apply (G (t_items t) last); auto. }
  clear last H. intro its. induction its as [|x r IH]; intros last S H; [discriminate H|].
  assert (Ix : In x (t_items t)) by (apply S; left; reflexivity).
  assert (SKIP : forall lst, scan span pos (find_message span pos) r lst = Some ls -> under t).
  { intros lst Q. eapply IH; [intros y I; apply S; right; exact I|exact Q]. }
  destruct x as [s|y|y]; cbn [scan] in H; [| |apply (SKIP _ H)].
  - destruct (match_option (option_name s) message_option); [|apply (SKIP _ H)].
    destruct (find_message_option span pos s) as [o|] eqn:F; [|apply (SKIP _ H)].
    apply (under_option t s Ix), (find_message_option_touches s o F).
  - destruct (t_kind y); try (apply (SKIP _ H)).
    + destruct (find_message span pos y last) as [ls'|] eqn:F; [|apply (SKIP _ H)].
      apply (under_in t y Ix), (IHt y Ix _ _ F).
    + destruct (find_field span pos y) as [p|] eqn:F; [|apply (SKIP _ H)].
      apply (under_in t y Ix), (find_field_under y p F).
    + destruct (find_oneof span pos (t_items y) last) as [ls'|last'] eqn:F; [|apply (SKIP _ H)].
      apply find_oneof_hit in F. destruct F as (x & p & I & _ & F & _).
      apply (under_in t y Ix), (under_in y x I), (find_field_under x p F).
    + destruct (find_enum span pos (t_items y) None) as [xs|] eqn:F; [|apply (SKIP _ H)].
      apply (under_in t y Ix). eapply find_enum_under; [|exact F]. auto.
Qed.

(** ** A text under the cursor is found *)

Lemma text_next : forall (A : Type) v (a : A), (exists i t, v = VStr i t) -> ~ touches v -> on_string span pos v a = Next.
Proof.
  intros A v a (i & t & ->) N. cbn. destruct (contains span pos i) eqn:C; [|reflexivity].
  exfalso. apply N, touches_node, contains_on, C.
Qed.

Lemma text_hit : forall (A : Type) i t (a : A), ON i -> on_string span pos (VStr i t) a = Hit a.
Proof. intros A i t a O. cbn. rewrite (proj2 (contains_on span pos i) O). reflexivity. Qed.

Lemma sits_end : forall v, sits span pos v [] -> exists i t, v = VStr i t /\ ON i.
Proof. intros v H. inversion H; subst. eauto. Qed.

Lemma sits_step : forall v f k r, sits span pos v (One f k :: r) ->
  exists i a w b, v = VMsg i (a ++ (f, w) :: b) /\ (forall e, In e a -> ~ touches (snd e)) /\ sits span pos w r.
Proof.
  intros v f k r H. inversion H as [|i a f' w b k' r' A S| |]; subst. exists i, a, w, b.
  split; [reflexivity|split; [|exact S]]. intros e I. apply away_touches, A, I.
Qed.

Lemma sits_nth : forall v f n r, sits span pos v (Nth f n :: r) ->
  exists i a w b c x d, v = VMsg i (a ++ (f, w) :: b) /\ (forall e, In e a -> ~ touches (snd e)) /\
    message_list w = c ++ x :: d /\ n = List.length c /\ (forall y, In y c -> ~ touches (lit_value y)) /\
    sits span pos (lit_value x) r.
Proof.
  intros v f n r H. inversion H as [| |i a f' w b r' A M S|i a f' j c w d b r' A C M S]; subst.
  - destruct w as [i' t|i' t|i'|i' es|i' l]; try discriminate M.
    exists i, a, (VMsg i' es), b, [], (i', es), []. split; [reflexivity|].
    split; [intros e I; apply away_touches, A, I|]. split; [reflexivity|split; [reflexivity|]].
    split; [intros y []|exact S].
  - destruct w as [i' t|i' t|i'|i' es|i' l]; try discriminate M.
    assert (L : forall c', (forall x, In x c' -> away span pos x /\ is_msg x = true) ->
      exists c2, message_list (VArr j (c' ++ VMsg i' es :: d)) = c2 ++ (i', es) :: message_list (VArr j d) /\
        List.length c' = List.length c2 /\ (forall y, In y c2 -> ~ touches (lit_value y))).
    { intro c'. induction c' as [|y c' IH]; intro Q.
      - exists []. split; [reflexivity|split; [reflexivity|intros y []]].
      - destruct IH as (c2 & E1 & E2 & E3); [intros x I; apply Q; right; exact I|].
        destruct (Q y (or_introl eq_refl)) as [Ay My]. destruct y as [k t|k t|k|k es'|k l]; try discriminate My.
        exists ((k, es') :: c2). split; [cbn in *; rewrite E1; reflexivity|split; [cbn; rewrite E2; reflexivity|]].
        intros z [<-|I]; [apply away_touches, Ay|apply E3, I]. }
    destruct (L c C) as (c2 & E1 & E2 & E3).
    exists i, a, (VArr j (c ++ VMsg i' es :: d)), b, c2, (i', es), (message_list (VArr j d)).
    split; [reflexivity|]. split; [intros e I; apply away_touches, A, I|].
    split; [exact E1|split; [exact E2|split; [exact E3|exact S]]].
Qed.

Lemma touches_lit : forall x f v, In (f, v) (snd x) -> ~ touches (lit_value x) -> ~ touches v.
Proof. intros x f v I N T. apply N. eapply touches_field; [exact I|exact T]. Qed.

Lemma texts_in_text : forall ns f v i es, texts_in ns (VMsg i es) -> In (f, v) es -> In f ns -> exists j t, v = VStr j t.
Proof. intros ns f v i es T J I. apply (T f v I). apply written_in, J. Qed.

Ltac split_names :=
  repeat match goal with
  | |- (if String.eqb ?f ?n then _ else _) = _ => destruct (String.eqb_spec f n) as [->|_]
  end.

Lemma find_arguments_at : forall c x d p, In p [AName; ABy; AInline] ->
  (forall y, In y (c ++ x :: d) -> texts_in ["name"; "by"; "inline"] (lit_value y)) ->
  (forall y, In y c -> ~ touches (lit_value y)) -> sits span pos (lit_value x) (arg_path p) ->
  find_arguments span pos (c ++ x :: d) = Some (List.length c, p).
Proof.
  intros c x d p P T N S. unfold find_arguments.
  erewrite each_from_app; [reflexivity| |].
  - intros k y I. apply each_none. intros (f & v) J. cbn.
    assert (Ty := T y (in_or_app _ _ _ (or_introl I))).
    split_names; try reflexivity;
      (apply text_next; [eapply texts_in_text; [exact Ty|exact J|cbn; auto]|eapply touches_lit; [exact J|apply N, I]]).
  - assert (Tx := T x (in_elt x c d)).
    assert (Sx : exists f, arg_path p = [One f Str] /\
      (f = "name" /\ p = AName \/ f = "by" /\ p = ABy \/ f = "inline" /\ p = AInline)).
    { destruct P as [<-|[<-|[<-|[]]]]; eexists; (split; [reflexivity|]); auto. }
    destruct Sx as (f & E & F). rewrite E in S. apply sits_step in S.
    destruct S as (i & a & w & b & V & A & S). apply sits_end in S. destruct S as (j & t & -> & O).
    destruct x as [ix ex]. unfold lit_value in V. cbn in V. injection V as -> ->. cbn [snd].
    apply each_app.
    + intros (g & v) J. assert (J' : In (g, v) (a ++ (f, VStr j t) :: b)) by (apply in_or_app; left; exact J).
      cbn. split_names; try reflexivity;
        (apply text_next; [eapply texts_in_text; [exact Tx|exact J'|cbn; auto]|apply (A _ J)]).
    + cbn [Nat.add]. destruct F as [[-> ->]|[[-> ->]|[-> ->]]]; cbn [String.eqb]; apply text_hit, O.
Qed.

Lemma find_request_at : forall c x d q, In q [QField; QBy; QIf] ->
  (forall y, In y (c ++ x :: d) -> texts_in ["field"; "by"; "if"] (lit_value y)) ->
  (forall y, In y c -> ~ touches (lit_value y)) -> sits span pos (lit_value x) (req_path q) ->
  find_request span pos (c ++ x :: d) = Some (List.length c, q).
Proof.
  intros c x d p P T N S. unfold find_request.
  erewrite each_from_app; [reflexivity| |].
  - intros k y I. rewrite each_none.
    + unfold on_node. destruct (contains span pos (fst y)) eqn:C; [|reflexivity].
      exfalso. apply (N y I), touches_node, contains_on, C.
    + intros (f & v) J. cbn. assert (Ty := T y (in_or_app _ _ _ (or_introl I))).
      split_names; try reflexivity;
      (apply text_next; [eapply texts_in_text; [exact Ty|exact J|cbn; auto]|eapply touches_lit; [exact J|apply N, I]]).
  - assert (Tx := T x (in_elt x c d)).
    assert (Sx : exists f, req_path p = [One f Str] /\
      (f = "field" /\ p = QField \/ f = "by" /\ p = QBy \/ f = "if" /\ p = QIf)).
    { destruct P as [<-|[<-|[<-|[]]]]; eexists; (split; [reflexivity|]); auto. }
    destruct Sx as (f & E & F). rewrite E in S. apply sits_step in S.
    destruct S as (i & a & w & b & V & A & S). apply sits_end in S. destruct S as (j & t & -> & O).
    destruct x as [ix ex]. unfold lit_value in V. cbn in V. injection V as -> ->. cbn [snd].
    erewrite each_app; [reflexivity| |].
    + intros (g & v) J. assert (J' : In (g, v) (a ++ (f, VStr j t) :: b)) by (apply in_or_app; left; exact J).
      cbn. split_names; try reflexivity;
        (apply text_next; [eapply texts_in_text; [exact Tx|exact J'|cbn; auto]|apply (A _ J)]).
    + cbn [Nat.add]. destruct F as [[-> ->]|[[-> ->]|[-> ->]]]; cbn [String.eqb]; apply text_hit, O.
Qed.

Lemma message_list_lists : forall f ok i es w x, lists_in f ok (VMsg i es) -> In (f, w) es ->
  In x (message_list w) -> ok (lit_value x).
Proof.
  intros f ok i es w x L I J. apply L. apply in_flat_map. exists w. split; [apply written_in, I|].
  rewrite messages_list. apply in_map, J.
Qed.

Lemma find_message_expr_at : forall idx i es g, (g = GName \/ exists m p, g = GArgs m p /\ In p [AName; ABy; AInline]) ->
  texts_in ["name"] (VMsg i es) -> lists_in "args" (texts_in ["name"; "by"; "inline"]) (VMsg i es) ->
  sits span pos (VMsg i es) (msg_path g) -> find_message_expr span pos idx i es = Some (MODef idx (DMessage g)).
Proof.
  intros idx i es g G T L S. unfold find_message_expr.
  assert (NX : forall f v, In (f, v) es -> ~ touches v ->
    (if String.eqb f "name" then on_string span pos v (MODef idx (DMessage GName))
     else if String.eqb f "args" then
            match find_arguments span pos (message_list v) with
            | Some (n, p) => Hit (MODef idx (DMessage (GArgs n p)))
            | None => Next
            end
     else Next) = Next).
  { intros f v J N. split_names; try reflexivity.
    - apply text_next; [eapply texts_in_text; [exact T|exact J|cbn; auto]|exact N].
    - destruct (find_arguments span pos (message_list v)) as [r|] eqn:E; [|reflexivity].
      exfalso. apply N. eapply find_arguments_touches. exact E. }
  destruct G as [->|(m & p & -> & P)].
  - apply sits_step in S. destruct S as (j & a & w & b & V & A & S). apply sits_end in S.
    destruct S as (k & t & -> & O). injection V as -> ->.
    erewrite each_app; [reflexivity| |].
    + intros (f & v) J. apply NX; [apply in_or_app; left; exact J|apply (A _ J)].
    + cbn [String.eqb]. apply text_hit, O.
  - apply sits_nth in S. destruct S as (j & a & w & b & c & x & d & V & A & ML & -> & C & S). injection V as -> ->.
    erewrite each_app; [reflexivity| |].
    + intros (f & v) J. apply NX; [apply in_or_app; left; exact J|apply (A _ J)].
    + cbn [String.eqb]. cbn. rewrite ML, (find_arguments_at c x d p P); [reflexivity| |exact C|exact S].
      intros y I. eapply message_list_lists; [exact L|apply in_or_app; right; left; reflexivity|]. rewrite ML. exact I.
Qed.

Lemma find_call_at : forall idx i es g, (g = CMethod \/ exists m p, g = CRequest m p /\ In p [QField; QBy; QIf]) ->
  texts_in ["method"] (VMsg i es) -> lists_in "request" (texts_in ["field"; "by"; "if"]) (VMsg i es) ->
  sits span pos (VMsg i es) (call_path g) -> find_call span pos idx i es = Some (MODef idx (DCall g)).
Proof.
  intros idx i es g G T L S. unfold find_call.
  assert (NX : forall f v, In (f, v) es -> ~ touches v ->
    (if String.eqb f "method" then on_string span pos v (MODef idx (DCall CMethod))
     else if String.eqb f "request" then
            match find_request span pos (message_list v) with
            | Some (n, p) => Hit (MODef idx (DCall (CRequest n p)))
            | None => Next
            end
     else Next) = Next).
  { intros f v J N. split_names; try reflexivity.
    - apply text_next; [eapply texts_in_text; [exact T|exact J|cbn; auto]|exact N].
    - destruct (find_request span pos (message_list v)) as [r|] eqn:E; [|reflexivity].
      exfalso. apply N. eapply find_request_touches. exact E. }
  destruct G as [->|(m & p & -> & P)].
  - apply sits_step in S. destruct S as (j & a & w & b & V & A & S). apply sits_end in S.
    destruct S as (k & t & -> & O). injection V as -> ->.
    erewrite each_app; [reflexivity| |].
    + intros (f & v) J. apply NX; [apply in_or_app; left; exact J|apply (A _ J)].
    + cbn [String.eqb]. apply text_hit, O.
  - apply sits_nth in S. destruct S as (j & a & w & b & c & x & d & V & A & ML & -> & C & S). injection V as -> ->.
    erewrite each_app; [reflexivity| |].
    + intros (f & v) J. apply NX; [apply in_or_app; left; exact J|apply (A _ J)].
    + cbn [String.eqb]. cbn. rewrite ML, (find_request_at c x d p P); [reflexivity| |exact C|exact S].
      intros y I. eapply message_list_lists; [exact L|apply in_or_app; right; left; reflexivity|]. rewrite ML. exact I.
Qed.

Lemma def_turn_next : forall idx i es f v, plain_def (VMsg i es) -> In (f, v) es -> ~ touches v ->
  def_turn idx (f, v) = Next.
Proof.
  intros idx i es f v (T & LC & LM) J N.
  destruct (def_turn idx (f, v)) as [| |o] eqn:E; [reflexivity| |exfalso; apply N; eapply def_turn_touches; exact E].
  exfalso. unfold def_turn in E.
  assert (X : forall g a, In g ["name"; "if"; "by"] -> f = g -> on_string span pos v (a : mopt_part) = Stop -> False).
  { intros g a G -> Q. rewrite text_next in Q; [discriminate Q| |exact N]. eapply texts_in_text; [exact T|exact J|exact G]. }
  assert (Y : forall g ok F, literals_in g ok (VMsg i es) -> f = g -> on_literal v (F : nat -> elems -> option mopt_part) = Stop -> False).
  { intros g ok F L -> Q. destruct (L v (proj2 (written_in i es g v) J)) as [M _].
    destruct v as [k t|k t|k|k es'|k l]; try discriminate M. cbn in Q. destruct (F k es'); discriminate Q. }
  names E; try discriminate E.
  - eapply X; [|reflexivity|exact E]. cbn; auto.
  - eapply X; [|reflexivity|exact E]. cbn; auto.
  - eapply X; [|reflexivity|exact E]. cbn; auto.
  - eapply Y; [exact LC|reflexivity|exact E].
  - eapply Y; [exact LM|reflexivity|exact E].
Qed.

Lemma def_turn_at : forall idx i es p, texts (MODef idx p) -> plain_def (VMsg i es) ->
  sits span pos (VMsg i es) (def_path p) -> each (def_turn idx) es = Hit (MODef idx p).
Proof.
  intros idx i es p X PD S.
  assert (H1 : exists f k r, def_path p = One f k :: r).
  { inversion X as [|n q Q|n m q Q|n m q Q]; subst; [|cbn; eauto|cbn; eauto].
    destruct Q as [<-|[<-|[<-|[<-|[<-|[]]]]]]; cbn; eauto. }
  destruct H1 as (f & k & r & E). rewrite E in S. apply sits_step in S.
  destruct S as (j & a & w & b & V & A & S). injection V as -> ->.
  assert (Iw : In (f, w) (a ++ (f, w) :: b)) by (apply in_or_app; right; left; reflexivity).
  apply each_app.
  - intros (g & v) J. eapply def_turn_next; [exact PD|apply in_or_app; left; exact J|apply (A _ J)].
  - assert (STR : r = [] -> exists i t, w = VStr i t /\ ON i) by (intros ->; apply sits_end, S).
    destruct PD as (T & LC & LM).
    inversion X as [|n q Q|n m q Q|n m q Q]; subst.
    + destruct Q as [<-|[<-|[<-|[<-|[<-|[]]]]]]; cbn in E; injection E as <- <- <-;
        try (destruct (STR eq_refl) as (i & t & -> & O); cbn -[on_string]; apply text_hit, O).
      * destruct (LC w (proj2 (written_in j _ _ _) Iw)) as (M & TC & LR). destruct w as [i t|i t|i|i es|i l]; try discriminate M.
        cbn -[find_call]. rewrite (find_call_at idx i es CMethod); [reflexivity|left; reflexivity|exact TC|exact LR|exact S].
      * destruct (LM w (proj2 (written_in j _ _ _) Iw)) as (M & TC & LR). destruct w as [i t|i t|i|i es|i l]; try discriminate M.
        cbn -[find_message_expr]. rewrite (find_message_expr_at idx i es GName); [reflexivity|left; reflexivity|exact TC|exact LR|exact S].
    + cbn in E; injection E as <- <- <-.
      destruct (LC w (proj2 (written_in j _ _ _) Iw)) as (M & TC & LR). destruct w as [i t|i t|i|i es|i l]; try discriminate M.
      cbn -[find_call]. rewrite (find_call_at idx i es (CRequest m q)); [reflexivity|right; eauto|exact TC|exact LR|exact S].
    + cbn in E; injection E as <- <- <-.
      destruct (LM w (proj2 (written_in j _ _ _) Iw)) as (M & TC & LR). destruct w as [i t|i t|i|i es|i l]; try discriminate M.
      cbn -[find_message_expr]. rewrite (find_message_expr_at idx i es (GArgs m q)); [reflexivity|right; eauto|exact TC|exact LR|exact S].
Qed.

Lemma find_def_at : forall c x d p, texts (MODef (List.length c) p) ->
  (forall y, In y (c ++ x :: d) -> plain_def (lit_value y)) ->
  (forall y, In y c -> ~ touches (lit_value y)) -> sits span pos (lit_value x) (def_path p) ->
  find_def span pos (c ++ x :: d) = Some (MODef (List.length c) p).
Proof.
  intros c x d p X T N S. unfold find_def.
  erewrite each_from_app; [reflexivity| |].
  - intros k y I. apply each_none. intros (f & v) J. apply (def_turn_next k (fst y) (snd y)).
    + apply (T y). apply in_or_app. left. exact I.
    + exact J.
    + eapply touches_lit; [exact J|apply N, I].
  - apply (def_turn_at (List.length c) (fst x) (snd x) p X); [|exact S].
    apply (T x). apply in_or_app. right. left. reflexivity.
Qed.

Lemma find_message_option_at : forall s i es o, o_val s = VMsg i es -> texts o -> lists_in "def" plain_def (VMsg i es) ->
  sits span pos (VMsg i es) (mopt_path o) -> find_message_option span pos s = Some (Some o).
Proof.
  intros s i es o V X L S. unfold find_message_option. rewrite V.
  assert (NX : forall f v, ~ touches v ->
    (if String.eqb f "alias" then found (on_node span pos (value_id v) (Some MOAlias))
     else if String.eqb f "def" then found (option_map Some (find_def span pos (message_list v)))
     else Next) = Next).
  { intros f v N. split_names; try reflexivity.
    - unfold on_node. destruct (contains span pos (value_id v)) eqn:C; [|reflexivity].
      exfalso. apply N, touches_node. apply contains_on in C. exact C.
    - destruct (find_def span pos (message_list v)) as [r|] eqn:E; [|reflexivity].
      exfalso. apply N. eapply find_def_touches. exact E. }
  assert (D : o = MOAlias \/ exists n p, o = MODef n p) by (inversion X; eauto).
  destruct D as [->|(n & p & ->)].
  - apply sits_step in S. destruct S as (j & a & w & b & Q & A & S). apply sits_end in S.
    destruct S as (k & t & -> & O). injection Q as -> ->.
    erewrite each_app; [reflexivity| |].
    + intros (f & v) J. apply NX, (A _ J).
    + cbn [String.eqb]. cbn. unfold on_node. rewrite (proj2 (contains_on span pos k) O). reflexivity.
  - apply sits_nth in S. destruct S as (j & a & w & b & c & x & d & Q & A & ML & -> & C & S). injection Q as -> ->.
    erewrite each_app; [reflexivity| |].
    + intros (f & v) J. apply NX, (A _ J).
    + cbn [String.eqb]. cbn -[find_def]. rewrite ML, (find_def_at c x d p X); [reflexivity| |exact C|exact S].
      intros y I. eapply message_list_lists; [exact L|apply in_or_app; right; left; reflexivity|]. rewrite ML. exact I.
Qed.

Lemma block_match : forall k s, as_block (extension_of k) s -> match_option (option_name s) (extension_of k) = true.
Proof.
  intros k s [P _]. apply sets_match; [apply ext_undotted|]. unfold sets.
  destruct P as [->| ->]; apply orb_true_iff; [left|right]; apply String.eqb_refl.
Qed.

Lemma on_stmt_next : forall (A : Type) ext (f : stmt -> option A) x,
  (forall s b, f s = Some b -> touches (o_val s)) -> away_item span pos x -> on_stmt ext f x = Next.
Proof.
  intros A ext f [s|y|y] F W; try reflexivity. cbn. destruct (match_option (option_name s) ext); [|reflexivity].
  destruct (f s) as [a|] eqn:E; [|reflexivity]. exfalso. apply (away_touches _ W). eapply F. exact E.
Qed.

Lemma find_field_by : forall x c s d, t_kind x = KField -> t_items x = c ++ IOpt s :: d ->
  (forall y, In y c -> away_item span pos y) -> as_block "grpc.federation.field" s ->
  texts_in ["by"] (o_val s) -> sits span pos (o_val s) [One "by" Str] ->
  find_field span pos x = Some (FOpt FOBy).
Proof.
  intros x c s d K E A B T S. unfold find_field. rewrite E. erewrite each_app; [reflexivity| |].
  - intros y I. apply on_stmt_next; [apply find_field_option_touches|apply A, I].
  - cbn [on_stmt]. change field_option with (extension_of KField). rewrite (block_match KField s B).
    unfold find_field_option. apply sits_step in S. destruct S as (j & a & w & b & V & N & S). apply sits_end in S.
    destruct S as (k & t & -> & O). rewrite V in *.
    erewrite each_app; [reflexivity| |].
    + intros (f & v) J. split_names; [|reflexivity].
      apply text_next; [eapply texts_in_text; [exact T|apply in_or_app; left; exact J|cbn; auto]|apply (N _ J)].
    + cbn [String.eqb]. apply text_hit, O.
Qed.

Lemma find_field_type : forall x i, (forall s, In s (options x) -> away span pos (o_val s)) ->
  t_ty x = Some i -> ON i -> find_field span pos x = Some FType.
Proof.
  intros x i A Y O. unfold find_field.
  match goal with |- match ?e with _ => _ end = _ => destruct e as [| |o] eqn:E end.
  1,2: rewrite Y; unfold on_node; rewrite (proj2 (contains_on span pos i) O); reflexivity.
  exfalso. apply each_hit in E. destruct E as (z & I & H). apply on_stmt_hit in H. destruct H as (s & -> & _ & H).
  apply (away_touches _ (A s (in_options x s I))). eapply find_field_option_touches. exact H.
Qed.

Lemma scan_skip : forall a r last, (forall x, In x a -> away_item span pos x) ->
  exists last', scan span pos (find_message span pos) (a ++ r) last = scan span pos (find_message span pos) r last'.
Proof.
  intros a r. induction a as [|x a IH]; intros last A; [exists last; reflexivity|].
  assert (A' : forall y, In y a -> away_item span pos y) by (intros y I; apply A; right; exact I).
  pose proof (A x (or_introl eq_refl)) as Ax.
  destruct x as [s|y|y]; cbn [app scan]; [| |apply IH, A'].
  - destruct (match_option (option_name s) message_option); [|apply IH, A'].
    destruct (find_message_option span pos s) as [o|] eqn:E; [|apply IH, A'].
    exfalso. apply (away_touches _ Ax). eapply find_message_option_touches. exact E.
  - apply away_under in Ax. destruct (t_kind y) eqn:K; try (apply IH, A').
    + destruct (find_message span pos y last) as [ls|] eqn:E; [|apply IH, A'].
      exfalso. apply Ax. eapply find_message_under. exact E.
    + destruct (find_field span pos y) as [p|] eqn:E; [|apply IH, A'].
      exfalso. apply Ax. eapply find_field_under. exact E.
    + destruct (find_oneof span pos (t_items y) last) as [ls|l'] eqn:E; [|apply IH, A'].
      exfalso. apply Ax. apply find_oneof_hit in E. destruct E as (x & p & I & _ & F & _).
      apply (under_in y x I), (find_field_under x p F).
    + destruct (find_enum span pos (t_items y) None) as [xs|] eqn:E; [|apply IH, A'].
      exfalso. apply Ax. eapply find_enum_under; [|exact E]. auto.
Qed.

Lemma find_message_at : forall t l, cursor span pos t l -> t_kind t = KMessage ->
  (forall d, declared t d -> plain_options d) -> forall last,
  exists ls, find_message span pos t last = Some ls /\ In l ls.
Proof.
  intros t l C. induction C as [t a s b o E A B X S|t a x b c s d E A Kx Ex Ac B S|t a x b i E A Kx Ax Y O|t a x b l E A Kx C IH];
    intros K P last; rewrite find_message_scan, E.
  - destruct (scan_skip a (IOpt s :: b) last A) as (last' & ->). cbn [scan].
    change message_option with (extension_of KMessage). rewrite (block_match KMessage s B).
    destruct B as [_ (i & es & V)].
    assert (L : lists_in "def" plain_def (o_val s)).
    { apply (P t (declared_here t) s); [|exact K]. apply in_options. rewrite E. apply in_or_app. right. left. reflexivity. }
    rewrite V in L, S. rewrite (find_message_option_at s i es o V X L S).
    eexists. split; [reflexivity|]. unfold option_location.
    destruct (field_left last') as [|z zs]; cbn; [left; reflexivity|]. right. apply in_or_app. right. left. reflexivity.
  - destruct (scan_skip a (ISub x :: b) last A) as (last' & ->). cbn [scan]. rewrite Kx.
    assert (T : texts_in ["by"] (o_val s)).
    { apply (P x) with (s := s); [| |exact Kx].
      - eapply declared_in; [left; rewrite E; apply in_or_app; right; left; reflexivity|constructor].
      - apply in_options. rewrite Ex. apply in_or_app. right. left. reflexivity. }
    rewrite (find_field_by x c s d Kx Ex Ac B T S). eexists. split; [reflexivity|left; reflexivity].
  - destruct (scan_skip a (ISub x :: b) last A) as (last' & ->). cbn [scan]. rewrite Kx.
    rewrite (find_field_type x i Ax Y O). eexists. split; [reflexivity|left; reflexivity].
  - destruct (scan_skip a (ISub x :: b) last A) as (last' & ->). cbn [scan]. rewrite Kx.
    destruct (IH Kx) with (last := last') as (ls & F & I).
    { intros d D. apply P. eapply declared_in; [left; rewrite E; apply in_or_app; right; left; reflexivity|exact D]. }
    rewrite F. eexists. split; [reflexivity|]. apply in_map, I.
Qed.

Lemma find_location_at : forall a t b l, (forall x, In x a -> away_top span pos x) -> t_kind t = KMessage ->
  cursor span pos t l -> (forall d, declared t d -> plain_options d) ->
  exists ls, find_location span pos (a ++ TopD t :: b) = Some ls /\ In (TopMessage (t_name t) l) ls.
Proof.
  intros a t b l A K C P. induction a as [|x a IH].
  - cbn. rewrite K. destruct (find_message_at t l C K P None) as (ls & -> & I).
    eexists. split; [reflexivity|]. apply in_map, I.
  - assert (IH' := IH (fun y I => A y (or_intror I))). pose proof (A x (or_introl eq_refl)) as Ax. clear IH A.
    destruct x as [n i|y]; cbn [app find_location].
    + destruct (contains span pos i) eqn:Q; [|exact IH']. exfalso. apply Ax, contains_on, Q.
    + apply away_under in Ax. destruct (t_kind y); try exact IH'.
      * destruct (find_message span pos y None) as [ls|] eqn:F; [|exact IH'].
        exfalso. apply Ax. eapply find_message_under. exact F.
      * destruct (find_service span pos (t_items y) None) as [ls|] eqn:F; [|exact IH'].
        exfalso. apply Ax. eapply find_service_under; [|exact F]. auto.
Qed.

End Complete.
