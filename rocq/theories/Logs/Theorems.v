(** * The functions that log messages are there, once, and with the right types (C68) *)

From Coq Require Import Ascii String List Bool Arith ZArith Lia.
From Verif.Base Require Import Text.
From Verif.Ident Require Model.
From Verif.Logs Require Import Model Spec Proofs.
Import ListNotations.
Local Open Scope string_scope.

(** For every service: the generator ends, and the log functions of the generated file are valid Go, as are their calls; and
    each of them logs all of its value. [own]: the messages of the service, [requests]: those sent to other services, [called]: those the generated code logs. *)
Definition C68_statement : Prop := forall msgs enums service n own requests called,
  (forall t, used msgs (own ++ requests) t -> below n t) -> incl called requests ->
  exists fuel st, LogValues msgs enums service fuel own requests = Done st /\
    compiles msgs (structs msgs service own) st (calls msgs service own called) /\ forall d, In d st -> shows msgs enums d.

(** The generator ends: messages that refer to each other, or to themselves, are no problem. *)
Theorem C68_terminates : forall msgs enums service n own requests,
  (forall t, used msgs (own ++ requests) t -> below n t) ->
  forall fuel, n < fuel -> LogValues msgs enums service fuel own requests <> More.
Proof. intros msgs enums service n own requests C fuel L. exact (LogValues_ends msgs enums service _ n C fuel own requests eq_refl L). Qed.
Print Assumptions C68_terminates.

(** Whatever the names are, no function is there twice, each logs all there is, and is for a type that occurs. *)
Theorem C68_once : forall msgs enums service fuel own requests st, LogValues msgs enums service fuel own requests = Done st ->
  NoDup (map d_name st) /\ forall d, In d st -> shows msgs enums d /\ named msgs enums service (own ++ requests) (d_name d) (d_param d).
Proof.
  intros msgs enums service fuel own requests st E.
  destruct (LogValues_grows msgs enums service (own ++ requests) fuel own requests st eq_refl E) as [[new [Es [Nd [M _]]]] _]. cbn [app] in Es. subst new.
  split; [apply Nd; constructor | ]. intros d I. split; [exact (made_shows _ _ _ _ d (M d I)) | exact (made_named _ _ _ _ d (M d I))].
Qed.
Print Assumptions C68_once.

(** The code is valid exactly if no argument is null, no enum that occurs has an alias and no map has lists of bytes. This for services where
    different types have different names, the names of the arguments agree, no variable takes the place of an argument, and where a message of another service
    has no rule of its own. *)
Theorem C68_exact_partial : forall msgs enums service n own requests called fuel,
  (forall t, used msgs (own ++ requests) t -> below n t) -> n < fuel -> incl called requests ->
  clear_names msgs enums service (own ++ requests) ->
  (forall i fs, In i (own ++ requests) -> m_arg (msgs i) = Some fs -> In i own /\ argument_named msgs i /\ own_fields msgs i) ->
  ((exists st, LogValues msgs enums service fuel own requests = Done st /\ compiles msgs (structs msgs service own) st (calls msgs service own called))
   <-> no_null msgs (own ++ requests) /\ no_aliases msgs enums (own ++ requests) /\ no_byte_lists msgs (own ++ requests)).
Proof.
  intros msgs enums service n own requests called fuel C L Ic Clear A.
  assert (Nm : forall i fs, In i (own ++ requests)%list -> m_arg (msgs i) = Some fs -> argument_named msgs i) by (intros i fs I E; exact (proj1 (proj2 (A i fs I E)))).
  assert (Own : forall i fs, In i (own ++ requests)%list -> m_arg (msgs i) = Some fs -> In i own) by (intros i fs I E; exact (proj1 (A i fs I E))).
  assert (Fields : forall i, In i own -> own_fields msgs i).
  { intros i I fs x t m u E. assert (I' : In i (own ++ requests)%list) by (apply in_or_app; left; exact I). exact (proj2 (proj2 (A i fs I' E)) fs x t m u E). }
  assert (G : forall st, LogValues msgs enums service fuel own requests = Done st ->
    NoDup (map d_name st) /\ (forall d, In d st -> made msgs enums service (own ++ requests) d) /\ (forall d, In d st -> closed msgs enums st d) /\
    (forall i, In i (own ++ requests)%list -> rooted msgs st i)).
  { intros st E. destruct (LogValues_grows msgs enums service (own ++ requests) fuel own requests st eq_refl E) as [[new [Es [Nd [M Cl]]]] R]. cbn [app] in Es. subst new.
    split; [apply Nd; constructor | ]. split; [exact M | ]. split; [ | exact R]. intros d I. destruct (Cl d I) as [[] | X]. exact X. }
  split.
  - intros [st [E [_ [V _]]]]. destruct (G st E) as [_ [M [Cl R]]]. split; [ | split].
    + exact (made_null msgs enums service _ st M Cl R Clear Nm).
    + exact (valid_aliases msgs enums service _ st M Cl R Clear Nm own V).
    + exact (valid_byte_lists msgs enums service _ st M Cl R Clear Nm own V).
  - intros [NN [NA NB]]. destruct (LogValues msgs enums service fuel own requests) as [st | | ] eqn:E.
    + exists st. split; [reflexivity | ]. destruct (G st eq_refl) as [Nd [M [Cl R]]]. split; [exact Nd | split].
      * exact (all_valid msgs enums service _ st M Cl Clear Nm own Own Fields NA NB).
      * apply (all_calls msgs enums service _ st M R Clear Nm own called); intros i I; apply in_or_app; [left; exact I | right; exact (Ic i I)].
    + exfalso. exact (LogValues_fine msgs enums service _ fuel own requests eq_refl NN E).
    + exfalso. exact (LogValues_ends msgs enums service _ n C fuel own requests eq_refl L E).
Qed.
Print Assumptions C68_exact_partial.

(** The names of an argument agree if the names of its message, and of those it is in, begin with an upper case letter. *)
Theorem C68_arguments : forall msgs i, m_path (msgs i) <> [] -> Forall capitalised (m_path (msgs i)) -> argument_named msgs i.
Proof. exact capitalised_named. Qed.
Print Assumptions C68_arguments.

(** ** Examples *)

(** A service with a method that returns PostResponse, a message Post with a list of comments, each with the comments that answer it and a map; a request to
    another service. *)
Definition msg (path : list string) (fields : list (string * ty)) (nested : list ty) (es : list nat) (arg : option (list (string * ty))) (vars : list (string * ty)) : message :=
  {| m_pkg := "org.post"; m_path := path; m_fields := fields; m_nested := nested; m_enums := es; m_arg := arg; m_vars := vars |}.
Definition ex_msgs (i : nat) : message :=
  match i with
  | 0 => msg ["PostResponse"] [("post", Msg 1 false)] [] [] (Some [("id", Scalar Str false)]) [("post", Msg 1 false)]
  | 1 => msg ["Post"] [("id", Scalar Str false); ("comments", Msg 2 true); ("kind", Enm 0 false)] [Msg 2 false] [0] (Some [("post_id", Scalar Str false)]) []
  | 2 => msg ["Post"; "Comment"] [("at", Scalar Int32 false); ("answers", Msg 2 true); ("likes", Map ".org.post.Post.Comment.LikesEntry" (Scalar Str false) (Enm 0 false) true)] [] [] None []
  | 3 => msg ["GetPostRequest"] [("id", Scalar Str false); ("hash", Scalar Bytes false)] [] [] None []
  | _ => msg ["Other"] [] [] [] None []
  end.
Definition ex_enums (e : nat) : enum := {| e_fqdn := "org.post.Post.Kind"; e_values := [("UNKNOWN", 0%Z); ("LONG", 1%Z)] |}.

Example C68_run : exists st, LogValues ex_msgs ex_enums "FederationService" 5 [0; 1] [3] = Done st /\
  map d_name st = ["logvalue_Org_Post_PostResponseArgument"; "logvalue_Org_Post_PostResponse"; "logvalue_Org_Post_Post"; "logvalue_Org_Post_Post_Comment"; "logvalue_repeated_Org_Post_Post_Comment";
    "logvalue__Org_Post_Post_Comment_LikesEntry"; "logvalue_Org_Post_Post_Kind"; "logvalue_Org_Post_PostArgument"; "logvalue_Org_Post_GetPostRequest"].
Proof. eexists. split; [vm_compute; reflexivity | vm_compute; reflexivity]. Qed.

Definition ex_types : list ty :=
  [Msg 0 false; Msg 1 false; Msg 2 false; Msg 2 true; Msg 3 false; Enm 0 false; Map ".org.post.Post.Comment.LikesEntry" (Scalar Str false) (Enm 0 false) true;
   Scalar Str false; Scalar Int32 false; Scalar Bytes false].
Lemma ex_used : forall t, used ex_msgs [0; 1; 3] t -> In t ex_types.
Proof.
  intros t U. induction U as [i I | i fs n t I Ea It | i b n t U IH It | i b t U IH It | i b e U IH Ie | q k v b U IH].
  - destruct I as [<- | [<- | [<- | []]]]; cbn; tauto.
  - destruct I as [<- | [<- | [<- | []]]]; cbn in Ea; try discriminate Ea; injection Ea as <-; destruct It as [E | []]; injection E as _ <-; cbn; tauto.
  - destruct IH as [E | [E | [E | [E | [E | [E | [E | [E | [E | [E | []]]]]]]]]]]; try discriminate E; injection E as <- _; cbn in It;
      repeat (destruct It as [It | It]; [injection It as _ <-; cbn; tauto | ]); destruct It.
  - destruct IH as [E | [E | [E | [E | [E | [E | [E | [E | [E | [E | []]]]]]]]]]]; try discriminate E; injection E as <- _; cbn in It;
      repeat (destruct It as [It | It]; [subst; cbn; tauto | ]); destruct It.
  - destruct IH as [E | [E | [E | [E | [E | [E | [E | [E | [E | [E | []]]]]]]]]]]; try discriminate E; injection E as <- _; cbn in Ie;
      repeat (destruct Ie as [Ie | Ie]; [subst; cbn; tauto | ]); destruct Ie.
  - destruct IH as [E | [E | [E | [E | [E | [E | [E | [E | [E | [E | []]]]]]]]]]]; try discriminate E; injection E as _ _ <- _; cbn; tauto.
Qed.

(** The functions the types of the example need. *)
Definition ex_named : list (string * gotype) :=
  [("logvalue_Org_Post_PostResponse", GMessage 0); ("logvalue_Org_Post_Post", GMessage 1); ("logvalue_Org_Post_Post_Comment", GMessage 2); ("logvalue_Org_Post_GetPostRequest", GMessage 3);
   ("logvalue_repeated_Org_Post_Post_Comment", GSlice (GMessage 2)); ("logvalue_Org_Post_Post_Kind", GEnum 0);
   ("logvalue__Org_Post_Post_Comment_LikesEntry", GMap (GText "string") (GEnum 0));
   ("logvalue_Org_Post_PostResponseArgument", GStruct "FederationService_Org_Post_PostResponseArgument"); ("logvalue_Org_Post_PostArgument", GStruct "FederationService_Org_Post_PostArgument")].
Lemma ex_names : forall f g, named ex_msgs ex_enums "FederationService" [0; 1; 3] f g -> In (f, g) ex_named.
Proof.
  intros f g N. destruct N as [i b U | i U | e b U | e U | q k v b U | i fs I Ea].
  - apply ex_used in U. destruct U as [E | [E | [E | [E | [E | [E | [E | [E | [E | [E | []]]]]]]]]]]; try discriminate E; injection E as <- _;
      [do 0 right | do 1 right | do 2 right | do 2 right | do 3 right]; left; vm_compute; reflexivity.
  - apply ex_used in U. destruct U as [E | [E | [E | [E | [E | [E | [E | [E | [E | [E | []]]]]]]]]]]; try discriminate E; injection E as <-. do 4 right. left. vm_compute. reflexivity.
  - apply ex_used in U. destruct U as [E | [E | [E | [E | [E | [E | [E | [E | [E | [E | []]]]]]]]]]]; try discriminate E; injection E as <- _. do 5 right. left. vm_compute. reflexivity.
  - apply ex_used in U. destruct U as [E | [E | [E | [E | [E | [E | [E | [E | [E | [E | []]]]]]]]]]]; discriminate E.
  - apply ex_used in U. destruct U as [E | [E | [E | [E | [E | [E | [E | [E | [E | [E | []]]]]]]]]]]; try discriminate E; injection E as <- <- <- _. do 6 right. left. vm_compute. reflexivity.
  - destruct I as [<- | [<- | [<- | []]]]; cbn in Ea; try discriminate Ea; [do 7 right | do 8 right]; left; vm_compute; reflexivity.
Qed.

(** The example meets the hypotheses of the theorem, and its code is valid. *)
Example C68_ex : exists st, LogValues ex_msgs ex_enums "FederationService" 5 [0; 1] [3] = Done st /\
  compiles ex_msgs (structs ex_msgs "FederationService" [0; 1]) st (calls ex_msgs "FederationService" [0; 1] [3]).
Proof.
  apply (proj2 (C68_exact_partial ex_msgs ex_enums "FederationService" 4 [0; 1] [3] [3] 5
    ltac:(intros t U; apply ex_used in U; cbn in U; repeat (destruct U as [<- | U]; [repeat constructor | ]); destruct U)
    ltac:(lia) ltac:(intros i I; exact I)
    ltac:(intros f g g' N N'; apply ex_names in N; apply ex_names in N'; cbn in N, N';
          repeat (destruct N as [N | N]; [injection N as <- <-; repeat (destruct N' as [N' | N']; [first [discriminate N' | injection N' as <-; reflexivity] | ]); destruct N' | ]); destruct N)
    ltac:(intros i fs I Ea; destruct I as [<- | [<- | [<- | []]]]; cbn in Ea; try discriminate Ea; injection Ea as <-;
          (split; [cbn; tauto | split; [vm_compute; reflexivity | ]]); intros fs n t m u Ea It Iu P; cbn in Ea; injection Ea as <-;
          destruct It as [E | []]; injection E as <- <-; cbn in Iu;
          repeat match goal with H : _ \/ _ |- _ => destruct H end; try contradiction;
          match goal with H : _ = (m, u) |- _ => injection H as <- <- end; first [reflexivity | vm_compute in P; discriminate P]))).
  split; [split | split].
  - intros i b n U I. apply ex_used in U. cbn in U. repeat (destruct U as [U | U]; [first [discriminate U | injection U as <- _; cbn in I; repeat (destruct I as [I | I]; [discriminate I | ]); destruct I] | ]). destruct U.
  - intros i fs n I Ea In'. destruct I as [<- | [<- | [<- | []]]]; cbn in Ea; try discriminate Ea; injection Ea as <-; destruct In' as [E | []]; discriminate E.
  - intros e b _. cbn. repeat constructor; cbn; intros H; repeat (destruct H as [H | H]; [discriminate H | ]); destruct H.
  - intros q k b U. apply ex_used in U. cbn in U. repeat (destruct U as [U | U]; [discriminate U | ]). destruct U.
Qed.

(** ** What goes wrong *)

(** An enum with two names for a number: the same case twice. *)
Definition alias_msgs (i : nat) : message := msg ["Post"] [("kind", Enm 0 false)] [] [] (Some []) [].
Definition alias_enums (e : nat) : enum := {| e_fqdn := "org.post.Kind"; e_values := [("UNKNOWN", 0%Z); ("LONG", 1%Z); ("TEXT", 1%Z)] |}.
Lemma alias_used : forall t, used alias_msgs [0] t -> t = Msg 0 false \/ t = Enm 0 false.
Proof.
  intros t U. induction U as [i I | i fs n t I Ea It | i b n t U IH It | i b t U IH It | i b e U IH Ie | q k v b U IH].
  - destruct I as [<- | []]. left. reflexivity.
  - cbn in Ea. injection Ea as <-. destruct It.
  - cbn in It. destruct It as [E | []]. injection E as _ <-. right. reflexivity.
  - destruct It.
  - destruct Ie.
  - destruct IH as [E | E]; discriminate E.
Qed.
(** The functions made do not depend on the fuel, once it is enough. *)
Lemma alias_run : forall fuel st, LogValues alias_msgs alias_enums "S" fuel [0] [] = Done st -> In (enum_def alias_enums 0) st.
Proof. intros [ | fuel] st E; [discriminate E | ]. vm_compute in E. injection E as <-. vm_compute. right. right. left. reflexivity. Qed.

Theorem C68_refuted : ~ C68_statement.
Proof.
  intros S. destruct (S alias_msgs alias_enums "S" 1 [0] [] []) as [fuel [st [E [[_ [V _]] _]]]].
  - intros t U. apply alias_used in U. destruct U as [-> | ->]; constructor. lia.
  - intros i [].
  - pose proof (V _ (alias_run fuel st E)) as X. cbn in X. inversion X as [ | | | | ? ? N]; subst. inversion N as [ | ? ? _ N1]; subst. inversion N1 as [ | ? ? N2 _]; subst. apply N2. left. reflexivity.
Qed.
Print Assumptions C68_refuted.

(** Two arguments whose maps are made in expressions have the same name, "."; the second is logged with the function of the first. *)
Definition maps_msgs (i : nat) : message :=
  match i with
  | 0 => msg ["A"] [] [] [] (Some [("x", Map "." (Scalar Str false) (Scalar Int64 false) true)]) []
  | _ => msg ["B"] [] [] [] (Some [("y", Map "." (Scalar Str false) (Scalar Str false) true)]) []
  end.
Theorem C68_unnamed_maps : exists st, LogValues maps_msgs ex_enums "S" 3 [0; 1] [] = Done st /\
  ~ compiles maps_msgs (structs maps_msgs "S" [0; 1]) st (calls maps_msgs "S" [0; 1] []).
Proof.
  eexists. split; [vm_compute; reflexivity | ]. intros [_ [V _]].
  specialize (V (argument_def maps_msgs "S" 1 [{| a_type := "Any"; a_key := "y"; a_value := Call "logvalue__" (Var "y") |}])).
  match type of V with ?P -> _ => assert (I : P) by (vm_compute; tauto) end. specialize (V I).
  cbn in V. inversion V as [ | ? ? ? ? _ Ea Al | | | ]; subst. cbn in Ea. injection Ea as <-.
  destruct (Al {| a_type := "Any"; a_key := "y"; a_value := Call "logvalue__" (Var "y") |} (or_introl eq_refl)) as [g [T _]]. cbn in T. inversion T as [ | ? ? h Tv Fv | | | | ]; subst. inversion Tv as [? ? X | | | | | ]; subst.
  unfold argument_of in X. vm_compute in X. injection X as <-.
  destruct Fv as [d [Id [En Ep]]]. vm_compute in Id.
  repeat (destruct Id as [<- | Id]; [first [vm_compute in En; discriminate En | vm_compute in Ep; discriminate Ep] | ]). destruct Id.
Qed.
Print Assumptions C68_unnamed_maps.

(** A map with lists of bytes. *)
Definition bytes_msgs (i : nat) : message := msg ["A"] [] [] [] (Some [("x", Map "." (Scalar Str false) (Scalar Bytes true) true)]) [].
Theorem C68_byte_lists : exists st, LogValues bytes_msgs ex_enums "S" 3 [0] [] = Done st /\
  ~ compiles bytes_msgs (structs bytes_msgs "S" [0]) st (calls bytes_msgs "S" [0] []).
Proof.
  eexists. split; [vm_compute; reflexivity | ]. intros [_ [V _]].
  specialize (V (map_def bytes_msgs ex_enums "." (Scalar Str false) (Scalar Bytes true))).
  match type of V with ?P -> _ => assert (I : P) by (vm_compute; tauto) end. specialize (V I).
  cbn in V. inversion V as [ | | ? ? ? ? T | | ]; subst. inversion T as [ | | | | ? T1 | ]; subst. inversion T1 as [ | | | ? ? ? T2 | | ]; subst. inversion T2 as [? ? [_ Y] | | | | | ]. discriminate Y.
Qed.
Print Assumptions C68_byte_lists.

(** A null argument ends the generator. *)
Definition null_msgs (i : nat) : message := msg ["A"] [] [] [] (Some [("x", Null false)]) [].
Theorem C68_null : forall fuel, LogValues null_msgs ex_enums "S" fuel [0] [] = Fatal.
Proof. intros fuel. vm_compute. reflexivity. Qed.
Print Assumptions C68_null.

(** A message within another, with a name in lower case: its argument has two names. *)
Definition lower_msgs (i : nat) : message := msg ["Post"; "body"] [] [] [] (Some []) [].
Theorem C68_lower_case : exists st, LogValues lower_msgs ex_enums "S" 3 [0] [] = Done st /\
  ~ compiles lower_msgs (structs lower_msgs "S" [0]) st (calls lower_msgs "S" [0] []).
Proof.
  eexists. split; [vm_compute; reflexivity | ]. intros [_ [_ C]].
  destruct (C "logvalue_Org_Post_Post_BodyArgument" (GStruct "S_Org_Post_Post_BodyArgument")) as [d [Id [En _]]]; [vm_compute; left; reflexivity | ].
  vm_compute in Id. repeat (destruct Id as [<- | Id]; [vm_compute in En; discriminate En | ]). destruct Id.
Qed.
Print Assumptions C68_lower_case.

(** A message whose name is that of another followed by "Argument". *)
Definition suffix_msgs (i : nat) : message :=
  match i with 0 => msg ["Post"] [] [] [] (Some []) [] | _ => msg ["PostArgument"] [] [] [] (Some []) [] end.
Theorem C68_suffix : exists st, LogValues suffix_msgs ex_enums "S" 3 [0; 1] [] = Done st /\
  ~ compiles suffix_msgs (structs suffix_msgs "S" [0; 1]) st (calls suffix_msgs "S" [0; 1] []).
Proof.
  eexists. split; [vm_compute; reflexivity | ]. intros [_ [_ C]].
  destruct (C "logvalue_Org_Post_PostArgument" (GMessage 1)) as [d [Id [En Ep]]]; [vm_compute; do 3 right; left; reflexivity | ].
  vm_compute in Id. repeat (destruct Id as [<- | Id]; [first [vm_compute in En; discriminate En | vm_compute in Ep; discriminate Ep] | ]). destruct Id.
Qed.
Print Assumptions C68_suffix.

(** A variable with the name of an argument and another type. *)
Definition var_msgs (i : nat) : message := msg ["A"] [] [] [] (Some [("id", Scalar Str false)]) [("id", Scalar Int64 false)].
Theorem C68_variable : exists st, LogValues var_msgs ex_enums "S" 3 [0] [] = Done st /\
  ~ compiles var_msgs (structs var_msgs "S" [0]) st (calls var_msgs "S" [0] []).
Proof.
  eexists. split; [vm_compute; reflexivity | ]. intros [_ [V _]].
  specialize (V (argument_def var_msgs "S" 0 [{| a_type := "String"; a_key := "id"; a_value := Var "id" |}])).
  match type of V with ?P -> _ => assert (I : P) by (vm_compute; tauto) end. specialize (V I).
  cbn in V. inversion V as [ | ? ? ? ? _ Ea Al | | | ]; subst. cbn in Ea. injection Ea as <-.
  destruct (Al {| a_type := "String"; a_key := "id"; a_value := Var "id" |} (or_introl eq_refl)) as [g [T K]]. cbn in T, K. inversion T as [? ? X | | | | | ]; subst. unfold argument_of in X. vm_compute in X. injection X as <-. inversion K.
Qed.
Print Assumptions C68_variable.
