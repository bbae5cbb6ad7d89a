(** C79: go to definition leads to the declaration that the name below the cursor refers
    to. *)

From Coq Require Import Ascii String List Arith Bool Lia.
From Verif.Base Require Import Text TextProofs.
From Verif.Goto Require Import Model Spec Proofs.
Import ListNotations.
Local Open Scope string_scope.
Local Open Scope list_scope.

(** The files on disk are those that were compiled, and their names are identifiers. *)
Definition on_disk base join_path stat imports (read_decls : string -> option (list decl)) path
           (files : list file) : Prop :=
  (forall f fp, In f files -> file_path base join_path stat imports path f = Some fp ->
                read_decls fp = Some (f_decls f)) /\
  (forall f, In f files -> Forall plain (f_decls f)).
Definition methods_on_disk base join_path stat imports
           (read_svcs : string -> option (list (string * list string))) path (files : list file) : Prop :=
  forall f fp, In f files -> file_path base join_path stat imports path f = Some fp ->
               read_svcs fp = Some (f_svcs f).

(** The full property: the declaration that is shown is one the name refers to. *)
Definition C79_right_statement : Prop :=
  forall base join_path stat imports read_decls path files cur asked fp p,
    on_disk base join_path stat imports read_decls path files ->
    open_package path files cur ->
    find_type base join_path stat imports read_decls path files asked = Some (fp, p) ->
    exists f d, In f files /\ file_path base join_path stat imports path f = Some fp /\
                declares (f_decls f) p d /\ refers cur asked (f_pkg f) p.

(** And a declaration that a name refers to is found. *)
Definition C79_found_statement : Prop :=
  forall base join_path stat imports read_decls path files cur asked f fp p d,
    on_disk base join_path stat imports read_decls path files ->
    open_package path files cur ->
    In f files -> file_path base join_path stat imports path f = Some fp ->
    declares (f_decls f) p d -> refers cur asked (f_pkg f) p ->
    find_type base join_path stat imports read_decls path files asked <> None.

(** The declaration that is shown is in a file that declares what the name refers to, and
    has its simple name; it is the one referred to, if no other declaration of the file
    has that simple name. *)
Theorem C79_right_partial :
  forall base join_path stat imports read_decls path files cur asked fp node,
    on_disk base join_path stat imports read_decls path files ->
    open_package path files cur ->
    find_type base join_path stat imports read_decls path files asked = Some (fp, node) ->
    exists f p d, In f files /\ file_path base join_path stat imports path f = Some fp /\
                  declares (f_decls f) p d /\ refers cur asked (f_pkg f) p /\
                  (exists e, declares (f_decls f) node e) /\ last node "" = last p "" /\
                  (only (f_decls f) p -> node = p).
Proof.
  intros base jp st im rd path files cur asked fp node [D P] O F.
  unfold find_type, type_and_path in F. rewrite (current_package_spec _ _ _ O) in F.
  pose proof (type_loop_spec base jp st im path cur files asked) as T.
  destruct (type_loop base jp st im path cur files asked) as [[tn fp'] |]; [| discriminate F].
  destruct T as (-> & f & p & d & I & Q & [C _] & A). rewrite (D _ _ I Q) in F.
  pose proof (plain_path _ _ _ (P _ I) C) as PP. pose proof (declares_nonempty _ _ _ C) as Ne.
  assert (L : last_part asked = last p "") by (rewrite A; apply last_part_name; assumption).
  pose proof (walk_spec (last_part asked) (f_decls f)) as W.
  destruct (walk (last_part asked) (f_decls f)) as [q |]; [| discriminate F].
  injection F as <- <-. destruct W as (e & E & X). rewrite L in X.
  exists f, p, d. split; [exact I |]. split; [exact Q |]. split; [exact C |].
  split; [rewrite A; apply type_name_refers |]. split; [exists e; exact E |]. split; [exact X |].
  intro U. exact (U _ _ E X).
Qed.
Print Assumptions C79_right_partial.

(** What is found: the messages and the nested types, by their name inside the package
    if it is that of the open file, and by the name with the package if it is not. *)
Theorem C79_found_exact :
  forall base join_path stat imports read_decls path files cur asked,
    on_disk base join_path stat imports read_decls path files ->
    open_package path files cur ->
    (find_type base join_path stat imports read_decls path files asked <> None <->
     exists f fp p d, In f files /\ file_path base join_path stat imports path f = Some fp /\
                      declares (f_decls f) p d /\ (is_enum d = false \/ 2 <= List.length p) /\
                      asked = (if String.eqb (f_pkg f) cur then join "." p
                               else f_pkg f ++ "." ++ join "." p)%string).
Proof.
  intros base jp st im rd path files cur asked [D P] O.
  unfold find_type, type_and_path. rewrite (current_package_spec _ _ _ O).
  pose proof (type_loop_spec base jp st im path cur files asked) as T.
  destruct (type_loop base jp st im path cur files asked) as [[tn fp'] |].
  - destruct T as (-> & f & p & d & I & Q & [C E] & A). rewrite (D _ _ I Q).
    pose proof (plain_path _ _ _ (P _ I) C) as PP. pose proof (declares_nonempty _ _ _ C) as Ne.
    assert (L : last_part asked = last p "") by (rewrite A; apply last_part_name; assumption).
    pose proof (walk_spec (last_part asked) (f_decls f)) as W.
    split; intros _.
    + exists f, fp', p, d. unfold type_name in A. auto.
    + destruct (walk (last_part asked) (f_decls f)) as [q |]; [discriminate |].
      intros _. apply (W _ _ C). symmetry. exact L.
  - split; [intro H; contradiction |]. intros (f & fp & p & d & I & Q & C & E & A).
    exfalso. exact (T f p d fp I Q (conj C E) A).
Qed.
Print Assumptions C79_found_exact.

(** A name that refers only to enums outside of messages leads nowhere. *)
Theorem C79_top_enums_lost :
  forall base join_path stat imports read_decls path files cur asked,
    open_package path files cur ->
    (forall f p d, In f files -> declares (f_decls f) p d -> refers cur asked (f_pkg f) p ->
                   is_enum d = true /\ List.length p = 1) ->
    find_type base join_path stat imports read_decls path files asked = None.
Proof.
  intros base jp st im rd path files cur asked O H.
  unfold find_type, type_and_path. rewrite (current_package_spec _ _ _ O).
  pose proof (type_loop_spec base jp st im path cur files asked) as T.
  destruct (type_loop base jp st im path cur files asked) as [[tn fp'] |]; [| reflexivity].
  destruct T as (_ & f & p & d & I & Q & [C E] & A).
  destruct (H f p d I C) as [X Y]; [rewrite A; apply type_name_refers |].
  destruct E as [E | E]; [rewrite X in E; discriminate E | lia].
Qed.
Print Assumptions C79_top_enums_lost.

(** The type of a field is looked for in its message, then outside of all messages;
    types of the language lead nowhere. *)
Theorem C79_field_partial :
  forall base join_path stat imports read_decls builtin path files cur prefix t,
    on_disk base join_path stat imports read_decls path files ->
    open_package path files cur ->
    (builtin t = true ->
     find_field_type base join_path stat imports read_decls builtin path files prefix t = None) /\
    (forall fp node,
       find_field_type base join_path stat imports read_decls builtin path files prefix t = Some (fp, node) ->
       exists f p d asked, In f files /\ file_path base join_path stat imports path f = Some fp /\
         declares (f_decls f) p d /\ refers cur asked (f_pkg f) p /\ (only (f_decls f) p -> node = p) /\
         (asked = join "." (prefix ++ [t]) \/
          asked = t /\
          forall f' fp' d', In f' files -> file_path base join_path stat imports path f' = Some fp' ->
                            f_pkg f' = cur -> declares (f_decls f') (prefix ++ [t]) d' ->
                            is_enum d' = true /\ prefix = [])) /\
    (forall f fp d, builtin t = false ->
       In f files -> file_path base join_path stat imports path f = Some fp -> f_pkg f = cur ->
       declares (f_decls f) (prefix ++ [t]) d \/ declares (f_decls f) [t] d ->
       is_enum d = false \/ prefix <> [] /\ declares (f_decls f) (prefix ++ [t]) d ->
       find_field_type base join_path stat imports read_decls builtin path files prefix t <> None).
Proof.
  intros base jp st im rd builtin path files cur prefix t D O.
  pose proof (C79_found_exact base jp st im rd path files cur) as X.
  pose proof (C79_right_partial base jp st im rd path files cur) as R.
  unfold find_field_type. split; [intros ->; reflexivity |]. split.
  - intros fp node H. destruct (builtin t); [discriminate H |].
    destruct (find_type base jp st im rd path files (join "." (prefix ++ [t]))) as [r |] eqn:E.
    + injection H as ->. destruct (R _ _ _ D O E) as (f & p & d & A & B & C & F & _ & _ & G).
      exists f, p, d, (join "." (prefix ++ [t])). auto 8.
    + destruct (R _ _ _ D O H) as (f & p & d & A & B & C & F & _ & _ & G).
      exists f, p, d, t. split; [exact A |]. split; [exact B |]. split; [exact C |]. split; [exact F |].
      split; [exact G |]. right. split; [reflexivity |].
      intros f' fp' d' I Q K S.
      destruct (is_enum d') eqn:Z.
      * split; [reflexivity |]. destruct prefix as [| x pr]; [reflexivity |]. exfalso.
        apply (proj2 (X (join "." ((x :: pr) ++ [t])) D O)); [| exact E].
        exists f', fp', ((x :: pr) ++ [t]), d'. rewrite K, String.eqb_refl.
        split; [exact I |]. split; [exact Q |]. split; [exact S |]. split; [| reflexivity].
        right. rewrite app_length. cbn. lia.
      * exfalso. apply (proj2 (X (join "." (prefix ++ [t])) D O)); [| exact E].
        exists f', fp', (prefix ++ [t]), d'. rewrite K, String.eqb_refl. auto 8.
  - intros f fp d B I Q K S N. rewrite B.
    destruct (find_type base jp st im rd path files (join "." (prefix ++ [t]))) as [r |] eqn:E; [discriminate |].
    assert (NI : forall d', declares (f_decls f) (prefix ++ [t]) d' ->
                 is_enum d' = false \/ prefix <> [] -> False).
    { intros d' S' N'. apply (proj2 (X (join "." (prefix ++ [t])) D O)); [| exact E].
      exists f, fp, (prefix ++ [t]), d'. rewrite K, String.eqb_refl.
      split; [exact I |]. split; [exact Q |]. split; [exact S' |]. split; [| reflexivity].
      destruct N' as [N' | N']; [left; exact N' |]. right. rewrite app_length. cbn.
      destruct prefix; [contradiction | cbn; lia]. }
    destruct N as [N | [N S']]; [| exfalso; exact (NI _ S' (or_intror N))].
    destruct S as [S | S]; [exfalso; exact (NI _ S (or_introl N)) |].
    apply (proj2 (X t D O)). exists f, fp, [t], d. rewrite K, String.eqb_refl. auto 8.
Qed.
Print Assumptions C79_field_partial.

(** The method that is shown is in a file with a method the name refers to, and has its
    name; it is that one, if no other service of the file has a method of the name. *)
Theorem C79_method_partial :
  forall base join_path stat imports read_svcs path files cur asked fp svc m,
    methods_on_disk base join_path stat imports read_svcs path files ->
    open_package path files cur ->
    find_method base join_path stat imports read_svcs path files asked = Some (fp, (svc, m)) ->
    exists f svc', In f files /\ file_path base join_path stat imports path f = Some fp /\
                   has_method f svc' m /\ refers_method cur asked (f_pkg f) svc' m /\
                   has_method f svc m /\
                   ((forall s, has_method f s m -> s = svc') -> svc = svc').
Proof.
  intros base jp st im rs path files cur asked fp svc m D O F.
  unfold find_method, method_and_path in F. rewrite (current_package_spec _ _ _ O) in F.
  pose proof (method_loop_spec base jp st im path cur files asked) as T.
  destruct (method_loop base jp st im path cur files asked) as [[n fp'] |]; [| discriminate F].
  destruct T as (f & svc' & I & Q & H & A). rewrite (D _ _ I Q) in F.
  pose proof (walk_methods_spec n (f_svcs f)) as W.
  destruct (walk_methods n (f_svcs f)) as [[s x] |]; [| discriminate F].
  injection F as <- <- <-. destruct W as [-> W].
  exists f, svc'. split; [exact I |]. split; [exact Q |]. split; [exact H |].
  split; [rewrite A; apply method_name_refers |]. split; [exact W |]. intro U. exact (U _ W).
Qed.
Print Assumptions C79_method_partial.

(** What methods are found. *)
Theorem C79_method_found_exact :
  forall base join_path stat imports read_svcs path files cur asked,
    methods_on_disk base join_path stat imports read_svcs path files ->
    open_package path files cur ->
    (find_method base join_path stat imports read_svcs path files asked <> None <->
     exists f fp svc m, In f files /\ file_path base join_path stat imports path f = Some fp /\
                        has_method f svc m /\
                        asked = (if String.eqb (f_pkg f) cur then svc ++ "/" ++ m
                                 else f_pkg f ++ "." ++ svc ++ "/" ++ m)%string).
Proof.
  intros base jp st im rs path files cur asked D O.
  unfold find_method, method_and_path. rewrite (current_package_spec _ _ _ O).
  pose proof (method_loop_spec base jp st im path cur files asked) as T.
  destruct (method_loop base jp st im path cur files asked) as [[n fp'] |].
  - destruct T as (f & svc' & I & Q & H & A). rewrite (D _ _ I Q).
    pose proof (walk_methods_spec n (f_svcs f)) as W.
    split; intros _.
    + exists f, fp', svc', n. unfold method_name in A. auto.
    + destruct (walk_methods n (f_svcs f)) as [sm |]; [discriminate |].
      intros _. destruct H as (ms & J & K). exact (W _ _ J K).
  - split; [intro H; contradiction |]. intros (f & fp & svc & m & I & Q & H & A).
    exfalso. exact (T f svc m fp I Q H A).
Qed.
Print Assumptions C79_method_found_exact.

(** An import leads to a file whose path ends in the name that is written. *)
Theorem C79_import_partial :
  forall base join_path stat imports path files name,
    match find_import_file base join_path stat imports path files name with
    | Some fp => exists f, In f files /\ file_path base join_path stat imports path f = Some fp /\ ends fp name
    | None => forall f fp, In f files -> file_path base join_path stat imports path f = Some fp -> ~ ends fp name
    end.
Proof.
  intros base jp st im path files name. induction files as [| f r IH]; cbn [find_import_file]; [intros ? ? [] |].
  destruct (file_path base jp st im path f) as [fp |] eqn:P.
  - destruct (has_suffix fp name) eqn:S.
    + exists f. split; [left; reflexivity |]. split; [exact P |]. apply has_suffix_ends, S.
    + destruct (find_import_file base jp st im path r name) as [x |].
      * destruct IH as (g & I & R). exists g. split; [right; exact I | exact R].
      * intros g x [<- | I] Q; [| exact (IH _ _ I Q)]. rewrite P in Q. injection Q as <-.
        intro E. apply has_suffix_ends in E. rewrite E in S. discriminate S.
  - destruct (find_import_file base jp st im path r name) as [x |].
    + destruct IH as (g & I & R). exists g. split; [right; exact I | exact R].
    + intros g x [<- | I] Q; [rewrite P in Q; discriminate Q | exact (IH _ _ I Q)].
Qed.
Print Assumptions C79_import_partial.

(** A file is looked for in the directories of imports, in their order. *)
Theorem C79_file_path :
  forall base join_path stat imports path f,
    (base path = f_name f -> file_path base join_path stat imports path f = Some path) /\
    (base path <> f_name f ->
     match file_path base join_path stat imports path f with
     | Some fp => exists a i b, imports = a ++ i :: b /\ fp = join_path i (f_name f) /\ stat fp = true /\
                                Forall (fun x => stat (join_path x (f_name f)) = false) a
     | None => Forall (fun x => stat (join_path x (f_name f)) = false) imports
     end).
Proof.
  intros base jp st im path f. unfold file_path. split.
  - intros ->. rewrite String.eqb_refl. reflexivity.
  - intro N. apply String.eqb_neq in N. rewrite N. clear N.
    induction im as [| i r IH]; cbn [find_import]; [constructor |].
    destruct (st (jp i (f_name f))) eqn:S.
    + exists [], i, r. auto.
    + destruct (find_import jp st r (f_name f)) as [fp |].
      * destruct IH as (a & j & b & -> & E & T & F). exists (i :: a), j, b. auto.
      * constructor; assumption.
Qed.
Print Assumptions C79_file_path.

(** * What the cursor is on *)

Definition C79_cursor_statement : Prop :=
  forall c, c <> OnImport "" -> dispatch (cursor_loc c) = cursor_target c.

Lemma wrapped_field outer m t :
  is_field_type (fold_right (fun n inner => MLoc n false false false None (Some inner) None) (thing_loc m t) outer)
  = is_field_type (thing_loc m t).
Proof.
  induction outer as [| n o IH]; [reflexivity |]. cbn [fold_right is_field_type]. rewrite IH.
  destruct (is_field_type (thing_loc m t)); reflexivity.
Qed.

Lemma wrapped_alias outer m t :
  is_alias_msg (fold_right (fun n inner => MLoc n false false false None (Some inner) None) (thing_loc m t) outer)
  = is_alias_msg (thing_loc m t).
Proof. induction outer as [| n o IH]; [reflexivity | exact IH]. Qed.

(** Everything is told apart at every depth, but the message and the method of a
    definition inside of a nested message. *)
Theorem C79_cursor_exact :
  forall c, c <> OnImport "" ->
    dispatch (cursor_loc c) =
    match c with
    | InMessages (_ :: _) _ OnDefMessage | InMessages (_ :: _) _ OnDefMethod => TNothing
    | _ => cursor_target c
    end.
Proof.
  intros [name | outer m t | [a b]] N.
  - unfold dispatch. cbn [cursor_loc l_import]. destruct (String.eqb_spec name "") as [-> | M]; [contradiction |].
    reflexivity.
  - unfold dispatch. cbn [cursor_loc l_import l_msg l_enum]. cbn [String.eqb negb].
    rewrite wrapped_field, wrapped_alias. destruct outer as [| n o]; [destruct t; reflexivity |].
    cbn [fold_right]. destruct t; reflexivity.
  - destruct a, b; reflexivity.
Qed.
Print Assumptions C79_cursor_exact.

Theorem C79_cursor_refuted : ~ C79_cursor_statement.
Proof.
  intro H. specialize (H (InMessages ["Order"] "Item" OnDefMessage)).
  rewrite C79_cursor_exact in H by discriminate.
  assert (X : TNothing = TMessage) by (apply H; discriminate). discriminate X.
Qed.
Print Assumptions C79_cursor_refuted.

(** * A project: the cases, and where the property fails *)

Definition order : file :=
  {| f_name := "order.proto"; f_pkg := "shop";
     f_decls := [DMsg "Order" [DMsg "Item" []; DMsg "Line" [DMsg "Note" []]; DEnum "Kind"];
                 DMsg "Cart" [DMsg "Item" []]; DEnum "Status"];
     f_svcs := [("Orders", ["Get"; "Put"]); ("Carts", ["Get"])] |}.
Definition user : file :=
  {| f_name := "user.proto"; f_pkg := "user";
     f_decls := [DMsg "User" [DMsg "Name" []]]; f_svcs := [("Users", ["Find"])] |}.
Definition superuser : file :=
  {| f_name := "superuser.proto"; f_pkg := "admin"; f_decls := [DMsg "Root" []]; f_svcs := [] |}.
Definition der : file :=
  {| f_name := "der.proto"; f_pkg := "der"; f_decls := []; f_svcs := [] |}.
Definition ex_base (p : string) : string := if String.eqb p "/w/order.proto" then "order.proto" else p.
Definition ex_join (i n : string) : string := (i ++ "/" ++ n)%string.
Definition ex_stat (p : string) : bool := String.eqb p "/w/user.proto" || String.eqb p "/w/superuser.proto".
Definition ex_read (p : string) : option (list decl) :=
  if String.eqb p "/w/order.proto" then Some (f_decls order)
  else if String.eqb p "/w/user.proto" then Some (f_decls user)
  else if String.eqb p "/w/superuser.proto" then Some (f_decls superuser) else None.
Definition ex_svcs (p : string) : option (list (string * list string)) :=
  if String.eqb p "/w/order.proto" then Some (f_svcs order)
  else if String.eqb p "/w/user.proto" then Some (f_svcs user) else Some [].
Definition ex_files : list file := [superuser; user; order].
Local Notation goto := (find_type ex_base ex_join ex_stat ["/none"; "/w"] ex_read "/w/order.proto" ex_files).

Ltac plains := repeat first [apply Forall_nil | apply Forall_cons | apply plain_enum | apply plain_msg | reflexivity].

Lemma ex_disk : on_disk ex_base ex_join ex_stat ["/none"; "/w"] ex_read "/w/order.proto" ex_files.
Proof.
  split.
  - intros f fp [<- | [<- | [<- | []]]] E; vm_compute in E; injection E as <-; reflexivity.
  - intros f [<- | [<- | [<- | []]]]; cbn; plains.
Qed.

Lemma no_suffix s t : has_suffix s t = false -> ~ ends s t.
Proof. intros H E. apply has_suffix_ends in E. rewrite E in H. discriminate H. Qed.

Lemma ex_open : open_package "/w/order.proto" ex_files "shop".
Proof.
  split.
  - exists order. split; [right; right; left; reflexivity | exists "/w/"; reflexivity].
  - intros f [<- | [<- | [<- | []]]] E; [| | reflexivity];
      exfalso; revert E; apply no_suffix; reflexivity.
Qed.

(** Of two declarations with the same simple name, the last is shown: [Order.Item] leads
    to [Cart.Item]. *)
Theorem C79_right_refuted : ~ C79_right_statement.
Proof.
  intro H. destruct (H _ _ _ _ _ _ _ _ "Order.Item" "/w/order.proto" ["Cart"; "Item"] ex_disk ex_open eq_refl)
    as (f & d & I & P & C & R).
  destruct I as [<- | [<- | [<- | []]]]; vm_compute in P; try discriminate P.
  destruct R as [R | [R | [_ R]]]; vm_compute in R; discriminate R.
Qed.
Print Assumptions C79_right_refuted.

(** Enums outside of messages are not found, nor is a type of the own package by its
    qualified name. *)
Theorem C79_found_refuted :
  ~ C79_found_statement /\
  goto "Status" = None /\ refers "shop" "Status" (f_pkg order) ["Status"] /\
  goto "shop.Cart" = None /\ refers "shop" "shop.Cart" (f_pkg order) ["Cart"] /\
  goto ".user.User" = None /\ refers "shop" ".user.User" (f_pkg user) ["User"].
Proof.
  split; [| unfold refers; repeat split; try reflexivity; auto].
  intro H. refine (H _ _ _ _ _ _ _ _ "Status" order "/w/order.proto" ["Status"] (DEnum "Status") ex_disk ex_open _ _ _ _ eq_refl).
  - right; right; left; reflexivity.
  - reflexivity.
  - apply (declares_here _ (DEnum "Status")). right; right; left; reflexivity.
  - right; right; split; reflexivity.
Qed.
Print Assumptions C79_found_refuted.

(** A type of a message around the message of the field is not found. *)
Theorem C79_field_scope_refuted :
  declares (f_decls order) ["Order"; "Item"] (DMsg "Item" []) /\
  find_field_type ex_base ex_join ex_stat ["/none"; "/w"] ex_read (fun _ => false) "/w/order.proto" ex_files
                  ["Order"; "Line"] "Item" = None.
Proof.
  split; [| reflexivity]. eapply declares_inside; [left; reflexivity |].
  apply (declares_here _ (DMsg "Item" [])). left; reflexivity.
Qed.
Print Assumptions C79_field_scope_refuted.

(** A method leads to that of another service of the file. *)
Theorem C79_method_refuted :
  ~ (forall base join_path stat imports read_svcs path files cur asked fp svc m,
       methods_on_disk base join_path stat imports read_svcs path files ->
       open_package path files cur ->
       find_method base join_path stat imports read_svcs path files asked = Some (fp, (svc, m)) ->
       exists f, In f files /\ file_path base join_path stat imports path f = Some fp /\
                 has_method f svc m /\ refers_method cur asked (f_pkg f) svc m).
Proof.
  intro H.
  assert (D : methods_on_disk ex_base ex_join ex_stat ["/none"; "/w"] ex_svcs "/w/order.proto" ex_files).
  { intros f fp [<- | [<- | [<- | []]]] E; vm_compute in E; injection E as <-; reflexivity. }
  destruct (H _ _ _ _ _ _ _ _ "Orders/Get" "/w/order.proto" "Carts" "Get" D ex_open eq_refl)
    as (f & I & P & C & R).
  destruct I as [<- | [<- | [<- | []]]]; vm_compute in P; try discriminate P.
  destruct R as [R | [R | [_ R]]]; vm_compute in R; discriminate R.
Qed.
Print Assumptions C79_method_refuted.

(** An import leads to another file whose name has the same end; and an imported file
    whose name ends the path of the open file gives it its package, so that none of its
    types is found by its name. *)
Theorem C79_suffix_refuted :
  find_import_file ex_base ex_join ex_stat ["/none"; "/w"] "/w/order.proto" ex_files "user.proto"
    = Some "/w/superuser.proto" /\
  file_path ex_base ex_join ex_stat ["/none"; "/w"] "/w/order.proto" user = Some "/w/user.proto" /\
  current_package "/w/order.proto" (der :: ex_files) = Some "der" /\
  find_type ex_base ex_join ex_stat ["/none"; "/w"] ex_read "/w/order.proto" (der :: ex_files) "Cart" = None /\
  goto "Cart" = Some ("/w/order.proto", ["Cart"]).
Proof. repeat split; reflexivity. Qed.
Print Assumptions C79_suffix_refuted.

(** The cases that work. *)
Example C79_example :
  goto "Order" = Some ("/w/order.proto", ["Order"]) /\
  goto "Order.Line.Note" = Some ("/w/order.proto", ["Order"; "Line"; "Note"]) /\
  goto "Order.Kind" = Some ("/w/order.proto", ["Order"; "Kind"]) /\
  goto "user.User.Name" = Some ("/w/user.proto", ["User"; "Name"]) /\
  goto "User" = None /\
  find_method ex_base ex_join ex_stat ["/none"; "/w"] ex_svcs "/w/order.proto" ex_files "user.Users/Find"
    = Some ("/w/user.proto", ("Users", "Find")) /\
  find_field_type ex_base ex_join ex_stat ["/none"; "/w"] ex_read (fun _ => false) "/w/order.proto" ex_files
                  ["Order"] "Item" = Some ("/w/order.proto", ["Cart"; "Item"]) /\
  dispatch (cursor_loc (InMessages ["Order"; "Line"] "Note" OnFieldType)) = TFieldType /\
  dispatch (cursor_loc (InMessages [] "Order" OnDefMethod)) = TMethod.
Proof. repeat split; reflexivity. Qed.
