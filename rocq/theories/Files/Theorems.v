(** * C43: every file once, dependencies first *)

From Coq Require Import List Bool Arith Lia Permutation.
From Verif.Files Require Import Model Spec Proofs.
Import ListNotations.

(** ** The compiler *)

(** Proto files do not import each other in a circle (the linker rejects that), so
    that a rank falls along imports.  Compilation then gives the linked files and all
    they import, each once, and a file after everything it imports. *)
Theorem C43_compiled_files : forall imports rank fuel linked,
  (forall f d, In d (imports f) -> rank d < rank f) ->
  (forall f, In f linked -> rank f < fuel) ->
  exists l, proto_files imports fuel linked = Some l /\ NoDup l /\
    ordered imports (fun _ => True) l /\
    forall g, In g l <-> exists f, In f linked /\ reach imports f g.
Proof.
  intros imports rank fuel linked R L. apply (proto_files_spec imports rank R fuel linked L).
Qed.
Print Assumptions C43_compiled_files.

(** A diamond. *)
Definition diamond (f : nat) : list nat :=
  match f with 3 => [1; 2] | 2 => [0] | 1 => [0] | _ => [] end.

Example C43_compiled_sample :
  proto_files diamond 4 [3] = Some [0; 1; 2; 3] /\
  (forall f d, In d (diamond f) -> d < f).
Proof.
  split; [reflexivity | ]. intros f d. do 4 (destruct f as [ | f]; cbn; [lia | ]).
  cbn. intros [].
Qed.

(** ** The whole *)

(** When finitely many files are needed, whatever order the map of files is read in:
    Resolve comes to an end.  It reports the imports that do not compile, if there
    are any.  Otherwise it reports a cycle, and then there is one, or a file that
    cannot be registered, and then that file is at fault; otherwise exactly the
    needed files are resolved, each once, and after everything it depends on, be it
    by a proto import or by an import of the file option. *)
Theorem C43_resolve : forall rule compile valid order deps done files U,
  (forall f, needed rule compile deps files f -> In f U) ->
  NoDup files -> some_order order ->
  let to_do := to_compile rule compile deps files in
  exists N, forall fuel, N <= fuel ->
  exists v, resolve rule compile valid order fuel deps done files = Some v /\
  match v with
  | ImportErrors es => es <> [] /\
      ((forall f ps, rule f = Some ps -> NoDup ps) -> NoDup es) /\
      forall f p, In (f, p) es <-> to_do f p /\ compile p = None
  | RegisterError e =>
      (forall f p, to_do f p -> compile p <> None) /\
      exists fs all, (forall f, In f fs <-> needed rule compile deps files f) /\
        (forall f d, In d (all f) <-> In d (deps f) \/ to_do f d) /\
        match e with
        | Twice _ => False
        | Cycle f => cycle all fs f
        | Invalid f => In f fs /\
            (valid f = false \/ exists d, In d (all f) /\ ~ In d fs /\ ~ In d done)
        end
  | Resolved fs all registered log =>
      (forall f p, to_do f p -> compile p <> None) /\
      NoDup fs /\ (forall f, In f fs <-> needed rule compile deps files f) /\
      (forall f d, In d (all f) <-> In d (deps f) \/ to_do f d) /\
      acyclic all fs /\
      (forall f, In f fs -> forall d, In d (all f) -> In f done \/ In d fs \/ In d done) /\
      (exists new, registered = done ++ new /\ NoDup new /\
        (forall f, In f new <-> In f fs /\ ~ In f done) /\
        (forall f, In f new -> valid f = true) /\
        ordered all (fun d => ~ In d done) new) /\
      Permutation log fs /\ ordered all (fun d => In d fs) log
  end.
Proof.
  intros rule compile valid order deps done files U Un Nf O to_do.
  destruct (import_rule_spec rule compile U deps files Un Nf) as [N HN].
  destruct (HN N (le_n N)) as [fs [s [E [[news En] [Nfs [Ifs [Nc [Ic [Dd Ee]]]]]]]]].
  exists (N + S (length fs)). intros fuel L.
  destruct (HN fuel ltac:(lia)) as [fs' [s' [E' [[news' En'] [Nfs' [Ifs' [Nc' [Ic' [Dd' Ee']]]]]]]]].
  assert (Lf : length fs' = length fs).
  { assert (P : Permutation fs' fs).
    { apply NoDup_Permutation; [exact Nfs' | exact Nfs | ]. intros f. rewrite Ifs, Ifs'. tauto. }
    apply (Permutation_length P). }
  clear E En Nfs Ifs Nc Ic Dd Ee HN. unfold resolve. rewrite E'.
  assert (All : forall f d, In d (i_deps s' f) <-> In d (deps f) \/ to_do f d).
  { intros f d. unfold to_do. rewrite Dd', in_app_iff, <- Ic', in_map_iff. split.
    - intros [H | [[a b] [X H]]]; [left; exact H | right]. apply filter_In in H.
      destruct H as [H Y]. cbn in *. apply Nat.eqb_eq in Y. subst. exact H.
    - intros [H | H]; [left; exact H | right]. exists (f, d). split; [reflexivity | ].
      apply filter_In. split; [exact H | apply Nat.eqb_refl]. }
  assert (Err : forall f p, In (f, p) (i_errors s') <-> to_do f p /\ compile p = None).
  { intros f p. rewrite Ee', filter_In, Ic'. unfold failed. cbn. unfold to_do.
    destruct (compile p); split; intros [A B]; split; try exact A; try discriminate B; reflexivity. }
  destruct (i_errors s') as [ | e es] eqn:Es.
  - assert (NE : forall f p, to_do f p -> compile p <> None).
    { intros f p T C. apply (Err f p). split; assumption. }
    destruct (register_files_spec (i_deps s') valid fs' done fuel order Nfs' ltac:(lia) O) as [r [-> H]].
    destruct r as [reg | e].
    + destruct H as [Ac [Ai [new [E1 [E2 [E3 [E4 E5]]]]]]].
      destruct (resolve_files_spec (i_deps s') fs' Ac fuel fs' [] ltac:(lia) (incl_refl _))
        as [log [El [[L1 [L2 L3]] [_ L4]]]].
      { split; [constructor | ]. split; [apply ordered_nil | intros x []]. }
      unfold kn in El. rewrite El. eexists. split; [reflexivity | ]. cbn.
      split; [exact NE | ]. split; [exact Nfs' | ]. split; [exact Ifs' | ]. split; [exact All | ].
      split; [exact Ac | ]. split.
      { intros f If d Id. destruct (in_dec Nat.eq_dec f done) as [X | X]; [left; exact X | right].
        destruct (in_split f new (proj2 (E3 f) (conj If X))) as [a [b Eb]].
        pose proof (E5 a f b Eb d Id) as Y. apply in_app_iff in Y.
        destruct Y as [Y | Y]; [right; exact Y | left]. apply (E3 d). rewrite Eb.
        apply in_app_iff. left. exact Y. }
      split; [ | split; [ | exact L2]].
      * exists new. split; [exact E1 | ]. split; [exact E2 | ]. split; [exact E3 | ].
        split; [exact E4 | ]. intros a f b Eb d Id X. pose proof (E5 a f b Eb d Id) as Y.
        apply in_app_iff in Y. destruct Y as [Y | Y]; [destruct (X Y) | exact Y].
      * apply NoDup_Permutation; [exact L1 | exact Nfs' | ]. intros f.
        split; [apply L3 | apply L4].
    + eexists. split; [reflexivity | ]. cbn. split; [exact NE | ].
      exists fs', (i_deps s'). split; [exact Ifs' | ]. split; [exact All | exact H].
  - eexists. split; [reflexivity | ]. cbn beta iota. split; [discriminate | ].
    split; [ | intros f p; apply Err]. intros RN. rewrite Ee'. apply NoDup_filter. exact (Nc' RN).
Qed.
Print Assumptions C43_resolve.

(** File 0 imports 1 and 2 by its option, 1 imports 2, and 2 has a proto import 3. *)
Definition sample_rule (f : nat) : option (list nat) :=
  match f with 0 => Some [1; 2] | 1 => Some [2] | _ => None end.
Definition sample_deps (f : nat) : list nat := match f with 2 => [3] | _ => [] end.
Definition sample_compile (f : nat) : option (list nat) :=
  match f with 2 => Some [3; 2] | _ => Some [f] end.

Definition shown (v : option verdict) : option (list nat * list nat * list nat) :=
  match v with Some (Resolved fs _ reg log) => Some (fs, reg, log) | _ => None end.

Example C43_resolve_sample :
  (forall f ps, sample_rule f = Some ps -> NoDup ps) /\
  (forall f, needed sample_rule sample_compile sample_deps [0] f -> In f [0; 1; 2; 3]) /\
  NoDup [0] /\ some_order (@rev nat) /\
  shown (resolve sample_rule sample_compile (fun _ => true) (@rev nat) 9 sample_deps [7] [0]) =
  Some ([1; 3; 2; 0], [7; 3; 2; 1; 0], [3; 2; 1; 0]) /\
  resolve (fun f => match f with 0 => Some [1] | 1 => Some [0] | _ => None end)
    (fun f => Some [f]) (fun _ => true) (fun l => l) 9 (fun _ => []) [7] [0] =
  Some (RegisterError (Cycle 1)).
Proof.
  split; [ | split; [ | split; [ | split; [ | split; reflexivity]]]].
  - intros f ps. destruct f as [ | [ | f]]; cbn; intros H; try discriminate H; injection H as <-.
    + constructor; [intros [X | []]; discriminate X | constructor; [intros [] | constructor]].
    + constructor; [intros [] | constructor].
  - intros f H. induction H as [f I | f ps p ds g H IH R P Np Ec I].
    + cbn in *. tauto.
    + cbn in IH. destruct IH as [<- | [<- | [<- | [<- | []]]]]; cbn in R; try discriminate R;
        injection R as <-; cbn in P; repeat (destruct P as [<- | P]; [cbn in Ec; injection Ec as <-; cbn in I; cbn; tauto | ]);
        destruct P.
  - constructor; [intros [] | constructor].
  - intros l. apply Permutation_sym, Permutation_rev.
Qed.

(** ** Dependencies first, in the list of files *)

(** The list of files itself, which is what the order of generation follows, has
    imported files in front of the given ones, but is not in order of dependencies. *)
Theorem C43_imported_first : forall rule compile deps files U,
  (forall f ps, rule f = Some ps -> NoDup ps) ->
  (forall f, needed rule compile deps files f -> In f U) -> NoDup files ->
  exists N, forall fuel, N <= fuel ->
  exists news s, import_rule rule compile fuel files
      {| i_deps := deps; i_errors := []; i_compiled := [] |} = Some (news ++ files, s) /\
    NoDup (news ++ files) /\ NoDup (i_compiled s) /\
    (forall f, In f news <-> needed rule compile deps files f /\ ~ In f files) /\
    forall f p, In (f, p) (i_compiled s) <-> to_compile rule compile deps files f p.
Proof.
  intros rule compile deps files U RN Un Nf.
  destruct (import_rule_spec rule compile U deps files Un Nf) as [N HN].
  exists N. intros fuel L. destruct (HN fuel L) as [fs [s [E [[news ->] [Nfs [Ifs [Nc [Ic _]]]]]]]].
  exists news, s. split; [exact E | ]. split; [exact Nfs | ]. split; [exact (Nc RN) | ].
  split; [ | exact Ic]. intros f. rewrite <- Ifs, in_app_iff. split.
  - intros I. split; [left; exact I | ]. intros J. destruct (in_split f news I) as [a [b ->]].
    rewrite <- app_assoc in Nfs. cbn in Nfs. apply NoDup_remove_2 in Nfs. apply Nfs.
    apply in_app_iff. right. apply in_app_iff. right. exact J.
  - intros [[I | I] J]; [exact I | destruct (J I)].
Qed.
Print Assumptions C43_imported_first.

Definition C43_files_in_order_statement : Prop :=
  forall rule compile fuel deps files fs s,
    (forall f ps, rule f = Some ps -> NoDup ps) -> NoDup files ->
    import_rule rule compile fuel files
      {| i_deps := deps; i_errors := []; i_compiled := [] |} = Some (fs, s) ->
    ordered (i_deps s) (fun d => In d fs) fs.

(** Finding: 1 imports 2 and comes before it. *)
Theorem C43_files_in_order_refuted : ~ C43_files_in_order_statement.
Proof.
  intros H. destruct C43_resolve_sample as [A [_ [B _]]].
  specialize (H sample_rule sample_compile 9 sample_deps [0] [1; 3; 2; 0] _ A B eq_refl).
  specialize (H [] 1 [3; 2; 0] eq_refl 2). cbn in H. apply H; tauto.
Qed.
Print Assumptions C43_files_in_order_refuted.

(** Without the check made by registration a cycle would not end: for a file on a
    cycle, resolution has no result, however many steps it is given. *)
Theorem C43_cycle_without_registration : forall deps files fuel f,
  cycle deps files f -> resolve_file deps (fun x => mem x files) fuel f [] = None.
Proof. intros deps files fuel f C. apply (resolve_file_cyclic deps files fuel f C). Qed.
Print Assumptions C43_cycle_without_registration.

Example C43_cycle_sample :
  cycle (fun f => match f with 0 => [1] | _ => [0] end) [0; 1] 0.
Proof.
  apply path_more with (d := 1); cbn; try tauto. apply path_one; cbn; tauto.
Qed.

(** Finding: an import that is listed twice in the option is compiled twice. *)
Definition C43_import_once_statement : Prop :=
  forall rule compile fuel deps files fs s, NoDup files ->
    import_rule rule compile fuel files
      {| i_deps := deps; i_errors := []; i_compiled := [] |} = Some (fs, s) ->
    NoDup (i_compiled s).

Theorem C43_import_once_refuted : ~ C43_import_once_statement.
Proof.
  intros H.
  specialize (H (fun f => match f with 0 => Some [1; 1] | _ => None end) (fun f => Some [f]) 9
                (fun _ => []) [0] [1; 0] _ ltac:(constructor; [intros [] | constructor]) eq_refl).
  cbn in H. inversion H as [ | ? ? N _]; subst. apply N. left. reflexivity.
Qed.
Print Assumptions C43_import_once_refuted.

(** ** The result *)

(** The resulting files are, each once, those that have a service with an option or a
    plugin, and the files of their packages. *)
Theorem C43_result : forall ruled package all,
  (forall f g, In g (package f) -> package g = package f) ->
  NoDup (result_files ruled package all) /\
  forall x, In x (result_files ruled package all) <->
    exists f, In f all /\ ruled f = true /\ (x = f \/ In x (package f)).
Proof.
  intros ruled package all P. unfold result_files.
  destruct (result_spec ruled package P (filter ruled all) [] (NoDup_nil _)) as [A B]; [intros f g [] | ].
  split; [exact A | ]. intros x. rewrite B. split.
  - intros [[] | [f [I H]]]. apply filter_In in I. exists f. tauto.
  - intros [f [I [R H]]]. right. exists f. split; [apply filter_In; split; assumption | exact H].
Qed.
Print Assumptions C43_result.

Example C43_result_sample :
  let package f := if f <? 2 then [0; 1] else [2; 3] in
  (forall f g, In g (package f) -> package g = package f) /\
  result_files (fun f => match f with 1 => true | 5 => true | _ => false end) package [0; 1; 2; 5] =
  [1; 0; 5; 2; 3].
Proof.
  cbv zeta. split; [ | reflexivity]. intros f g. destruct (f <? 2); cbn; intros I.
  - destruct I as [<- | [<- | []]]; reflexivity.
  - destruct I as [<- | [<- | []]]; reflexivity.
Qed.
