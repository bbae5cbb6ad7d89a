(** * Calls of the functions of the library and of plugins (C56) *)

From Coq Require Import Ascii String List Bool Arith Lia.
From Verif.Base Require Import Text TextProofs.
From Verif.Bind Require Import Model Spec Proofs.
Import ListNotations.
Local Open Scope string_scope.

(** The full statement: whatever is declared can be called, and is what is called. *)
Definition C56_statement : Prop := forall E e r, means E anything e r -> compile E e = Some r.

(** A service without plugins: [grpc.federation.time.now().add(0)]. *)
Definition plain_service : env := service_env [] [] ["example"].
Definition federation (m : string) : expr := Select (Select (Ident "grpc") "federation") m.
Definition now_add : expr := Member (Member (federation "time") "now" []) "add" [Const 0].
Definition now_add_meant : target := MethT false (FuncT false "grpc.federation.time.now" []) "add" [ConstT 0].

Lemma library_in : forall b, existsb (fun x => match x, b with
  | Func n, Func m => String.eqb n m | Meth n, Meth m => String.eqb n m | _, _ => false end) library = true -> In b library.
Proof.
  intros b H. apply existsb_exists in H. destruct H as [x [I E]]. destruct x as [n | n], b as [m | m]; try discriminate E;
    apply String.eqb_eq in E; subst; exact I.
Qed.

Lemma now_meant : means plain_service anything (Member (federation "time") "now" []) (FuncT false "grpc.federation.time.now" []).
Proof.
  apply (means_function _ _ _ "now" [] "grpc.federation.time").
  - reflexivity.
  - intros H. cbn in H. repeat destruct H as [H | H]; try discriminate H. exact H.
  - change "grpc.federation.time" with (("grpc" ++ "." ++ "federation") ++ "." ++ "time").
    apply dotted_select; [reflexivity | ]. apply dotted_select; [reflexivity | ]. apply dotted_ident; [discriminate | reflexivity].
  - apply lookup_stands_for. vm_compute. reflexivity.
  - cbn [function]. apply in_or_app. left. apply library_in. vm_compute. reflexivity.
  - exact I.
  - constructor.
Qed.

(** A call of the function [Meth f] on the time that [now] returns. *)
Lemma now_method_meant : forall own f, plain f -> ~ In (f, 1) cel_macros -> method plain_service own f ->
  means plain_service anything (Member (Member (federation "time") "now" []) f [Const 0]) (MethT own (FuncT false "grpc.federation.time.now" []) f [ConstT 0]).
Proof.
  intros own f P N M. apply means_method; [exact P | exact N | | exact M | exact I | exact now_meant | repeat constructor].
  intros q n D. inversion D.
Qed.

Theorem C56_refuted : ~ C56_statement.
Proof.
  intros H. specialize (H plain_service now_add now_add_meant).
  assert (M : means plain_service anything now_add now_add_meant).
  { apply now_method_meant; [reflexivity | | apply in_or_app; left; apply library_in; vm_compute; reflexivity].
    intros X. cbn in X. repeat destruct X as [X | X]; try discriminate X. exact X. }
  specialize (H M). vm_compute in H. discriminate H.
Qed.
Print Assumptions C56_refuted.

(** What holds instead, exactly: an expression is compiled as meant if and only if every call
    in it is within reach.  A function of the library or of a plugin always is, with any name. *)
Theorem C56_calls_partial : forall E e r, means E (within_reach E) e r -> compile E e = Some r.
Proof. exact compiles. Qed.
Print Assumptions C56_calls_partial.

Theorem C56_calls_exact : forall E e r, means E anything e r -> (compile E e = Some r <-> means E (within_reach E) e r).
Proof. intros E e r M. split; [apply only_reach; exact M | apply compiles]. Qed.
Print Assumptions C56_calls_exact.

(** An expression in which comparisons with null were changed is printed and compiled again.
    It still means the same, unless the name of a binding is that of a macro of CEL. *)
Theorem C56_printed_again_partial : forall E e r,
  (forall f n b, In b (bindings E) -> named f b -> ~ In (f, n) (fixed E)) ->
  means E (within_reach E) e r -> compile E (reparse (expand E e)) = Some r.
Proof. intros E e r NF M. unfold compile. rewrite (again E e r NF M). exact (compiles E e r M). Qed.
Print Assumptions C56_printed_again_partial.

Definition C56_printed_again_statement : Prop :=
  forall E e r, means E (within_reach E) e r -> compile E (reparse (expand E e)) = Some r.

(** The function map of a plugin, with one argument: printed with the context it has two, and is
    parsed as the macro. *)
Definition map_plugin : env := service_env [Func "shop.map"] [] ["example"].

Theorem C56_printed_again_refuted : ~ C56_printed_again_statement.
Proof.
  intros H. specialize (H map_plugin (Member (Ident "shop") "map" [Const 0]) (FuncT false "shop.map" [ConstT 0])).
  assert (M : means map_plugin (within_reach map_plugin) (Member (Ident "shop") "map" [Const 0]) (FuncT false "shop.map" [ConstT 0])).
  { apply (means_function _ _ _ "map" [Const 0] "shop").
    - reflexivity.
    - intros X. cbn in X. repeat destruct X as [X | X]; try discriminate X. exact X.
    - constructor; [discriminate | reflexivity].
    - apply lookup_stands_for. vm_compute. reflexivity.
    - cbn [function map_plugin service_env bindings]. apply in_or_app. right. left. reflexivity.
    - exact I.
    - repeat constructor. }
  specialize (H M). vm_compute in H. discriminate H.
Qed.
Print Assumptions C56_printed_again_refuted.

(** The library alone: all its methods can be called but two, and all methods of CEL but six. *)
Theorem C56_library_methods : forall fs c f, In (Meth f) library ->
  (within_reach (service_env [] fs c) false true f <-> f <> "parse" /\ f <> "add").
Proof.
  intros fs c f I. pose proof library_methods as L. rewrite forallb_forall in L.
  specialize (L f (proj2 (bound_methods_in library f) I)). apply andb_true_iff in L. destruct L as [L P].
  assert (Pf : plain f) by (unfold plain; destruct (has_char "." f); [discriminate P | reflexivity]).
  assert (B : bindings (service_env [] fs c) = library) by (cbn [bindings service_env]; apply app_nil_r).
  assert (X : within_reach (service_env [] fs c) false true f <-> macro_of library f = Some (Meth f)).
  { rewrite <- B. apply reach_method; [exact Pf | rewrite B; exact I]. }
  rewrite X. apply Bool.eqb_prop in L.
  assert (Y : negb (memb f ["parse"; "add"]) = true <-> f <> "parse" /\ f <> "add").
  { unfold memb. cbn [existsb]. destruct (String.eqb_spec f "parse"), (String.eqb_spec f "add"); cbn; intuition (try discriminate). }
  rewrite <- Y, <- L. destruct (macro_of library f) as [[g | g] | ]; split; intros Z; try discriminate Z.
  - injection Z as ->. apply String.eqb_refl.
  - apply String.eqb_eq in Z. subst. reflexivity.
Qed.
Print Assumptions C56_library_methods.

Theorem C56_cel_methods : forall fs c f, In f cel_methods ->
  (within_reach (service_env [] fs c) true true f <-> ~ In f ["contains"; "replace"; "split"; "trim"; "format"; "join"]).
Proof.
  intros fs c f I. pose proof cel_own as L. rewrite forallb_forall in L. specialize (L f I).
  apply andb_true_iff in L. destruct L as [L P].
  assert (Pf : plain f) by (unfold plain; destruct (has_char "." f); [discriminate P | reflexivity]).
  assert (B : bindings (service_env [] fs c) = library) by (cbn [bindings service_env]; apply app_nil_r).
  rewrite (reach_own (service_env [] fs c) true f Pf), B. apply Bool.eqb_prop in L. rewrite <- memb_in.
  destruct (memb f ["contains"; "replace"; "split"; "trim"; "format"; "join"]), (macro_of library f); cbn in L; try discriminate L;
    split; intros Z; try discriminate Z; try reflexivity; [exfalso; apply Z; reflexivity | discriminate].
Qed.
Print Assumptions C56_cel_methods.

Theorem C56_library_lost : forall fs c f,
  (In (Meth f) library /\ ~ within_reach (service_env [] fs c) false true f) <-> f = "parse" \/ f = "add".
Proof.
  intros fs c f. split.
  - intros [I N]. pose proof (C56_library_methods fs c f I) as L.
    destruct (String.eqb_spec f "parse"); [left; assumption | ]. destruct (String.eqb_spec f "add"); [right; assumption | ].
    exfalso. apply N, L. split; assumption.
  - intros D. assert (I : In (Meth f) library) by (destruct D as [-> | ->]; apply library_in; vm_compute; reflexivity).
    split; [exact I | ]. rewrite (C56_library_methods fs c f I). intuition.
Qed.
Print Assumptions C56_library_lost.

Theorem C56_cel_lost : forall fs c f,
  (In f cel_methods /\ ~ within_reach (service_env [] fs c) true true f) <-> In f ["contains"; "replace"; "split"; "trim"; "format"; "join"].
Proof.
  intros fs c f. split.
  - intros [I N]. rewrite (C56_cel_methods fs c f I), <- memb_in in N.
    apply memb_in. destruct (memb f _); [reflexivity | ]. exfalso. apply N. discriminate.
  - intros D. assert (I : In f cel_methods).
    { cbn in D. decompose [or] D; subst; try contradiction; apply memb_in; vm_compute; reflexivity. }
    split; [exact I | ]. rewrite (C56_cel_methods fs c f I). intros N. exact (N D).
Qed.
Print Assumptions C56_cel_lost.

(** Plugins: a method of the library or of CEL that could be called still can be if and only if
    no function of a plugin has the last part of its name; methods of plugins take away the
    methods of CEL only. *)
Theorem C56_plugin_takes_method : forall plugins fs c f, In (Meth f) library -> f <> "parse" -> f <> "add" ->
  (forall n, In (Func n) plugins -> ~ named f (Func n)) -> within_reach (service_env plugins fs c) false true f.
Proof.
  intros plugins fs c f I N1 N2 NP before b after E N [n ->].
  pose proof (proj2 (C56_library_methods fs c f I) (conj N1 N2)) as R. cbn [within_reach] in R.
  cbn [bindings service_env] in E, R. rewrite app_nil_r in R.
  assert (S : exists l, library = (before ++ Func n :: l)%list /\ (l ++ plugins)%list = after \/ (exists k, plugins = (k ++ Func n :: after)%list)).
  { clear - E. revert before E. generalize library as l. induction l as [ | x l IH]; intros before E.
    - exists []. right. exists before. exact E.
    - destruct before as [ | y before]; cbn [app] in E.
      + injection E as -> E. exists l. left. split; [reflexivity | exact E].
      + injection E as -> E. destruct (IH before E) as [m [[-> A] | [k K]]].
        * exists m. left. split; [reflexivity | exact A].
        * exists m. right. exists k. exact K. }
  destruct S as [l [[L <-] | [k K]]].
  - destruct (R before (Func n) l L N (ex_intro _ n eq_refl)) as [b' [Ib [Nb Eb]]]. exists b'. repeat split; [apply in_or_app; left; exact Ib | exact Nb | exact Eb].
  - exfalso. apply (NP n); [rewrite K; apply in_or_app; right; left; reflexivity | exact N].
Qed.
Print Assumptions C56_plugin_takes_method.

(** A function that is bound is not called by its bare name, wherever the expression is. *)
Theorem C56_bare_name_refused : forall E f args rs n, plain f -> stands_for E f n -> ~ In n (functions E) ->
  Forall2 (means E anything) args rs -> compile E (Call f args) = None.
Proof.
  intros E f args rs n P S N F. unfold compile. cbn [expand check]. rewrite (proj2 (lookup_stands_for E f n) S).
  unfold check_function. destruct (all_some _); [ | reflexivity]. unfold overload. rewrite (args_no_context _ _ _ _ F).
  destruct (memb n (functions E)) eqn:M; [apply memb_in in M; contradiction | reflexivity].
Qed.
Print Assumptions C56_bare_name_refused.

(** ** Examples *)

(** The library alone has no binding with the name of a macro of CEL. *)
Lemma library_not_fixed : forall fs c f n b, In b (bindings (service_env [] fs c)) -> named f b -> ~ In (f, n) (fixed (service_env [] fs c)).
Proof.
  intros fs c f n b I N X. cbn [bindings service_env fixed] in *. rewrite app_nil_r in I.
  pose proof no_fixed_library as L. rewrite forallb_forall in L. specialize (L (f, n) X). cbn [fst] in L.
  destruct (macro_of library f) as [y | ] eqn:M; [discriminate L | ].
  assert (P : plain f) by (unfold plain; destruct (has_char "." f); [discriminate L | reflexivity]).
  apply (macro_none _ _ M b I). apply short_named; assumption.
Qed.

(** [grpc.federation.time.now().sub(0)], called, and printed and called again. *)
Definition now_sub : expr := Member (Member (federation "time") "now" []) "sub" [Const 0].
Definition now_sub_meant : target := MethT false (FuncT false "grpc.federation.time.now" []) "sub" [ConstT 0].

Lemma now_sub_means : means plain_service anything now_sub now_sub_meant.
Proof.
  apply now_method_meant; [reflexivity | | apply in_or_app; left; apply library_in; vm_compute; reflexivity].
  intros X. cbn in X. repeat destruct X as [X | X]; try discriminate X. exact X.
Qed.

Example C56_sub_is_called : compile plain_service now_sub = Some now_sub_meant /\
  means plain_service (within_reach plain_service) now_sub now_sub_meant /\
  compile plain_service (reparse (expand plain_service now_sub)) = Some now_sub_meant.
Proof.
  assert (C : compile plain_service now_sub = Some now_sub_meant) by (vm_compute; reflexivity).
  assert (M : means plain_service (within_reach plain_service) now_sub now_sub_meant) by (apply C56_calls_exact; [exact now_sub_means | exact C]).
  split; [exact C | ]. split; [exact M | ]. apply C56_printed_again_partial; [ | exact M]. apply library_not_fixed.
Qed.

(** A plugin with a function [shop.sub] takes the method away, one with a function [shop.name]
    the accessor of the names of an enum, which CEL has otherwise. *)
Example C56_shop_sub : compile (service_env [Func "shop.sub"] [] ["example"]) now_sub = None.
Proof. vm_compute. reflexivity. Qed.
Example C56_shop_name :
  let e := Member (Select (Ident "example") "Status") "name" [Const 0] in
  compile (service_env [] ["example.Status.name"] []) e = Some (FuncT true "example.Status.name" [ConstT 0]) /\
  compile (service_env [Func "shop.name"] ["example.Status.name"] []) e = None.
Proof. split; vm_compute; reflexivity. Qed.

(** Within its own package the function of a plugin is still not called by its bare name. *)
Example C56_bare_in_own_package :
  stands_for (service_env [Func "shop.price"] [] ["shop"]) "price" "shop.price" /\
  compile (service_env [Func "shop.price"] [] ["shop"]) (Call "price" [Const 0]) = None.
Proof. split; [apply lookup_stands_for | ]; vm_compute; reflexivity. Qed.
