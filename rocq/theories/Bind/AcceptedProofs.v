(** * Lemmas: from the environment of the generator to that of the service *)

From Coq Require Import Ascii String List Bool Arith Lia.
From Verif.Base Require Import Text TextProofs.
From Verif.Bind Require Import Model Spec Proofs.
Import ListNotations.
Local Open Scope string_scope.

Lemma same_declared : forall plugins fs c c' n,
  declared (resolver_env plugins fs c) n <-> declared (service_env plugins fs c') n.
Proof.
  intros plugins fs c c' n. unfold declared. split.
  - intros [[] H]; cbn [function functions bindings resolver_env service_env] in *.
    + apply in_app_or in H. destruct H as [H | H]; [exists true; exact H | ]. exists false. apply in_or_app. right. apply bound_functions_in. exact H.
    + exists false. apply in_or_app. left. exact H.
  - intros [[] H]; cbn [function functions bindings resolver_env service_env] in *.
    + exists true. apply in_or_app. left. exact H.
    + apply in_app_or in H. destruct H as [H | H]; [exists false; exact H | ]. exists true. apply in_or_app. right. apply bound_functions_in. exact H.
Qed.

Lemma same_package : forall plugins fs c, names_agree (resolver_env plugins fs c) (service_env plugins fs c).
Proof.
  intros plugins fs c name n. unfold stands_for, within. cbn [container resolver_env service_env]. split.
  - intros [p [W [En [D L]]]]. exists p. split; [exact W | ]. split; [exact En | ]. split; [apply (same_declared _ _ c c); exact D | ].
    intros p' W' L' D'. apply (L p' W' L'). apply (same_declared _ _ c c). exact D'.
  - intros [p [W [En [D L]]]]. exists p. split; [exact W | ]. split; [exact En | ]. split; [apply (same_declared _ _ c c); exact D | ].
    intros p' W' L' D'. apply (L p' W' L'). apply (same_declared _ _ c c). exact D'.
Qed.

Lemma stands_named : forall E q f n, stands_for E (q ++ "." ++ f) n -> named f (Func n).
Proof.
  intros E q f n [p [_ [En _]]]. right. rewrite En. destruct p as [ | a p]; [exists q; reflexivity | ].
  rewrite join_snoc by discriminate. exists (join "." (a :: p) ++ "." ++ q). rewrite !app_assoc_s. reflexivity.
Qed.

Lemma forall2_step : forall (E E' : env) (Q : expr -> Prop) args rs,
  Forall (fun e => Q e -> forall r, means E (within_reach E) e r -> exists r', means E' (within_reach E') e r' /\ same_calls r r') args ->
  (forall e, In e args -> Q e) ->
  Forall2 (means E (within_reach E)) args rs ->
  exists rs', Forall2 (means E' (within_reach E')) args rs' /\ Forall2 same_calls rs rs'.
Proof.
  intros E E' Q args rs IH HQ F. induction F as [ | a r args rs M F IHF]; [exists []; split; constructor | ].
  inversion IH as [ | ? ? H1 H2]; subst. destruct (H1 (HQ a (or_introl eq_refl)) r M) as [r' [M' S']].
  destruct (IHF H2 (fun e I => HQ e (or_intror I))) as [rs' [F' S2]]. exists (r' :: rs'). split; constructor; assumption.
Qed.

Lemma carried : forall plugins fs c c' e,
  let R := resolver_env plugins fs c in let S := service_env plugins fs c' in
  separate plugins fs -> names_agree R S ->
  (forall f n, bare_call f e -> stands_for R f n -> ~ In (Func n) plugins) ->
  forall r, means R (within_reach R) e r -> exists r', means S (within_reach S) e r' /\ same_calls r r'.
Proof.
  intros plugins fs c c' e R S Sep Agree. revert e.
  assert (Own : forall m f, plain f -> within_reach R true m f -> (forall b, In b plugins -> ~ named f b) -> within_reach S true m f).
  { intros m f Pf W N b I. cbn [bindings service_env S] in I. apply in_app_or in I. destruct I as [I | I]; [apply W; exact I | apply N; exact I]. }
  assert (Gen : forall e, (forall f n, bare_call f e -> stands_for R f n -> ~ In (Func n) plugins) ->
    forall r, means R (within_reach R) e r -> exists r', means S (within_reach S) e r' /\ same_calls r r');
    [ | intros e B r M; exact (Gen e B r M)].
  intros e. induction e as [n | x | e f IH | l IH | f args IH | t f args IHt IH | t f args _ _] using expr_ind2; intros Bare r M.
  - inversion M; subst. exists (ConstT n). split; constructor.
  - inversion M; subst. exists (IdentT x). split; constructor; assumption.
  - inversion M as [ | | e' f' r' Pf Me | | | | | ]; subst. destruct (IH (fun g n B => Bare g n (bare_select g e f B)) r' Me) as [r2 [M2 S2]].
    exists (SelectT r2 f). split; constructor; assumption.
  - inversion M as [ | | | l' rs F | | | | ]; subst.
    destruct (forall2_step R S _ l rs IH) as [rs' [F' S']]; [intros e I g n B; exact (Bare g n (bare_list g l e I B)) | exact F | ].
    exists (ListT rs'). split; constructor; assumption.
  - inversion M as [ | | | | f' args' n rs Pf St Fn F | | | ]; subst.
    destruct (forall2_step R S _ args rs IH) as [rs' [F' S']]; [intros e I g m B; exact (Bare g m (bare_args g f args e I B)) | exact F | ].
    exists (FuncT true n rs'). split; [ | constructor; exact S']. apply means_call; [exact Pf | apply Agree; exact St | | exact F'].
    cbn [function functions resolver_env R service_env S] in Fn |- *. apply in_app_or in Fn. destruct Fn as [Fn | Fn]; [exact Fn | ].
    exfalso. apply (Bare f n (bare_here f args) St). apply bound_functions_in. exact Fn.
  - inversion M as [ | | | | | t' f' args' r' rs Pf If Mt F | t' f' args' q own n rs Pf Nf D St Fn Pp F | t' f' args' own r' rs Pf Nf ND Me Pp Mt F]; subst;
      (destruct (forall2_step R S _ args rs IH) as [rs' [F' S']]; [intros e I g m B; exact (Bare g m (bare_member g t f args e I B)) | exact F | ]).
    + destruct (IHt (fun g n B => Bare g n (bare_target g t f args B)) r' Mt) as [r2 [M2 S2]].
      exists (MacroT r2 f rs'). split; [apply means_macro; assumption | constructor; assumption].
    + pose proof (proj1 (Agree _ _) St) as St'. pose proof (stands_named _ _ _ _ St) as Nm.
      destruct own.
      * cbn [function functions resolver_env R] in Fn. apply in_app_or in Fn. destruct Fn as [Fn | Fn].
        -- exists (FuncT true n rs'). split; [ | constructor; exact S'].
           apply (means_function S _ t f args q true n rs' Pf Nf D St' Fn); [ | exact F'].
           apply (Own false f Pf Pp). intros b I N. destruct (Sep b f I N) as [_ [A _]]. exact (A n Fn Nm).
        -- exists (FuncT false n rs'). split; [ | constructor; exact S'].
           apply (means_function S _ t f args q false n rs' Pf Nf D St'); [ | exact Logic.I | exact F'].
           cbn [function bindings service_env S]. apply in_or_app. right. apply bound_functions_in. exact Fn.
      * exists (FuncT false n rs'). split; [ | constructor; exact S'].
        apply (means_function S _ t f args q false n rs' Pf Nf D St'); [ | exact Logic.I | exact F'].
        cbn [function bindings service_env S resolver_env R] in Fn |- *. apply in_or_app. left. exact Fn.
    + destruct (IHt (fun g n B => Bare g n (bare_target g t f args B)) r' Mt) as [r2 [M2 S2]].
      assert (ND' : forall q n, dotted t q -> ~ stands_for S (q ++ "." ++ f) n) by (intros q n D X; apply (ND q n D); apply Agree; exact X).
      destruct own.
      * cbn [method methods resolver_env R] in Me. apply in_app_or in Me. destruct Me as [Me | Me].
        -- exists (MethT true r2 f rs'). split; [ | constructor; assumption].
           apply (means_method S _ t f args true r2 rs' Pf Nf ND' Me); [ | exact M2 | exact F'].
           apply (Own true f Pf Pp). intros b I N. destruct (Sep b f I N) as [A _]. exact (A Me).
        -- exists (MethT false r2 f rs'). split; [ | constructor; assumption]. apply bound_methods_in in Me.
           apply (means_method S _ t f args false r2 rs' Pf Nf ND'); [ | | exact M2 | exact F'].
           { cbn [method bindings service_env S]. apply in_or_app. right. exact Me. }
           intros before b after E N [n ->]. cbn [bindings service_env S] in E.
           assert (X : In (Func n) (library ++ plugins)%list) by (rewrite E; apply in_or_app; right; left; reflexivity).
           apply in_app_or in X. destruct X as [X | X]; [destruct (Pp _ X N) | ].
           destruct (Sep _ f X N) as [_ [_ A]]. destruct (A n eq_refl) as [_ A2]. contradiction.
      * exists (MethT false r2 f rs'). split; [ | constructor; assumption].
        cbn [method bindings resolver_env R] in Me.
        apply (means_method S _ t f args false r2 rs' Pf Nf ND'); [ | | exact M2 | exact F'].
        { cbn [method bindings service_env S]. apply in_or_app. left. exact Me. }
        intros before b after E N [n ->]. cbn [bindings service_env S] in E.
        assert (Cut : exists l, library = (before ++ Func n :: l)%list /\ (l ++ plugins)%list = after \/ In (Func n) plugins).
        { clear - E. revert before E. generalize library as l. induction l as [ | x l IH]; intros before E.
          - exists []. right. cbn in E. rewrite E. apply in_or_app. right. left. reflexivity.
          - destruct before as [ | y before]; cbn [app] in E.
            + injection E as -> E. exists l. left. split; [reflexivity | exact E].
            + injection E as -> E. destruct (IH before E) as [m [[-> A] | K]].
              * exists m. left. split; [reflexivity | exact A].
              * exists m. right. exact K. }
        destruct Cut as [l [[L <-] | K]].
        { destruct (Pp before (Func n) l L N (ex_intro _ n eq_refl)) as [b' [Ib [Nb Eb]]]. exists b'. repeat split; [apply in_or_app; left; exact Ib | exact Nb | exact Eb]. }
        destruct (Sep _ f K N) as [_ [_ A]]. destruct (A n eq_refl) as [A1 _]. contradiction.
  - inversion M.
Qed.
