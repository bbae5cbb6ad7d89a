(** * Lemmas about calls of functions *)

From Coq Require Import Ascii String List Bool Arith Lia.
From Verif.Base Require Import Text TextProofs.
From Verif.Bind Require Import Model Spec.
Import ListNotations.
Local Open Scope string_scope.

(** ** Induction over expressions *)

Section Induction.
  Variable Q : expr -> Prop.
  Hypothesis Hconst : forall n, Q (Const n).
  Hypothesis Hident : forall x, Q (Ident x).
  Hypothesis Hselect : forall e f, Q e -> Q (Select e f).
  Hypothesis Hlist : forall l, Forall Q l -> Q (List l).
  Hypothesis Hcall : forall f args, Forall Q args -> Q (Call f args).
  Hypothesis Hmember : forall t f args, Q t -> Forall Q args -> Q (Member t f args).
  Hypothesis Hmacro : forall t f args, Q t -> Forall Q args -> Q (Macro t f args).

  Fixpoint expr_ind2 (e : expr) : Q e :=
    let fix all (l : list expr) : Forall Q l :=
      match l with [] => Forall_nil Q | x :: r => Forall_cons x (expr_ind2 x) (all r) end in
    match e with
    | Const n => Hconst n
    | Ident x => Hident x
    | Select e f => Hselect e f (expr_ind2 e)
    | List l => Hlist l (all l)
    | Call f args => Hcall f args (all args)
    | Member t f args => Hmember t f args (expr_ind2 t) (all args)
    | Macro t f args => Hmacro t f args (expr_ind2 t) (all args)
    end.
End Induction.

(** ** Names *)

Lemma memb_in : forall x l, memb x l = true <-> In x l.
Proof.
  intros x l. unfold memb. rewrite existsb_exists. split.
  - intros [y [I E]]. apply String.eqb_eq in E. subst. exact I.
  - intros I. exists x. split; [exact I | apply String.eqb_refl].
Qed.

Lemma bound_functions_in : forall bs n, In n (bound_functions bs) <-> In (Func n) bs.
Proof.
  induction bs as [ | b bs IH]; intros n; [reflexivity | ]. destruct b as [m | m]; cbn; rewrite IH; split.
  - intros [-> | I]; [left; reflexivity | right; exact I].
  - intros [E | I]; [left; congruence | right; exact I].
  - intros I. right. exact I.
  - intros [E | I]; [discriminate E | exact I].
Qed.

Lemma bound_methods_in : forall bs n, In n (bound_methods bs) <-> In (Meth n) bs.
Proof.
  induction bs as [ | b bs IH]; intros n; [reflexivity | ]. destruct b as [m | m]; cbn; rewrite IH; split.
  - intros I. right. exact I.
  - intros [E | I]; [discriminate E | exact I].
  - intros [-> | I]; [left; reflexivity | right; exact I].
  - intros [E | I]; [left; congruence | right; exact I].
Qed.

Lemma app_assoc_s : forall a b c : string, (a ++ b) ++ c = a ++ (b ++ c).
Proof. induction a as [ | x a IH]; intros b c; [reflexivity | cbn; rewrite IH; reflexivity]. Qed.

Lemma join_snoc : forall l x, l <> [] -> join "." (l ++ [x])%list = join "." l ++ "." ++ x.
Proof.
  induction l as [ | a l IH]; intros x N; [congruence | ]. destruct l as [ | b l]; [reflexivity | ].
  change ((a :: b :: l) ++ [x])%list with (a :: (b :: l) ++ [x])%list.
  change (join "." (a :: (b :: l) ++ [x])%list) with (a ++ "." ++ join "." ((b :: l) ++ [x])%list).
  rewrite IH by discriminate. change (join "." (a :: b :: l)) with (a ++ "." ++ join "." (b :: l)).
  rewrite !app_assoc_s. reflexivity.
Qed.

Lemma split_dot_last : forall p f, plain f -> split "." (p ++ "." ++ f) = (split "." p ++ [f])%list.
Proof. intros p f H. change ("." ++ f) with (String "." f). rewrite split_app_gen, (split_no_sep _ _ H). reflexivity. Qed.

Lemma short_named : forall b f, plain f -> (short b = f <-> named f b).
Proof.
  intros [n | n] f H; unfold short, named; [ | reflexivity]. split.
  - intros E. pose proof (join_split "." n) as J. destruct (split "." n) as [ | x l] eqn:S; [exact (False_ind _ (split_nonempty _ _ S)) | ].
    rewrite (app_removelast_last "" (l := x :: l)) in J by discriminate. rewrite E in J.
    destruct (removelast (x :: l)) as [ | y r] eqn:R.
    + left. symmetry. exact J.
    + right. exists (join "." (y :: r)). rewrite <- J. apply join_snoc. discriminate.
  - intros [-> | [p ->]].
    + rewrite (split_no_sep _ _ H). reflexivity.
    + rewrite split_dot_last by exact H. apply last_last.
Qed.

Lemma macro_none : forall bs f, macro_of bs f = None -> forall b, In b bs -> short b <> f.
Proof.
  induction bs as [ | b bs IH]; intros f H x I; [destruct I | ]. cbn in H.
  destruct (macro_of bs f) as [y | ] eqn:M; [discriminate H | ].
  destruct (String.eqb_spec (short b) f) as [E | N]; [discriminate H | ].
  destruct I as [<- | I]; [exact N | exact (IH f M x I)].
Qed.

Lemma macro_some : forall bs f b, macro_of bs f = Some b -> In b bs /\ short b = f.
Proof.
  induction bs as [ | b bs IH]; intros f x H; [discriminate H | ]. cbn in H.
  destruct (macro_of bs f) as [y | ] eqn:M.
  - injection H as <-. destruct (IH f y M) as [I E]. split; [right; exact I | exact E].
  - destruct (String.eqb_spec (short b) f) as [E | N]; [ | discriminate H]. injection H as <-. split; [left; reflexivity | exact E].
Qed.

Lemma macro_last : forall bs f b, macro_of bs f = Some b ->
  exists before after, bs = (before ++ b :: after)%list /\ forall x, In x after -> short x <> f.
Proof.
  induction bs as [ | b bs IH]; intros f x H; [discriminate H | ]. cbn in H.
  destruct (macro_of bs f) as [y | ] eqn:M.
  - injection H as <-. destruct (IH f y M) as [p [q [E N]]]. exists (b :: p), q. split; [rewrite E; reflexivity | exact N].
  - destruct (String.eqb_spec (short b) f) as [E | N]; [ | discriminate H]. injection H as <-. exists [], bs.
    split; [reflexivity | apply macro_none; exact M].
Qed.

Lemma macro_app : forall p q f b, macro_of q f = Some b -> macro_of (p ++ q)%list f = Some b.
Proof. induction p as [ | x p IH]; intros q f b H; [exact H | ]. cbn. rewrite (IH q f b H). reflexivity. Qed.

Lemma macro_exists : forall bs f b, In b bs -> short b = f -> exists b', macro_of bs f = Some b'.
Proof.
  intros bs f b I E. destruct (macro_of bs f) as [b' | ] eqn:M; [exists b'; reflexivity | ].
  exact (False_ind _ (macro_none bs f M b I E)).
Qed.

Lemma reach_own : forall E m f, plain f -> (within_reach E true m f <-> macro_of (bindings E) f = None).
Proof.
  intros E m f H. cbn. split.
  - intros R. destruct (macro_of (bindings E) f) as [b | ] eqn:M; [ | reflexivity].
    destruct (macro_some _ _ _ M) as [I S]. exfalso. apply (R b I). apply short_named; assumption.
  - intros M b I N. apply (macro_none _ _ M b I). apply short_named; assumption.
Qed.

Lemma reach_method : forall E f, plain f -> In (Meth f) (bindings E) ->
  (within_reach E false true f <-> macro_of (bindings E) f = Some (Meth f)).
Proof.
  intros E f H I. cbn. split.
  - intros R. destruct (macro_exists _ f _ I eq_refl) as [b M]. rewrite M. destruct (macro_some _ _ _ M) as [_ S].
    destruct b as [n | n]; [ | cbn in S; subst n; reflexivity].
    destruct (macro_last _ _ _ M) as [p [q [Q N]]].
    destruct (R p (Func n) q Q) as [b' [I' [N' _]]]; [apply short_named; assumption | exists n; reflexivity | ].
    exfalso. apply (N b' I'). apply short_named; assumption.
  - intros M p b q Q N [n ->]. rewrite Q in M.
    assert (X : forall l, macro_of (l ++ Func n :: q)%list f = Some (Meth f) -> macro_of q f = Some (Meth f)).
    { induction l as [ | x l IH]; cbn [app macro_of].
      - destruct (macro_of q f); [intros Z; exact Z | ]. destruct (String.eqb _ f); intros Z; discriminate Z.
      - destruct (macro_of (l ++ Func n :: q)%list f) as [y | ] eqn:Y.
        + intros Z. apply IH. exact Z.
        + exfalso. assert (Y2 : short (Func n) <> f) by (apply (macro_none _ _ Y); apply in_or_app; right; left; reflexivity).
          apply Y2. apply short_named; assumption. }
    apply X in M. destruct (macro_some _ _ _ M) as [I' _]. exists (Meth f). repeat split; exact I'.
Qed.

(** ** Looking up names *)

Lemma find_prefix : forall (g : list string -> string) (q : string -> bool) c n,
  find q (map g (rev (prefixes c))) = Some n <->
  exists p s, c = (p ++ s)%list /\ n = g p /\ q n = true /\
    forall p' s', c = (p' ++ s')%list -> List.length p < List.length p' -> q (g p') = false.
Proof.
  intros g q c. revert g. induction c as [ | x c IH]; intros g n.
  - cbn. split.
    + destruct (q (g [])) eqn:Q; [ | discriminate]. intros E. injection E as <-. exists [], []. repeat split; [exact Q | ].
      intros p' s' E. symmetry in E. apply app_eq_nil in E. destruct E as [-> _]. cbn. lia.
    + intros [p [s [E [-> [Q _]]]]]. symmetry in E. apply app_eq_nil in E. destruct E as [-> _]. rewrite Q. reflexivity.
  - change (prefixes (x :: c)) with ([] :: map (cons x) (prefixes c)). cbn [rev]. rewrite <- map_rev, map_app, map_map.
    assert (F : forall l m, find q (l ++ m)%list = match find q l with Some y => Some y | None => find q m end).
    { induction l as [ | y l IHl]; intros m; [reflexivity | ]. cbn. destruct (q y); [reflexivity | apply IHl]. }
    rewrite F. specialize (IH (fun p => g (x :: p))). cbv beta in IH.
    destruct (find q (map (fun p => g (x :: p)) (rev (prefixes c)))) as [y | ] eqn:Y.
    + destruct (proj1 (IH y) eq_refl) as [p [s [E [Ey [Q L]]]]]. split.
      * intros Z. injection Z as <-. exists (x :: p), s. split; [rewrite E; reflexivity | ]. split; [exact Ey | ]. split; [exact Q | ].
        intros p' s' E' L'. destruct p' as [ | x' p']; [cbn in L'; lia | ]. cbn in E'. injection E' as <- E'.
        apply (L p' s' E'). cbn in L'. lia.
      * intros [p0 [s0 [E0 [En [Q0 L0]]]]]. f_equal. destruct p0 as [ | x0 p0].
        { exfalso. specialize (L0 (x :: p) s). rewrite <- Ey, Q in L0. discriminate L0; [rewrite E; reflexivity | cbn; lia]. }
        cbn in E0. injection E0 as <- E0.
        assert (Len : List.length p = List.length p0).
        { destruct (lt_eq_lt_dec (List.length p) (List.length p0)) as [[A | A] | A]; [ | exact A | ].
          - specialize (L p0 s0 E0 A). rewrite <- En in L. congruence.
          - specialize (L0 (x :: p) s). rewrite <- Ey, Q in L0. discriminate L0; [rewrite E; reflexivity | cbn; lia]. }
        assert (p = p0).
        { rewrite E in E0. clear - E0 Len. revert p0 E0 Len. induction p as [ | a p IH]; intros [ | b p0] E0 Len; try discriminate Len; [reflexivity | ].
          cbn in E0. injection E0 as -> E0. f_equal. apply IH; [exact E0 | cbn in Len; lia]. }
        subst p0. congruence.
    + cbn [map find]. split.
      * destruct (q (g [])) eqn:Q; [ | discriminate]. intros Z. injection Z as <-. exists [], (x :: c).
        split; [reflexivity | ]. split; [reflexivity | ]. split; [exact Q | ].
        intros p' s' E' L'. destruct p' as [ | x' p']; [cbn in L'; lia | ]. cbn in E'. injection E' as <- E'.
        destruct (q (g (x :: p'))) eqn:Q'; [ | reflexivity]. exfalso.
        rewrite (find_none _ _ Y (g (x :: p'))) in Q'; [discriminate Q' | ]. apply in_map_iff. exists p'. split; [reflexivity | ].
        apply in_rev. rewrite rev_involutive. rewrite E'. clear.
        induction p' as [ | a p' IH]; [destruct s'; left; reflexivity | ]. cbn. right. apply in_map. exact IH.
      * intros [p [s [E [En [Q L]]]]]. destruct p as [ | x0 p].
        { cbn [app] in *. rewrite En in Q. rewrite Q, En. reflexivity. }
        exfalso. cbn in E. injection E as <- E.
        rewrite (find_none _ _ Y n) in Q; [discriminate Q | ]. apply in_map_iff. exists p. split; [symmetry; exact En | ].
        apply in_rev. rewrite rev_involutive. rewrite E. clear.
        induction p as [ | a p IH]; [destruct s; left; reflexivity | ]. cbn. right. apply in_map. exact IH.
Qed.

Lemma declared_memb : forall E n,
  memb n (functions E) || memb n (bound_functions (bindings E)) = true <-> declared E n.
Proof.
  intros E n. rewrite orb_true_iff, !memb_in, bound_functions_in. split.
  - intros [I | I]; [exists true; exact I | exists false; exact I].
  - intros [[] I]; [left; exact I | right; exact I].
Qed.

Lemma lookup_stands_for : forall E name n, lookup E name = Some n <-> stands_for E name n.
Proof.
  intros E name n. unfold lookup, candidates.
  rewrite (find_prefix (fun p => join "." (p ++ [name])%list)). unfold stands_for, within. split.
  - intros [p [s [C [En [Q L]]]]]. exists p. split; [exists s; exact C | ]. split; [exact En | ].
    split; [apply declared_memb; exact Q | ]. intros p' [s' C'] L' D. apply declared_memb in D. rewrite (L p' s' C' L') in D. discriminate D.
  - intros [p [[s C] [En [Q L]]]]. exists p, s. split; [exact C | ]. split; [exact En | ]. split; [apply declared_memb; exact Q | ].
    intros p' s' C' L'. destruct (memb _ (functions E) || _) eqn:Z; [ | reflexivity].
    exfalso. apply (L p'); [exists s'; exact C' | exact L' | apply declared_memb; exact Z].
Qed.

(** ** Qualified names *)

Lemma dotted_not_empty : forall t q, dotted t q -> q <> "".
Proof. intros t q H. destruct H as [x N P | e f q P D]; [exact N | ]. destruct q; discriminate. Qed.

Lemma dotted_name : forall t q, dotted t q -> qualified_name t = Some q /\ selector_name t = q.
Proof.
  intros t q H. induction H as [x N P | e f q P D [IH1 IH2]]; [split; reflexivity | ]. cbn. rewrite IH1, IH2.
  split; [reflexivity | ]. destruct (String.eqb_spec q "") as [X | _]; [destruct (dotted_not_empty e q D X) | reflexivity].
Qed.

Lemma dotted_expand : forall E t q, dotted t q -> expand E t = t.
Proof. intros E t q H. induction H as [x N P | e f q P D IH]; [reflexivity | cbn; rewrite IH; reflexivity]. Qed.

Lemma expand_qualified : forall E t, qualified_name (expand E t) = qualified_name t.
Proof.
  intros E t. induction t as [n | x | e f IH | l _ | f args _ | t f args _ _ | t f args _ _] using expr_ind2; try reflexivity.
  - cbn. rewrite IH. reflexivity.
  - cbn [expand]. cbv zeta. destruct (is_fixed E f _); [reflexivity | ]. destruct (macro_of _ f) as [[n | n] | ]; reflexivity.
Qed.

Lemma means_dotted : forall E P t r q, means E P t r -> qualified_name t = Some q -> dotted t q.
Proof.
  intros E P t. induction t as [n | x | e f IH | l _ | f args _ | t f args _ _ | t f args _ _] using expr_ind2; intros r q M Q; try discriminate Q.
  - cbn in Q. injection Q as <-. inversion M; subst. constructor; assumption.
  - cbn in Q. destruct (qualified_name e) as [p | ] eqn:X; [ | discriminate Q]. injection Q as <-.
    inversion M as [ | | e' f' r' Pf Me | | | | | ]; subst. constructor; [exact Pf | ]. apply (IH r' p Me eq_refl).
Qed.

Lemma expand_not_context : forall E P e r, means E P e r -> starts_with_context [expand E e] = false.
Proof.
  intros E P e r M. destruct M as [n | x N Pl C | e f r Pf M | l rs F | f args n rs | t f args r rs Pf I M F | t f args q own n rs Pf Nf D S Fn Pp F | t f args own r rs Pf Nf ND Me Pp M F]; try reflexivity.
  - cbn. destruct (String.eqb_spec x context_name); [congruence | reflexivity].
  - cbn [expand]. cbv zeta. destruct (is_fixed E f _); [reflexivity | ]. destruct (macro_of _ f) as [[? | ?] | ]; reflexivity.
  - cbn [expand]. cbv zeta. destruct (is_fixed E f _); [reflexivity | ]. destruct (macro_of _ f) as [[? | ?] | ]; reflexivity.
  - cbn [expand]. cbv zeta. destruct (is_fixed E f _); [reflexivity | ]. destruct (macro_of _ f) as [[? | ?] | ]; reflexivity.
Qed.

Lemma args_no_context : forall E P args rs, Forall2 (means E P) args rs -> starts_with_context (map (expand E) args) = false.
Proof.
  intros E P args rs F. destruct F as [ | a r args rs M _]; [reflexivity | ].
  pose proof (expand_not_context E P a r M) as H. cbn in H |- *. destruct (expand E a); exact H || reflexivity.
Qed.

(** ** Resolved arguments *)

Lemma all_some_forall2 : forall (E : env) (args : list expr) rs,
  all_some (map (check E) args) = Some rs <-> Forall2 (fun e r => check E e = Some r) args rs.
Proof.
  intros E args. induction args as [ | a args IH]; intros rs.
  - cbn. split; [intros H; injection H as <-; constructor | intros H; inversion H; reflexivity].
  - cbn [map all_some]. split.
    + destruct (check E a) as [r | ] eqn:C; [ | discriminate]. destruct (all_some (map (check E) args)) as [m | ] eqn:A; [ | discriminate].
      intros H. injection H as <-. constructor; [exact C | apply IH; reflexivity].
    + intros H. inversion H as [ | ? r ? m C F]; subst. rewrite C. apply IH in F. rewrite F. reflexivity.
Qed.

Lemma forall2_map : forall (A B C : Type) (f : A -> B) (R : B -> C -> Prop) l m,
  Forall2 R (map f l) m <-> Forall2 (fun a c => R (f a) c) l m.
Proof.
  intros A B C f R l. induction l as [ | a l IH]; intros m; cbn.
  - split; intros H; inversion H; constructor.
  - split; intros H; inversion H; subst; constructor; try assumption; apply IH; assumption.
Qed.

Lemma args_compiled : forall E args rs,
  all_some (map (check E) (map (expand E) args)) = Some rs <-> Forall2 (fun e r => compile E e = Some r) args rs.
Proof. intros E args rs. rewrite all_some_forall2. apply forall2_map. Qed.

Lemma forall2_impl : forall (A B : Type) (R S : A -> B -> Prop) l m, Forall (fun a => forall b, R a b -> S a b) l -> Forall2 R l m -> Forall2 S l m.
Proof.
  intros A B R S l m F H. induction H as [ | a b l m Hr H IH]; [constructor | ]. inversion F; subst. constructor; auto.
Qed.

Lemma not_fixed : forall E f n, is_fixed E f n = true <-> In (f, n) (fixed E).
Proof.
  intros E f n. unfold is_fixed. rewrite existsb_exists. split.
  - intros [[g k] [I H]]. apply andb_true_iff in H. destruct H as [H1 H2]. cbn in H1, H2.
    apply String.eqb_eq in H1. apply Nat.eqb_eq in H2. subst. exact I.
  - intros I. exists (f, n). split; [exact I | ]. cbn. rewrite String.eqb_refl, Nat.eqb_refl. reflexivity.
Qed.

Lemma not_fixed_false : forall E f n, ~ In (f, n) (fixed E) -> is_fixed E f n = false.
Proof. intros E f n H. destruct (is_fixed E f n) eqn:X; [apply not_fixed in X; contradiction | reflexivity]. Qed.

(** A bound function's name ends in the name of its macro. *)
Lemma stands_for_short : forall E q f n, plain f -> stands_for E (q ++ "." ++ f) n -> In (Func n) (bindings E) ->
  exists b, macro_of (bindings E) f = Some b.
Proof.
  intros E q f n Pf [p [_ [En _]]] I. apply (macro_exists _ _ _ I). cbn.
  assert (X : exists z, n = z ++ "." ++ f).
  { rewrite En. destruct p as [ | a p]; [exists q; reflexivity | ]. rewrite join_snoc by discriminate.
    exists (join "." (a :: p) ++ "." ++ q). rewrite !app_assoc_s. reflexivity. }
  destruct X as [z ->]. rewrite split_dot_last by exact Pf. apply last_last.
Qed.


Lemma with_context_cons : forall args, starts_with_context args = false -> with_context args = context :: args.
Proof. intros args H. unfold with_context. rewrite H. reflexivity. Qed.

Lemma bound_function_call : forall E n args rs, In (Func n) (bindings E) -> all_some (map (check E) args) = Some rs ->
  check_function E n (context :: args) (all_some (map (check E) (context :: args))) = Some (FuncT false n rs).
Proof.
  intros E n args rs I A. unfold check_function. cbn [map all_some]. rewrite A. unfold overload, visible. cbn [check context].
  change (starts_with_context (Ident context_name :: args)) with true. cbv iota.
  rewrite (proj2 (memb_in n _) (proj2 (bound_functions_in _ n) I)). reflexivity.
Qed.

Lemma own_function_call : forall E n args rs, In n (functions E) -> starts_with_context args = false ->
  all_some (map (check E) args) = Some rs ->
  check_function E n args (all_some (map (check E) args)) = Some (FuncT true n rs).
Proof.
  intros E n args rs I S A. unfold check_function. rewrite A. unfold overload, visible. rewrite S.
  rewrite (proj2 (memb_in n _) I). reflexivity.
Qed.

Lemma member_method : forall E t f args, (forall q n, qualified_name t = Some q -> lookup E (q ++ "." ++ f) = Some n -> False) ->
  check E (Member t f args) = check_method E (check E t) f args (all_some (map (check E) args)).
Proof.
  intros E t f args H. cbn [check]. destruct (qualified_name t) as [q | ]; [ | reflexivity].
  destruct (lookup E (q ++ "." ++ f)) as [n | ] eqn:L; [destruct (H q n eq_refl L) | reflexivity].
Qed.

(** ** What is within reach is compiled as meant *)

Lemma compiles : forall E e r, means E (within_reach E) e r -> compile E e = Some r.
Proof.
  intros E e. induction e as [n | x | e f IH | l IH | f args IH | t f args IHt IH | t f args _ _] using expr_ind2; intros r M.
  - inversion M; subst. reflexivity.
  - inversion M; subst. reflexivity.
  - inversion M as [ | | e' f' r' Pf Me | | | | | ]; subst. unfold compile in *. cbn. rewrite (IH r' Me). reflexivity.
  - inversion M as [ | | | l' rs F | | | | ]; subst. unfold compile. cbn [expand check].
    rewrite (proj2 (args_compiled E l rs)); [reflexivity | ]. exact (forall2_impl _ _ _ _ _ _ IH F).
  - inversion M as [ | | | | f' args' n rs Pf S Fn F | | | ]; subst. unfold compile. cbn [expand check].
    rewrite (proj2 (lookup_stands_for E f n) S). apply own_function_call; [exact Fn | exact (args_no_context _ _ _ _ F) | ].
    apply args_compiled. exact (forall2_impl _ _ _ _ _ _ IH F).
  - unfold compile. cbn [expand]. cbv zeta. rewrite map_length.
    inversion M as [ | | | | | t' f' args' r' rs Pf If Mt F | t' f' args' q own n rs Pf Nf D S Fn Pp F | t' f' args' own r' rs Pf Nf ND Me Pp Mt F]; subst.
    + rewrite (proj2 (not_fixed E f _) If). cbn [check]. rewrite (IHt r' Mt : check E (expand E t) = Some r').
      rewrite (proj2 (args_compiled E args rs)) by exact (forall2_impl _ _ _ _ _ _ IH F). reflexivity.
    + rewrite (not_fixed_false E f _ Nf). pose proof (args_no_context _ _ _ _ F) as NC.
      assert (A : all_some (map (check E) (map (expand E) args)) = Some rs) by (apply args_compiled; exact (forall2_impl _ _ _ _ _ _ IH F)).
      destruct (dotted_name t q D) as [Q1 Q2]. rewrite (dotted_expand E t q D). destruct own.
      * rewrite (proj1 (reach_own E false f Pf) Pp). cbn [check]. rewrite Q1, (proj2 (lookup_stands_for E _ n) S).
        apply own_function_call; assumption.
      * destruct (stands_for_short E q f n Pf S Fn) as [b B]. rewrite B. destruct b as [m | m]; cbn [expand_call].
        -- rewrite Q2. destruct (String.eqb_spec q "") as [X | _]; [destruct (dotted_not_empty t q D X) | ].
           cbn [check]. rewrite (proj2 (lookup_stands_for E _ n) S), (with_context_cons _ NC). apply bound_function_call; assumption.
        -- cbn [check]. rewrite Q1, (proj2 (lookup_stands_for E _ n) S), (with_context_cons _ NC). apply bound_function_call; assumption.
    + rewrite (not_fixed_false E f _ Nf). pose proof (args_no_context _ _ _ _ F) as NC.
      assert (A : all_some (map (check E) (map (expand E) args)) = Some rs) by (apply args_compiled; exact (forall2_impl _ _ _ _ _ _ IH F)).
      assert (NQ : forall q n, qualified_name (expand E t) = Some q -> lookup E (q ++ "." ++ f) = Some n -> False).
      { intros q n Q L. rewrite expand_qualified in Q. apply (ND q n); [exact (means_dotted _ _ _ _ _ Mt Q) | apply lookup_stands_for; exact L]. }
      destruct own.
      * rewrite (proj1 (reach_own E true f Pf) Pp). rewrite member_method by exact NQ.
        rewrite (IHt r' Mt : check E (expand E t) = Some r'), A. unfold check_method, overload, visible. rewrite NC, (proj2 (memb_in f _) Me). reflexivity.
      * rewrite (proj1 (reach_method E f Pf Me) Pp). cbn [expand_call]. rewrite (with_context_cons _ NC). rewrite member_method by exact NQ.
        rewrite (IHt r' Mt : check E (expand E t) = Some r'). cbn [map all_some]. rewrite A.
        unfold check_method, overload, visible. cbn [check context].
        change (starts_with_context (Ident context_name :: map (expand E) args)) with true. cbv iota.
        rewrite (proj2 (memb_in f _) (proj2 (bound_methods_in _ f) Me)). reflexivity.
  - inversion M.
Qed.

(** ** Nothing else is *)

Lemma forall2_back : forall (E : env) (args : list expr) rs,
  Forall (fun e => forall r, means E anything e r -> compile E e = Some r -> means E (within_reach E) e r) args ->
  Forall2 (means E anything) args rs -> Forall2 (fun e r => compile E e = Some r) args rs -> Forall2 (means E (within_reach E)) args rs.
Proof.
  intros E args rs IH F C. induction F as [ | a r args rs M F IHF]; [constructor | ]. inversion IH; subst. inversion C; subst.
  constructor; [auto | apply IHF; assumption].
Qed.

Lemma function_inv : forall E n args own m rs, check_function E n args (all_some (map (check E) args)) = Some (FuncT own m rs) ->
  n = m /\ own = negb (starts_with_context args) /\ exists all, all_some (map (check E) args) = Some all /\ rs = visible args all.
Proof.
  intros E n args own m rs H. unfold check_function in H. destruct (all_some (map (check E) args)) as [all | ]; [ | discriminate H].
  unfold overload in H. destruct (starts_with_context args).
  - destruct (memb n (bound_functions (bindings E))); [ | discriminate H]. injection H as <- <- <-. repeat split. exists all. split; reflexivity.
  - destruct (memb n (functions E)); [ | discriminate H]. injection H as <- <- <-. repeat split. exists all. split; reflexivity.
Qed.

Lemma method_inv : forall E t f args own r g rs, check_method E t f args (all_some (map (check E) args)) = Some (MethT own r g rs) ->
  f = g /\ own = negb (starts_with_context args) /\ t = Some r /\ exists all, all_some (map (check E) args) = Some all /\ rs = visible args all.
Proof.
  intros E t f args own r g rs H. unfold check_method in H. destruct t as [t | ]; [ | discriminate H].
  destruct (all_some (map (check E) args)) as [all | ]; [ | discriminate H]. unfold overload in H. destruct (starts_with_context args).
  - destruct (memb f (bound_methods (bindings E))); [ | discriminate H]. injection H as <- <- <- <-. repeat split. exists all. split; reflexivity.
  - destruct (memb f (methods E)); [ | discriminate H]. injection H as <- <- <- <-. repeat split. exists all. split; reflexivity.
Qed.

Lemma function_not_method : forall E n args x own r g rs, check_function E n args x = Some (MethT own r g rs) -> False.
Proof. intros E n args [x | ] own r g rs H; cbn in H; [ | discriminate H]. destruct (overload _ _ args); discriminate H. Qed.

Lemma method_not_function : forall E t f args x own n rs, check_method E t f args x = Some (FuncT own n rs) -> False.
Proof. intros E [t | ] f args [x | ] own n rs H; cbn in H; try discriminate H. destruct (overload _ _ args); discriminate H. Qed.

Lemma context_all : forall E args all, all_some (map (check E) (context :: args)) = Some all ->
  exists rest, all_some (map (check E) args) = Some rest /\ all = IdentT context_name :: rest.
Proof.
  intros E args all H. cbn [map all_some check context] in H.
  destruct (all_some (map (check E) args)) as [rest | ]; [ | discriminate H]. injection H as <-. exists rest. split; reflexivity.
Qed.

Lemma only_reach : forall E e r, means E anything e r -> compile E e = Some r -> means E (within_reach E) e r.
Proof.
  intros E e. induction e as [n | x | e f IH | l IH | f args IH | t f args IHt IH | t f args _ _] using expr_ind2; intros r M C.
  - inversion M; subst. constructor.
  - inversion M; subst. constructor; assumption.
  - inversion M as [ | | e' f' r' Pf Me | | | | | ]; subst. constructor; [exact Pf | ]. apply (IH r' Me).
    unfold compile in *. cbn in C. destruct (check E (expand E e)); [ | discriminate C]. injection C as <-. reflexivity.
  - inversion M as [ | | | l' rs F | | | | ]; subst. constructor. apply (forall2_back E l rs IH F). apply args_compiled.
    unfold compile in C. cbn [expand check] in C. destruct (all_some _); [ | discriminate C]. injection C as <-. reflexivity.
  - inversion M as [ | | | | f' args' n rs Pf S Fn F | | | ]; subst. apply means_call; [exact Pf | exact S | exact Fn | ].
    apply (forall2_back E args rs IH F). apply args_compiled. unfold compile in C. cbn [expand check] in C.
    rewrite (proj2 (lookup_stands_for E f n) S) in C. apply function_inv in C. destruct C as [_ [Ow [all [A ->]]]].
    unfold visible. rewrite (args_no_context _ _ _ _ F). exact A.
  - unfold compile in C. cbn [expand] in C. cbv zeta in C. rewrite map_length in C.
    inversion M as [ | | | | | t' f' args' r' rs Pf If Mt F | t' f' args' q own n rs Pf Nf D S Fn _ F | t' f' args' own r' rs Pf Nf ND Me _ Mt F]; subst.
    + rewrite (proj2 (not_fixed E f _) If) in C. cbn [check] in C.
      destruct (check E (expand E t)) as [rt | ] eqn:Ct; [ | discriminate C].
      destruct (all_some (map (check E) (map (expand E) args))) as [ra | ] eqn:Ca; [ | discriminate C]. injection C as -> ->.
      apply means_macro; [exact Pf | exact If | apply (IHt r' Mt Ct) | ]. apply (forall2_back E args rs IH F). apply args_compiled. exact Ca.
    + rewrite (not_fixed_false E f _ Nf) in C. pose proof (args_no_context _ _ _ _ F) as NC.
      destruct (dotted_name t q D) as [Q1 Q2]. rewrite (dotted_expand E t q D) in C.
      assert (L : lookup E (q ++ "." ++ f) = Some n) by (apply lookup_stands_for; exact S).
      assert (G : within_reach E own false f /\ all_some (map (check E) (map (expand E) args)) = Some rs).
      { destruct (macro_of (bindings E) f) as [[m | m] | ] eqn:B; cbn [expand_call] in C; rewrite ?(with_context_cons _ NC) in C; cbn [check] in C;
          rewrite ?Q1, ?Q2 in C.
        - destruct (String.eqb_spec q "") as [X | _]; [destruct (dotted_not_empty t q D X) | ]. rewrite L in C.
          change (Some (IdentT context_name)) with (check E context) in C.
          apply function_inv in C. destruct C as [_ [Ow [all [A R]]]]. cbn in Ow. subst own. split; [exact I | ].
          destruct (context_all E _ _ A) as [rest [A2 ->]]. unfold visible in R. cbn in R. rewrite R. exact A2.
        - rewrite L in C. apply function_inv in C. destruct C as [_ [Ow [all [A R]]]]. cbn in Ow. subst own. split; [exact I | ].
          destruct (context_all E _ _ A) as [rest [A2 ->]]. unfold visible in R. cbn in R. rewrite R. exact A2.
        - rewrite L in C. apply function_inv in C. destruct C as [_ [Ow [all [A R]]]]. rewrite NC in Ow. cbn in Ow. subst own.
          split; [apply (reach_own E false f Pf); exact B | ]. unfold visible in R. rewrite NC in R. rewrite R. exact A. }
      destruct G as [G A]. apply (means_function E _ t f args q own n rs Pf Nf D S Fn G). apply (forall2_back E args rs IH F). apply args_compiled. exact A.
    + rewrite (not_fixed_false E f _ Nf) in C. pose proof (args_no_context _ _ _ _ F) as NC.
      assert (NQ : forall q n, qualified_name (expand E t) = Some q -> lookup E (q ++ "." ++ f) = Some n -> False).
      { intros q n Q L. rewrite expand_qualified in Q. apply (ND q n); [exact (means_dotted _ _ _ _ _ Mt Q) | apply lookup_stands_for; exact L]. }
      assert (G : within_reach E own true f /\ check E (expand E t) = Some r' /\ all_some (map (check E) (map (expand E) args)) = Some rs).
      { destruct (macro_of (bindings E) f) as [[m | m] | ] eqn:B; cbn [expand_call] in C; rewrite ?(with_context_cons _ NC) in C.
        - exfalso. cbn [check] in C. destruct (lookup E _); [ | discriminate C]. exact (function_not_method _ _ _ _ _ _ _ _ C).
        - rewrite member_method in C by exact NQ. apply method_inv in C. destruct C as [_ [Ow [Ct [all [A R]]]]]. cbn in Ow. subst own.
          split; [ | split; [exact Ct | ]].
          + apply (reach_method E f Pf Me). rewrite B. destruct (macro_some _ _ _ B) as [_ Sm]. cbn in Sm. rewrite Sm. reflexivity.
          + destruct (context_all E _ _ A) as [rest [A2 ->]]. unfold visible in R. cbn in R. rewrite R. exact A2.
        - rewrite member_method in C by exact NQ. apply method_inv in C. destruct C as [_ [Ow [Ct [all [A R]]]]]. rewrite NC in Ow. cbn in Ow. subst own.
          split; [apply (reach_own E true f Pf); exact B | ]. split; [exact Ct | ]. unfold visible in R. rewrite NC in R. rewrite R. exact A. }
      destruct G as [G [Ct A]]. apply (means_method E _ t f args own r' rs Pf Nf ND Me G (IHt r' Mt Ct)).
      apply (forall2_back E args rs IH F). apply args_compiled. exact A.
  - inversion M.
Qed.

(** ** Printing and parsing again *)

Lemma selectors_snoc : forall l p x, selectors p (l ++ [x])%list = Select (selectors p l) x.
Proof. induction l as [ | y l IH]; intros p x; [reflexivity | cbn; apply IH]. Qed.

Lemma dotted_split : forall t q, dotted t q -> exists x rest, split "." q = x :: rest /\ t = selectors (Ident x) rest.
Proof.
  intros t q H. induction H as [x N P | e f q P D [x [rest [S ->]]]].
  - exists x, []. split; [exact (split_no_sep _ _ P) | reflexivity].
  - exists x, (rest ++ [f])%list. rewrite split_dot_last by exact P. rewrite S. split; [reflexivity | rewrite selectors_snoc; reflexivity].
Qed.

Lemma qualified_call_dotted : forall t q f args, dotted t q -> plain f -> qualified_call (q ++ "." ++ f) args = Member t f args.
Proof.
  intros t q f args D P. destruct (dotted_split t q D) as [x [rest [S ->]]]. unfold qualified_call.
  rewrite split_dot_last by exact P. rewrite S. cbn [app].
  destruct (rest ++ [f])%list as [ | y r] eqn:R; [destruct rest; discriminate R | ]. rewrite <- R.
  rewrite removelast_last, last_last. reflexivity.
Qed.

Lemma qualified_call_plain : forall f args, plain f -> qualified_call f args = Call f args.
Proof. intros f args P. unfold qualified_call. rewrite (split_no_sep _ _ P). reflexivity. Qed.

Lemma dotted_reparse : forall t q, dotted t q -> reparse t = t.
Proof. intros t q H. induction H as [x N P | e f q P D IH]; [reflexivity | cbn; rewrite IH; reflexivity]. Qed.

Lemma map_fix : forall (E : env) (Q : expr -> target -> Prop) args rs,
  Forall (fun e => forall r, Q e r -> expand E (reparse (expand E e)) = expand E e) args -> Forall2 Q args rs ->
  map (expand E) (map reparse (map (expand E) args)) = map (expand E) args.
Proof.
  intros E Q args rs F H. induction H as [ | a r args rs M H IH]; [reflexivity | ]. inversion F; subst. cbn. f_equal; [eauto | auto].
Qed.

Lemma again : forall E e r,
  (forall f n b, In b (bindings E) -> named f b -> ~ In (f, n) (fixed E)) ->
  means E (within_reach E) e r -> expand E (reparse (expand E e)) = expand E e.
Proof.
  intros E e r NF. revert r. induction e as [n | x | e f IH | l IH | f args IH | t f args IHt IH | t f args _ _] using expr_ind2; intros r M.
  - reflexivity.
  - reflexivity.
  - inversion M as [ | | e' f' r' Pf Me | | | | | ]; subst. cbn. rewrite (IH r' Me). reflexivity.
  - inversion M as [ | | | l' rs F | | | | ]; subst. cbn [expand reparse]. rewrite (map_fix E _ l rs IH F). reflexivity.
  - inversion M as [ | | | | f' args' n rs Pf S Fn F | | | ]; subst. cbn [expand reparse]. rewrite (qualified_call_plain f _ Pf). cbn [expand].
    rewrite (map_fix E _ args rs IH F). reflexivity.
  - assert (NF2 : forall b k, plain f -> macro_of (bindings E) f = Some b -> is_fixed E f k = false).
    { intros b k Pf B. destruct (macro_some _ _ _ B) as [I S]. apply not_fixed_false. apply (NF f k b I). apply short_named; assumption. }
    cbn [expand]. cbv zeta. rewrite map_length.
    inversion M as [ | | | | | t' f' args' r' rs Pf If Mt F | t' f' args' q own n rs Pf Nf D S Fn Pp F | t' f' args' own r' rs Pf Nf ND Me Pp Mt F]; subst.
    + rewrite (proj2 (not_fixed E f _) If). cbn [expand reparse]. rewrite (IHt r' Mt), (map_fix E _ args rs IH F). reflexivity.
    + rewrite (not_fixed_false E f _ Nf). pose proof (args_no_context _ _ _ _ F) as NC. rewrite (dotted_expand E t q D).
      destruct (dotted_name t q D) as [Q1 Q2]. destruct (macro_of (bindings E) f) as [[m | m] | ] eqn:B; cbn [expand_call].
      * rewrite Q2. destruct (String.eqb_spec q "") as [X | NX]; [destruct (dotted_not_empty t q D X) | ].
        rewrite (with_context_cons _ NC). cbn [reparse]. rewrite (qualified_call_dotted t q f _ D Pf). cbn [expand]. cbv zeta.
        rewrite (NF2 _ _ Pf eq_refl), B. cbn [expand_call]. rewrite (dotted_expand E t q D), Q2.
        destruct (String.eqb_spec q "") as [X | _]; [contradiction | ]. cbn [map]. rewrite (map_fix E _ args rs IH F).
        unfold with_context. cbn. reflexivity.
      * rewrite (with_context_cons _ NC). cbn [reparse]. rewrite (dotted_reparse t q D). cbn [expand]. cbv zeta.
        rewrite (NF2 _ _ Pf eq_refl), B. cbn [expand_call]. rewrite (dotted_expand E t q D). cbn [map]. rewrite (map_fix E _ args rs IH F).
        unfold with_context. cbn. reflexivity.
      * cbn [reparse]. rewrite (dotted_reparse t q D). cbn [expand]. cbv zeta. rewrite (dotted_expand E t q D), (map_fix E _ args rs IH F).
        rewrite map_length, (not_fixed_false E f _ Nf), B. reflexivity.
    + rewrite (not_fixed_false E f _ Nf). pose proof (args_no_context _ _ _ _ F) as NC. destruct own.
      * rewrite (proj1 (reach_own E true f Pf) Pp). cbn [reparse expand]. cbv zeta. rewrite (IHt r' Mt), (map_fix E _ args rs IH F).
        rewrite map_length, (not_fixed_false E f _ Nf), (proj1 (reach_own E true f Pf) Pp). reflexivity.
      * pose proof (proj1 (reach_method E f Pf Me) Pp) as B. rewrite B. cbn [expand_call]. rewrite (with_context_cons _ NC).
        cbn [reparse expand]. cbv zeta. rewrite (NF2 _ _ Pf B), B. cbn [expand_call]. rewrite (IHt r' Mt). cbn [map].
        rewrite (map_fix E _ args rs IH F). unfold with_context. cbn. reflexivity.
  - inversion M.
Qed.

(** ** The library *)

Definition all_plain (l : list string) : bool := forallb (fun f => negb (has_char "." f)) l.

Lemma library_methods : forallb (fun f => Bool.eqb (match macro_of library f with Some (Meth g) => String.eqb f g | _ => false end)
    (negb (memb f ["parse"; "add"])) && negb (has_char "." f)) (bound_methods library) = true.
Proof. vm_compute. reflexivity. Qed.

Lemma cel_own : forallb (fun f => Bool.eqb (match macro_of library f with None => true | _ => false end)
    (negb (memb f ["contains"; "replace"; "split"; "trim"; "format"; "join"])) && negb (has_char "." f)) cel_methods = true.
Proof. vm_compute. reflexivity. Qed.

Lemma no_fixed_library : forallb (fun p => match macro_of library (fst p) with None => negb (has_char "." (fst p)) | _ => false end) cel_macros = true.
Proof. vm_compute. reflexivity. Qed.
