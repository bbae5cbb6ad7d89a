From Coq Require Import String List Bool Permutation.
From Verif.Regen Require Import Model Spec Proofs.
Import ListNotations.
Local Open Scope string_scope.

(** The property, for histories whose steps satisfy [good]: after any history ending with a handled event, if all proto files there are can be generated,
    the output directory is exactly what a fresh generation would write. The directory has no left-overs of other runs at the start. *)
Definition C33_statement (good : forall source fed, (sources source -> path -> option (list (pout fed))) -> sources source -> step -> Prop) : Prop :=
  forall source fed (gen : sources source -> path -> option (list (pout fed))) names ps s0 st0 s st,
  own_outputs gen names -> NoDup ps -> started gen ps s0 st0 ->
  (forall n, st_disk st0 n <> None -> exists p, s0 p <> None /\ In n (names p)) ->
  history gen (good source fed gen) s0 st0 s st true ->
  (forall p, s p <> None -> fresh gen s p <> None) ->
  up_to_date gen s (st_disk st).

(** C33, partial: for changes to files that no other file imports, and removals of files that could be generated. Compilations may fail in between. *)
Theorem C33_incremental_equals_full_partial : C33_statement (fun _ _ => contained).
Proof.
  intros source fed gen names ps s0 st0 s st OWN ND ST LO H ALL. apply (inv_up_to_date gen names OWN); [|exact ALL].
  apply (inv_history gen names OWN s0 st0); [|exact H]. apply (inv_start gen names OWN ps); assumption.
Qed.
Print Assumptions C33_incremental_equals_full_partial.

(** A generator: one output file per proto file, with its content; "bad" does not compile. *)
Definition simple (s : sources string) (p : path) : option (list (pout unit)) :=
  match s p with None => None | Some "bad" => None | Some c => Some [POk [{| f_name := p; f_content := c |}]] end.
Lemma simple_own : own_outputs simple (fun p => [p]).
Proof.
  split; [repeat constructor; intros []|]. split; [intros p q n [<-|[]] [<-|[]]; reflexivity|]. unfold fresh, simple.
  assert (X : forall (o : option string) p r, match o with None => None | Some "bad" => None | Some c => Some [POk [{| f_name := p; f_content := c |}]] end = Some r ->
    exists c, r = [POk (fed := unit) [{| f_name := p; f_content := c |}]]).
  { intros [c|] p r E; [|discriminate]. destruct (string_dec c "bad") as [->|N]; [discriminate|].
    assert (EQ : Some [POk (fed := unit) [{| f_name := p; f_content := c |}]] = Some r).
    { rewrite <- E. clear - N. repeat (match goal with |- context [match ?c with EmptyString => _ | String _ _ => _ end] => destruct c; try reflexivity
      | |- context [match ?a with Ascii.Ascii _ _ _ _ _ _ _ _ => _ end] => destruct a as [[] [] [] [] [] [] [] []]; try reflexivity end). congruence. }
    injection EQ as <-. eauto. }
  split.
  - intros s p fs _ E. destruct (match s p with None => None | Some "bad" => None | Some c => Some [POk [{| f_name := p; f_content := c |}]] end) as [r|] eqn:E1; [|discriminate].
    apply X in E1. destruct E1 as [c ->]. cbn in E. injection E as <-. reflexivity.
  - intros s p outs o f E I J. apply X in E. destruct E as [c ->]. destruct I as [<-|[]]. destruct J as [<-|[]]. left. reflexivity.
Qed.

Definition one_file (c : string) : sources string := fun p => if p =? "a" then Some c else None.
Definition start_state (c : string) : state unit :=
  {| st_cache := [("a", {| responses := [[{| f_name := "a"; f_content := c |}]]; federation := [] |})]; st_disk := fun _ => None |}.
Definition write_ (p : path) (c : string) (order : list path) : @Spec.step string := {| missed := []; event_kind := EWrite; changed := p; content := Some c; iteration := order |}.
Definition delete_ (p : path) (order : list path) : @Spec.step string := {| missed := []; event_kind := ERemove; changed := p; content := None; iteration := order |}.
Definition create_ (p : path) (c : string) (order : list path) : @Spec.step string := {| missed := []; event_kind := ECreate; changed := p; content := Some c; iteration := order |}.

(** Refuted in full: a file is changed so that it does not compile, and then removed; its output stays. *)
Theorem C33_failed_then_removed_refuted : ~ C33_statement (fun _ _ => matters_to_no_other).
Proof.
  intros H.
  pose (s1 := after_step (one_file "x") (write_ "a" "y" ["a"])). pose (st1 := handle simple s1 EWrite "a" ["a"] (start_state "x")).
  pose (s2 := after_step s1 (write_ "a" "bad" [])). pose (st2 := handle simple s2 EWrite "a" [] st1).
  pose (s3 := after_step s2 (delete_ "a" [])). pose (st3 := handle simple s3 ERemove "a" [] st2).
  assert (NB : forall s h q, q <> changed h -> after_step s h q <> None -> simple (after_step s h) q = simple s q).
  { intros s h q Q S. unfold simple, after_step in *. destruct (String.eqb_spec q (changed h)); [congruence|]. destruct (existsb _ _); [congruence|reflexivity]. }
  specialize (H string unit simple (fun p => [p]) ["a"] (one_file "x") (start_state "x") s3 st3 simple_own).
  assert (U : up_to_date simple s3 (st_disk st3)).
  { apply H.
    - repeat constructor. intros [].
    - split; [|reflexivity]. intros p. unfold one_file. cbn. destruct (String.eqb_spec p "a") as [->|N]; split; try congruence; auto. intros [E|[]]. congruence.
    - cbn. congruence.
    - refine (Step _ _ _ _ s2 st2 false (delete_ "a" []) true _ eq_refl _ _ _).
      + refine (Step _ _ _ _ s1 st1 true (write_ "a" "bad" []) false _ _ _ _ _).
        * refine (Step _ _ _ _ _ _ false (write_ "a" "y" ["a"]) true (Start _ _ _ _) _ _ _ _); try discriminate.
          -- unfold any_order. cbn. constructor. constructor.
          -- intros q. apply NB.
          -- split; [|reflexivity]. intros _ _. vm_compute. discriminate.
        * discriminate.
        * unfold any_order. cbn. constructor.
        * intros q. apply NB.
        * split; [discriminate|]. intros F. exfalso. apply F; [discriminate|]. vm_compute. reflexivity.
      + unfold any_order. cbn. constructor.
      + intros q. apply NB.
      + split; [|reflexivity]. intros _ F. destruct (F eq_refl).
    - intros p S. exfalso. apply S. unfold s3, s2, s1, after_step, one_file. cbn. destruct (p =? "a") eqn:E; [reflexivity|]. rewrite ?E. reflexivity. }
  destruct (proj1 (U "a" "y") eq_refl) as (p & fs & S & _). apply S. unfold s3, s2, s1, after_step, one_file. cbn. destruct (p =? "a") eqn:E; [reflexivity|]. rewrite ?E. reflexivity.
Qed.
Print Assumptions C33_failed_then_removed_refuted.

(** A generator whose output for a file also has the content of "b": every file imports b. *)
Definition importing (s : sources string) (p : path) : option (list (pout unit)) :=
  match s p with
  | None => None
  | Some c => Some [POk [{| f_name := p; f_content := match s "b" with Some d => c ++ d | None => c end |}]]
  end.
Lemma importing_own : own_outputs importing (fun p => [p]).
Proof.
  split; [repeat constructor; intros []|]. split; [intros p q n [<-|[]] [<-|[]]; reflexivity|]. unfold fresh, importing. split.
  - intros s p fs _ E. destruct (s p); [|discriminate]. cbn in E. injection E as <-. reflexivity.
  - intros s p outs o f E I J. destruct (s p); [|discriminate]. injection E as <-. destruct I as [<-|[]]. destruct J as [<-|[]]. left. reflexivity.
Qed.
(** Refuted in full, even without failures: a file that others import changes, and they are not generated anew. *)
Theorem C33_imported_file_changes_refuted : ~ C33_statement (fun _ _ => removes_only_generated).
Proof.
  intros H.
  pose (s1 := after_step (one_file "x") (create_ "b" "y" ["b"; "a"])). pose (st1 := handle importing s1 ECreate "b" ["b"; "a"] (start_state "x")).
  specialize (H string unit importing (fun p => [p]) ["a"] (one_file "x") (start_state "x") s1 st1 importing_own).
  assert (U : up_to_date importing s1 (st_disk st1)).
  { apply H.
    - repeat constructor. intros [].
    - split; [|reflexivity]. intros p. unfold one_file. cbn. destruct (String.eqb_spec p "a") as [->|N]; split; try congruence; auto. intros [E|[]]. congruence.
    - cbn. congruence.
    - refine (Step _ _ _ _ _ _ false (create_ "b" "y" ["b"; "a"]) true (Start _ _ _ _) _ _ _ _); try discriminate.
      + unfold any_order. vm_compute. repeat constructor.
      + intros p S S'. exfalso. apply S. unfold after_step, one_file in *. cbn in *. destruct (p =? "b"); [discriminate|]. exact S'.
      + split; [|reflexivity]. intros _ _. vm_compute. discriminate.
    - intros p S. unfold fresh, importing. destruct (s1 p); [discriminate|congruence]. }
  assert (D : st_disk st1 "a" = Some "x") by reflexivity.
  apply U in D. destruct D as (p & fs & S & F & I). unfold fresh, importing in F. destruct (s1 p) as [c|] eqn:E; [|congruence]. cbn in F. injection F as <-.
  destruct I as [I|[]]. injection I as -> I. cbn in E. injection E as <-. discriminate.
Qed.
Print Assumptions C33_imported_file_changes_refuted.

(** Not vacuous: a failing change, then a working one, then a second file. *)
Example C33_sample : exists s st, history simple (contained simple) (one_file "x") (start_state "x") s st true /\ (forall p, s p <> None -> fresh simple s p <> None) /\
  st_disk st "a" = Some "z" /\ st_disk st "b" = Some "w".
Proof.
  pose (h1 := write_ "a" "bad" []). pose (h2 := write_ "a" "z" ["a"]). pose (h3 := create_ "b" "w" ["b"; "a"]).
  pose (s1 := after_step (one_file "x") h1). pose (st1 := handle simple s1 EWrite "a" [] (start_state "x")).
  pose (s2 := after_step s1 h2). pose (st2 := handle simple s2 EWrite "a" ["a"] st1).
  pose (s3 := after_step s2 h3). pose (st3 := handle simple s3 ECreate "b" ["b"; "a"] st2).
  assert (NB : forall s h, content h <> None -> missed h = [] -> contained simple s h).
  { intros s h C M. split.
    - intros p S S'. unfold after_step in S'. rewrite M in S'. cbn in S'. destruct (p =? changed h); congruence.
    - intros q Q S. unfold simple, after_step in *. destruct (String.eqb_spec q (changed h)); [congruence|]. destruct (existsb _ _); [congruence|reflexivity]. }
  exists s3, st3. split; [|split; [|split; reflexivity]].
  - refine (Step _ _ _ _ s2 st2 true h3 true _ _ _ _ _); try discriminate.
    + refine (Step _ _ _ _ s1 st1 false h2 true _ _ _ _ _); try discriminate.
      * refine (Step _ _ _ _ _ _ false h1 false (Start _ _ _ _) _ _ _ _); try discriminate.
        -- unfold any_order. vm_compute. constructor.
        -- apply NB; [discriminate|reflexivity].
        -- split; [discriminate|]. intros F. exfalso. apply F; [discriminate|]. vm_compute. reflexivity.
      * unfold any_order. vm_compute. repeat constructor.
      * apply NB; [discriminate|reflexivity].
      * split; [|reflexivity]. intros _ _. vm_compute. discriminate.
    + unfold any_order. vm_compute. repeat constructor.
    + apply NB; [discriminate|reflexivity].
    + split; [|reflexivity]. intros _ _. vm_compute. discriminate.
  - intros p S. unfold fresh, simple. unfold s3, s2, s1, h1, h2, h3, after_step, one_file in *. cbn in *. destruct (p =? "b"); [discriminate|].
    destruct (p =? "a") eqn:E; [discriminate|]. congruence.
Qed.
