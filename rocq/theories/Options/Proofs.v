From Coq Require Import Ascii String List Bool Permutation.
From Verif.Base Require Import Text TextProofs.
From Verif.Options Require Import Model Spec.
Import ListNotations.
Local Open Scope string_scope.

Lemma after_app p : forall s t, after p s = Some t <-> s = p ++ t.
Proof.
  induction p as [|a p IH]; intros s t; cbn.
  - split; congruence.
  - destruct s as [|b s]; [split; discriminate|]. destruct (Ascii.eqb_spec a b) as [->|N].
    + rewrite IH. split; [intros ->; reflexivity|]. intros E. injection E as E. exact E.
    + split; [discriminate|]. intros E. injection E as E _. congruence.
Qed.
Lemma split2 c s a b : split c s = [a; b] <-> s = a ++ String c b /\ has_char c a = false /\ has_char c b = false.
Proof.
  split.
  - intros E. pose proof (join_split c s) as J. pose proof (split_parts_no_sep c s) as F. rewrite E in J, F. cbn in J.
    inversion F as [|? ? F1 F2]; subst. inversion F2 as [|? ? F3 F4]; subst. auto.
  - intros (-> & A & B). rewrite split_app by exact A. rewrite split_no_sep by exact B. reflexivity.
Qed.

Section World.
  Variables (abs download : string -> option string).
  Notation parsers := (scheme_parsers abs download).
  Definition parser := (string * (options -> string -> option options))%type.
  Lemma parsePlugins_iff (order : list parser) o v r :
    (forall a b, In a order -> In b order -> after (fst a) v <> None -> after (fst b) v <> None -> a = b) ->
    (parsePlugins order o v = Some r <-> exists sp v', In sp order /\ after (fst sp) v = Some v' /\ snd sp o v' = Some r).
  Proof.
    induction order as [|[s p] order IH]; intros X; cbn.
    - split; [discriminate|]. intros (? & ? & [] & _).
    - destruct (after s v) as [v'|] eqn:E.
      + split.
        * intros H. exists (s, p), v'. auto.
        * intros (sp & w & I & A & H). assert (sp = (s, p)).
          { apply X; [exact I|left; reflexivity|congruence|cbn; congruence]. }
          subst sp. cbn in A, H. congruence.
      + rewrite IH.
        * split; intros (sp & w & I & H); exists sp, w; [auto|]. destruct I as [<-|I]; [cbn in H; destruct H; congruence|auto].
        * intros a b Ia Ib. apply X; right; assumption.
  Qed.
  Lemma exclusive v : forall a b : parser, In a parsers -> In b parsers -> after (fst a) v <> None -> after (fst b) v <> None -> a = b.
  Proof.
    assert (W : forall p, after p v <> None -> exists t, v = p ++ t).
    { intros p N. destruct (after p v) as [t|] eqn:E; [|congruence]. exists t. apply after_app. exact E. }
    intros a b Ia Ib Na Nb. destruct (W _ Na) as [t ->]. destruct (W _ Nb) as [t' E].
    cbn in Ia, Ib. destruct Ia as [<-|[<-|[<-|[]]]], Ib as [<-|[<-|[<-|[]]]]; try reflexivity; cbn in E; discriminate.
  Qed.
  Lemma plugins_iff order o v r : Permutation order parsers ->
    (parsePlugins order o v = Some r <-> exists sp v', In sp parsers /\ v = fst sp ++ v' /\ snd sp o v' = Some r).
  Proof.
    intros P. rewrite parsePlugins_iff.
    - split; intros (sp & w & I & A & H); exists sp, w; apply after_app in A || apply (after_app (fst sp)) in A; (split; [|auto]).
      + apply (Permutation_in _ P). exact I.
      + apply (Permutation_in _ (Permutation_sym P)). exact I.
    - intros a b Ia Ib. apply exclusive; apply (Permutation_in _ P); assumption.
  Qed.

  (** One option *)
  Definition apply1 (x : opt) (o : options) : options :=
    {| o_mode := match the_mode x with Some m => m | None => o_mode o end;
       o_prefix := match the_prefix x with Some p => p | None => o_prefix o end;
       o_imports := (o_imports o ++ given the_import [x])%list;
       o_plugins := (o_plugins o ++ given (plugin_of abs download) [x])%list |}.
  Lemma last_snoc_given {A} (f : opt -> option A) l x d : last (given f (l ++ [x])) d = match f x with Some y => y | None => last (given f l) d end.
  Proof.
    unfold given. rewrite flat_map_app. cbn. destruct (f x) as [y|]; cbn; [apply last_last|]. rewrite app_nil_r. reflexivity.
  Qed.
  Lemma meaning_snoc l x : meaning abs download (l ++ [x]) = apply1 x (meaning abs download l).
  Proof.
    unfold meaning, apply1. rewrite !last_snoc_given. cbn [o_mode o_prefix o_imports o_plugins]. f_equal; unfold given; apply flat_map_app.
  Qed.
  Lemma eq_options o o' : o_mode o = o_mode o' -> o_prefix o = o_prefix o' -> o_imports o = o_imports o' -> o_plugins o = o_plugins o' -> o = o'.
  Proof. destruct o, o'. cbn. intros. subst. reflexivity. Qed.

  Lemma plugin_sound sp o v r : In sp parsers -> snd sp o v = Some r -> has_char "="%char (fst sp ++ v) = false ->
    exists x, acceptable abs download x /\ print x = "plugins=" ++ fst sp ++ v /\ r = apply1 x o.
  Proof.
    intros I H E. rewrite has_char_app in E. apply orb_false_iff in E. destruct E as [_ E]. cbn in I.
    assert (G : forall p s, v = p ++ ":" ++ s -> has_char "="%char p = false /\ has_char "="%char s = false).
    { intros p s ->. rewrite has_char_app in E. apply orb_false_iff in E. destruct E as [E1 E2]. auto. }
    destruct I as [<-|[<-|[<-|[]]]]; cbn [fst snd] in *; unfold parseFile, parseURL in H;
      destruct (split ":"%char v) as [|p [|s [|? ?]]] eqn:S; try discriminate; apply split2 in S; destruct S as (-> & A & B);
      destruct (G p s eq_refl) as [G1 G2].
    - destruct (abs p) as [a|] eqn:Ea; [|discriminate]. injection H as <-. exists (PluginFile p s). cbn. rewrite Ea. repeat split; auto; try congruence.
      apply eq_options; cbn; rewrite ?Ea, ?app_nil_r; reflexivity.
    - destruct (download _) as [a|] eqn:Ea; [|discriminate]. injection H as <-. exists (PluginURL false p s). cbn in *. rewrite Ea. repeat split; auto; try congruence.
      apply eq_options; cbn; rewrite ?Ea, ?app_nil_r; reflexivity.
    - destruct (download _) as [a|] eqn:Ea; [|discriminate]. injection H as <-. exists (PluginURL true p s). cbn in *. rewrite Ea. repeat split; auto; try congruence.
      apply eq_options; cbn; rewrite ?Ea, ?app_nil_r; reflexivity.
  Qed.
  Lemma parseOpt_sound order o pat r : Permutation order parsers -> pat <> "" -> parseOpt order o pat = Some r ->
    exists x, acceptable abs download x /\ pat = print x /\ r = apply1 x o.
  Proof.
    intros P N H. unfold parseOpt in H. destruct (String.eqb_spec pat ""); [congruence|].
    destruct (split "="%char pat) as [|k [|v [|? ?]]] eqn:S; try discriminate. apply split2 in S. destruct S as (-> & A & B).
    destruct (String.eqb_spec k "module") as [->|_].
    { unfold parseModule in H. destruct v as [|c v]; [discriminate|]. injection H as <-. exists (Module (String c v)). split; [split; [discriminate|exact B]|].
      split; [reflexivity|]. apply eq_options; cbn; rewrite ?app_nil_r; reflexivity. }
    destruct (String.eqb_spec k "paths") as [->|_].
    { unfold parsePaths in H. destruct (String.eqb_spec v "source_relative") as [->|_]; [|destruct (String.eqb_spec v "import") as [->|_]; [|discriminate]];
        injection H as <-; [exists (Paths true)|exists (Paths false)]; (split; [exact I|]); (split; [reflexivity|]);
        apply eq_options; cbn; rewrite ?app_nil_r; reflexivity. }
    destruct (String.eqb_spec k "plugins") as [->|_].
    { apply plugins_iff in H; [|exact P]. destruct H as (sp & w & I & -> & H). destruct (plugin_sound sp o w r I H B) as (x & Ax & Px & Rx).
      exists x. rewrite Px. auto. }
    destruct (String.eqb_spec k "import_paths") as [->|_]; [|discriminate].
    unfold parseImportPaths in H. injection H as <-. exists (ImportPath v). split; [exact B|]. split; [reflexivity|]. apply eq_options; cbn; rewrite ?app_nil_r; reflexivity.
  Qed.
  Lemma hc_app3 c p s : has_char c p = false -> has_char c s = false -> (c <> ":"%char) -> has_char c (p ++ ":" ++ s) = false.
  Proof. intros A B N. rewrite has_char_app, A. cbn [orb append has_char]. destruct (Ascii.eqb_spec ":" c); [congruence|exact B]. Qed.
  Lemma parseOpt_complete order o x : Permutation order parsers -> acceptable abs download x -> parseOpt order o (print x) = Some (apply1 x o).
  Proof.
    intros P A. unfold parseOpt.
    destruct x as [p|[]|d|p s|[] p s]; cbn [print acceptable] in *.
    - destruct A as [N A]. change ("module=" ++ p) with ("module" ++ String "=" p). rewrite split_app, (split_no_sep "="%char p) by (exact A || reflexivity).
      cbn. destruct p; [congruence|]. cbn. f_equal. apply eq_options; cbn; rewrite ?app_nil_r; reflexivity.
    - cbn. f_equal. apply eq_options; cbn; rewrite ?app_nil_r; reflexivity.
    - cbn. f_equal. apply eq_options; cbn; rewrite ?app_nil_r; reflexivity.
    - change ("import_paths=" ++ d) with ("import_paths" ++ String "=" d). rewrite split_app, (split_no_sep "="%char d) by (exact A || reflexivity).
      cbn. unfold parseImportPaths. f_equal. apply eq_options; cbn; rewrite ?app_nil_r; reflexivity.
    - destruct A as (A1 & A2 & A3 & A4 & A5). change ("plugins=file://" ++ p ++ ":" ++ s) with ("plugins" ++ String "=" ("file://" ++ p ++ ":" ++ s)).
      rewrite split_app by reflexivity. rewrite split_no_sep by (cbn; apply hc_app3; (assumption || discriminate)).
      change ("plugins" ++ String "=" ("file://" ++ p ++ ":" ++ s) =? "") with false. cbn [String.eqb Ascii.eqb Bool.eqb].
      apply (proj2 (plugins_iff order o _ _ P)). exists ("file://", parseFile abs), (p ++ ":" ++ s). split; [left; reflexivity|]. split; [reflexivity|].
      cbn [snd]. unfold parseFile. rewrite (proj2 (split2 ":" _ p s)) by auto. cbn in A5. destruct (abs p) as [a|] eqn:Ea; [|congruence].
      f_equal. apply eq_options; cbn; rewrite ?Ea, ?app_nil_r; reflexivity.
    - destruct A as (A1 & A2 & A3 & A4 & A5). change ("plugins=https://" ++ p ++ ":" ++ s) with ("plugins" ++ String "=" ("https://" ++ p ++ ":" ++ s)).
      rewrite split_app by reflexivity. rewrite split_no_sep by (cbn; apply hc_app3; (assumption || discriminate)).
      change ("plugins" ++ String "=" ("https://" ++ p ++ ":" ++ s) =? "") with false. cbn [String.eqb Ascii.eqb Bool.eqb].
      apply (proj2 (plugins_iff order o _ _ P)). exists ("https://", parseURL download "https://"), (p ++ ":" ++ s). split; [right; right; left; reflexivity|]. split; [reflexivity|].
      cbn [snd]. unfold parseURL. rewrite (proj2 (split2 ":" _ p s)) by auto. cbn in A5. cbn. destruct (download _) as [a|] eqn:Ea; [|congruence].
      f_equal. apply eq_options; cbn; rewrite ?Ea, ?app_nil_r; reflexivity.
    - destruct A as (A1 & A2 & A3 & A4 & A5). change ("plugins=http://" ++ p ++ ":" ++ s) with ("plugins" ++ String "=" ("http://" ++ p ++ ":" ++ s)).
      rewrite split_app by reflexivity. rewrite split_no_sep by (cbn; apply hc_app3; (assumption || discriminate)).
      change ("plugins" ++ String "=" ("http://" ++ p ++ ":" ++ s) =? "") with false. cbn [String.eqb Ascii.eqb Bool.eqb].
      apply (proj2 (plugins_iff order o _ _ P)). exists ("http://", parseURL download "http://"), (p ++ ":" ++ s). split; [right; left; reflexivity|]. split; [reflexivity|].
      cbn [snd]. unfold parseURL. rewrite (proj2 (split2 ":" _ p s)) by auto. cbn in A5. cbn. destruct (download _) as [a|] eqn:Ea; [|congruence].
      f_equal. apply eq_options; cbn; rewrite ?Ea, ?app_nil_r; reflexivity.
  Qed.
  Definition parse_parts (order : list parser) (parts : list string) (acc : option options) : option options :=
    fold_left (fun acc pat => match acc with Some o => parseOpt order o pat | None => None end) parts acc.
  Lemma print_not_empty x : not_empty (print x) = true.
  Proof. destruct x as [|[]| | |[]]; reflexivity. Qed.
  Lemma parse_parts_iff order : Permutation order parsers -> forall parts r, parse_parts order parts (Some no_options) = Some r <->
    exists l, Forall (acceptable abs download) l /\ filter not_empty parts = map print l /\ r = meaning abs download l.
  Proof.
    intros P parts. induction parts as [|pat parts IH] using rev_ind; intros r.
    - cbn. split.
      + intros E. injection E as <-. exists []. auto.
      + intros (l & _ & E & ->). destruct l; [reflexivity|discriminate].
    - unfold parse_parts in *. rewrite fold_left_app, filter_app. cbn [fold_left].
      destruct (fold_left _ parts (Some no_options)) as [o|] eqn:Eo.
      + destruct (proj1 (IH o) eq_refl) as (l & Fl & El & ->). destruct (String.eqb_spec pat "") as [->|N].
        * cbn. rewrite app_nil_r. split.
          -- intros E. injection E as <-. eauto.
          -- intros (l' & F' & E' & ->). apply (IH (meaning abs download l')). eauto.
        * assert (NE : not_empty pat = true) by (unfold not_empty; destruct (String.eqb_spec pat ""); [congruence|reflexivity]). cbn. rewrite NE. split.
          -- intros E. apply parseOpt_sound in E; [|exact P|exact N]. destruct E as (x & Ax & -> & ->). exists (l ++ [x])%list.
             rewrite Forall_app, map_app, meaning_snoc, El. auto.
          -- intros (l' & F' & E' & ->). destruct l' as [|x l' _] using rev_ind; [destruct (filter not_empty parts); discriminate|].
             rewrite map_app in E'. cbn in E'. apply app_inj_tail in E'. destruct E' as [E' ->]. rewrite Forall_app in F'. destruct F' as [F1 F2].
             inversion F2; subst. rewrite parseOpt_complete by assumption. rewrite meaning_snoc. f_equal.
             assert (EQ : Some (meaning abs download l) = Some (meaning abs download l')) by (apply (proj2 (IH _)); eauto). apply (f_equal (fun o => match o with Some x => x | None => no_options end)) in EQ. cbv beta iota in EQ. rewrite EQ. reflexivity.
      + split; [discriminate|]. intros (l & F & E & ->). exfalso. destruct (String.eqb_spec pat "") as [->|N].
        * cbn in E. rewrite app_nil_r in E. assert (None = Some (meaning abs download l)) by (apply (proj2 (IH _)); eauto). discriminate.
        * assert (NE : not_empty pat = true) by (unfold not_empty; destruct (String.eqb_spec pat ""); [congruence|reflexivity]). cbn in E. rewrite NE in E.
          destruct l as [|x l _] using rev_ind; [destruct (filter not_empty parts); discriminate|]. rewrite map_app in E. cbn in E. apply app_inj_tail in E. destruct E as [E ->].
          rewrite Forall_app in F. destruct F as [F1 F2]. assert (None = Some (meaning abs download l)) by (apply (proj2 (IH _)); eauto). discriminate.
  Qed.
End World.

Lemma split_join_plain c : forall l, l <> [] -> Forall (fun s => has_char c s = false) l -> split c (join (String c "") l) = l.
Proof.
  induction l as [|x l IH]; intros N F; [congruence|]. inversion F as [|? ? Fx Fl]; subst. destruct l as [|y l].
  - cbn. apply split_no_sep. exact Fx.
  - change (join (String c "") (x :: y :: l)) with (x ++ String c (join (String c "") (y :: l))).
    rewrite split_app by exact Fx. rewrite IH by (discriminate || exact Fl). reflexivity.
Qed.
Lemma print_plain x : plain_opt x -> has_char ","%char (print x) = false.
Proof.
  assert (J : forall a b, has_char ","%char a = false -> has_char ","%char b = false -> has_char ","%char (a ++ ":" ++ b) = false).
  { intros a b A B. apply hc_app3; auto. discriminate. }
  destruct x as [p|[]|d|p s|[] p s]; cbn; unfold plain; intros H; try reflexivity; try (apply H); apply J; apply H.
Qed.

(** * Plugins *)
Section Eval.
  Context {request bytes : Type}.
  Variables (empty : bytes) (encode : request -> bytes) (read : string -> option bytes) (sha256 : bytes -> string) (exec : bytes -> bytes -> bool).
  Lemma evalPlugins_verified ps : forall buf t o, evalPlugins empty read sha256 exec ps buf = (t, o) ->
    forall w i, In (w, i) t -> exists p, In p ps /\ read (w_path p) = Some w /\ sha256 w = w_sha p.
  Proof.
    induction ps as [|p ps IH]; cbn; intros buf t o E w i I.
    - injection E as <- <-. destruct I.
    - destruct (read (w_path p)) as [file|] eqn:R; [|injection E as <- <-; destruct I].
      destruct (String.eqb_spec (w_sha p) (sha256 file)) as [S|S]; cbn in E; [|injection E as <- <-; destruct I].
      destruct (exec file buf); cbn in E.
      + destruct (evalPlugins _ _ _ _ ps empty) as [t' o'] eqn:E'. injection E as <- <-. destruct I as [I|I].
        * injection I as <- <-. exists p. auto.
        * destruct (IH _ _ _ E' _ _ I) as (q & ? & ? & ?). exists q. auto.
      + injection E as <- <-. destruct I as [I|[]]. injection I as <- <-. exists p. auto.
  Qed.
  Lemma evalPlugins_done ps : forall buf t, evalPlugins empty read sha256 exec ps buf = (t, Done) ->
    map (fun p => read (w_path p)) ps = map (fun x => Some (fst x)) t /\ map snd t = match ps with [] => [] | _ :: ps' => buf :: map (fun _ => empty) ps' end.
  Proof.
    induction ps as [|p ps IH]; cbn; intros buf t E.
    - injection E as <-. auto.
    - destruct (read (w_path p)) as [file|] eqn:R; [|discriminate]. destruct (negb _) in E; [discriminate|]. destruct (exec file buf); cbn in E; [|discriminate].
      destruct (evalPlugins _ _ _ _ ps empty) as [t' o'] eqn:E'. injection E as <- ->. destruct (IH _ _ E') as [A B]. cbn. rewrite A, B. split; [reflexivity|].
      f_equal. destruct ps; reflexivity.
  Qed.
  Lemma evalAll_verified results ps : forall t o, evalAll empty encode read sha256 exec results ps = (t, o) ->
    forall w i, In (w, i) t -> exists p, In p ps /\ read (w_path p) = Some w /\ sha256 w = w_sha p.
  Proof.
    induction results as [|r results IH]; cbn; intros t o E w i I.
    - injection E as <- <-. destruct I.
    - destruct (evalPlugins _ _ _ _ ps (encode r)) as [t1 o1] eqn:E1. pose proof (evalPlugins_verified _ _ _ _ E1) as V.
      destruct o1; try (injection E as <- <-; eauto). destruct (evalAll _ _ _ _ _ results ps) as [t2 o2] eqn:E2. injection E as <- <-.
      apply in_app_or in I. destruct I as [I|I]; eauto.
  Qed.
End Eval.
