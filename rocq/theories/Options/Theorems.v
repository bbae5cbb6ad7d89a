From Coq Require Import Ascii String List Bool Permutation.
From Verif.Base Require Import Text TextProofs.
From Verif.Options Require Import Model Spec Proofs.
Import ListNotations.
Local Open Scope string_scope.

(** C36: the options string is accepted exactly if every non-empty part is an option that can be honoured, and then all of them take effect.
    The order in which Go iterates over the schemes does not matter. *)
Theorem C36_options_are_applied_or_rejected : forall abs download order s r, Permutation order (scheme_parsers abs download) ->
  (parseOptString order s = Some r <->
   exists l, Forall (acceptable abs download) l /\ filter not_empty (split ","%char s) = map print l /\ r = meaning abs download l).
Proof. intros abs download order s r P. apply (parse_parts_iff abs download order P). Qed.
Print Assumptions C36_options_are_applied_or_rejected.

(** The full round trip: any options, written out and parsed, take effect. Values with the characters of the syntax do not survive. *)
Definition C36_round_trip_statement : Prop := forall abs download order l, Permutation order (scheme_parsers abs download) ->
  (forall s, abs s <> None) -> (forall s, download s <> None) -> (forall p, In (Module p) l -> p <> "") ->
  parseOptString order (optString (map print l)) = Some (meaning abs download l).
Theorem C36_round_trip_refuted : ~ C36_round_trip_statement.
Proof.
  intros H. specialize (H Some Some (scheme_parsers Some Some) [PluginURL false "localhost:8080/p.wasm" "abc"] (Permutation_refl _)).
  assert (E : parseOptString (scheme_parsers Some Some) (optString (map print [PluginURL false "localhost:8080/p.wasm" "abc"])) = None) by (vm_compute; reflexivity).
  rewrite E in H. assert (X : None = Some (meaning Some Some [PluginURL false "localhost:8080/p.wasm" "abc"])); [|discriminate].
  apply H; try discriminate. intros p [I|[]]. discriminate.
Qed.
Print Assumptions C36_round_trip_refuted.

(** C36: with values free of the characters the syntax uses. *)
Theorem C36_round_trip_partial : forall abs download order l, Permutation order (scheme_parsers abs download) ->
  (forall s, abs s <> None) -> (forall s, download s <> None) -> (forall p, In (Module p) l -> p <> "") -> Forall plain_opt l ->
  parseOptString order (optString (map print l)) = Some (meaning abs download l).
Proof.
  intros abs download order l P A D M F. apply (C36_options_are_applied_or_rejected abs download order _ _ P). exists l.
  split; [|split; [|reflexivity]].
  - apply Forall_forall. intros x I. rewrite Forall_forall in F. specialize (F x I). destruct x as [p|b|d|p s|b p s]; cbn in *; unfold plain in *.
    + split; [apply M; exact I|tauto].
    + constructor.
    + tauto.
    + specialize (A p). destruct (abs p); [|congruence]. repeat split; try tauto. discriminate.
    + specialize (D (url b p)). unfold url in *. destruct b; destruct (download _); try congruence; repeat split; try tauto; discriminate.
  - destruct l as [|x l]; [reflexivity|]. unfold optString. rewrite split_join_plain.
    + assert (G : forall k, filter not_empty (map print k) = map print k); [|apply G]. induction k as [|y k IH]; cbn; [reflexivity|].
      rewrite print_not_empty, IH. reflexivity.
    + discriminate.
    + apply Forall_map. revert F. apply Forall_impl. exact print_plain.
Qed.
Print Assumptions C36_round_trip_partial.

Example C36_sample :
  parseOptString (scheme_parsers Some Some) "paths=source_relative,import_paths=proto,,plugins=file:///p.wasm:abc,import_paths=x" =
    Some {| o_mode := SourceRelativeMode; o_prefix := ""; o_imports := ["proto"; "x"]; o_plugins := [{| w_path := "/p.wasm"; w_sha := "abc" |}] |}
  /\ parseOptString (scheme_parsers Some Some) "paths=source_relative,path=x" = None.
Proof. split; vm_compute; reflexivity. Qed.

(** C50: only the modules whose hash is the configured one are run. *)
Theorem C50_plugins_are_verified : forall request bytes (empty : bytes) (encode : request -> bytes) read sha256 exec results ps t o,
  evalAll empty encode read sha256 exec results ps = (t, o) ->
  forall module input, In (module, input) t -> exists p, In p ps /\ read (w_path p) = Some module /\ sha256 module = w_sha p.
Proof. intros. eapply evalAll_verified; eassumption. Qed.
Print Assumptions C50_plugins_are_verified.

(** C35: every plugin gets every request. *)
Definition C35_statement : Prop := forall request bytes (empty : bytes) (encode : request -> bytes) read sha256 exec results ps t,
  evalAll empty encode read sha256 exec results ps = (t, Done) ->
  map snd t = flat_map (fun r => map (fun _ => encode r) ps) results.
Theorem C35_refuted : ~ C35_statement.
Proof.
  intros H. specialize (H string string "" (fun r => r) Some (fun b => b) (fun _ _ => true) ["request"] [{| w_path := "a"; w_sha := "a" |}; {| w_path := "b"; w_sha := "b" |}]
    [("a", "request"); ("b", "")] eq_refl). cbn in H. discriminate.
Qed.
Print Assumptions C35_refuted.

(** C35: the first plugin gets every request; the others are run with no input at all. *)
Theorem C35_first_plugin_gets_requests_partial : forall request bytes (empty : bytes) (encode : request -> bytes) read sha256 exec results ps t,
  evalAll empty encode read sha256 exec results ps = (t, Done) ->
  map snd t = flat_map (fun r => match ps with [] => [] | _ :: others => encode r :: map (fun _ => empty) others end) results /\
  map (fun x => Some (fst x)) t = flat_map (fun _ => map (fun p => read (w_path p)) ps) results.
Proof.
  intros request bytes empty encode read sha256 exec results ps. induction results as [|r results IH]; cbn; intros t E.
  - injection E as <-. auto.
  - destruct (evalPlugins _ _ _ _ ps (encode r)) as [t1 o1] eqn:E1. destruct o1; try discriminate.
    destruct (evalAll _ _ _ _ _ results ps) as [t2 o2] eqn:E2. injection E as <- ->. destruct (IH t2 eq_refl) as [A B].
    destruct (evalPlugins_done _ _ _ _ _ _ _ E1) as [C D]. rewrite !map_app, A, B, D, <- C. auto.
Qed.
Print Assumptions C35_first_plugin_gets_requests_partial.
Corollary C35_one_plugin_gets_requests : forall request bytes (empty : bytes) (encode : request -> bytes) read sha256 exec results p t,
  evalAll empty encode read sha256 exec results [p] = (t, Done) -> map snd t = map encode results.
Proof.
  intros request bytes empty encode read sha256 exec results p t E. apply C35_first_plugin_gets_requests_partial in E. destruct E as [-> _].
  induction results as [|r l IH]; cbn; [reflexivity|]. f_equal.
Qed.
Print Assumptions C35_one_plugin_gets_requests.
Example C35_sample : evalAll "" (fun r : string => r) Some (fun b => b) (fun _ _ => true) ["r1"; "r2"] [{| w_path := "a"; w_sha := "a" |}] = ([("a", "r1"); ("a", "r2")], Done)
  /\ evalAll "" (fun r : string => r) Some (fun b => b) (fun _ _ => true) ["r1"; "r2"] [{| w_path := "a"; w_sha := "b" |}] = ([], HashError "a").
Proof. split; reflexivity. Qed.
