(** C77: diagnostics.

    "Every problem that a compilation finds is reported exactly once, with its text,
    its severity and its position, in the order of the positions; if one is an error,
    the linter fails and nothing is generated, and otherwise not; the line that is
    shown is the line of the position, and the mark stands below its column." *)

From Coq Require Import Ascii String List Arith NArith Bool Sorted Permutation Lia.
From Verif.Base Require Import Text TextProofs.
From Verif.Diag Require Import Model Spec Proofs.
Import ListNotations.
Local Open Scope list_scope.
Local Open Scope string_scope.

Section C77.
  Variable location file : Type.
  Variable read : string -> string -> option string.
  Variable parse : string -> string -> option file.
  Variable content : file -> string.
  Variable node_info : file -> location -> option (pos * pos).

  (** The files a path may mean: below the current directory, then below each import
      path. *)
  Definition readable_files (imports : list string) (path : string) : list (option file) :=
    map (fun i => match read i path with Some s => parse path s | None => None end) ("" :: imports).

  (** Every problem is reported once, and nothing else is, provided the resolver's
      error is one it can take apart. *)
  Theorem C77_reported_partial : forall imports result err,
    (forall msg, err <> FPlain msg) ->
    exists os,
      Forall2 (says location file (readable_files imports) content node_info) (found location result err) os /\
      Permutation os (outputs location file read parse content node_info imports result err).
  Proof.
    intros imports result err T.
    exists (unsorted location file read parse content node_info imports result err). split.
    - apply unsorted_spec. destruct err; [exact I | exact I | exfalso; apply (T msg); reflexivity].
    - apply outputs_perm.
  Qed.

  (** The outputs are in the order of lines and columns ... *)
  Theorem C77_sorted : forall imports result err,
    StronglySorted before (outputs location file read parse content node_info imports result err).
  Proof.
    intros imports result err. rewrite outputs_eq.
    apply sorted_weak with
      (R := fun a b => line (o_start a) < line (o_start b) \/
             (line (o_start a) = line (o_start b) /\
              (col (o_start a) < col (o_start b) \/ (col (o_start a) = col (o_start b) /\ True)))).
    - intros a b [H | [H1 [H2 | [H2 _]]]]; [left; exact H | right; lia | right; lia].
    - apply (sort_sorted (fun a b => col (o_start a) < col (o_start b) \/
                                     (col (o_start a) = col (o_start b) /\ True))
                         (fun o => line (o_start o))).
      apply (sort_sorted (fun _ _ => True) (fun o => col (o_start o))). apply all_sorted.
  Qed.

  (** ... and those at the same position are in the order in which they were found,
      warnings first. *)
  Theorem C77_stable : forall imports result err l c,
    (forall msg, err <> FPlain msg) ->
    exists os,
      Forall2 (says location file (readable_files imports) content node_info) (found location result err) os /\
      filter (at_pos l c) (outputs location file read parse content node_info imports result err)
      = filter (at_pos l c) os.
  Proof.
    intros imports result err l c T.
    exists (unsorted location file read parse content node_info imports result err). split.
    - apply unsorted_spec. destruct err; [exact I | exact I | exfalso; apply (T msg); reflexivity].
    - rewrite outputs_eq. rewrite !sort_filter; [reflexivity | |];
        intros x y Hx Hy; apply (at_pos_same l c x y Hx Hy).
  Qed.

  (** A line is shown exactly if it is not the last one of the file, and then it is
      the line of the position. *)
  Theorem C77_source_line : forall text n l,
    nth_line n text l ->
    source_line text n = (if Nat.ltb n (List.length (split newline text)) then l else "").
  Proof.
    exact source_line_spec.
  Qed.

  Variable protos : Type.
  Variable compile : list string -> bool -> string -> compiled protos.
  Variable resolve : list string -> protos -> option (list (warning location)) * failure location.
  Variable readable : string -> bool.

  (** A file is in order: it can be read, it compiles, and the resolver finds no
      error. *)
  Definition in_order (imports : list string) (a : string) : Prop :=
    readable a = true /\
    match compile imports false a with
    | CompileOk p => forall q, In q (found location (fst (resolve imports p)) (snd (resolve imports p))) ->
                               p_warning q = true
    | _ => False
    end.

  (** The compiler's and the resolver's errors are of the types the validator knows. *)
  Definition known_errors (imports : list string) : Prop :=
    (forall a, compile imports false a <> CompileUnknown) /\
    (forall p msg, snd (resolve imports p) <> FPlain msg).

  (** The linter succeeds exactly if there are arguments and all are in order. *)
  Definition C77_linter_statement : Prop :=
    forall imports args,
      lint location file read parse content node_info protos compile resolve readable imports args = 0 <->
      (args <> [] /\ forall a, In a args -> in_order imports a).

  Lemma file_in_order imports a :
    known_errors imports -> readable a = true ->
    exists_error (fst (validate location file read parse content node_info protos compile resolve
                         {| s_imports := []; s_manual := false |} a [ImportPathOption imports])) = false
    <-> in_order imports a.
  Proof.
    intros [K1 K2] Hr. unfold validate, in_order, apply_options.
    cbn [fold_left apply_option s_imports s_manual app].
    destruct (compile imports false a) as [p | msg es |] eqn:E.
    - specialize (K2 p). destruct (resolve imports p) as [result err]. cbn [fst snd].
      assert (T : typed_failure location err).
      { destruct err as [ | es | msg]; [exact I | exact I | exact (K2 msg eq_refl)]. }
      pose proof (outputs_exists_error location file read parse content node_info imports result err T) as H.
      fold (readable_files imports) in H. split.
      + intro F. split; [exact Hr |]. intros q Hq. destruct (p_warning q) eqn:W; [reflexivity |].
        rewrite (proj2 H) in F; [discriminate F | exists q; auto].
      + intros [_ F].
        destruct (exists_error (outputs location file read parse content node_info imports result err)) eqn:Q;
          [| reflexivity].
        destruct (proj1 H eq_refl) as [q [Hq W]]. rewrite (F q Hq) in W. discriminate W.
    - cbn [fst]. split; [| intros [_ []]]. destruct es as [| e es]; cbn; intro X; discriminate X.
    - exfalso. apply (K1 a E).
  Qed.

  Theorem C77_linter_partial : forall imports args,
    known_errors imports ->
    (lint location file read parse content node_info protos compile resolve readable imports args = 0 <->
     (args <> [] /\ forall a, In a args -> in_order imports a)).
  Proof.
    intros imports args K.
    assert (L : forall args failed,
      lint_loop location file read parse content node_info protos compile resolve readable imports failed args = 0
      <-> (failed = false /\ forall a, In a args -> in_order imports a)).
    { clear args. induction args as [| a r IH]; intro failed; cbn [lint_loop].
      - destruct failed; split; intro H; try discriminate H; try (destruct H as [H _]; discriminate H);
          [split; [reflexivity | intros a []] | reflexivity].
      - destruct (readable a) eqn:R.
        + pose proof (file_in_order imports a K R) as F.
          destruct (validate location file read parse content node_info protos compile resolve
                      {| s_imports := []; s_manual := false |} a [ImportPathOption imports]) as [os s].
          cbn [fst] in F. rewrite IH. rewrite orb_false_iff. split.
          * intros [[H1 H2] H3]. split; [exact H1 |]. intros b [<- | I]; [apply F, H2 | apply H3, I].
          * intros [H1 H2]. split; [split; [exact H1 | apply F, H2; left; reflexivity] |].
            intros b I. apply H2. right; exact I.
        + split; [intro X; discriminate X |]. intros [_ H].
          destruct (H a (or_introl eq_refl)) as [X _]. rewrite R in X. discriminate X. }
    destruct args as [| a r].
    - cbn. split; [intro X; discriminate X | intros [X _]; contradiction].
    - cbn [lint]. rewrite L. split; [intros [_ H]; split; [discriminate | exact H] | intros [_ H]; auto].
  Qed.

  (** The errors of the compiler are reported one by one, or by the text of the whole. *)
  Theorem C77_compile_errors : forall s a os msg es,
    compile (s_imports (apply_options s os)) (s_manual (apply_options s os)) a = CompileErr msg es ->
    let outs := fst (validate location file read parse content node_info protos compile resolve s a os) in
    (es = [] -> map o_msg outs = [msg]) /\
    (es <> [] -> map (fun o => (o_start o, o_msg o)) outs = es) /\
    outs <> [] /\ forall o, In o outs -> o_warning o = false /\ o_end o = o_start o.
  Proof.
    intros s a os msg es H. unfold validate. cbv zeta. rewrite H. cbn [fst].
    destruct es as [| e es]; cbn [compile_outputs].
    - split; [reflexivity |]. split; [intro X; contradiction |]. split; [discriminate |].
      intros o [<- | []]. split; reflexivity.
    - split; [intro X; discriminate X |]. split; [| split; [discriminate |]].
      + intros _. rewrite map_map. cbn [o_start o_msg].
        rewrite <- (map_id (e :: es)) at 2. apply map_ext. intros [x y]; reflexivity.
      + intros o I. apply in_map_iff in I. destruct I as [x [<- _]]. split; reflexivity.
  Qed.

  (** Nothing is generated if there is an error, and the generator goes on with the
      result if there is none. *)
  Theorem C77_generation_partial : forall imports result err,
    (forall msg, err <> FPlain msg) ->
    ((exists q, In q (found location result err) /\ p_warning q = false) ->
     generate location file read parse content node_info imports result err = Some (Stopped location)) /\
    (forall ws, (forall q, In q (found location result err) -> p_warning q = true) -> result = Some ws ->
     generate location file read parse content node_info imports result err = Some (GoesOn location ws)).
  Proof.
    intros imports result err T.
    assert (T' : typed_failure location err).
    { destruct err; [exact I | exact I | exfalso; apply (T msg); reflexivity]. }
    pose proof (outputs_exists_error location file read parse content node_info imports result err T') as H.
    unfold generate. split.
    - intro X. rewrite (proj2 H X). reflexivity.
    - intros ws X ->.
      destruct (exists_error (outputs location file read parse content node_info imports (Some ws) err)) eqn:Q;
        [| reflexivity].
      destruct (proj1 H eq_refl) as [q [Hq W]]. rewrite (X q Hq) in W. discriminate W.
  Qed.
End C77.
Print Assumptions C77_reported_partial.
Print Assumptions C77_sorted.
Print Assumptions C77_stable.
Print Assumptions C77_source_line.
Print Assumptions C77_linter_partial.
Print Assumptions C77_compile_errors.
Print Assumptions C77_generation_partial.

Example C77_source_line_example :
  nth_line 2 ("one" ++ nl ++ "two" ++ nl) "two" /\
  source_line ("one" ++ nl ++ "two" ++ nl) 2 = "two".
Proof.
  split; [| reflexivity].
  change ("one" ++ nl ++ "two" ++ nl) with ("one" ++ String newline ("two" ++ String newline "")).
  apply line_next; [| apply line_first];
    intros [| [| [| [| k]]]]; cbn; discriminate.
Qed.

Example C77_compile_errors_example :
  fst (validate unit unit (fun _ _ => None) (fun _ _ => None) (fun _ => "") (fun _ _ => None) unit
         (fun _ _ _ => CompileErr "failed" [({| line := 1; col := 2 |}, "a"); ({| line := 3; col := 1 |}, "b")])
         (fun _ _ => (None, FNone)) {| s_imports := []; s_manual := false |} "x.proto" [])
  <> [].
Proof. discriminate. Qed.

(** A linted file that is in order and one that is not. *)
Example C77_linter_example :
  let run err := lint unit unit (fun _ _ => None) (fun _ _ => None) (fun _ => "") (fun _ _ => None) unit
                   (fun _ _ _ => CompileOk tt) (fun _ _ => (Some [], err)) (fun _ => true) [] ["a"; "b"] in
  run FNone = 0 /\ run (FErrs [RPlain "e"]) = 1.
Proof. split; reflexivity. Qed.

(** The mark stands below the character at the column. *)
Theorem C77_mark : forall o,
  o_path o <> "" -> o_line o <> "" -> 1 <= col (o_start o) ->
  exists head top bottom k,
    format [o] = head ++ nl ++ top ++ nl ++ bottom ++ nl /\
    (exists number, top = number ++ o_line o) /\
    (forall j, String.get j bottom = Some "^"%char <-> j = k) /\
    (forall j, String.get j bottom = Some "^"%char \/ String.get j bottom = Some " "%char
               \/ String.get j bottom = None) /\
    String.get k top = String.get (col (o_start o) - 1) (o_line o).
Proof.
  intros o Hp Hl Hc. unfold format; cbn [map]. cbn [String.concat].
  unfold format_one.
  destruct (String.eqb_spec (o_path o) "") as [E | _]; [contradiction |].
  destruct (String.eqb_spec (o_line o) "") as [E | _]; [contradiction |].
  set (msg := if o_warning o then "[WARN] " ++ o_msg o else o_msg o).
  set (header := decimal (line (o_start o)) ++ ": ").
  exists (if Nat.eqb (line (o_start o)) 0 then o_path o ++ ": " ++ msg
          else o_path o ++ ":" ++ decimal (line (o_start o)) ++ ":" ++ decimal (col (o_start o)) ++ ": " ++ msg).
  exists (header ++ " " ++ o_line o).
  exists (spaces (String.length header + col (o_start o)) ++ "^").
  exists (String.length header + col (o_start o)).
  split.
  { destruct (Nat.eqb (line (o_start o)) 0); rewrite !app_assoc_s; cbn [append]; rewrite ?app_assoc_s; reflexivity. }
  split; [exists (header ++ " "); rewrite app_assoc_s; reflexivity |].
  split.
  { intro j. split.
    - intro H. destruct (get_spaces _ _ _ H) as [[_ X] | [X _]]; [discriminate X | exact X].
    - intros ->.
      pose proof (get_app_r (spaces (String.length header + col (o_start o))) "^" 0) as X.
      rewrite length_spaces, Nat.add_0_r in X. exact X. }
  split.
  { intro j. destruct (String.get j (spaces (String.length header + col (o_start o)) ++ "^")) as [x |] eqn:Q; [| auto].
    destruct (get_spaces _ _ _ Q) as [[_ ->] | [_ ->]]; auto. }
  rewrite get_app_r. destruct (col (o_start o)) as [| c]; [lia |].
  cbn [append String.get]. replace (S c - 1) with c by lia. reflexivity.
Qed.
Print Assumptions C77_mark.

(** What is printed is what is printed for each output, one after the other, and this
    tells the path, the position if it is known, the severity and the text. *)
Theorem C77_printed : forall o os,
  format [] = "" /\
  format (o :: os) = format [o] ++ format os /\
  exists rest,
    format [o] =
    (if String.eqb (o_path o) "" then "" else
       o_path o ++ ":" ++
       (if Nat.eqb (line (o_start o)) 0 then ""
        else decimal (line (o_start o)) ++ ":" ++ decimal (col (o_start o)) ++ ":") ++ " ")
    ++ (if o_warning o then "[WARN] " else "") ++ o_msg o ++ nl ++ rest.
Proof.
  intros o os. split; [reflexivity |]. split.
  - unfold format. cbn [map]. destruct os as [| o' os]; cbn [map String.concat];
      [symmetry; apply app_nil_s | reflexivity].
  - unfold format. cbn [map String.concat]. unfold format_one.
    destruct (String.eqb (o_path o) "").
    + exists "". destruct (o_warning o); cbn [append]; rewrite ?app_nil_s; reflexivity.
    + destruct (Nat.eqb (line (o_start o)) 0), (String.eqb (o_line o) ""), (o_warning o);
        eexists; rewrite ?app_assoc_s; cbn [append]; rewrite ?app_assoc_s; cbn [append];
        try reflexivity; rewrite <- (app_nil_s nl) at 1; reflexivity.
Qed.
Print Assumptions C77_printed.

(** The exit status and the generation without the restriction on errors: an error of
    another type, e.g. of the registry of types, is dropped; the linter succeeds, and
    the generator dereferences a nil pointer. *)
Theorem C77_refuted :
  ~ (forall location file read parse content node_info protos compile resolve readable,
       C77_linter_statement location file read parse content node_info protos compile resolve readable) /\
  (forall location file read parse content node_info imports msg,
     outputs location file read parse content node_info imports None (FPlain msg) = [] /\
     generate location file read parse content node_info imports None (FPlain msg) = None).
Proof.
  split.
  - intro H.
    specialize (H unit unit (fun _ _ => None) (fun _ _ => None) (fun _ => "") (fun _ _ => None) unit
                  (fun _ _ _ => CompileOk tt) (fun _ _ => (None, FPlain "registry")) (fun _ => true)
                  [] ["a.proto"]).
    destruct (proj1 H eq_refl) as [_ X]. destruct (X "a.proto" (or_introl eq_refl)) as [_ Y].
    cbn in Y. specialize (Y _ (or_introl eq_refl)). discriminate Y.
  - intros. split; reflexivity.
Qed.
Print Assumptions C77_refuted.

(** In the same way an error of the compiler that is of another type (no import path
    contains the file: compiler.go:156-159) is dropped. *)
Theorem C77_unknown_dropped :
  forall location file read parse content node_info protos compile resolve readable imports a,
  (forall i m, compile i m a = CompileUnknown) -> readable a = true ->
  (forall s os, fst (validate location file read parse content node_info protos compile resolve s a os) = []) /\
  lint location file read parse content node_info protos compile resolve readable imports [a] = 0.
Proof.
  intros until a. intros H R. unfold lint, lint_loop, validate. cbv zeta. rewrite R.
  split; [intros s os; rewrite H; reflexivity |]. rewrite H. reflexivity.
Qed.
Print Assumptions C77_unknown_dropped.

Example C77_unknown_dropped_example :
  lint unit unit (fun _ _ => None) (fun _ _ => None) (fun _ => "") (fun _ _ => None) unit
    (fun _ _ _ => CompileUnknown) (fun _ _ => (None, FNone)) (fun _ => true) ["proto"] ["a.proto"] = 0.
Proof. reflexivity. Qed.

(** The last line of a file that does not end with a line break is never shown. *)
Theorem C77_last_line_lost : forall text l,
  nth_line (List.length (split newline text)) text l ->
  source_line text (List.length (split newline text)) = "".
Proof.
  intros text l H. rewrite (C77_source_line text _ l H). rewrite Nat.ltb_irrefl. reflexivity.
Qed.
Print Assumptions C77_last_line_lost.

Example C77_last_line_lost_example :
  List.length (split newline ("one" ++ nl ++ "two")) = 2 /\ nth_line 2 ("one" ++ nl ++ "two") "two".
Proof.
  split; [reflexivity |].
  change ("one" ++ nl ++ "two") with ("one" ++ String newline "two").
  apply line_next; [| apply line_last]; intros [| [| [| k]]]; cbn; discriminate.
Qed.

(** The settings of a run: the import paths are those of its own options, but the flag
    for manual imports stays set once it has been. *)
Theorem C77_settings : forall s os,
  s_imports (apply_options s os)
  = concat (map (fun o => match o with ImportPathOption ps => ps | ManualImportOption => [] end) os) /\
  (s_manual (apply_options s os) = true <-> s_manual s = true \/ In ManualImportOption os).
Proof.
  intros s os.
  assert (G : forall os s0,
    s_imports (fold_left apply_option os s0)
    = (s_imports s0 ++ concat (map (fun o => match o with ImportPathOption ps => ps | ManualImportOption => [] end) os))%list /\
    (s_manual (fold_left apply_option os s0) = true <-> s_manual s0 = true \/ In ManualImportOption os)).
  { clear. induction os as [| o os IH]; intro s0; cbn [fold_left map concat].
    - rewrite app_nil_r. split; [reflexivity |]. split; [auto | intros [H | []]; exact H].
    - destruct (IH (apply_option s0 o)) as [I1 I2]. rewrite I1, I2.
      destruct o as [ps |]; cbn.
      + split; [rewrite <- app_assoc; reflexivity |]. split; intros [H | H]; auto.
        destruct H as [H | H]; [discriminate H | auto].
      + split; [reflexivity |]. split; intros _; [right; left; reflexivity | left; reflexivity]. }
  unfold apply_options. destruct (G os {| s_imports := []; s_manual := s_manual s |}) as [G1 G2].
  split; [exact G1 | exact G2].
Qed.
Print Assumptions C77_settings.

Example C77_settings_example :
  let s := apply_options {| s_imports := ["x"]; s_manual := false |} [ManualImportOption] in
  apply_options s [ImportPathOption ["p"; "q"]] = {| s_imports := ["p"; "q"]; s_manual := true |}.
Proof. reflexivity. Qed.

(** What the language server publishes: one diagnostic for each output, at the position
    counted from zero; a position that is not known becomes the largest line, and the
    file of the problem is not looked at. *)
Theorem C77_published : forall doc os,
  fst (publish doc os) = doc /\
  Forall2 (fun o d =>
    d_error d = negb (o_warning o) /\ d_msg d = o_msg o /\
    (1 <= line (o_start o) -> (N.of_nat (line (o_start o)) < 4294967296)%N ->
     fst (d_start d) = N.of_nat (line (o_start o) - 1)) /\
    (1 <= col (o_start o) -> (N.of_nat (col (o_start o)) < 4294967296)%N ->
     snd (d_start d) = N.of_nat (col (o_start o) - 1)) /\
    (1 <= line (o_end o) -> (N.of_nat (line (o_end o)) < 4294967296)%N ->
     fst (d_end d) = N.of_nat (line (o_end o) - 1)) /\
    (1 <= col (o_end o) -> (N.of_nat (col (o_end o)) < 4294967296)%N ->
     snd (d_end d) = N.of_nat (col (o_end o) - 1)) /\
    (line (o_start o) = 0 -> fst (d_start d) = 4294967295%N)) os (snd (publish doc os)).
Proof.
  intros doc os. split; [reflexivity |]. cbn [publish snd].
  assert (P : forall n, 1 <= n -> (N.of_nat n < 4294967296)%N -> uint32_pred n = N.of_nat (n - 1)).
  { intros n H1 H2. unfold uint32_pred. rewrite (N.mod_small _ _ H2).
    replace (N.of_nat n + 4294967295)%N with (N.of_nat (n - 1) + 1 * 4294967296)%N by lia.
    rewrite N.mod_add by lia. apply N.mod_small. lia. }
  induction os as [| o os IH]; cbn [map]; constructor; [| exact IH].
  unfold to_diagnostic; cbn [d_error d_msg d_start d_end fst snd].
  split; [reflexivity | split; [reflexivity |]].
  split; [apply P | split; [apply P |]]. split; [apply P | split; [apply P |]].
  intros ->. reflexivity.
Qed.
Print Assumptions C77_published.

(** So a problem of another file is published for the document that was changed. *)
Theorem C77_other_file : exists o,
  o_path o <> "doc.proto" /\
  fst (publish "doc.proto" [o]) = "doc.proto" /\
  In (o_msg o) (map d_msg (snd (publish "doc.proto" [o]))).
Proof.
  exists {| o_warning := false; o_path := "b.proto"; o_start := no_pos; o_end := no_pos;
            o_msg := "e"; o_line := "" |}.
  split; [discriminate | split; [reflexivity | left; reflexivity]].
Qed.
Print Assumptions C77_other_file.

(** A case: two files, a warning and two errors. *)
Definition ex_read (i p : string) : option string :=
  if String.eqb i "proto" && String.eqb p "a.proto" then Some ("one" ++ nl ++ "two" ++ nl ++ "three")
  else if String.eqb i "" && String.eqb p "b.proto" then Some ("x" ++ nl)
  else None.
Definition ex_info (f : string) (l : pos * pos) : option (pos * pos) := Some l.
Definition at_ (l c : nat) : pos * pos := ({| line := l; col := c |}, {| line := l; col := c + 1 |}).
Definition ex_outputs : list output :=
  outputs (pos * pos) string ex_read (fun _ s => Some s) (fun s => s) ex_info ["proto"]
    (Some [{| w_path := "a.proto"; w_loc := at_ 3 2; w_msg := "w" |};
           {| w_path := "a.proto"; w_loc := at_ 2 2; w_msg := "v" |}])
    (FErrs [RLoc "b.proto" (at_ 2 1) "e"; RLoc "a.proto" (at_ 2 2) "f"; RPlain "g"]).

Example C77_example :
  map o_msg ex_outputs = ["g"; "e"; "v"; "f"; "w"] /\
  map o_line ex_outputs = [""; ""; "two"; "two"; ""] /\
  format (firstn 1 (skipn 2 ex_outputs))
  = "a.proto:2:2: [WARN] v" ++ nl ++ "2:  two" ++ nl ++ "     ^" ++ nl.
Proof. repeat split; reflexivity. Qed.
