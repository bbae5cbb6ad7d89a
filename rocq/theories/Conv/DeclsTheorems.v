(** C49: every conversion the generated code calls is generated, once. *)
From Coq Require Import String List Bool Arith Lia.
From Verif.Cast Require Import Model.
From Verif.Conv Require Import Enum Model Decls DeclsSpec DeclsProofs DeclsCheck.
Import ListNotations.
Local Open Scope nat_scope.

(** Collecting ends for all messages, recursive ones too, and does not dereference nil. *)
Theorem C49_terminates :
  forall msgs mname ename selector depth U roots fuel,
    assignments msgs selector depth U roots -> length U * length U < fuel ->
    exists d v, message_decls msgs mname ename selector depth fuel roots = Done d v.
Proof.
  intros msgs mname ename selector depth U roots fuel [A B C D E] L.
  destruct (message_ok msgs mname ename selector depth U roots A C D E fuel) as (d & v & R & _); [rewrite prod_length; exact L|].
  exists d, v. exact R.
Qed.
Print Assumptions C49_terminates.

(** No conversion is collected twice. *)
Theorem C49_once :
  forall msgs mname ename selector depth U roots fuel d v,
    assignments msgs selector depth U roots -> length U * length U < fuel ->
    message_decls msgs mname ename selector depth fuel roots = Done d v -> NoDup (map (fun p => key msgs mname ename (fst p) (snd p)) d).
Proof.
  intros msgs mname ename selector depth U roots fuel d v [A B C D E] L H.
  destruct (message_ok msgs mname ename selector depth U roots A C D E fuel) as (d' & v' & R & I & _); [rewrite prod_length; exact L|].
  rewrite R in H. injection H as <- <-. exact (i_nodup _ _ _ _ _ _ _ _ _ _ I).
Qed.
Print Assumptions C49_once.

(** What is collected is complete if the names are distinct and no field is renamed by an alias. *)
Theorem C49_complete_partial :
  forall msgs mname ename selector depth U roots fuel d v,
    assignments msgs selector depth U roots -> length U * length U < fuel ->
    unambiguous msgs mname ename U -> not_renamed msgs U ->
    message_decls msgs mname ename selector depth fuel roots = Done d v -> complete msgs selector roots d.
Proof.
  intros msgs mname ename selector depth U roots fuel d v [A B C D E] L N R H.
  destruct (message_ok msgs mname ename selector depth U roots A C D E fuel) as (d' & v' & Er & I & Dn); [rewrite prod_length; exact L|].
  rewrite Er in H. injection H as <- <-. split.
  - intros f t f' t' Hr Hc. eapply roots_provided; eassumption.
  - intros f t f' t' Hd Hc. eapply calls_provided; eassumption.
Qed.
Print Assumptions C49_complete_partial.

Section Service.
  Variable msgs : nat -> message.
  Variable gmname gename : nat -> string.
  Variable gmember : string -> string.
  Variable gkind : kind -> string.
  Notation name := (castFuncName msgs gmname gename gmember gkind).

  Lemma alike_name a b : alike msgs a b -> castName msgs gmname gename gmember gkind a = castName msgs gmname gename gmember gkind b.
  Proof.
    intros [->|(R & M & ma & mb & k & v & Ea & Eb & Ka & Kb)]; [reflexivity|]. unfold castName. rewrite Ea, Eb, Ka, Kb, M.
    destruct (t_member b) eqn:Mb; [|reflexivity]. unfold castName1. rewrite R, M, Mb. reflexivity.
  Qed.
  Lemma provided_name d f t : provided msgs d f t -> In (name (f, t)) (map name d).
  Proof.
    intros (f' & t' & I & A & B). apply in_map_iff. exists (f', t'). split; [|exact I].
    unfold castFuncName. cbn [fst snd]. rewrite (alike_name _ _ A), (alike_name _ _ B). reflexivity.
  Qed.
  Lemma by_name_in l p : In p (by_name msgs gmname gename gmember gkind l) -> In p l.
  Proof.
    induction l as [|q l IH]; [auto|]. cbn [by_name]. destruct (existsb _ l); cbn; [auto|]. intros [H|H]; auto.
  Qed.
  Lemma by_name_all l n : In n (map name (by_name msgs gmname gename gmember gkind l)) <-> In n (map name l).
  Proof.
    induction l as [|q l IH]; [tauto|]. cbn [by_name]. destruct (existsb _ l) eqn:E.
    - rewrite IH. cbn [map]. split; [cbn; auto|]. intros [<-|H]; [|exact H].
      apply existsb_exists in E as (r & I & E). apply String.eqb_eq in E. rewrite E. apply in_map. exact I.
    - cbn [map]. cbn. rewrite IH. tauto.
  Qed.
  Lemma by_name_nodup l : NoDup (map name (by_name msgs gmname gename gmember gkind l)).
  Proof.
    induction l as [|q l IH]; [constructor|]. cbn [by_name]. destruct (existsb _ l) eqn:E; [exact IH|]. cbn [map]. constructor; [|exact IH].
    rewrite by_name_all. intros H. apply in_map_iff in H as (r & Er & I).
    assert (X : existsb (fun q0 => String.eqb (name q) (name q0)) l = true); [|congruence].
    apply existsb_exists. exists r. split; [exact I|]. rewrite Er. apply String.eqb_refl.
  Qed.
End Service.

(** The functions generated for a service whose methods have no "response" option: one function for each name, and every call, in
    assignments and in the functions themselves, is to one of them. *)
Theorem C49_service_partial :
  forall msgs mname ename selector depth gmname gename gmember gkind U messages fuel,
    (forall roots, In roots messages -> assignments msgs selector depth U roots) -> length U * length U < fuel ->
    unambiguous msgs mname ename U -> not_renamed msgs U ->
    exists d, CastFields msgs mname ename selector depth gmname gename gmember gkind fuel [] messages = Some d /\
      let name := castFuncName msgs gmname gename gmember gkind in
      NoDup (map name d) /\
      (forall roots f t f' t', In roots messages -> In (f, t) roots -> root_call msgs selector f t f' t' -> In (name (f', t')) (map name d)) /\
      (forall f t f' t', In (f, t) d -> In (f', t') (calls msgs f t) -> In (name (f', t')) (map name d)).
Proof.
  intros msgs mname ename selector depth gmname gename gmember gkind U messages fuel As L N R.
  assert (P : exists d, all_decls msgs mname ename selector depth fuel messages = Some d /\
                (forall roots f t f' t', In roots messages -> In (f, t) roots -> root_call msgs selector f t f' t' -> provided msgs d f' t') /\
                (forall f t f' t', In (f, t) d -> In (f', t') (calls msgs f t) -> provided msgs d f' t')).
  { clear gmname gename gmember gkind. induction messages as [|roots messages IH].
    - exists []. split; [reflexivity|]. split; [intros roots f t f' t' [] | intros f t f' t' []].
    - destruct IH as (r & Er & R1 & R2). { intros roots' H. apply As. cbn. auto. }
      pose proof (As roots (or_introl eq_refl)) as Ar.
      destruct (C49_terminates msgs mname ename selector depth U roots fuel Ar L) as (d & v & Ed).
      destruct (C49_complete_partial _ _ _ _ _ _ _ _ _ _ Ar L N R Ed) as [D1 D2].
      exists (d ++ r). cbn [all_decls]. rewrite Ed, Er. split; [reflexivity|].
      assert (W : forall f t, provided msgs d f t \/ provided msgs r f t -> provided msgs (d ++ r) f t).
      { intros f t [(f' & t' & I & A)|(f' & t' & I & A)]; exists f', t'; (split; [apply in_or_app; auto | exact A]). }
      split.
      + intros roots' f t f' t' [<-|H] Hr Hc; apply W; [left; eapply D1; eassumption | right; eapply R1; eassumption].
      + intros f t f' t' H Hc. apply W. apply in_app_iff in H as [H|H]; [left; eapply D2; eassumption | right; eapply R2; eassumption]. }
  destruct P as (d & Ed & P1 & P2). exists (by_name msgs gmname gename gmember gkind d). unfold CastFields. rewrite Ed. split; [reflexivity|].
  cbn zeta. split; [apply by_name_nodup|]. split.
  - intros roots f t f' t' Hm Hr Hc. rewrite by_name_all. apply provided_name. eapply P1; eassumption.
  - intros f t f' t' Hd Hc. rewrite by_name_all. apply provided_name. apply by_name_in in Hd. eapply P2; eassumption.
Qed.
Print Assumptions C49_service_partial.

(** *** A case that meets the hypotheses: recursive messages with a list, a map, a oneof and an enum that is selected *)
Definition num (k : kind) : ty := {| t_kind := k; t_rep := false; t_msg := None; t_enum := None; t_member := None |}.
Definition msg (m : nat) : ty := {| t_kind := Message; t_rep := false; t_msg := Some m; t_enum := None; t_member := None |}.
Definition list_of (m : nat) : ty := {| t_kind := Message; t_rep := true; t_msg := Some m; t_enum := None; t_member := None |}.
Definition mem (m : nat) (n : string) : ty := {| t_kind := Message; t_rep := false; t_msg := Some m; t_enum := None; t_member := Some n |}.
Definition enu (e : nat) : ty := {| t_kind := Enum; t_rep := false; t_msg := None; t_enum := Some e; t_member := None |}.
Definition fld (n : string) (t : ty) : field := {| f_name := n; f_type := t; f_aliases := [] |}.
Definition struct (l : list field) : message := {| m_map := false; m_fields := l; m_oneofs := [] |}.
Definition map_of (k v : ty) : message := {| m_map := true; m_fields := [fld "key" k; fld "value" v]; m_oneofs := [] |}.

(** dep.Tree and fed.Tree, their maps, and dep.Text and fed.Text; 6 is an enum selector. *)
Definition ex_msgs (n : nat) : message :=
  match n with
  | 0 => struct [fld "id" (num Int64); fld "kids" (list_of 0); fld "counts" (msg 2); fld "text" (mem 4 "dep.Tree.text")]
  | 1 => struct [fld "id" (num Int32); fld "kids" (list_of 1); fld "counts" (msg 3); fld "text" (mem 5 "fed.Tree.text"); fld "extra" (num String_)]
  | 2 => map_of (num String_) (msg 0)
  | 3 => map_of (num String_) (msg 1)
  | 4 => struct [fld "body" (num String_)]
  | 5 => struct [fld "body" (num String_)]
  | 6 => struct [fld "true" (enu 0); fld "false" (enu 1)]
  | _ => struct []
  end%string.
Definition ex_selector (m : nat) : bool := Nat.eqb m 6.
Definition ex_mname (n : nat) : string :=
  match n with
  | 0 => "dep.Tree" | 1 => "fed.Tree" | 2 => "dep.Tree.CountsEntry" | 3 => "fed.Tree.CountsEntry" | 4 => "dep.Text" | 5 => "fed.Text"
  | _ => "grpc.federation.private.EnumSelector"
  end%string.
Definition ex_ename (n : nat) : string := match n with 0 => "dep.A" | 1 => "dep.B" | _ => "fed.C" end%string.
Definition ex_roots : list (ty * ty) := [(msg 0, msg 1); (list_of 0, list_of 1); (msg 6, enu 2)].
Definition ex_U : list ty :=
  [msg 0; msg 1; msg 2; msg 3; msg 4; msg 5; msg 6; list_of 0; list_of 1; mem 4 "dep.Tree.text"; mem 5 "fed.Tree.text"; enu 0; enu 1; enu 2;
   num Int64; num Int32; num String_]%string.
Definition ex_G : list (ty * ty) :=
  [(msg 0, msg 1); (list_of 0, list_of 1); (msg 6, enu 2); (num Int64, num Int32); (msg 2, msg 3); (mem 4 "dep.Tree.text", mem 5 "fed.Tree.text");
   (msg 4, msg 5); (num String_, num String_); (enu 0, enu 2); (enu 1, enu 2)]%string.
Example C49_sample :
  assignments ex_msgs ex_selector 3 ex_U ex_roots /\ unambiguous ex_msgs ex_mname ex_ename ex_U /\ not_renamed ex_msgs ex_U /\
  exists d v, message_decls ex_msgs ex_mname ex_ename ex_selector 3 400 ex_roots = Done d v /\
    d = [(msg 0, msg 1); (num Int64, num Int32); (list_of 0, list_of 1); (msg 2, msg 3); (mem 4 "dep.Tree.text", mem 5 "fed.Tree.text");
         (msg 4, msg 5); (enu 0, enu 2); (enu 1, enu 2)]%string /\
    calls ex_msgs (msg 0) (msg 1) = [(num Int64, num Int32); (list_of 0, list_of 1); (msg 2, msg 3); (mem 4 "dep.Tree.text", mem 5 "fed.Tree.text")]%string /\
    root_call ex_msgs ex_selector (msg 6) (enu 2) (enu 1) (enu 2).
Proof.
  split; [apply (check_sound _ _ _ _ _ ex_G); vm_compute; reflexivity|].
  split; [apply check_names_sound; vm_compute; reflexivity|].
  split; [apply check_alias_sound; vm_compute; reflexivity|].
  eexists _, _. split; [vm_compute; reflexivity|]. split; [reflexivity|]. split; [vm_compute; reflexivity|].
  split; [reflexivity|]. right. split; [reflexivity|]. exists 6. split; [reflexivity|]. split; [reflexivity|]. split; [|reflexivity].
  apply (leaf_here ex_msgs ex_selector 6 (fld "false" (enu 1))); [reflexivity | cbn; auto | intros [? _]; discriminate].
Qed.

(** ** What is refuted *)

(** The statement without the two hypotheses: [P] is what is assumed in addition. *)
Definition C49_statement (P : (nat -> message) -> (nat -> bool) -> (nat -> string) -> (nat -> string) -> list ty -> Prop) : Prop :=
  forall msgs mname ename selector depth U roots,
    assignments msgs selector depth U roots -> P msgs selector mname ename U ->
    exists fuel d v, message_decls msgs mname ename selector depth fuel roots = Done d v /\ complete msgs selector roots d.

Lemma decls_fuel msgs mname ename selector depth U roots d v :
  assignments msgs selector depth U roots -> message_decls msgs mname ename selector depth (S (length U * length U)) roots = Done d v ->
  forall fuel d' v', message_decls msgs mname ename selector depth fuel roots = Done d' v' -> d' = d.
Proof.
  assert (R : forall (rec rec' : ty -> ty -> list string -> dres) l vis d v,
             (forall f t vis d v, rec f t vis = Done d v -> rec' f t vis = Done d v) -> run rec l vis = Done d v -> run rec' l vis = Done d v).
  { intros rec rec' l. induction l as [|[f t] l IH]; intros vis d0 v0 H E; [exact E|]. cbn [run] in *.
    destruct (rec f t vis) as [d1 v1| |] eqn:E1; try discriminate. rewrite (H _ _ _ _ _ E1).
    destruct (run rec l v1) as [d2 v2| |] eqn:E2; try discriminate. rewrite (IH _ _ _ H E2). exact E. }
  assert (M : forall n n' f t vis d v, n <= n' -> decls msgs mname ename selector depth n f t vis = Done d v -> decls msgs mname ename selector depth n' f t vis = Done d v).
  { induction n as [|n IH]; intros n' f t vis d0 v0 L E; [discriminate|]. destruct n' as [|n']; [lia|]. cbn [decls] in *.
    destruct (negb (required msgs f t)); [exact E|]. destruct (existsb _ vis); [exact E|]. destruct (expand msgs selector depth f t) as [[own subs]|]; [|discriminate].
    destruct (run (decls msgs mname ename selector depth n) subs (key msgs mname ename f t :: vis)) as [d1 v1| |] eqn:E1; try discriminate.
    rewrite (R _ (decls msgs mname ename selector depth n') _ _ _ _ (fun f t vis d v => IH n' f t vis d v ltac:(lia)) E1). exact E. }
  intros A E fuel d' v' E'. unfold message_decls in *.
  destruct (Nat.le_ge_cases fuel (S (length U * length U))) as [L|L].
  - pose proof (R _ _ roots [] d' v' (fun f t vis d v => M _ _ f t vis d v L) E') as X. rewrite E in X. congruence.
  - pose proof (R _ _ roots [] d v (fun f t vis d v => M _ _ f t vis d v L) E) as X. rewrite E' in X. congruence.
Qed.

(** A field that is an alias of a field with another name: the conversion of the message is generated, that of the field is not.
    dep.User.old of type dep.Item is read by fed.User.new of type fed.Item. *)
Definition al_msgs (n : nat) : message :=
  match n with
  | 0 => struct [fld "old" (msg 1)]
  | 1 => struct []
  | 2 => struct [{| f_name := "new"; f_type := msg 3; f_aliases := [(0, ("old", msg 1))] |}]
  | _ => struct []
  end%string.
Definition al_name (n : nat) : string := match n with 0 => "dep.User" | 1 => "dep.Item" | 2 => "fed.User" | _ => "fed.Item" end%string.
Definition al_U : list ty := [msg 0; msg 1; msg 2; msg 3].
Theorem C49_alias_refuted : ~ C49_statement (fun msgs selector mname ename U => unambiguous msgs mname ename U).
Proof.
  intros H.
  assert (A : assignments al_msgs (fun _ => false) 0 al_U [(msg 0, msg 2)]) by (apply (check_sound _ _ _ _ _ [(msg 0, msg 2)]); vm_compute; reflexivity).
  destruct (H al_msgs al_name al_name (fun _ => false) 0 al_U [(msg 0, msg 2)]) as (fuel & d & v & E & _ & C); [exact A|apply check_names_sound; vm_compute; reflexivity|].
  assert (D : d = [(msg 0, msg 2)]) by (eapply decls_fuel; [exact A | | exact E]; vm_compute; reflexivity). subst d.
  destruct (C (msg 0) (msg 2) (msg 1) (msg 3)) as (f & t & [I|[]] & A1 & A2); [cbn; auto | vm_compute; auto|].
  injection I as <- <-. destruct A1 as [A1|(_ & _ & ma & mb & k & w & X & _)]; discriminate.
Qed.
Print Assumptions C49_alias_refuted.

(** Two enum selectors with the same target: they have the same name, so the second one is taken for visited. *)
Definition se_msgs (n : nat) : message :=
  match n with
  | 0 => struct [fld "true" (enu 0); fld "false" (enu 0)]
  | _ => struct [fld "true" (enu 1); fld "false" (enu 1)]
  end%string.
Definition se_ename (n : nat) : string := match n with 0 => "dep.A" | 1 => "dep.B" | _ => "fed.C" end%string.
Definition se_U : list ty := [msg 0; msg 1; enu 0; enu 1; enu 2].
Theorem C49_selectors_refuted :
  ~ C49_statement (fun msgs selector mname ename U => not_renamed msgs U /\ unambiguous msgs mname ename (filter (fun t => negb (sel selector t)) U)).
Proof.
  intros H.
  assert (A : assignments se_msgs (fun _ => true) 3 se_U [(msg 0, enu 2); (msg 1, enu 2)]).
  { apply (check_sound _ _ _ _ _ [(msg 0, enu 2); (msg 1, enu 2); (enu 0, enu 2); (enu 1, enu 2)]); vm_compute; reflexivity. }
  destruct (H se_msgs (fun _ => "grpc.federation.private.EnumSelector"%string) se_ename (fun _ => true) 3 se_U [(msg 0, enu 2); (msg 1, enu 2)])
    as (fuel & d & v & E & C & _); [exact A | |].
  { split; [apply check_alias_sound; vm_compute; reflexivity | apply check_names_sound; vm_compute; reflexivity]. }
  assert (D : d = [(enu 0, enu 2)]) by (eapply decls_fuel; [exact A | | exact E]; vm_compute; reflexivity). subst d.
  destruct (C (msg 1) (enu 2) (enu 1) (enu 2)) as (f & t & [I|[]] & A1 & A2); [cbn; auto | |].
  - split; [reflexivity|]. right. split; [reflexivity|]. exists 1. split; [reflexivity|]. split; [reflexivity|]. split; [|reflexivity].
    apply (leaf_here se_msgs (fun _ => true) 1 (fld "true" (enu 1))); [reflexivity | cbn; auto | intros [? _]; discriminate].
  - injection I as <- <-. destruct A1 as [A1|(_ & _ & ma & mb & k & w & X & _)]; discriminate.
Qed.
Print Assumptions C49_selectors_refuted.

(** Names that are ambiguous when written one after the other: "a.B" and "Cd.E", "a.BC" and "d.E". *)
Definition co_name (n : nat) : string := match n with 0 => "a.B" | 1 => "Cd.E" | 2 => "a.BC" | _ => "d.E" end%string.
Definition co_roots : list (ty * ty) := [(msg 0, msg 1); (msg 2, msg 3)].
Theorem C49_names_refuted :
  ~ C49_statement (fun msgs selector mname ename U => not_renamed msgs U /\ (forall m m', occurs U m -> occurs U m' -> mname m = mname m' -> m = m')).
Proof.
  intros H.
  assert (A : assignments (fun _ => struct []) (fun _ => false) 0 al_U co_roots) by (apply (check_sound _ _ _ _ _ co_roots); vm_compute; reflexivity).
  destruct (H (fun _ => struct []) co_name co_name (fun _ => false) 0 al_U co_roots) as (fuel & d & v & E & C & _); [exact A| |].
  { split; [apply check_alias_sound; vm_compute; reflexivity|].
    intros m m' (t & [<-|[<-|[<-|[<-|[]]]]] & [= <-]) (t' & [<-|[<-|[<-|[<-|[]]]]] & [= <-]) N; (reflexivity || discriminate N). }
  assert (D : d = [(msg 0, msg 1)]) by (eapply decls_fuel; [exact A | | exact E]; vm_compute; reflexivity). subst d.
  destruct (C (msg 2) (msg 3) (msg 2) (msg 3)) as (f & t & [I|[]] & A1 & A2); [cbn; auto | |].
  - split; [reflexivity|]. left. split; [|auto]. intros [_ ?]. discriminate.
  - injection I as <- <-. destruct A1 as [A1|(_ & _ & ma & mb & k & w & X & _)]; discriminate.
Qed.
Print Assumptions C49_names_refuted.

(** A method with a "response" option: only the conversion of the response itself is generated. *)
Definition re_msgs (n : nat) : message :=
  match n with
  | 0 => struct [fld "item" (msg 1)]
  | 2 => struct [fld "item" (msg 3)]
  | _ => struct []
  end%string.
Theorem C49_response_refuted :
  ~ (forall msgs mname ename selector depth gmname gename gmember gkind U responses fuel d,
       assignments msgs selector depth U responses -> unambiguous msgs mname ename U -> not_renamed msgs U ->
       (forall f t f' t', In f U -> In t U -> In f' U -> In t' U -> castFuncName msgs gmname gename gmember gkind (f, t) = castFuncName msgs gmname gename gmember gkind (f', t') -> alike msgs f f' /\ alike msgs t t') ->
       CastFields msgs mname ename selector depth gmname gename gmember gkind fuel responses [] = Some d ->
       forall f t f' t', In (f, t) d -> In (f', t') (calls msgs f t) -> provided msgs d f' t').
Proof.
  intros H.
  destruct (H re_msgs al_name al_name (fun _ => false) 0 al_name al_name (fun x => x) (fun _ => ""%string) al_U [(msg 0, msg 2)] 0 [(msg 0, msg 2)]) with (f := msg 0) (t := msg 2) (f' := msg 1) (t' := msg 3)
    as (f & t & [I|[]] & A1 & A2).
  - apply (check_sound _ _ _ _ _ [(msg 0, msg 2); (msg 1, msg 3)]); vm_compute; reflexivity.
  - apply check_names_sound; vm_compute; reflexivity.
  - apply check_alias_sound; vm_compute; reflexivity.
  - intros f t f' t' F T F' T'. cbn in F, T, F', T'.
    destruct F as [<-|[<-|[<-|[<-|[]]]]], T as [<-|[<-|[<-|[<-|[]]]]], F' as [<-|[<-|[<-|[<-|[]]]]], T' as [<-|[<-|[<-|[<-|[]]]]];
      intros N; vm_compute in N; (discriminate N || (split; left; reflexivity)).
  - reflexivity.
  - cbn. auto.
  - vm_compute. auto.
  - injection I as <- <-. destruct A1 as [A1|(_ & _ & ma & mb & k & w & X & _)]; discriminate.
Qed.
Print Assumptions C49_response_refuted.
