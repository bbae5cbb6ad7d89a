From Coq Require Import String List ZArith Bool Permutation Sorted Lia.
From Verif.Base Require Import Result.
From Verif.Cel Require Import ListLib ListSpec.
Import ListNotations.

Section P.
  Context {E0 : Type}.

  Lemma fold_err {A B} (step : A -> result B E0 -> result B E0) l e :
    (forall x e, exists e', step x (Err e) = Err e') -> exists e', cel_fold step l (Err e) = Err e'.
  Proof.
    intros H. revert e. induction l as [|x l IH]; intros e; cbn; [eauto|]. destruct (H x e) as [e' ->]. apply IH.
  Qed.

  (** ** map *)
  Lemma map_macro_gen {A B} (f : A -> result B E0) l : forall acc,
    match cel_fold (fun x acc => match acc with Err e => Err e | Ok a => match f x with Err e => Err e | Ok y => Ok (a ++ [y]) end end) l (Ok acc) with
    | Ok ys => exists zs, ys = acc ++ zs /\ Forall2 (fun x y => f x = Ok y) l zs
    | Err e => exists pre x post, l = pre ++ x :: post /\ f x = Err e /\ Forall (fun x => exists y, f x = Ok y) pre
    end.
  Proof.
    induction l as [|x l IH]; intros acc; cbn.
    - exists []. rewrite app_nil_r. auto.
    - destruct (f x) as [y|e] eqn:Ef.
      + specialize (IH (acc ++ [y])). unfold cel_fold in IH.
        destruct (fold_left _ l (Ok (acc ++ [y]))) as [ys|e].
        * destruct IH as (zs & -> & F). exists (y :: zs). rewrite <- app_assoc. auto.
        * destruct IH as (pre & z & post & -> & Hz & F). exists (x :: pre), z, post. repeat split; auto. constructor; eauto.
      + assert (G : fold_left (fun acc x => match acc with Err e => Err e | Ok a => match f x with Err e => Err e | Ok y => Ok (a ++ [y]) end end) l (Err e) = Err e).
        { clear. induction l; [reflexivity|]. exact IHl. }
        rewrite G. exists [], x, l. auto.
  Qed.

  Lemma map_macro_spec {A B} (f : A -> result B E0) l :
    match map_macro f l with
    | Ok ys => Forall2 (fun x y => f x = Ok y) l ys
    | Err e => exists pre x post, l = pre ++ x :: post /\ f x = Err e /\ Forall (fun x => exists y, f x = Ok y) pre
    end.
  Proof.
    pose proof (map_macro_gen f l []) as H. unfold map_macro. destruct (cel_fold _ l (Ok [])) as [ys|e].
    - destruct H as (zs & -> & F). exact F.
    - exact H.
  Qed.

  (** ** filter, first *)
  Lemma filter_ok_gen {A} (p : A -> result bool E0) (b : A -> bool) l : (forall x, In x l -> p x = Ok (b x)) -> forall acc,
    cel_fold (fun x acc => match p x with Err e => Err e | Ok true => match acc with Ok a => Ok (a ++ [x]) | Err e => Err e end | Ok false => acc end) l (Ok acc)
    = Ok (acc ++ filter b l).
  Proof.
    induction l as [|x l IH]; intros H acc; cbn; [rewrite app_nil_r; reflexivity|].
    rewrite (H x (or_introl eq_refl)). destruct (b x).
    - unfold cel_fold in IH. rewrite IH by (intros; apply H; right; assumption). rewrite <- app_assoc. reflexivity.
    - apply IH. intros; apply H; right; assumption.
  Qed.

  Lemma filter_err {A} (p : A -> result bool E0) l x e : In x l -> p x = Err e -> exists e', filter_macro p l = Err e'.
  Proof.
    intros Hin He. unfold filter_macro. generalize (@Ok (list A) E0 []). induction l as [|y l IH]; intros acc; [contradiction|].
    cbn. destruct Hin as [<-|Hin].
    - rewrite He. apply fold_err. intros z e0. destruct (p z) as [[]|]; eauto.
    - apply IH. exact Hin.
  Qed.

  Lemma filter_spec {A} (p : A -> result bool E0) (b : A -> bool) l : (forall x, In x l -> p x = Ok (b x)) -> filter_macro p l = Ok (filter b l).
  Proof. intros H. unfold filter_macro. rewrite (filter_ok_gen p b l H []). reflexivity. Qed.

  Lemma first_spec {A} (p : A -> result bool E0) (b : A -> bool) l : (forall x, In x l -> p x = Ok (b x)) -> first p l = Ok (find b l).
  Proof.
    intros H. unfold first. rewrite (filter_spec p b l H). f_equal. clear H. induction l as [|x l IH]; [reflexivity|]. cbn.
    destruct (b x); [reflexivity|exact IH].
  Qed.
End P.

(** ** Sorting *)
Section S.
  Context {A K : Type}.
  Variable ls : A * K -> A * K -> bool.

  Lemma insert_perm x l : Permutation (insert_left ls x l) (x :: l).
  Proof.
    induction l as [|y l IH]; cbn; [reflexivity|]. destruct (ls x y); [|reflexivity].
    rewrite IH. constructor.
  Qed.

  Lemma stable_perm l : Permutation (stable_sort ls l) l.
  Proof.
    unfold stable_sort. rewrite <- Permutation_rev.
    assert (G : forall acc, Permutation (fold_left (fun acc x => insert_left ls x acc) l acc) (l ++ acc)).
    { induction l as [|x l IH]; intros acc; cbn; [reflexivity|]. rewrite IH, insert_perm. symmetry. apply Permutation_middle. }
    rewrite G, app_nil_r. reflexivity.
  Qed.

  (** negatively transitive and asymmetric: a strict weak order on the elements satisfying [Q] *)
  Variable Q : A * K -> Prop.
  Hypothesis Hasym : forall x y, Q x -> Q y -> ls x y = true -> ls y x = false.
  Hypothesis Hneg : forall x y z, Q x -> Q y -> Q z -> ls x y = false -> ls y z = false -> ls x z = false.

  Definition desc_sorted (l : list (A * K)) : Prop := StronglySorted (fun a b => ls a b = false) l.

  Lemma insert_sorted x l : Q x -> Forall Q l -> desc_sorted l -> desc_sorted (insert_left ls x l).
  Proof.
    intros Qx Ql H. induction H as [|y l Hl IH Hy]; cbn; [repeat constructor|]. inversion Ql; subst.
    destruct (ls x y) eqn:Ex.
    - constructor; [apply IH; assumption|]. rewrite insert_perm. constructor; [apply Hasym; assumption|exact Hy].
    - constructor; [constructor; assumption|]. constructor; [exact Ex|].
      rewrite Forall_forall in *. intros z Hz. eapply (Hneg x y z); auto.
  Qed.

  Lemma rev_sorted (l : list (A * K)) : desc_sorted l -> StronglySorted (fun a b => ls b a = false) (rev l).
  Proof.
    induction 1 as [|y l Hl IH Hy]; cbn; [constructor|]. clear Hl.
    assert (G : Forall (fun z => ls y z = false) (rev l)). { rewrite Forall_forall in *. intros z Hz. apply Hy. apply in_rev. exact Hz. }
    clear Hy. induction IH as [|z m Hm IHm Hz]; cbn; [repeat constructor|]. inversion G; subst. constructor; [auto|].
    apply Forall_app. split; [exact Hz|]. repeat constructor. assumption.
  Qed.

  Lemma stable_sorted l : Forall Q l -> StronglySorted (fun a b => ls b a = false) (stable_sort ls l).
  Proof.
    intros Ql. unfold stable_sort. apply rev_sorted.
    assert (G : forall acc, Forall Q acc -> desc_sorted acc -> desc_sorted (fold_left (fun acc x => insert_left ls x acc) l acc)).
    { induction Ql as [|x l Qx Ql IH]; intros acc Qa Ha; [exact Ha|]. cbn. apply IH; [rewrite insert_perm; auto|].
      apply insert_sorted; assumption. }
    apply G; constructor.
  Qed.

  (** Elements of one class of equal keys keep their order. *)
  Variable same : A * K -> bool.
  Hypothesis Hsame : forall x y, Q x -> Q y -> same x = true -> same y = true -> ls x y = false.

  Lemma insert_filter_other x l : same x = false -> filter same (insert_left ls x l) = filter same l.
  Proof.
    intros Hx. induction l as [|y l IH]; cbn; [rewrite Hx; reflexivity|]. destruct (ls x y); cbn; [|rewrite Hx; reflexivity].
    rewrite IH. reflexivity.
  Qed.
  Lemma insert_filter_same x l : Q x -> Forall Q l -> same x = true -> filter same (insert_left ls x l) = x :: filter same l.
  Proof.
    intros Qx Ql Hx. induction Ql as [|y l Qy Ql IH]; cbn; [rewrite Hx; reflexivity|]. destruct (ls x y) eqn:Exy; cbn.
    - destruct (same y) eqn:Ey; [rewrite (Hsame x y Qx Qy Hx Ey) in Exy; discriminate|]. exact IH.
    - rewrite Hx. reflexivity.
  Qed.

  Lemma filter_rev l : filter same (rev l) = rev (filter same l).
  Proof.
    induction l as [|x l IH]; cbn; [reflexivity|]. rewrite filter_app, IH. cbn. destruct (same x); cbn; [reflexivity|apply app_nil_r].
  Qed.

  Lemma stable_stable l : Forall Q l -> filter same (stable_sort ls l) = filter same l.
  Proof.
    intros Ql. unfold stable_sort. rewrite filter_rev.
    assert (G : forall acc, Forall Q acc -> filter same (fold_left (fun acc x => insert_left ls x acc) l acc) = rev (filter same l) ++ filter same acc).
    { induction Ql as [|x l Qx Ql IH]; intros acc Qa; [reflexivity|]. cbn [fold_left]. rewrite IH by (rewrite insert_perm; auto). cbn [filter].
      destruct (same x) eqn:Ex.
      - rewrite (insert_filter_same x acc Qx Qa Ex). cbn. rewrite <- app_assoc. reflexivity.
      - rewrite (insert_filter_other x acc Ex). reflexivity. }
    rewrite G by constructor. cbn. rewrite app_nil_r, rev_involutive. reflexivity.
  Qed.
End S.

(** ** The sort macros *)

Section M.
  Context {E0 A K : Type}.
  Variable compare : K -> K -> cmp.
  Variable good : K -> Prop.
  Variable le : K -> K -> Prop.
  Hypothesis Hord : orders good le compare.

  Lemma less_weak d : strict_weak (fun p : A * K => good (snd p)) (less compare d).
  Proof.
    destruct Hord as (Hc & Htr). split.
    - intros x y Gx Gy H. unfold less in *.
      pose proof (Hc _ _ Gx Gy) as C1. pose proof (Hc _ _ Gy Gx) as C2.
      destruct d; destruct (compare (snd x) (snd y)); try discriminate; destruct (compare (snd y) (snd x)); tauto.
    - intros x y z Gx Gy Gz H1 H2. unfold less in *.
      pose proof (Hc _ _ Gx Gy) as C1. pose proof (Hc _ _ Gy Gz) as C2. pose proof (Hc _ _ Gx Gz) as C3.
      pose proof (Htr _ _ _ Gx Gy Gz) as T1. pose proof (Htr _ _ _ Gz Gy Gx) as T2.
      destruct d; destruct (compare (snd x) (snd y)); try discriminate; destruct (compare (snd y) (snd z)); try discriminate;
        destruct (compare (snd x) (snd z)); tauto.
  Qed.

  Lemma less_le d (x y : A * K) : good (snd x) -> good (snd y) -> less compare d y x = false ->
    match d with Asc => le (snd x) (snd y) | Desc => le (snd y) (snd x) end.
  Proof.
    destruct Hord as (Hc & _). intros Gx Gy H. unfold less in H. pose proof (Hc _ _ Gy Gx) as C.
    destruct d; destruct (compare (snd y) (snd x)); try discriminate; tauto.
  Qed.

  Variable sort_slice : (A * K -> A * K -> bool) -> list (A * K) -> list (A * K).
  Hypothesis Hslice : sorts sort_slice.
  Variable key : A -> result K E0.

  Lemma combine_keys l ks : Forall2 (fun x k => key x = Ok k) l ks ->
    map fst (combine l ks) = l /\ Forall (fun p => key (fst p) = Ok (snd p)) (combine l ks) /\ (forall p, In p (combine l ks) -> In (fst p) l).
  Proof.
    induction 1 as [|x k l ks Hx _ (IH1 & IH2 & IH3)]; cbn; [split; [reflexivity|split; [constructor|contradiction]]|].
    rewrite IH1. split; [reflexivity|]. split; [constructor; assumption|]. intros p [<-|Hp]; cbn; auto.
  Qed.

  Lemma sort_sorted (stable : bool) d (l : list (A * K)) : Forall (fun p => good (snd p)) l ->
    let out := (if stable then stable_sort else sort_slice) (less compare d) l in
    Permutation l out /\ StronglySorted (fun a b => less compare d b a = false) out.
  Proof.
    intros G out. destruct (less_weak d) as [W1 W2]. unfold out. destruct stable.
    - split; [symmetry; apply stable_perm|]. exact (stable_sorted (less compare d) (fun p => good (snd p)) W1 W2 l G).
    - destruct (Hslice (less compare d) l) as [Hp Hs]. split; [exact Hp|]. apply Hs. rewrite Forall_forall in G. split.
      + intros x y Hx Hy. apply W1; apply G; assumption.
      + intros x y z Hx Hy Hz. apply W2; apply G; assumption.
  Qed.

  Lemma map_sorted {X Y} (f : X -> Y) (R : Y -> Y -> Prop) (S : X -> X -> Prop) (P : X -> Prop) l :
    (forall a b, P a -> P b -> S a b -> R (f a) (f b)) -> Forall P l -> StronglySorted S l -> StronglySorted R (map f l).
  Proof.
    intros H Pl Hs. induction Hs as [|a l _ IH Ha]; cbn; [constructor|]. inversion Pl; subst. constructor; [auto|].
    rewrite Forall_forall in *. intros y Hy. apply in_map_iff in Hy as (b & <- & Hb). apply H; auto.
  Qed.

  Definition class (k : K) (x : A) : bool :=
    match key x with Ok k' => match compare k k' with Eq => true | _ => false end | Err _ => false end.

  Lemma filter_map_fst (f : A -> bool) (l : list (A * K)) : filter f (map fst l) = map fst (filter (fun p => f (fst p)) l).
  Proof. induction l as [|p l IH]; cbn; [reflexivity|]. rewrite IH. destruct (f (fst p)); reflexivity. Qed.

  Lemma sort_macro_spec (stable : bool) d l : (forall x k, In x l -> key x = Ok k -> good k) ->
    match sort_macro compare sort_slice stable d key l with
    | Err e => exists x, In x l /\ key x = Err e
    | Ok out =>
        Permutation l out /\
        StronglySorted (fun a b => forall ka kb, key a = Ok ka -> key b = Ok kb ->
                          match d with Asc => le ka kb | Desc => le kb ka end) out /\
        (stable = true -> forall k, good k -> filter (class k) out = filter (class k) l)
    end.
  Proof.
    intros Hg. unfold sort_macro. pose proof (map_macro_spec key l) as Hm. destruct (map_macro key l) as [ks|e].
    - destruct (combine_keys l ks Hm) as (C1 & C2 & C3).
      assert (G : Forall (fun p => good (snd p)) (combine l ks)).
      { rewrite Forall_forall in *. intros p Hp. apply (Hg (fst p)); [apply C3; exact Hp|apply C2; exact Hp]. }
      destruct (sort_sorted stable d (combine l ks) G) as [Hp Hs]. cbv zeta in Hp, Hs. split; [|split].
      + rewrite <- C1 at 1. apply Permutation_map. exact Hp.
      + eapply (map_sorted fst _ _ (fun p => key (fst p) = Ok (snd p) /\ good (snd p))); [| |exact Hs].
        * intros a b [Ka Ga] [Kb Gb] Hab ka kb Ea Eb. rewrite Ka in Ea. rewrite Kb in Eb. injection Ea as <-. injection Eb as <-.
          apply less_le; assumption.
        * rewrite <- Hp. rewrite Forall_forall in *. auto.
      + intros -> k Gk. rewrite <- C1 at 2. rewrite !filter_map_fst. f_equal.
        eapply (stable_stable _ (fun p => key (fst p) = Ok (snd p) /\ good (snd p))); [|rewrite Forall_forall in *; auto].
        intros x y [Kx Gx] [Ky Gy] Sx Sy. unfold class in *. rewrite Kx in Sx. rewrite Ky in Sy.
        destruct Hord as (Hc & Htr). pose proof (Hc _ _ Gk Gx) as C4. pose proof (Hc _ _ Gk Gy) as C5. pose proof (Hc _ _ Gx Gy) as C6.
        pose proof (Htr _ _ _ Gx Gk Gy) as T1. pose proof (Htr _ _ _ Gy Gk Gx) as T2.
        unfold less. destruct (compare k (snd x)); try discriminate. destruct (compare k (snd y)); try discriminate.
        destruct d; destruct (compare (snd x) (snd y)); tauto.
    - destruct Hm as (pre & x & post & -> & Hx & _). exists x. split; [apply in_or_app; right; left; reflexivity|exact Hx].
  Qed.
End M.
