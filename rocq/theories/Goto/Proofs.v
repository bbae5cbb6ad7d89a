(** Proofs about go to definition. *)

From Coq Require Import Ascii String List Arith Bool Lia.
From Verif.Base Require Import Text TextProofs.
From Verif.Goto Require Import Model Spec.
Import ListNotations.
Local Open Scope string_scope.
Local Open Scope list_scope.

Section DeclInd.
  Variable P : decl -> Prop.
  Hypothesis He : forall n, P (DEnum n).
  Hypothesis Hm : forall n body, Forall P body -> P (DMsg n body).
  Fixpoint decl_ind2 (d : decl) : P d :=
    match d with
    | DEnum n => He n
    | DMsg n body =>
        Hm n body ((fix all (l : list decl) : Forall P l :=
                      match l with
                      | [] => Forall_nil P
                      | x :: r => Forall_cons x (decl_ind2 x) (all r)
                      end) body)
    end.
End DeclInd.

Lemma declares_nonempty ds p d : declares ds p d -> p <> [].
Proof. intros [? ? _ | ? ? ? ? ? _ _]; discriminate. Qed.

Lemma declares_app a b p d : declares (a ++ b) p d <-> declares a p d \/ declares b p d.
Proof.
  split.
  - intro H. inversion H as [ds x I | ds n body q x I K]; subst; apply in_app_or in I; destruct I as [I | I].
    + left; constructor; exact I.
    + right; constructor; exact I.
    + left; econstructor; eassumption.
    + right; econstructor; eassumption.
  - intros [H | H]; inversion H as [ds x I | ds n body q x I K]; subst;
      [constructor | econstructor | constructor | econstructor]; try eassumption; apply in_or_app; auto.
Qed.

Lemma declares_cons x b p d : declares (x :: b) p d <-> declares [x] p d \/ declares b p d.
Proof. apply (declares_app [x] b). Qed.

Lemma declares_nil p d : ~ declares [] p d.
Proof. intro H. inversion H as [ds x I | ds n body q x I K]; destruct I. Qed.

Lemma declares_enum n p d : declares [DEnum n] p d <-> p = [n] /\ d = DEnum n.
Proof.
  split.
  - intro H. inversion H as [ds x I | ds m body q x I K]; subst; destruct I as [E | []];
      [subst; auto | discriminate E].
  - intros [-> ->]. apply (declares_here [DEnum n] (DEnum n)). left; reflexivity.
Qed.

Lemma declares_msg n body p d :
  declares [DMsg n body] p d <->
  (p = [n] /\ d = DMsg n body) \/ exists q, p = n :: q /\ declares body q d.
Proof.
  split.
  - intro H. inversion H as [ds x I | ds m b q x I K]; subst; destruct I as [E | []]; [subst; auto |].
    injection E as <- <-. eauto.
  - intros [[-> ->] | (q & -> & K)].
    + apply (declares_here [DMsg n body] (DMsg n body)). left; reflexivity.
    + econstructor; [left; reflexivity | exact K].
Qed.

(** * The names of the types *)

(** A declaration whose name is among those compared. *)
Definition compared (ds : list decl) (p : list string) (d : decl) : Prop :=
  declares ds p d /\ (is_enum d = false \/ 2 <= List.length p).

Lemma join_cons n q : q <> [] -> join "." (n :: q) = (n ++ "." ++ join "." q)%string.
Proof. destruct q; [contradiction | reflexivity]. Qed.

Definition declared_spec_for (l : list decl) : Prop :=
  forall s, In s (flat_map declared l) <-> exists p d, compared l p d /\ s = join "." p.

Lemma declared_list l : Forall (fun d => forall s, In s (declared d) <-> exists p e, compared [d] p e /\ s = join "." p) l ->
  declared_spec_for l.
Proof.
  induction 1 as [| x l H _ IH]; intro s; cbn [flat_map].
  - split; [intros [] |]. intros (p & d & [K _] & _). exact (declares_nil _ _ K).
  - rewrite in_app_iff, H, (IH s). split.
    + intros [(p & d & [A B] & E) | (p & d & [A B] & E)]; exists p, d;
        (split; [split; [apply declares_cons; auto | exact B] | exact E]).
    + intros (p & d & [A B] & E). apply declares_cons in A. destruct A as [A | A]; [left | right];
        exists p, d; (split; [split; assumption | exact E]).
Qed.

Lemma enums_in body m :
  In m (flat_map (fun e => match e with DEnum m => [m] | DMsg _ _ => [] end) body) <-> In (DEnum m) body.
Proof.
  rewrite in_flat_map. split.
  - intros ([n b | n] & I & K); cbn in K; [contradiction |]. destruct K as [<- | []]; exact I.
  - intro I. exists (DEnum m). split; [exact I | left; reflexivity].
Qed.

Lemma declared_spec d : forall s, In s (declared d) <-> exists p e, compared [d] p e /\ s = join "." p.
Proof.
  induction d as [n | n body IH] using decl_ind2; intro s.
  - cbn. split; [intros [] |]. intros (p & e & [A B] & _). apply declares_enum in A.
    destruct A as [-> ->]. cbn in B. destruct B as [B | B]; [discriminate B | lia].
  - apply declared_list in IH. cbn [declared]. cbn [In]. rewrite in_app_iff, !in_map_iff. split.
    + intros [<- | [(x & <- & I) | (m & <- & I)]].
      * exists [n], (DMsg n body). split; [| reflexivity]. split; [apply declares_msg; auto | left; reflexivity].
      * apply IH in I. destruct I as (p & e & [A B] & ->). exists (n :: p), e.
        pose proof (declares_nonempty _ _ _ A) as Ne. split; [| symmetry; apply join_cons, Ne].
        split; [apply declares_msg; eauto |]. right. destruct p; [contradiction | cbn; lia].
      * apply enums_in in I. exists [n; m], (DEnum m). split; [| reflexivity].
        split; [apply declares_msg; right; exists [m]; split; [reflexivity |]; apply (declares_here _ (DEnum m)), I |].
        right; cbn; lia.
    + intros (p & e & [A B] & ->). apply declares_msg in A. destruct A as [[-> ->] | (q & -> & A)]; [auto |].
      right. pose proof (declares_nonempty _ _ _ A) as Ne. rewrite (join_cons n q Ne).
      destruct (is_enum e) eqn:E.
      * destruct (Nat.le_gt_cases 2 (List.length q)) as [L | L].
        -- left. exists (join "." q). split; [reflexivity |]. apply IH. exists q, e. split; [| reflexivity].
           split; auto.
        -- right. inversion A as [ds x I | ds k b r x I K]; subst.
           ++ destruct e as [? ? | m]; [discriminate E |]. exists m. split; [reflexivity | apply enums_in, I].
           ++ pose proof (declares_nonempty _ _ _ K). destruct r; [contradiction | cbn in L; lia].
      * left. exists (join "." q). split; [reflexivity |]. apply IH. exists q, e. split; [| reflexivity].
        split; auto.
Qed.

Lemma declared_all ds s : In s (flat_map declared ds) <-> exists p d, compared ds p d /\ s = join "." p.
Proof. apply declared_list. apply Forall_forall. intros d _. apply declared_spec. Qed.

(** * The walk *)

Lemma last_cons {A} (x : A) l d : l <> [] -> last (x :: l) d = last l d.
Proof. destruct l; [contradiction | reflexivity]. Qed.

Definition visited (name : string) (ds : list decl) (prefix : list string)
           (found r : option (list string)) : Prop :=
  (exists q d, declares ds q d /\ last q "" = name /\ r = Some (prefix ++ q)) \/
  ((forall q d, declares ds q d -> last q "" <> name) /\ r = found).

Lemma visit_list name l :
  Forall (fun d => forall prefix found, visited name [d] prefix found (visit name prefix d found)) l ->
  forall prefix found,
  visited name l prefix found (fold_left (fun acc e => visit name prefix e acc) l found).
Proof.
  induction 1 as [| x l H _ IH]; intros prefix found; cbn [fold_left].
  - right. split; [| reflexivity]. intros q d K. destruct (declares_nil _ _ K).
  - destruct (IH prefix (visit name prefix x found)) as [(q & d & A & B & ->) | [N ->]].
    + left. exists q, d. split; [apply declares_cons; auto | auto].
    + destruct (H prefix found) as [(q & d & A & B & ->) | [M ->]].
      * left. exists q, d. split; [apply declares_cons; auto | auto].
      * right. split; [| reflexivity]. intros q d K. apply declares_cons in K. destruct K as [K | K]; eauto.
Qed.

Lemma visit_spec name d : forall prefix found, visited name [d] prefix found (visit name prefix d found).
Proof.
  induction d as [n | n body IH] using decl_ind2; intros prefix found; cbn [visit].
  - destruct (String.eqb_spec n name) as [<- | N].
    + left. exists [n], (DEnum n). split; [apply declares_enum; auto | auto].
    + right. split; [| reflexivity]. intros q d K. apply declares_enum in K. destruct K as [-> _]. exact N.
  - destruct (visit_list name body IH (prefix ++ [n])
               (if String.eqb n name then Some (prefix ++ [n]) else found)) as [(q & d & A & B & ->) | [M ->]].
    + left. exists (n :: q), d. split; [apply declares_msg; eauto |].
      split; [rewrite last_cons by (apply (declares_nonempty _ _ _ A)); exact B |].
      rewrite <- app_assoc. reflexivity.
    + destruct (String.eqb_spec n name) as [<- | N].
      * left. exists [n], (DMsg n body). split; [apply declares_msg; auto | auto].
      * right. split; [| reflexivity]. intros q d K. apply declares_msg in K.
        destruct K as [[-> _] | (r & -> & K)]; [exact N |].
        rewrite last_cons by (apply (declares_nonempty _ _ _ K)). exact (M _ _ K).
Qed.

Lemma walk_spec name ds :
  match walk name ds with
  | Some p => exists d, declares ds p d /\ last p "" = name
  | None => forall q d, declares ds q d -> last q "" <> name
  end.
Proof.
  unfold walk.
  assert (F : Forall (fun d => forall prefix found, visited name [d] prefix found (visit name prefix d found)) ds).
  { apply Forall_forall. intros d _. apply visit_spec. }
  destruct (visit_list name ds F [] None) as [(q & d & A & B & ->) | [N ->]]; [exists d; auto | exact N].
Qed.

(** * The last part of a name *)

Lemma plain_path ds p d : Forall plain ds -> declares ds p d -> Forall (fun n => has_char "."%char n = false) p.
Proof.
  intros F H. induction H as [ds d I | ds n body p d I _ IH].
  - constructor; [| constructor]. pose proof (proj1 (Forall_forall _ _) F _ I) as P.
    destruct P; assumption.
  - pose proof (proj1 (Forall_forall _ _) F _ I) as P. inversion P as [| n' b Hn Hb]; subst.
    constructor; [exact Hn | exact (IH Hb)].
Qed.

Lemma split_join p : p <> [] -> Forall (fun n => has_char "."%char n = false) p -> split "."%char (join "." p) = p.
Proof.
  intros N F. induction F as [| n p H F IH]; [contradiction |].
  destruct p as [| m p]; [cbn [join]; apply split_no_sep, H |].
  rewrite join_cons by discriminate. change ("." ++ join "." (m :: p))%string with (String "."%char (join "." (m :: p))).
  rewrite split_app by exact H. rewrite IH by discriminate. reflexivity.
Qed.

Lemma last_app {A} (a b : list A) d : b <> [] -> last (a ++ b) d = last b d.
Proof.
  intro N. induction a as [| x a IH]; [reflexivity |]. cbn [app].
  rewrite last_cons; [exact IH |]. destruct a; [exact N | discriminate].
Qed.

Lemma last_part_name cur pkg p :
  p <> [] -> Forall (fun n => has_char "."%char n = false) p ->
  last_part (type_name cur pkg (join "." p)) = last p "".
Proof.
  intros N F. unfold last_part, type_name. destruct (String.eqb pkg cur).
  - rewrite (split_join p N F). reflexivity.
  - change (pkg ++ "." ++ join "." p)%string with (pkg ++ String "."%char (join "." p))%string.
    rewrite split_app_gen, (split_join p N F). apply last_app, N.
Qed.

Section G.
  Variable base : string -> string.
  Variable join_path : string -> string -> string.
  Variable stat : string -> bool.
  Variable imports : list string.

  Local Notation fpath := (file_path base join_path stat imports).

  Lemma type_loop_spec path cur files asked :
    match type_loop base join_path stat imports path cur files asked with
    | Some (tn, fp) =>
        tn = asked /\
        exists f p d, In f files /\ fpath path f = Some fp /\ compared (f_decls f) p d /\
                      asked = type_name cur (f_pkg f) (join "." p)
    | None => forall f p d fp, In f files -> fpath path f = Some fp -> compared (f_decls f) p d ->
                               asked <> type_name cur (f_pkg f) (join "." p)
    end.
  Proof.
    induction files as [| f files IH]; cbn [type_loop]; [intros ? ? ? ? [] |].
    destruct (fpath path f) as [fp |] eqn:P.
    - destruct (existsb _ _) eqn:E.
      + apply existsb_exists in E. destruct E as (n & I & Q). apply String.eqb_eq in Q.
        apply declared_all in I. destruct I as (p & d & C & ->).
        split; [reflexivity |]. exists f, p, d. split; [left; reflexivity | auto].
      + destruct (type_loop base join_path stat imports path cur files asked) as [[tn fp'] |].
        * destruct IH as (-> & g & p & d & I & R). split; [reflexivity |]. exists g, p, d.
          split; [right; exact I | exact R].
        * intros g p d fp' [<- | I] Q C; [| exact (IH _ _ _ _ I Q C)].
          intro A. assert (X : existsb (fun n => String.eqb asked (type_name cur (f_pkg f) n))
                                       (flat_map declared (f_decls f)) = true).
          { apply existsb_exists. exists (join "." p). split; [| apply String.eqb_eq, A].
            apply declared_all. eauto. }
          rewrite X in E. discriminate E.
    - destruct (type_loop base join_path stat imports path cur files asked) as [[tn fp'] |].
      + destruct IH as (-> & g & p & d & I & R). split; [reflexivity |]. exists g, p, d.
        split; [right; exact I | exact R].
      + intros g p d fp' [<- | I] Q C; [rewrite P in Q; discriminate Q | exact (IH _ _ _ _ I Q C)].
  Qed.

  Lemma methods_in svcs svc m :
    In (svc, m) (flat_map (fun s : string * list string => map (fun x => (fst s, x)) (snd s)) svcs) <->
    exists ms, In (svc, ms) svcs /\ In m ms.
  Proof.
    rewrite in_flat_map. split.
    - intros ([s ms] & I & K). cbn in K. apply in_map_iff in K. destruct K as (x & E & K).
      injection E as -> ->. eauto.
    - intros (ms & I & K). exists (svc, ms). split; [exact I |]. apply in_map_iff. eauto.
  Qed.

  Lemma method_in_spec cur f asked :
    match method_in cur f asked with
    | Some m => exists svc, has_method f svc m /\ asked = method_name cur (f_pkg f) svc m
    | None => forall svc m, has_method f svc m -> asked <> method_name cur (f_pkg f) svc m
    end.
  Proof.
    unfold method_in. destruct (find _ _) as [[svc m] |] eqn:E.
    - apply find_some in E. destruct E as [I Q]. apply String.eqb_eq in Q. exists svc.
      split; [apply methods_in, I | exact Q].
    - intros svc m H A. apply (methods_in (f_svcs f)) in H.
      pose proof (find_none _ _ E _ H) as X. cbn in X. rewrite <- A, String.eqb_refl in X. discriminate X.
  Qed.

  Lemma method_loop_spec path cur files asked :
    match method_loop base join_path stat imports path cur files asked with
    | Some (m, fp) =>
        exists f svc, In f files /\ fpath path f = Some fp /\ has_method f svc m /\
                      asked = method_name cur (f_pkg f) svc m
    | None => forall f svc m fp, In f files -> fpath path f = Some fp -> has_method f svc m ->
                                 asked <> method_name cur (f_pkg f) svc m
    end.
  Proof.
    induction files as [| f files IH]; cbn [method_loop]; [intros ? ? ? ? [] |].
    destruct (fpath path f) as [fp |] eqn:P.
    - pose proof (method_in_spec cur f asked) as M. destruct (method_in cur f asked) as [m |].
      + destruct M as (svc & H & A). exists f, svc. split; [left; reflexivity | auto].
      + destruct (method_loop base join_path stat imports path cur files asked) as [[m' fp'] |].
        * destruct IH as (g & svc & I & R). exists g, svc. split; [right; exact I | exact R].
        * intros g svc m fp' [<- | I] Q H; [exact (M _ _ H) | exact (IH _ _ _ _ I Q H)].
    - destruct (method_loop base join_path stat imports path cur files asked) as [[m' fp'] |].
      + destruct IH as (g & svc & I & R). exists g, svc. split; [right; exact I | exact R].
      + intros g svc m fp' [<- | I] Q H; [rewrite P in Q; discriminate Q | exact (IH _ _ _ _ I Q H)].
  Qed.
End G.

Lemma walk_methods_spec name svcs :
  match walk_methods name svcs with
  | Some (svc, m) => m = name /\ exists ms, In (svc, ms) svcs /\ In m ms
  | None => forall svc ms, In (svc, ms) svcs -> ~ In name ms
  end.
Proof.
  unfold walk_methods.
  set (l := flat_map (fun s : string * list string => map (fun x => (fst s, x)) (snd s)) svcs).
  assert (G : forall (l : list (string * string)) acc,
    match fold_left (fun acc sm => if String.eqb (snd sm) name then Some sm else acc) l acc with
    | Some sm => (In sm l /\ snd sm = name) \/ acc = Some sm
    | None => acc = None /\ forall sm, In sm l -> snd sm <> name
    end).
  { clear. induction l as [| x l IH]; intro acc; cbn [fold_left].
    - destruct acc; [auto | split; [reflexivity | intros ? []]].
    - specialize (IH (if String.eqb (snd x) name then Some x else acc)).
      destruct (fold_left _ l _) as [sm |].
      + destruct IH as [[I E] | E]; [left; split; [right; exact I | exact E] |].
        destruct (String.eqb_spec (snd x) name) as [Q | Q]; [| auto].
        injection E as <-. left. split; [left; reflexivity | exact Q].
      + destruct IH as [E N]. destruct (String.eqb_spec (snd x) name) as [Q | Q]; [discriminate E |].
        split; [exact E |]. intros sm [<- | I]; [exact Q | exact (N _ I)]. }
  specialize (G l None). destruct (fold_left _ l None) as [[svc m] |].
  - destruct G as [[I E] | E]; [| discriminate E]. cbn in E. split; [exact E |].
    apply methods_in, I.
  - destruct G as [_ N]. intros svc ms I K. apply (N (svc, name)); [| reflexivity].
    unfold l. apply methods_in. eauto.
Qed.

(** * Suffixes *)

Lemma substring_split k m s : k + m = String.length s ->
  (substring 0 k s ++ substring k m s)%string = s.
Proof.
  revert s. induction k as [| k IH]; intros s E; cbn in E.
  - assert (A : substring 0 0 s = ""%string) by (destruct s; reflexivity). rewrite A. cbn.
    subst m. clear. induction s as [| c s IH]; [reflexivity |]. cbn. rewrite IH. reflexivity.
  - destruct s as [| c s]; [discriminate E |]. cbn in *. rewrite IH by lia. reflexivity.
Qed.

Lemma length_append a b : String.length (a ++ b)%string = String.length a + String.length b.
Proof. induction a as [| c a IH]; [reflexivity | cbn; rewrite IH; reflexivity]. Qed.

Lemma substring_whole s : substring 0 (String.length s) s = s.
Proof. induction s as [| c s IH]; [reflexivity | cbn; rewrite IH; reflexivity]. Qed.

Lemma substring_after a t : substring (String.length a) (String.length t) (a ++ t)%string = t.
Proof. induction a as [| c a IH]; [apply substring_whole | exact IH]. Qed.

Lemma has_suffix_ends s t : has_suffix s t = true <-> ends s t.
Proof.
  unfold has_suffix, ends. rewrite andb_true_iff, Nat.leb_le, String.eqb_eq. split.
  - intros [L E]. exists (substring 0 (String.length s - String.length t) s).
    rewrite <- E at 2. symmetry. apply substring_split. lia.
  - intros [a ->]. rewrite length_append. split; [lia |].
    replace (String.length a + String.length t - String.length t) with (String.length a) by lia.
    apply substring_after.
Qed.

Lemma current_package_spec path files cur : open_package path files cur -> current_package path files = Some cur.
Proof.
  intros [(f & I & E) U]. induction files as [| g r IH]; [destruct I |].
  cbn [current_package]. destruct (has_suffix path (f_name g)) eqn:H.
  - apply has_suffix_ends in H. rewrite (U g); [reflexivity | left; reflexivity | exact H].
  - destruct I as [<- | I].
    + apply has_suffix_ends in E. rewrite E in H. discriminate H.
    + apply IH; [exact I |]. intros x J K. apply U; [right; exact J | exact K].
Qed.

Lemma type_name_refers cur pkg p : refers cur (type_name cur pkg (join "." p)) pkg p.
Proof.
  unfold refers, type_name, qualified. destruct (String.eqb_spec pkg cur) as [-> | N]; [auto |].
  destruct (String.eqb_spec pkg "") as [-> | M]; [right; left; reflexivity | left; reflexivity].
Qed.

Lemma append_assoc (a b c : string) : ((a ++ b) ++ c)%string = (a ++ (b ++ c))%string.
Proof. induction a as [| x a IH]; [reflexivity | cbn; rewrite IH; reflexivity]. Qed.

Lemma method_name_refers cur pkg svc m : refers_method cur (method_name cur pkg svc m) pkg svc m.
Proof.
  unfold refers_method, method_name, qualified. destruct (String.eqb_spec pkg cur) as [-> | N]; [auto |].
  destruct (String.eqb_spec pkg "") as [-> | M]; [right; left; reflexivity | left].
  cbn [join]. rewrite append_assoc. reflexivity.
Qed.
