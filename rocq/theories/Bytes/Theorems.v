(** * C73: values do not change *)

From Coq Require Import Ascii List Arith Lia.
From Verif.Base Require Import Slice.
From Verif.Bytes Require Import Model Spec Proofs.
Import ListNotations.

(** The full property: whatever calls an expression makes, in whatever order, each value is what its own call gave, and stays so. *)
Definition C73_statement : Prop := forall calls, contents (run calls) = means calls.

(** It holds if no value of type bytes is appended to twice. *)
Theorem C73_partial : forall calls, NoDup (targets [] calls) -> contents (run calls) = means calls.
Proof. exact once_means. Qed.
Print Assumptions C73_partial.

(** So values computed before are not touched by later calls. *)
Theorem C73_stable : forall before after, NoDup (targets [] (before ++ after)) -> NoDup (targets [] before) ->
  firstn (length (contents (run before))) (contents (run (before ++ after))) = contents (run before).
Proof.
  intros before after N N'. rewrite (once_means _ N), (once_means _ N'). unfold means. rewrite fold_left_app.
  destruct (means_grows after (fold_left means1 before [])) as [l ->]. rewrite firstn_app, Nat.sub_diag, firstn_O, app_nil_r. apply firstn_all.
Qed.
Print Assumptions C73_stable.

(** Strings never change, however often they are appended to. *)
Theorem C73_strings : forall calls, (forall xs room, ~ In (New xs room) calls) -> contents (run calls) = means calls.
Proof. intros calls H. apply once_means. rewrite (no_bytes calls []); [constructor | exact H | constructor]. Qed.
Print Assumptions C73_strings.

(** Two calls on the same bytes give the right values exactly if one of them needs a new array, or one of the texts begins with the other. *)
Theorem C73_twice_exact : forall xs ys zs room a b c d,
  let calls := [New xs room; Append 0 a [(ys, b)]; Append 0 c [(zs, d)]] in
  contents (run calls) = means calls <-> room < length ys \/ room < length zs \/ firstn (length ys) zs = firstn (length zs) ys.
Proof. exact twice_exact. Qed.
Print Assumptions C73_twice_exact.

(** Where they do not, the first value has become another. *)
Theorem C73_clobbered : forall xs ys zs room a b c d, length ys <= room -> length zs = length ys ->
  contents (run [New xs room; Append 0 a [(ys, b)]; Append 0 c [(zs, d)]]) = [(true, xs); (true, xs ++ zs); (true, xs ++ zs)].
Proof. exact clobbered. Qed.
Print Assumptions C73_clobbered.

Theorem C73_refuted : ~ C73_statement.
Proof.
  intros H. specialize (H [New ["a"%char] 8; Append 0 0 [(["1"%char], 0)]; Append 0 0 [(["2"%char], 0)]]). vm_compute in H. discriminate H.
Qed.
Print Assumptions C73_refuted.

(** Non-vacuity: a chain of bytes in one array and strings appended to twice. *)
Example chain :
  let calls := [New ["a"%char] 2; NewText ["t"%char]; Append 0 0 [(["b"%char], 3)]; Append 1 5 [(["u"%char], 0)]; Append 2 0 [(["c"%char], 0); (["d"%char], 4)]; Append 1 0 [(["v"%char], 0)]] in
  NoDup (targets [] calls) /\ targets [] calls = [0; 2] /\
  contents (run calls) = [(true, ["a"%char]); (false, ["t"%char]); (true, ["a"%char; "b"%char]); (false, ["t"%char; "u"%char]); (true, ["a"%char; "b"%char; "c"%char; "d"%char]); (false, ["t"%char; "v"%char])].
Proof. cbn. split; [repeat constructor; cbn; intuition discriminate | ]. split; vm_compute; reflexivity. Qed.
