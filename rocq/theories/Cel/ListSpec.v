(** What sorting means. *)
From Coq Require Import List Bool Permutation Sorted.
From Verif.Cel Require Import ListLib.
Import ListNotations.

(** [compare] decides the total preorder [le] on the good keys. *)
Definition orders {K} (good : K -> Prop) (le : K -> K -> Prop) (compare : K -> K -> cmp) : Prop :=
  (forall a b, good a -> good b ->
     match compare a b with
     | Lt => le a b /\ ~ le b a
     | Gt => le b a /\ ~ le a b
     | Eq => le a b /\ le b a
     | Incomparable => False
     end) /\
  (forall a b c, good a -> good b -> good c -> le a b -> le b c -> le a c).

(** A strict weak order on the elements satisfying [Q]. *)
Definition strict_weak {X} (Q : X -> Prop) (ls : X -> X -> bool) : Prop :=
  (forall x y, Q x -> Q y -> ls x y = true -> ls y x = false) /\
  (forall x y z, Q x -> Q y -> Q z -> ls x y = false -> ls y z = false -> ls x z = false).

(** The contract of sort.Slice. *)
Definition sorts {X} (sort : (X -> X -> bool) -> list X -> list X) : Prop :=
  forall ls l, Permutation l (sort ls l) /\
    (strict_weak (fun x => In x l) ls -> StronglySorted (fun a b => ls b a = false) (sort ls l)).
