(** Random numbers in expressions.
    Models: grpc/federation/cel/rand.go:20-64 (Source and Rand with their comparison), 90-228 (the functions), and of Go's math/rand what they call.
    Simplified: [gen seed i] is the number i of the source with a seed; the functions with floating point numbers are left out; a panic, which the
    evaluation of expressions turns into an error, is a result; a loop that draws again is given up after [fuel] numbers. *)
From Coq Require Import ZArith List Bool.
Import ListNotations.
Local Open Scope Z_scope.

(** math/rand.Source: its seed and how many numbers were taken *)
Definition source := (Z * nat)%type.
(** rand.NewSource (rand.go:93-102) *)
Definition gen_type := Z -> nat -> Z.
(** Source.Int63 (rand.go:20-22) *)
Definition int63 (gen : gen_type) (st : source) : Z * source := (gen (fst st) (snd st), (fst st, S (snd st))).
(** Rand.Int31 and Rand.Uint32 of math/rand: the upper bits *)
Definition int31 (gen : gen_type) (st : source) : Z * source := let (v, st) := int63 gen st in (Z.shiftr v 32, st).
Definition uint32 (gen : gen_type) (st : source) : Z * source := let (v, st) := int63 gen st in (Z.shiftr v 31, st).

(** results of a call in an expression (rand.go:90-228) *)
Inductive result := RInt (z : Z) | RUint (z : Z) | RBool (b : bool) | RSource (s : nat) | RRand (s : nat) | RPanic.

(** the loop of Int31n and Int63n of math/rand *)
Fixpoint draw (next : source -> Z * source) (max : Z) (fuel : nat) (st : source) : option (Z * source) :=
  match fuel with
  | O => None
  | S f => let (v, st) := next st in if v <=? max then Some (v, st) else draw next max f st
  end.
(** Int31n and Int63n of math/rand, for numbers below [top] *)
Definition below (next : source -> Z * source) (top : Z) (fuel : nat) (n : Z) (st : source) : option (result * source) :=
  if n <=? 0 then Some (RPanic, st)
  else if Z.land n (n - 1) =? 0 then let (v, st) := next st in Some (RInt (Z.land v (n - 1)), st)
  else match draw next (top - 1 - top mod n) fuel st with Some (v, st) => Some (RInt (v mod n), st) | None => None end.
(** called in rand.go:176, 192 *)
Definition int31n gen := below (int31 gen) (2 ^ 31).
Definition int63n gen := below (int63 gen) (2 ^ 63).
(** Intn of math/rand *)
Definition intn (gen : gen_type) (fuel : nat) (n : Z) (st : source) : option (result * source) :=
  if n <=? 0 then Some (RPanic, st) else if n <=? 2 ^ 31 - 1 then int31n gen fuel n st else int63n gen fuel n st.
(** the conversion int32(n) in rand.go:176 *)
Definition to_int32 (n : Z) : Z := (n + 2 ^ 31) mod 2 ^ 32 - 2 ^ 31.

(** rand.go:156-228: the member functions of Rand *)
Inductive action := AInt | AInt31 | AInt31n (n : Z) | AInt63 | AInt63n (n : Z) | AIntn (n : Z) | ASeed (z : Z) | AUint32.
Definition act (gen : gen_type) (fuel : nat) (st : source) (a : action) : option (result * source) :=
  match a with
  | AInt | AInt63 => let (v, st) := int63 gen st in Some (RInt v, st)
  | AInt31 => let (v, st) := int31 gen st in Some (RInt v, st)
  | AUint32 => let (v, st) := uint32 gen st in Some (RUint v, st)
  | AInt31n n => int31n gen fuel (to_int32 n) st
  | AInt63n n => int63n gen fuel n st
  | AIntn n => intn gen fuel n st
  | ASeed z => Some (RBool true, (z, O))
  end.

(** rand.go:90-228: the calls; a Rand is given by the source it was made of *)
Inductive call := NewSource (seed : Z) | SourceInt63 (s : nat) | SourceSeed (s : nat) (z : Z) | New (s : nat) | OnRand (r : nat) (a : action)
  | SourceEqual (s o : nat) | RandEqual (r o : nat).
(** the sources there are: values of expressions are pointers (rand.go:97, 126) *)
Definition heap := list source.
Fixpoint update (h : heap) (s : nat) (st : source) : heap :=
  match h, s with [], _ => [] | _ :: h, O => st :: h | x :: h, S s => x :: update h s st end.
(** self.( *Source ) or self.( *Rand ), and the function called on it (rand.go:103-228) *)
Definition on (gen : gen_type) (fuel : nat) (h : heap) (s : nat) (a : action) : option (result * heap) :=
  match nth_error h s with
  | Some st => match act gen fuel st a with Some (r, st) => Some (r, update h s st) | None => None end
  | None => None
  end.
(** rand.go:32-37, 59-64: a number of the one, then a number of the other *)
Definition compare (gen : gen_type) (fuel : nat) (h : heap) (s o : nat) : option (result * heap) :=
  match on gen fuel h s AInt63 with
  | Some (RInt v, h) => match on gen fuel h o AInt63 with Some (RInt w, h) => Some (RBool (v =? w), h) | _ => None end
  | _ => None
  end.
(** rand.go:90-228 *)
Definition step (gen : gen_type) (fuel : nat) (h : heap) (c : call) : option (result * heap) :=
  match c with
  | NewSource z => Some (RSource (length h), h ++ [(z, O)])
  | SourceInt63 s => on gen fuel h s AInt63
  | SourceSeed s z => on gen fuel h s (ASeed z)
  | New s => match nth_error h s with Some _ => Some (RRand s, h) | None => None end
  | OnRand r a => on gen fuel h r a
  | SourceEqual s o | RandEqual s o => compare gen fuel h s o
  end.
(** the calls of an evaluation one after the other *)
Fixpoint run (gen : gen_type) (fuel : nat) (h : heap) (cs : list call) : option (list result * heap) :=
  match cs with
  | [] => Some ([], h)
  | c :: cs => match step gen fuel h c with
               | Some (r, h) => match run gen fuel h cs with Some (rs, h) => Some (r :: rs, h) | None => None end
               | None => None
               end
  end.
