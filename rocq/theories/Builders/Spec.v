(** * What the builders of locations should do, without trees and pointers

    A location is a set of facts: at a path of parts, a text.  A builder is a
    value: what it says, and where it stands.  A call makes a new builder from
    an old one and changes no other. *)

From Coq Require Import String List Arith Bool.
Import ListNotations.
Local Open Scope string_scope.
Local Open Scope list_scope.

From Verif.Builders Require Import Model.

Definition facts := path -> option string.

Fixpoint starts (p q : path) : bool :=
  match p, q with
  | [], _ => true
  | _ :: _, [] => false
  | a :: p', b :: q' => String.eqb a b && starts p' q'
  end.

(** What a tree says at a path. *)
Definition tsays (t : tree) (q : path) : option string :=
  match get t q with Some n => Some (text_of n) | None => None end.

(** At the path [p] now stands a new part with the text [x] and nothing below
    it. *)
Definition now (f : facts) (p : path) (x : string) : facts :=
  fun q => if starts p q
           then (if Nat.eqb (List.length q) (List.length p) then Some x else None)
           else f q.

(** What a builder says, where it stands, and, for a builder that was made with
    ToLazy…, the part it will add when it is used. *)
Record value := { v_says : facts; v_at : path; v_later : option string }.

Definition wake (v : value) : facts :=
  match v_later v with
  | Some x => now (v_says v) (v_at v) x
  | None => v_says v
  end.

(** What the builder made by each call should be. *)
Definition made (vs : list value) (o : op) : list value :=
  match o with
  | ONew file => vs ++ [{| v_says := now (fun _ => None) [] file;
                           v_at := []; v_later := None |}]
  | OEnter i l x =>
      match nth_error vs i with
      | Some v => vs ++ [{| v_says := now (wake v) (v_at v ++ [l]) x;
                            v_at := v_at v ++ [l]; v_later := None |}]
      | None => vs
      end
  | OFlag i l x =>
      match nth_error vs i with
      | Some v => vs ++ [{| v_says := now (wake v) (v_at v ++ [l]) x;
                            v_at := v_at v; v_later := None |}]
      | None => vs
      end
  | OVar i x =>
      match nth_error vs i with
      | Some v => vs ++ [{| v_says := now (wake v) (v_at v ++ ["Env.Var"]) x;
                            v_at := v_at v ++ ["Env.Var"]; v_later := None |}]
      | None => vs
      end
  | OLazy i l x =>
      match nth_error vs i with
      | Some v => vs ++ [{| v_says := v_says v; v_at := [l]; v_later := Some x |}]
      | None => vs
      end
  end.

Definition meant (ops : list op) : list value := fold_left made ops [].

Definition meant_says (ops : list op) (i : nat) (q : path) : option string :=
  match nth_error (meant ops) i with
  | Some v => v_says v q
  | None => None
  end.

(** ** The programs for which they do *)

(** [Free]: may be used in any way.  [Later]: made with ToLazy…; one call may be
    made on it.  [Last]: only its location may be used. *)
Inductive use := Free | Later | Last.

(** The parts that a copy of a location does not keep. *)
Definition volatile (l : string) : bool :=
  existsb (String.eqb l)
    ["Location.ImportName"; "Field.Type"; "RequestOption.If"; "RetryOption.If";
     "GRPCErrorOption.IgnoreAndResponse"; "GRPCErrorDetailOption.By"].

Definition after (u : use) (l : string) : option use :=
  match u with
  | Free => Some (if volatile l then Last else Free)
  | Later => Some Last
  | Last => None
  end.

(** A careful program: the uses of the builders it has made, or [None] when
    some call was not allowed. *)
Definition careful1 (us : list use) (o : op) : option (list use) :=
  match o with
  | ONew _ => Some (us ++ [Free])
  | OEnter i l _ | OFlag i l _ =>
      match nth_error us i with
      | Some u => match after u l with
                  | Some u' => Some (us ++ [u'])
                  | None => None
                  end
      | None => Some us
      end
  | OVar i _ =>
      match nth_error us i with
      | Some Free => Some (us ++ [Last])
      | Some _ => None
      | None => Some us
      end
  | OLazy i l _ =>
      match nth_error us i with
      | Some Last => None
      | Some _ => if volatile l then None else Some (us ++ [Later])
      | None => Some us
      end
  end.

Fixpoint careful (us : list use) (ops : list op) : Prop :=
  match ops with
  | [] => True
  | o :: ops' => match careful1 us o with
                 | Some us' => careful us' ops'
                 | None => False
                 end
  end.

(** A program that uses neither ToLazy… nor the variables of an environment, and
    sets no part that a copy does not keep. *)
Definition plain (o : op) : Prop :=
  match o with
  | ONew _ => True
  | OEnter _ l _ | OFlag _ l _ => volatile l = false
  | OVar _ _ | OLazy _ _ _ => False
  end.

(** ** Messages *)

(** Whether resolveMessage makes any builder for something inside a message. *)
Definition has_parts (m : mdef) : Prop :=
  match m with
  | M _ nested enums bad oneofs fields =>
      nested <> [] \/ enums <> [] \/ bad = true \/ oneofs <> [] \/ fields <> []
  end.

(** A value of an enum of the message whose option cannot be read. *)
Definition has_bad_value (m : mdef) : Prop :=
  match m with
  | M _ _ enums _ _ _ => exists e vs, In (e, vs) enums /\ vs <> []
  end.

Definition nested_of (m : mdef) : list mdef :=
  match m with M _ nested _ _ _ _ => nested end.

(** Something two levels below the message. *)
Definition two_levels (m : mdef) : Prop :=
  (exists n, In n (nested_of m) /\ has_parts n) \/ has_bad_value m.

(** The number of options that cannot be read in a message and in everything
    inside it. *)
Fixpoint unreadable (m : mdef) : nat :=
  match m with
  | M _ nested enums bad oneofs _ =>
      list_sum (map unreadable nested)
      + list_sum (map (fun e => List.length (snd e)) enums)
      + (if bad then 1 else 0)
      + List.length (filter snd oneofs)
  end.
