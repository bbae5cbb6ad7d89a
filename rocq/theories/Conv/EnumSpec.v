(** What the aliases of an enum say. *)
From Coq Require Import Ascii String List Bool ZArith.
From Verif.Base Require Import Text.
From Verif.Conv Require Import Enum.
Import ListNotations.
Local Open Scope string_scope.

Section Spec.
  Variable enums : nat -> enum.

  (** In an option of enum [e], the text [n] names the value [w] of enum [d]: by its name, by its full name, or by its full
      name without the package of [e]. *)
  Definition names (e d : nat) (n : string) (w : evalue) : Prop :=
    In w (e_values (enums d)) /\
    (n = v_name w \/ n = e_fqdn (enums d) ++ "." ++ v_name w \/ e_pkg (enums e) ++ "." ++ n = e_fqdn (enums d) ++ "." ++ v_name w).
  Definition explicit (v : evalue) : list string := match v_opt v with Some o => vo_alias o | None => [] end.
  Definition is_default (v : evalue) : Prop := exists o, v_opt v = Some o /\ vo_default o = true.

  (** The value [v] of enum [e] stands for the value [w] of the dependency's enum [d]: the alias of [v] names it, or [v] has
      no alias of its own and [w] has the same name. The default value stands for no value in particular. *)
  Definition declares (e : nat) (v : evalue) (d : nat) (w : evalue) : Prop :=
    In v (e_values (enums e)) /\ ~ is_default v /\
    (exists l, e_opt (enums e) = Some l /\ In d l) /\
    ((exists n, In n (explicit v) /\ names e d n w) \/ (explicit v = [] /\ In w (e_values (enums d)) /\ v_name w = v_name v)).

  (** Protobuf: the values of an enum have different names, without dots; no name in an option is empty. *)
  Definition well_named (e : nat) : Prop :=
    NoDup (map v_name (e_values (enums e))) /\ Forall (fun v => has_char "."%char (v_name v) = false /\ v_name v <> "") (e_values (enums e)) /\
    Forall (fun v => ~ In "" (explicit v)) (e_values (enums e)).
End Spec.
