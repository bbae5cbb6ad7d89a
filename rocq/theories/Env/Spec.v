(** * What the options of an environment variable mean *)

From Coq Require Import Ascii String List Bool.
From Verif.Ident Require Model.
From Verif.Env Require Import Model.
Import ListNotations.
Local Open Scope string_scope.

(** Letters in upper case, from a table. *)
Fixpoint in_table (c : ascii) (from to : string) : ascii :=
  match from, to with
  | String a from', String b to' => if Ascii.eqb c a then b else in_table c from' to'
  | _, _ => c
  end.
Fixpoint upper_case (s : string) : string :=
  match s with
  | EmptyString => EmptyString
  | String c s' => String (in_table c "abcdefghijklmnopqrstuvwxyz" "ABCDEFGHIJKLMNOPQRSTUVWXYZ") (upper_case s')
  end.

Section Values.
  Context {type value : Type}.
  Variable parse : type -> string -> option value.
  Variable zero : type -> value.

  (** An option that is set: a text that is not empty, or true. *)
  Definition has_text (f : var_option -> string) (v : var type) (s : string) : Prop :=
    s <> "" /\ exists o, v_option v = Some o /\ f o = s.
  Definition has_flag (f : var_option -> bool) (v : var type) : Prop := exists o, v_option v = Some o /\ f o = true.

  (** The environment variable that is read: the alternate if there is one, or the name in upper case. *)
  Definition reads (v : var type) (key : string) : Prop :=
    has_text alternate v key \/ ((forall s, ~ has_text alternate v s) /\ key = upper_case (v_name v)).

  (** The value of [v] in the environment [env], if [key] is read; none if the service must not start. *)
  Inductive value_of (env : string -> option string) (key : string) (v : var type) : option value -> Prop :=
  | Of_ignored : has_flag ignored v -> value_of env key v (Some (zero (v_type v)))
  | Of_env : forall s, ~ has_flag ignored v -> env key = Some s -> value_of env key v (parse (v_type v) s)
  | Of_default : forall s, ~ has_flag ignored v -> env key = None -> has_text default v s -> value_of env key v (parse (v_type v) s)
  | Of_missing : ~ has_flag ignored v -> env key = None -> (forall s, ~ has_text default v s) -> has_flag required v -> value_of env key v None
  | Of_zero : ~ has_flag ignored v -> env key = None -> (forall s, ~ has_text default v s) -> ~ has_flag required v ->
      value_of env key v (Some (zero (v_type v))).

  (** No backquote in the texts of the options. *)
  Definition plain_options (v : var type) : Prop :=
    forall s, has_text alternate v s \/ has_text default v s -> ~ In "`"%char (list_ascii_of_string s).

  (** The names of variables and fields: letters, digits and underscores. *)
  Definition name_ok (v : var type) : Prop :=
    v_name v <> "" /\
    forall c, In c (list_ascii_of_string (v_name v)) ->
      In c (list_ascii_of_string "abcdefghijklmnopqrstuvwxyzABCDEFGHIJKLMNOPQRSTUVWXYZ0123456789_").

  Definition fields_distinct (vars : list (var type)) : Prop := NoDup (map (fun v => Model.public (v_name v)) vars).
End Values.
