(** What error rules, validations and the `error` variable are supposed to do. *)
From Coq Require Import String List ZArith Bool.
From Verif.Base Require Import Result.
From Verif.Err Require Import Model.
Import ListNotations.
Local Open Scope Z_scope.

(** Which violations are kept: those all of whose expressions evaluate, in order. *)
Section Violations.
  Context {M S : Type}.
  Notation eval A := (eval M S A).
  Inductive kept3 : list (eval string * eval string * eval string) -> S -> list (string * string * string) -> S -> Prop :=
  | kept3_nil s : kept3 [] s [] s
  | kept3_ok t u d l s a s1 b s2 c s3 r s4 :
      t s = (Ok a, s1) -> u s1 = (Ok b, s2) -> d s2 = (Ok c, s3) -> kept3 l s3 r s4 ->
      kept3 ((t, u, d) :: l) s ((a, b, c) :: r) s4
  | kept3_bad1 t u d l s e s1 r s4 : t s = (Err e, s1) -> kept3 l s1 r s4 -> kept3 ((t, u, d) :: l) s r s4
  | kept3_bad2 t u d l s a s1 e s2 r s4 :
      t s = (Ok a, s1) -> u s1 = (Err e, s2) -> kept3 l s2 r s4 -> kept3 ((t, u, d) :: l) s r s4
  | kept3_bad3 t u d l s a s1 b s2 e s3 r s4 :
      t s = (Ok a, s1) -> u s1 = (Ok b, s2) -> d s2 = (Err e, s3) -> kept3 l s3 r s4 ->
      kept3 ((t, u, d) :: l) s r s4.
  Inductive kept2 : list (eval string * eval string) -> S -> list (string * string) -> S -> Prop :=
  | kept2_nil s : kept2 [] s [] s
  | kept2_ok t d l s a s1 c s2 r s4 :
      t s = (Ok a, s1) -> d s1 = (Ok c, s2) -> kept2 l s2 r s4 -> kept2 ((t, d) :: l) s ((a, c) :: r) s4
  | kept2_bad1 t d l s e s1 r s4 : t s = (Err e, s1) -> kept2 l s1 r s4 -> kept2 ((t, d) :: l) s r s4
  | kept2_bad2 t d l s a s1 e s2 r s4 :
      t s = (Ok a, s1) -> d s1 = (Err e, s2) -> kept2 l s2 r s4 -> kept2 ((t, d) :: l) s r s4.
End Violations.

(** [e] is the error [inner], possibly wrapped with other texts or log attributes. *)
Inductive wraps {M} : err M -> err M -> Prop :=
| wraps_self e : wraps e e
| wraps_text t e inner : wraps e inner -> wraps (EWrap _ t e) inner
| wraps_log l e inner : wraps e inner -> wraps (ELogged _ e l) inner.

(** Does an error carry a gRPC status? Errors with log attributes always do (an error without status
    counts as UNKNOWN there). *)
Fixpoint has_status {M} (e : err M) : bool :=
  match e with
  | EStatus _ _ => true
  | EPlain _ _ => false
  | EWrap _ _ e' => has_status e'
  | ELogged _ _ _ => true
  | EJoin _ es => existsb has_status es
  end.

Section Spec.
  Context {M S V : Type}.
  Notation err := (err M).
  Notation status := (status M).
  Notation eval A := (eval M S A).
  Notation defs := (defs M S).
  Notation rule := (rule M S V).
  Notation detail := (detail M S).

  (** The details of a status that decode, in order. *)
  Definition decoded (st : status) : list M :=
    flat_map (fun d => match d with Some m => [m] | None => [] end) (st_details _ st).

  (** The list of the `error` variable that belongs to a type of detail. *)
  Definition field (k : dkind) (g : celerr M) : list M :=
    match k with
    | KErrorInfo => c_error_info _ g | KRetryInfo => c_retry_info _ g | KDebugInfo => c_debug_info _ g
    | KQuotaFailure => c_quota_failures _ g | KPreconditionFailure => c_precondition_failures _ g
    | KBadRequest => c_bad_requests _ g | KRequestInfo => c_request_info _ g
    | KResourceInfo => c_resource_info _ g | KHelp => c_helps _ g
    | KLocalizedMessage => c_localized_messages _ g | KCustom => c_custom_messages _ g
    end.

  Definition dkind_eqb (a b : dkind) : bool :=
    match a, b with
    | KErrorInfo, KErrorInfo | KRetryInfo, KRetryInfo | KDebugInfo, KDebugInfo
    | KQuotaFailure, KQuotaFailure | KPreconditionFailure, KPreconditionFailure
    | KBadRequest, KBadRequest | KRequestInfo, KRequestInfo | KResourceInfo, KResourceInfo
    | KHelp, KHelp | KLocalizedMessage, KLocalizedMessage | KCustom, KCustom => true
    | _, _ => false
    end.

  (** Optional definitions evaluate without / with an error. *)
  Definition defs_ok (d : option defs) (s s' : S) : Prop :=
    match d with None => s' = s | Some f => f s = (None, s') end.
  Definition defs_fail (d : option defs) (s : S) (e : err) (s' : S) : Prop :=
    match d with None => False | Some f => f s = (Some e, s') end.

  (** In state [s] the rule does not match, matches, or cannot be decided. *)
  Definition passes (r : rule) (s s' : S) : Prop :=
    exists s1, defs_ok (r_defs _ _ _ r) s s1 /\ r_if _ _ _ r s1 = (Ok false, s').
  Definition matches (r : rule) (s s' : S) : Prop :=
    exists s1, defs_ok (r_defs _ _ _ r) s s1 /\ r_if _ _ _ r s1 = (Ok true, s').
  Definition undecided (r : rule) (s s' : S) : Prop :=
    exists e, defs_fail (r_defs _ _ _ r) s e s' \/
      exists s1, defs_ok (r_defs _ _ _ r) s s1 /\ r_if _ _ _ r s1 = (Err e, s').

  (** None of the rules, tried in order, matches. *)
  Inductive all_pass : list rule -> S -> S -> Prop :=
  | all_pass_nil s : all_pass [] s s
  | all_pass_cons r rs s s1 s2 : passes r s s1 -> all_pass rs s1 s2 -> all_pass (r :: rs) s s2.

  (** [r] is the first rule that does not simply pass; it is reached in state [s']. *)
  Definition reached (rules : list rule) (s : S) (r : rule) (s' : S) : Prop :=
    exists pre post, rules = pre ++ r :: post /\ all_pass pre s s'.

  (** Evaluations that may give nothing: the values of those that gave one, in order. *)
  Inductive gathers {A} : list (S -> option A -> S -> Prop) -> S -> list A -> S -> Prop :=
  | gathers_nil s : gathers [] s [] s
  | gathers_some (f : S -> option A -> S -> Prop) l s a s1 as_ s2 :
      f s (Some a) s1 -> gathers l s1 as_ s2 -> gathers (f :: l) s (a :: as_) s2
  | gathers_none (f : S -> option A -> S -> Prop) l s s1 as_ s2 :
      f s None s1 -> gathers l s1 as_ s2 -> gathers (f :: l) s as_ s2.

  Variable mk_precondition : list (string * string * string) -> M.
  Variable mk_bad_request : list (string * string) -> M.
  Variable mk_localized : string -> string -> M.
  Variable marshals : M -> bool.

  (** Each kind of part of a detail; an expression that fails gives nothing. *)
  Definition message_part (ev : eval M) s o s' : Prop :=
    exists r, ev s = (r, s') /\ o = match r with Ok m => Some m | Err _ => None end.
  Definition by_part (ev : eval (option M)) s o s' : Prop :=
    exists r, ev s = (r, s') /\ o = match r with Ok v => v | Err _ => None end.
  Definition precondition_part vs s o s' : Prop :=
    exists r, @kept3 M S vs s r s' /\ o = match r with [] => None | _ => Some (mk_precondition r) end.
  Definition bad_request_part vs s o s' : Prop :=
    exists r, @kept2 M S vs s r s' /\ o = match r with [] => None | _ => Some (mk_bad_request r) end.
  Definition localized_part (p : string * eval string) s o s' : Prop :=
    exists r, snd p s = (r, s') /\ o = match r with Ok m => Some (mk_localized (fst p) m) | Err _ => None end.

  (** Everything a detail can produce, in the order it is attached. *)
  Definition parts (d : detail) : list (S -> option M -> S -> Prop) :=
    map message_part (match d_messages _ _ d with Some (_, l) => l | None => [] end)
    ++ map by_part (d_by _ _ d)
    ++ map precondition_part (d_preconditions _ _ d)
    ++ map bad_request_part (d_bad_requests _ _ d)
    ++ map localized_part (d_localized _ _ d).

  Definition message_defs (d : detail) : option defs :=
    match d_messages _ _ d with Some (f, _) => Some f | None => None end.

  (** The messages the details of a rule attach: those whose condition is true contribute their parts. *)
  Inductive details_give : list detail -> S -> list M -> S -> Prop :=
  | details_nil s : details_give [] s [] s
  | details_skip d ds s s1 s2 ms s3 :
      defs_ok (d_defs _ _ d) s s1 -> d_if _ _ d s1 = (Ok false, s2) -> details_give ds s2 ms s3 ->
      details_give (d :: ds) s ms s3
  | details_add d ds s s1 s2 s3 ms s4 ms' s5 :
      defs_ok (d_defs _ _ d) s s1 -> d_if _ _ d s1 = (Ok true, s2) ->
      defs_ok (message_defs d) s2 s3 -> gathers (parts d) s3 ms s4 ->
      details_give ds s4 ms' s5 -> details_give (d :: ds) s (ms ++ ms') s5.

  (** ... or one of them fails to evaluate. *)
  Inductive details_fail : list detail -> S -> err -> S -> Prop :=
  | details_fail_now d ds s e s' :
      (defs_fail (d_defs _ _ d) s e s' \/
       (exists s1, defs_ok (d_defs _ _ d) s s1 /\
          (d_if _ _ d s1 = (Err e, s') \/
           exists s2, d_if _ _ d s1 = (Ok true, s2) /\ defs_fail (message_defs d) s2 e s'))) ->
      details_fail (d :: ds) s e s'
  | details_fail_later d ds s ms s1 e s' :
      details_give [d] s ms s1 -> details_fail ds s1 e s' -> details_fail (d :: ds) s e s'.

  (** The message of the resulting status: the rule's, else that of the original error, else [dflt]. *)
  Definition message_is (message : option (eval string)) (dflt : string) (s : S) (m : string) (s' : S) : Prop :=
    match message with
    | Some ev => ev s = (Ok m, s')
    | None => s' = s /\ m = dflt
    end.
  Definition message_fails (message : option (eval string)) (s : S) (e : err) (s' : S) : Prop :=
    match message with Some ev => ev s = (Err e, s') | None => False end.

  (** The status with these details, or without any if one of them cannot be encoded. *)
  Definition status_with (code : Z) (m : string) (ds : list M) : status :=
    {| st_code := code; st_msg := m; st_details := if forallb marshals ds then map Some ds else [] |}.

  (** What the original error [e] contributes to the resulting status. *)
  Variable code_string : Z -> string.
  Definition orig_message (e : err) : string :=
    let '(st, ok) := from_error M code_string e in
    if ok then if String.eqb (st_msg _ st) "" then "error" else st_msg _ st else "error".
  Definition orig_code (e : err) : Z :=
    let '(st, ok) := from_error M code_string e in if ok then st_code _ st else 0.
  Definition orig_details (e : err) : list M :=
    let '(st, ok) := from_error M code_string e in if ok then decoded st else [].

  (** A validation: its condition is true, is false, or something in it fails to evaluate with [e]. *)
  Notation vrule := (vrule M S).
  Definition v_matches (v : vrule) (s s' : S) : Prop :=
    exists s1, defs_ok (v_defs _ _ v) s s1 /\ v_if _ _ v s1 = (Ok true, s').
  Definition v_passes (v : vrule) (s s' : S) : Prop :=
    exists s1, defs_ok (v_defs _ _ v) s s1 /\ v_if _ _ v s1 = (Ok false, s').
  Definition v_error (v : vrule) (s : S) (e : err) (s' : S) : Prop :=
    defs_fail (v_defs _ _ v) s e s' \/
    (exists s1, defs_ok (v_defs _ _ v) s s1 /\ v_if _ _ v s1 = (Err e, s')) \/
    (exists s1, v_matches v s s1 /\
       (message_fails (v_message _ _ v) s1 e s' \/
        (exists m s2, message_is (v_message _ _ v) "error" s1 m s2 /\ details_fail (v_details _ _ v) s2 e s'))).
  (** The validation matches and its status, with this message and these details, can be built. *)
  Definition v_status (v : vrule) (s : S) (m : string) (ds : list M) (s' : S) : Prop :=
    exists s1 s2, v_matches v s s1 /\ message_is (v_message _ _ v) "error" s1 m s2 /\
      details_give (v_details _ _ v) s2 ds s'.
End Spec.

