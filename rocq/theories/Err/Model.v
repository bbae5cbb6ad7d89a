(** gRPC errors, the `error` variable, the generated error handler and validation.
    Models grpc/federation/error.go:40-66, cel.go:555-566, 693-709, 818-875, validation.go,
    generator/templates/error_handler.go.tmpl, validation.go.tmpl, eval.go.tmpl:164-168, and the part of
    google.golang.org/grpc v1.65 status they use (status.New, FromError, Convert, Err, WithDetails). *)
From Coq Require Import String List ZArith Bool.
From Verif.Base Require Import Result.
Import ListNotations.
Local Open Scope string_scope.
Local Open Scope Z_scope.

(** The message types SetGRPCError distinguishes, cel.go:847-870. *)
Inductive dkind :=
| KErrorInfo | KRetryInfo | KDebugInfo | KQuotaFailure | KPreconditionFailure
| KBadRequest | KRequestInfo | KResourceInfo | KHelp | KLocalizedMessage | KCustom.

Section Err.
  Variable M : Type.                 (* proto messages *)
  Variable kind : M -> dkind.        (* their Go type, as the switch in SetGRPCError sees it *)
  Variable marshals : M -> bool.     (* anypb.New succeeds *)
  Variable code_string : Z -> string.
  Variable mk_precondition : list (string * string * string) -> M.  (* type, subject, description *)
  Variable mk_bad_request : list (string * string) -> M.            (* field, description *)
  Variable mk_localized : string -> string -> M.                    (* locale, message *)

  (** *status.Status. A detail is [None] when Details() yields an error for it (its type is not linked
      into the binary or its bytes are broken). Details attached by WithDetails are taken to decode again. *)
  Record status := { st_code : Z; st_msg : string; st_details : list (option M) }.

  (** Go errors: *status.Error, an error without status and without Unwrap, fmt.Errorf("...%w"),
      ErrorWithLogAttrs (error.go:40-44; the attributes are not modelled here), errors.Join. *)
  Inductive err :=
  | EStatus (s : status)
  | EPlain (text : string)
  | EWrap (text : string) (inner : err)
  | ELogged (inner : err) (level : Z)
  | EJoin (es : list err).

  (** err.Error() *)
  Fixpoint error_text (e : err) : string :=
    match e with
    | EStatus s => "rpc error: code = " ++ code_string (st_code s) ++ " desc = " ++ st_msg s
    | EPlain t => t
    | EWrap t _ => t
    | ELogged e' _ => error_text e'
    | EJoin es => String.concat (String (Ascii.ascii_of_nat 10) EmptyString) (map error_text es)
    end.

  (** err.(interface{ GRPCStatus() *Status }) succeeds *)
  Definition direct (e : err) : bool :=
    match e with EStatus _ | ELogged _ _ => true | _ => false end.

  (** The end of status.FromError, given what errors.As found. *)
  Definition close (e : err) (o : option status) : status * bool :=
    match o with
    | None => ({| st_code := 2; st_msg := error_text e; st_details := [] |}, false)
    | Some s => (if direct e then s
                 else {| st_code := st_code s; st_msg := error_text e; st_details := st_details s |}, true)
    end.

  (** errors.As(err, &gs) then gs.GRPCStatus(); the method of ErrorWithLogAttrs (error.go:54-56) is
      Convert of the inner error. *)
  Fixpoint as_status (e : err) : option status :=
    match e with
    | EStatus s => Some s
    | EPlain _ => None
    | EWrap _ e' => as_status e'
    | ELogged e' _ => Some (fst (close e' (as_status e')))
    | EJoin es => (fix first (l : list err) : option status :=
                     match l with
                     | [] => None
                     | x :: l' => match as_status x with Some s => Some s | None => first l' end
                     end) es
    end.

  (** status.FromError *)
  Definition from_error (e : err) : status * bool := close e (as_status e).

  (** status.New *)
  Definition new_status (code : Z) (msg : string) : status := {| st_code := code; st_msg := msg; st_details := [] |}.

  (** Status.Err: nil for OK *)
  Definition status_err (s : status) : option err := if st_code s =? 0 then None else Some (EStatus s).

  (** Status.WithDetails; [None] is the error result *)
  Definition with_details (s : status) (ds : list M) : option status :=
    if st_code s =? 0 then None
    else if forallb marshals ds
         then Some {| st_code := st_code s; st_msg := st_msg s; st_details := st_details s ++ map Some ds |}
         else None.

  (** error.go:58-67 NewErrorWithLogAttrs *)
  Definition logged (e : option err) (level : Z) : option err :=
    match e with None => None | Some e => Some (ELogged e level) end.

  (** grpcfedcel.Error *)
  Record celerr := {
    c_code : Z; c_msg : string; c_details : list M;
    c_error_info : list M; c_retry_info : list M; c_debug_info : list M; c_quota_failures : list M;
    c_precondition_failures : list M; c_bad_requests : list M; c_request_info : list M;
    c_resource_info : list M; c_helps : list M; c_localized_messages : list M; c_custom_messages : list M
  }.

  (** Conversion of a Code (uint32) to int32, cel.go:824. *)
  Definition to_int32 (z : Z) : Z :=
    let r := z mod 4294967296 in if r <? 2147483648 then r else r - 4294967296.

  (** cel.go:846-870: one decodable, marshalable detail *)
  Definition add_detail (g : celerr) (m : M) : celerr :=
    let '(Build_celerr c s d ei ri di qf pf br rq rs hp lm cm) := g in
    let d := (d ++ [m])%list in
    match kind m with
    | KErrorInfo => Build_celerr c s d (ei ++ [m]) ri di qf pf br rq rs hp lm cm
    | KRetryInfo => Build_celerr c s d ei (ri ++ [m]) di qf pf br rq rs hp lm cm
    | KDebugInfo => Build_celerr c s d ei ri (di ++ [m]) qf pf br rq rs hp lm cm
    | KQuotaFailure => Build_celerr c s d ei ri di (qf ++ [m]) pf br rq rs hp lm cm
    | KPreconditionFailure => Build_celerr c s d ei ri di qf (pf ++ [m]) br rq rs hp lm cm
    | KBadRequest => Build_celerr c s d ei ri di qf pf (br ++ [m]) rq rs hp lm cm
    | KRequestInfo => Build_celerr c s d ei ri di qf pf br (rq ++ [m]) rs hp lm cm
    | KResourceInfo => Build_celerr c s d ei ri di qf pf br rq (rs ++ [m]) hp lm cm
    | KHelp => Build_celerr c s d ei ri di qf pf br rq rs (hp ++ [m]) lm cm
    | KLocalizedMessage => Build_celerr c s d ei ri di qf pf br rq rs hp (lm ++ [m]) cm
    | KCustom => Build_celerr c s d ei ri di qf pf br rq rs hp lm (cm ++ [m])
    end%list.

  (** cel.go:818-871 SetGRPCError up to the assignment; [None]: returns early, nothing is assigned.
      The Any of a detail is identified with the detail. *)
  Definition grpc_error (e : err) : option celerr :=
    let '(stat, ok) := from_error e in
    if ok then
      Some (fold_left (fun g d => match d with
                                  | None => g
                                  | Some m => if marshals m then add_detail g m else g
                                  end)
              (st_details stat)
              (Build_celerr (to_int32 (st_code stat)) (st_msg stat) [] [] [] [] [] [] [] [] [] [] [] []))
    else None.

  (** Expressions and sub-definitions are evaluated against a state [S] they may change. *)
  Variable S : Type.
  Variable V : Type.                                  (* the response type of the call *)
  Definition eval (A : Type) : Type := S -> result A err * S.
  Variable set_error : celerr -> S -> S.              (* cel.go:872-874 value.setEvalValue("error", ...) *)

  (** cel.go:818-875 SetGRPCError *)
  Definition set_grpc_error (e : err) (s : S) : S :=
    match grpc_error e with Some g => set_error g s | None => s end.

  (** cel.go:693-709 If *)
  Definition if_ {A} (cond : eval bool) (skip : A) (body : eval A) : eval A := fun s =>
    match cond s with
    | (Err e, s1) => (Err e, s1)
    | (Ok true, s1) => body s1
    | (Ok false, s1) => (Ok skip, s1)
    end.

  (** Evaluations whose failure is only logged give [None]. *)
  Definition soft (A : Type) : Type := S -> option A * S.

  (** validation.go:164-183 CustomMessage *)
  Definition custom_message (ev : eval M) : soft M := fun s =>
    match ev s with (Ok m, s1) => (Some m, s1) | (Err _, s1) => (None, s1) end.

  (** error_handler.go.tmpl:121-136 (range .By): the value may be nil *)
  Definition by_detail (ev : eval (option M)) : soft M := fun s =>
    match ev s with (Ok o, s1) => (o, s1) | (Err _, s1) => (None, s1) end.

  (** validation.go:23-79 PreconditionFailure: the loop *)
  Fixpoint precondition_loop (vs : list (eval string * eval string * eval string))
    (acc : list (string * string * string)) (s : S) : list (string * string * string) * S :=
    match vs with
    | [] => (acc, s)
    | (et, es, ed) :: vs' =>
        match et s with
        | (Err _, s1) => precondition_loop vs' acc s1
        | (Ok t, s1) =>
            match es s1 with
            | (Err _, s2) => precondition_loop vs' acc s2
            | (Ok sub, s2) =>
                match ed s2 with
                | (Err _, s3) => precondition_loop vs' acc s3
                | (Ok d, s3) => precondition_loop vs' (acc ++ [(t, sub, d)])%list s3
                end
            end
        end
    end.

  Definition precondition_failure (vs : list (eval string * eval string * eval string)) : soft M := fun s =>
    match precondition_loop vs [] s with
    | ([], s1) => (None, s1)
    | (l, s1) => (Some (mk_precondition l), s1)
    end.

  (** validation.go:89-130 BadRequest *)
  Fixpoint bad_request_loop (vs : list (eval string * eval string))
    (acc : list (string * string)) (s : S) : list (string * string) * S :=
    match vs with
    | [] => (acc, s)
    | (ef, ed) :: vs' =>
        match ef s with
        | (Err _, s1) => bad_request_loop vs' acc s1
        | (Ok f, s1) =>
            match ed s1 with
            | (Err _, s2) => bad_request_loop vs' acc s2
            | (Ok d, s2) => bad_request_loop vs' (acc ++ [(f, d)])%list s2
            end
        end
    end.

  Definition bad_request (vs : list (eval string * eval string)) : soft M := fun s =>
    match bad_request_loop vs [] s with
    | ([], s1) => (None, s1)
    | (l, s1) => (Some (mk_bad_request l), s1)
    end.

  (** validation.go:139-155 LocalizedMessage *)
  Definition localized_message (locale : string) (ev : eval string) : soft M := fun s =>
    match ev s with
    | (Err _, s1) => (None, s1)
    | (Ok m, s1) => (Some (mk_localized locale m), s1)
    end.

  (** if detail := ...; detail != nil { details = append(details, detail) }, repeatedly *)
  Fixpoint collect (l : list (soft M)) (s : S) : list M * S :=
    match l with
    | [] => ([], s)
    | f :: l' =>
        let '(o, s1) := f s in
        let '(ms, s2) := collect l' s1 in
        (match o with Some m => m :: ms | None => ms end, s2)
    end.

  (** A set of definitions evaluated for its effect (template evalDefSet, area Exec). *)
  Definition defs : Type := S -> option err * S.

  (** resolver GRPCErrorDetail *)
  Record detail := {
    d_defs : option defs;
    d_if : eval bool;
    d_messages : option (defs * list (eval M));
    d_by : list (eval (option M));
    d_preconditions : list (list (eval string * eval string * eval string));
    d_bad_requests : list (list (eval string * eval string));
    d_localized : list (string * eval string)
  }.

  Definition run_defs (d : option defs) : defs := fun s => match d with None => (None, s) | Some f => f s end.

  (** error_handler.go.tmpl:89-151 / validation.go.tmpl:34-91: one detail; returns the messages it appends *)
  Definition eval_detail (d : detail) : eval (list M) := fun s =>
    match run_defs (d_defs d) s with
    | (Some e, s1) => (Err e, s1)
    | (None, s1) =>
        if_ (d_if d) [] (fun s2 =>
          match run_defs (match d_messages d with Some (f, _) => Some f | None => None end) s2 with
          | (Some e, s3) => (Err e, s3)
          | (None, s3) =>
              let '(ms, s4) :=
                collect (map custom_message (match d_messages d with Some (_, l) => l | None => [] end)
                         ++ map by_detail (d_by d)
                         ++ map precondition_failure (d_preconditions d)
                         ++ map bad_request (d_bad_requests d)
                         ++ map (fun p => localized_message (fst p) (snd p)) (d_localized d))%list s3 in
              (Ok ms, s4)
          end) s1
    end.

  Fixpoint eval_details (ds : list detail) (acc : list M) (s : S) : result (list M) err * S :=
    match ds with
    | [] => (Ok acc, s)
    | d :: ds' =>
        match eval_detail d s with
        | (Err e, s1) => (Err e, s1)
        | (Ok ms, s1) => eval_details ds' (acc ++ ms)%list s1
        end
    end.

  (** resolver GRPCError *)
  Inductive action :=
  | Ignore
  | IgnoreAndResponse (ev : eval V)
  | Reply (message : option (eval string)) (details : list detail) (code : option Z).

  Record rule := {
    r_defs : option defs;
    r_if : eval bool;
    r_action : action;
    r_level : Z
  }.

  (** error_handler.go.tmpl:7-26: defaultMsg, defaultCode, defaultDetails *)
  Record defaults := { df_msg : string; df_code : Z; df_details : list M }.
  Definition defaults_of (e : err) : defaults :=
    let '(stat, exists_) := from_error e in
    if exists_ then
      {| df_msg := st_msg stat; df_code := st_code stat;
         df_details := flat_map (fun d => match d with Some m => [m] | None => [] end) (st_details stat) |}
    else {| df_msg := ""; df_code := 0; df_details := [] |}.

  (** error_handler.go.tmpl:65-180: the body for a rule that is neither ignore nor ignore_and_response *)
  Definition reply (df : defaults) (message : option (eval string)) (details : list detail) (code : option Z)
    : eval status := fun s =>
    let '(rm, s1) :=
      match message with
      | Some ev => ev s
      | None => (Ok (if String.eqb (df_msg df) "" then "error" else df_msg df), s)
      end in
    match rm with
    | Err e => (Err e, s1)
    | Ok errmsg =>
        match eval_details details [] s1 with
        | (Err e, s2) => (Err e, s2)
        | (Ok ds, s2) =>
            let c := match code with Some c => c | None => df_code df end in
            let st := new_status c errmsg in
            let attach := match details with [] => df_details df | _ => ds end in
            (Ok (match with_details st attach with Some st' => st' | None => st end), s2)
        end
    end.

  (** The body of a rule: the new value of `stat` and of `ret` ([None]: ret not assigned). evalDef calls
      the setter even when the expression of ignore_and_response fails, with the zero value, and the
      failure is only logged (error_handler.go.tmpl:45-62, cel.go:515-518, 567-570). *)
  Definition run_action (df : defaults) (a : action) : eval (status * option (option V)) := fun s =>
    match a with
    | Ignore => (Ok (new_status 0 "ignore error", None), s)
    | IgnoreAndResponse ev =>
        match ev s with
        | (Ok v, s1) => (Ok (new_status 0 "ignore error", Some (Some v)), s1)
        | (Err _, s1) => (Ok (new_status 0 "ignore error", Some None), s1)
        end
    | Reply m ds c =>
        match reply df m ds c s with
        | (Ok st, s1) => (Ok (st, None), s1)
        | (Err e, s1) => (Err e, s1)
        end
    end.

  (** error_handler.go.tmpl:32-191: the function returning (stat, handleErr) *)
  Fixpoint run_rules (df : defaults) (rules : list rule) (s : S)
    : result (option (status * Z * option (option V))) err * S :=
    match rules with
    | [] => (Ok None, s)
    | r :: rules' =>
        match run_defs (r_defs r) s with
        | (Some e, s1) => (Err e, s1)
        | (None, s1) =>
            match if_ (r_if r) None (fun s2 => match run_action df (r_action r) s2 with
                                               | (Ok x, s3) => (Ok (Some x), s3)
                                               | (Err e, s3) => (Err e, s3)
                                               end) s1 with
            | (Err e, s2) => (Err e, s2)
            | (Ok (Some (st, ret)), s2) => (Ok (Some (st, r_level r, ret)), s2)
            | (Ok None, s2) => run_rules df rules' s2
            end
        end
    end.

  (** slog.LevelError *)
  Definition level_error : Z := 8.

  (** error_handler.go.tmpl:1-215 with the default error handler (server.go.tmpl: returns its argument),
      followed by `return ret, nil` (eval.go.tmpl:164-168). [ret] is what the failed call returned. The
      result is the pair (ret, err) of the call. *)
  Definition handle_call_error (rules : list rule) (ret : option V) (e : err) (s : S)
    : (option V * option err) * S :=
    match rules with
    | [] => ((None, logged (Some e) level_error), s)
    | _ =>
        let s0 := set_grpc_error e s in
        match run_rules (defaults_of e) rules s0 with
        | (Err _, s1) => ((None, logged (Some e) level_error), s1)
        | (Ok None, s1) => ((None, logged (Some e) level_error), s1)
        | (Ok (Some (st, level, r)), s1) =>
            match logged (status_err st) level with
            | Some e' => ((None, Some e'), s1)
            | None => ((match r with Some v => v | None => ret end, None), s1)
            end
        end
    end.

  (** eval.go.tmpl:126-168: the generated call: its result, or the handling of its error *)
  Definition call (rules : list rule) (body : S -> (option V * option err) * S) (s : S)
    : (option V * option err) * S :=
    match body s with
    | ((ret, None), s1) => ((ret, None), s1)
    | ((ret, Some e), s1) => handle_call_error rules ret e s1
    end.

  (** resolver ValidationExpr.Error (ignore and ignore_and_response are rejected, resolver.go:2666-2681) *)
  Record vrule := {
    v_defs : option defs;
    v_if : eval bool;
    v_message : option (eval string);
    v_details : list detail;
    v_code : Z;
    v_level : Z
  }.

  (** validation.go.tmpl: messageValidation *)
  Definition validation (v : vrule) : S -> option err * S := fun s =>
    match run_defs (v_defs v) s with
    | (Some e, s1) => (Some e, s1)
    | (None, s1) =>
        match if_ (v_if v) None (fun s2 =>
                let '(rm, s3) := match v_message v with Some ev => ev s2 | None => (Ok "error", s2) end in
                match rm with
                | Err e => (Err e, s3)
                | Ok errmsg =>
                    match eval_details (v_details v) [] s3 with
                    | (Err e, s4) => (Err e, s4)
                    | (Ok ds, s4) =>
                        let st := new_status (v_code v) errmsg in
                        (Ok (Some match v_details v with
                                  | [] => st
                                  | _ => match with_details st ds with Some st' => st' | None => st end
                                  end), s4)
                    end
                end) s1 with
        | (Err e, s2) => (Some e, s2)
        | (Ok None, s2) => (None, s2)                       (* stat is nil: nil.Err() is nil *)
        | (Ok (Some st), s2) => (logged (status_err st) (v_level v), s2)
        end
    end.

  (** cel.go:555-566: the validation case of evalDef *)
  Definition validation_def (v : vrule) : S -> option err * S := fun s =>
    match validation v s with
    | (None, s1) => (None, s1)
    | (Some e, s1) =>
        if snd (from_error e) then (Some e, s1)
        else (Some (EStatus (new_status 13 ("failed running validations: " ++ error_text e))), s1)
    end.
End Err.
