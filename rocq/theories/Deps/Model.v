(** * What a federation service depends on

    Model of the functions that find out which clients, custom resolvers and
    message resolvers the generated code of a service gets:
    resolver/service.go:51-78, 111-174, resolver/message.go:148-194, 529-663,
    resolver/def.go:28-38, 145-195, resolver/graph.go:12-227,
    resolver/resolver.go:3575-3644 and resolver/method.go:3-8.

    Simplifications.
    - Messages and services are numbers: positions in the lists of the schema.
    - The groups of a definition set hold exactly its definitions, in some order
      (that is C04); they are set up for the definitions of messages, of their error
      rules, and of oneof rules (resolver.go:5072-5117).
    - Services are sorted by their numbers instead of their names. *)

From Coq Require Import List Arith Bool.
Import ListNotations.

(** ** Schemas *)

(** Expressions of variable definitions: resolver/types.go:237-308.  Every
    definition has an address. *)
Inductive expr :=
| XOther                                   (* by, enum, map without message *)
| XCall (svc : nat) (errs : list error)    (* CallExpr: the service of its method, its error rules *)
| XMessage (m : nat)                       (* MessageExpr *)
| XMap (m : nat)                           (* MapExpr with a message *)
| XValidation (err : error)                (* ValidationExpr *)
with error :=                              (* GRPCError *)
| Err (defs : list def) (details : list detail)
with detail :=                             (* GRPCErrorDetail: DefSet, Messages *)
| Detail (defs msgs : list def)
with def :=                                (* VariableDefinition *)
| Def (addr : nat) (e : expr).

Definition addr_of (d : def) : nat := match d with Def a _ => a end.
Definition expr_of (d : def) : expr := match d with Def _ e => e end.

(** A field: whether it has a rule, whether the rule says custom_resolver, and the
    definitions of its oneof rule. *)
Record field := {
  fd_rule : bool;
  fd_custom : bool;
  fd_defs : list def
}.

(** A message; [ms_rule] tells whether it has a message option, without which it
    has no definitions. *)
Record message := {
  ms_rule : bool;
  ms_custom : bool;
  ms_defs : list def;
  ms_fields : list field
}.

Record method := {
  mt_request : nat;
  mt_response : nat;
  mt_custom : option nat        (* (grpc.federation.method).response *)
}.

Record service := {
  sv_methods : list method;
  sv_vars : list nat            (* messages of service variables: service.go:176-188 *)
}.

Record schema := {
  sc_messages : list message;
  sc_services : list service
}.

Definition no_message : message :=
  {| ms_rule := false; ms_custom := false; ms_defs := []; ms_fields := [] |}.

Definition msg (s : schema) (m : nat) : message := nth m (sc_messages s) no_message.

(** ** Definitions and the messages they create *)

(** VariableDefinition.MessageExprs and the functions it calls:
    def.go:145-195. *)
Fixpoint message_exprs (d : def) : list nat :=
  match d with
  | Def _ e =>
      match e with
      | XOther => []
      | XCall _ errs => flat_map error_message_exprs errs
      | XMessage m => [m]
      | XMap m => [m]
      | XValidation err => error_message_exprs err
      end
  end
with error_message_exprs (e : error) : list nat :=
  match e with
  | Err defs details =>
      flat_map message_exprs defs ++ flat_map detail_message_exprs details
  end
with detail_message_exprs (d : detail) : list nat :=
  match d with
  | Detail defs msgs => flat_map message_exprs defs ++ flat_map message_exprs msgs
  end.

(** GRPCError.DefinitionGroups: def.go:28-38. *)
Definition error_defs (e : error) : list def :=
  match e with
  | Err defs details =>
      defs ++ flat_map (fun d => match d with Detail ds ms => ds ++ ms end) details
  end.

(** Message.VariableDefinitionGroups, AllVariableDefinitions: message.go:148-194. *)
Definition all_defs (m : message) : list def :=
  if ms_rule m then
    ms_defs m
    ++ flat_map (fun d => match expr_of d with
                          | XCall _ errs => flat_map error_defs errs
                          | XValidation err => error_defs err
                          | _ => []
                          end) (ms_defs m)
    ++ flat_map (fun f => if fd_rule f then fd_defs f else []) (ms_fields m)
  else [].

(** ** Clients *)

Section Clients.
Variable s : schema.

(** State of the search: the definitions seen, the services found. *)
Definition found : Type := (list nat * list nat)%type.

Definition seen (a : nat) (l : list nat) : bool := existsb (Nat.eqb a) l.

(** Message.dependServices: message.go:627-637, for a way to treat a definition. *)
Fixpoint over (f : found -> def -> option found) (ds : list def) (st : found)
  : option found :=
  match ds with
  | [] => Some st
  | d :: r => match f st d with Some st' => over f r st' | None => None end
  end.

Fixpoint over_messages (f : found -> def -> option found) (ms : list nat) (st : found)
  : option found :=
  match ms with
  | [] => Some st
  | m :: r =>
      match over f (all_defs (msg s m)) st with
      | Some st' => over_messages f r st'
      | None => None
      end
  end.

(** dependServicesByDefinition: message.go:639-663.  A call ends the search: the
    messages created by its error rules are not looked at here. *)
Fixpoint depend (fuel : nat) (st : found) (d : def) : option found :=
  if seen (addr_of d) (fst st) then Some st else
  match fuel with
  | O => None
  | S n =>
      let st' := (addr_of d :: fst st, snd st) in
      match expr_of d with
      | XCall svc _ => Some (fst st', snd st' ++ [svc])
      | _ => over_messages (depend n) (message_exprs d) st'
      end
  end.

(** As many steps as there are definitions: enough for every search. *)
Definition enough : nat :=
  list_sum (map (fun m => length (all_defs m)) (sc_messages s)).

(** Message.DependServices: message.go:619-625. *)
Definition depend_services (m : nat) : option (list nat) :=
  match over (depend enough) (all_defs (msg s m)) ([], []) with
  | Some st => Some (snd st)
  | None => None
  end.

Fixpoint insert (x : nat) (l : list nat) : list nat :=
  match l with
  | [] => [x]
  | y :: r => if x <? y then x :: l else if x =? y then l else y :: insert x r
  end.

(** A set of services, sorted: service.go:142-172. *)
Definition to_set (l : list nat) : list nat := fold_right insert [] l.

Fixpoint all_some {A B : Type} (f : A -> option (list B)) (l : list A) : option (list B) :=
  match l with
  | [] => Some []
  | x :: r =>
      match f x, all_some f r with
      | Some y, Some ys => Some (y ++ ys)
      | _, _ => None
      end
  end.

(** Service.UseServices, ServiceDependencies: service.go:138-174.  The services
    depended on are taken from the response message of the method itself. *)
Definition service_dependencies (sv : service) : option (list nat) :=
  match all_some (fun m => depend_services (mt_response m)) (sv_methods sv) with
  | Some l => Some (to_set l)
  | None => None
  end.

End Clients.

(** ** Custom resolvers *)

(** Method.FederationResponse: method.go:3-8. *)
Definition federation_response (m : method) : nat :=
  match mt_custom m with Some r => r | None => mt_response m end.

(** A custom resolver of a message, or of one of its fields. *)
Definition custom : Type := (nat * option nat)%type.

Inductive outcome (A : Type) :=
| Done (a : A)
| Crash                                  (* nil pointer dereference *)
| OutOfFuel.
Arguments Done {A} a.
Arguments Crash {A}.
Arguments OutOfFuel {A}.

Fixpoint gather {A B : Type} (f : A -> outcome (list B)) (l : list A)
  : outcome (list B) :=
  match l with
  | [] => Done []
  | x :: r =>
      match f x with
      | Done y => match gather f r with Done ys => Done (y ++ ys) | e => e end
      | e => e
      end
  end.

Section Custom.
Variable s : schema.

Definition own_customs (m : nat) : list custom :=
  (if ms_rule (msg s m) && ms_custom (msg s m) then [(m, None)] else [])
  ++ map (fun i => (m, Some i))
         (filter (fun i => match nth_error (ms_fields (msg s m)) i with
                           | Some f => fd_rule f && fd_custom f
                           | None => false
                           end) (seq 0 (length (ms_fields (msg s m))))).

(** Message.CustomResolvers: message.go:529-567.  [m.Rule.DefSet] dereferences
    the rule, which a message without option does not have. *)
Fixpoint customs (fuel : nat) (m : nat) : outcome (list custom) :=
  match fuel with
  | O => OutOfFuel
  | S n =>
      if ms_rule (msg s m) then
        match gather (customs n) (flat_map message_exprs (ms_defs (msg s m))) with
        | Done l => Done (own_customs m ++ l)
        | e => e
        end
      else Crash
  end.

(** Service.CustomResolvers: service.go:111-129.  The map and the sorting by FQDN
    are left out: the result is used as a set. *)
Definition service_customs (fuel : nat) (sv : service) : outcome (list custom) :=
  gather (fun mt => customs fuel (federation_response mt)) (sv_methods sv).

End Custom.

(** ** The messages a service resolves *)

Section Messages.
Variable s : schema.

(** The children of a message's node: graph.go:75-227 (model of C06). *)
Definition children (m : nat) : list nat :=
  if ms_rule (msg s m) then
    flat_map message_exprs (ms_defs (msg s m))
    ++ flat_map (fun f => if fd_rule f then flat_map message_exprs (fd_defs f) else [])
                (ms_fields (msg s m))
  else [].

(** graph.go:28-33: nodes without parents. *)
Definition is_root (m : nat) : bool :=
  ms_rule (msg s m)
  && forallb (fun p => negb (seen m (children p))) (seq 0 (length (sc_messages s))).

Definition roots : list nat := filter is_root (seq 0 (length (sc_messages s))).

(** childMessages: graph.go:48-57. *)
Fixpoint child_messages (fuel : nat) (m : nat) : outcome (list nat) :=
  match fuel with
  | O => OutOfFuel
  | S n =>
      match gather (child_messages n) (filter (fun c => ms_rule (msg s c)) (children m)) with
      | Done l => Done (m :: l)
      | e => e
      end
  end.

(** Service.HasMessageInMethod, HasMessageInVariables: service.go:51-78. *)
Definition has_message (sv : service) (m : nat) : bool :=
  existsb (fun mt => (mt_request mt =? m) || (federation_response mt =? m)) (sv_methods sv)
  || existsb (Nat.eqb m) (sv_vars sv).

(** resolveMessageArgument: resolver.go:3584-3600, 3631-3643: Service.Messages. *)
Definition service_messages (fuel : nat) (sv : service) : outcome (list nat) :=
  gather (child_messages fuel) (filter (has_message sv) roots).

End Messages.
