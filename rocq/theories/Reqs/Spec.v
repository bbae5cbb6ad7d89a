(** * How a message is resolved *)

From Coq Require Import String List Bool.
From Verif.Ident Require Model.
From Verif.Reqs Require Import Model.
Import ListNotations.
Local Open Scope string_scope.

Section Message.
  Variables expr V E : Type.
  Variable refs : expr -> list string.
  Variable eval : expr -> (string -> option V) -> (string -> option V) -> V + E.
  Variable eval_bool : expr -> (string -> option V) -> (string -> option V) -> bool + E.
  Variable custom : (string -> option V) -> table V + E.
  Variable custom_field : string -> (string -> option V) -> option (table V) -> V + E.

  Notation def := (def expr).
  Notation alt := (alt expr).
  Notation field := (field expr).
  Notation message := (message expr).

  (** The arguments of the call, by name. They never change. *)
  Fixpoint given (passed : list (string * V)) (n : string) : option V :=
    match passed with [] => None | (k, x) :: r => if String.eqb k n then Some x else given r n end.
  Definition one_more (vs : string -> option V) (n : string) (x : V) : string -> option V := fun k => if String.eqb k n then Some x else vs k.

  Section Given.
    Variable args : string -> option V.
    (** The definitions in order: the variables afterwards. *)
    Fixpoint values (ds : list def) (vs : string -> option V) : (string -> option V) + E :=
      match ds with
      | [] => inl vs
      | d :: r => match eval (d_expr _ d) vs args with inl x => values r (one_more vs (d_name _ d) x) | inr e => inr e end
      end.
    (** The first case that holds; every condition is evaluated. *)
    Fixpoint choose (vs : string -> option V) (cases : list (expr * alt)) (default : option alt) : option alt + E :=
      match cases with
      | [] => inl default
      | (c, a) :: r =>
          match eval_bool c vs args, choose vs r default with
          | inr e, _ => inr e
          | inl _, inr e => inr e
          | inl true, inl _ => inl (Some a)
          | inl false, inl o => inl o
          end
      end.
    (** [ask]: what custom resolvers get. *)
    Fixpoint fill (ask : string -> option V) (from_custom : bool) (vs : string -> option V) (fs : list field) (ret : table V) : table V + E :=
      match fs with
      | [] => inl ret
      | ByExpr _ n e :: r => match eval e vs args with inl x => fill ask from_custom vs r (put V ret n x) | inr e => inr e end
      | Custom _ n :: r =>
          match custom_field n ask (if from_custom then Some ret else None) with inl x => fill ask from_custom vs r (put V ret n x) | inr e => inr e end
      | Oneof _ cases default :: r =>
          match choose vs cases default with
          | inr e => inr e
          | inl None => fill ask from_custom vs r ret
          | inl (Some a) =>
              match values (a_defs _ a) vs with
              | inr e => inr e
              | inl vs' => match eval (a_by _ a) vs' args with inl x => fill ask from_custom vs r (put V ret (a_field _ a) x) | inr e => inr e end
              end
          end
      end.
  End Given.

  (** A custom resolver sees every argument and every variable of the message. *)
  Definition complete (m : message) (passed : list (string * V)) (vs ask : string -> option V) : Prop :=
    (forall n x, given passed n = Some x -> ask (Ident.Model.public n) = Some x) /\
    (forall d, In d (m_defs _ m) -> ask (Ident.Model.public (d_name _ d)) = vs (d_name _ d)).
  Definition has_custom (m : message) : Prop := m_custom _ m = true \/ exists n, In (Custom _ n) (m_fields _ m).

  (** The outcome of a message. *)
  Definition outcome (m : message) (passed : list (string * V)) (out : table V + E) : Prop :=
    match values (given passed) (m_defs _ m) (fun _ => None) with
    | inr e => out = inr e
    | inl vs =>
        exists ask, (has_custom m -> complete m passed vs ask) /\
          match (if m_custom _ m then custom ask else inl []) with
          | inr e => out = inr e
          | inl ret => out = fill (given passed) ask (m_custom _ m) vs (m_fields _ m) ret
          end
    end.

  (** ** Accepted messages *)

  Definition inner (f : field) : list def :=
    match f with
    | Oneof _ cases default => flat_map (fun c => a_defs _ (snd c)) cases ++ match default with Some a => a_defs _ a | None => [] end
    | _ => []
    end.
  Definition all_names (m : message) : list string := map (d_name _) (m_defs _ m ++ flat_map inner (m_fields _ m)).
  Definition alt_exprs (a : alt) : list expr := a_by _ a :: map (d_expr _) (a_defs _ a).
  Definition exprs (f : field) : list expr :=
    match f with
    | ByExpr _ _ e => [e]
    | Custom _ _ => []
    | Oneof _ cases default => flat_map (fun c => fst c :: alt_exprs (snd c)) cases ++ match default with Some a => alt_exprs a | None => [] end
    end.
  (** No two variables have the same name, not even in Go (C27, C42); and a field does not use the variables of a oneof before it, whose scope has ended (C32). *)
  Definition accepted (m : message) : Prop :=
    NoDup (map Ident.Model.public (all_names m)) /\
    forall before f after, m_fields _ m = (before ++ f :: after)%list ->
      forall e d, In e (exprs f) -> In d (flat_map inner before) -> ~ In (d_name _ d) (refs e).

  (** ** What expressions and custom resolvers see *)

  (** The variables of the message that are used: by some definition, field or condition of a oneof, or all of them if there is a custom resolver. *)
  Inductive used (m : message) (d : def) : Prop :=
  | U_custom : In d (m_defs _ m) -> has_custom m -> used m d
  | U_def : forall d', In d (m_defs _ m) -> In d' (m_defs _ m) -> In (d_name _ d) (refs (d_expr _ d')) -> used m d
  | U_field : forall n e, In d (m_defs _ m) -> In (ByExpr _ n e) (m_fields _ m) -> In (d_name _ d) (refs e) -> used m d
  | U_oneof : forall cases default c a, In d (m_defs _ m) -> In (Oneof _ cases default) (m_fields _ m) -> In (c, a) cases -> In (d_name _ d) (refs c) -> used m d.
  (** The variables of the fields of oneofs that are used by the value of their field. *)
  Inductive used_inside (m : message) (d : def) : Prop :=
  | I_case : forall cases default c a, In (Oneof _ cases default) (m_fields _ m) -> In (c, a) cases -> In d (a_defs _ a) -> In (d_name _ d) (refs (a_by _ a)) -> used_inside m d
  | I_default : forall cases a, In (Oneof _ cases (Some a)) (m_fields _ m) -> In d (a_defs _ a) -> In (d_name _ d) (refs (a_by _ a)) -> used_inside m d.
  (** Fields and custom resolvers see a struct in which a used variable hides the arguments with its Go name; one of a oneof, which has no value yet, with its zero value. *)
  Variable zero : string -> V.
  Definition struct (m : message) (passed : list (string * V)) (vs ask : string -> option V) : Prop :=
    (forall d, used m d -> ask (Ident.Model.public (d_name _ d)) = vs (d_name _ d)) /\
    (forall d, used_inside m d -> ask (Ident.Model.public (d_name _ d)) = Some (zero (d_name _ d))) /\
    (forall a, In a (map fst passed) -> (forall d, used m d \/ used_inside m d -> Ident.Model.public (d_name _ d) <> Ident.Model.public a) -> ask (Ident.Model.public a) = given passed a).
  Definition outcome_seen (m : message) (passed : list (string * V)) (out : table V + E) : Prop :=
    match values (given passed) (m_defs _ m) (fun _ => None) with
    | inr e => out = inr e
    | inl vs =>
        exists ask args, struct m passed vs ask /\
          (forall n x, given passed n = Some x -> args n = ask (Ident.Model.public n)) /\ (forall n, given passed n = None -> args n = None) /\
          match (if m_custom _ m then custom ask else inl []) with
          | inr e => out = inr e
          | inl ret => out = fill args ask (m_custom _ m) vs (m_fields _ m) ret
          end
    end.

  (** An evaluation reads the names it refers to, and arguments; a custom resolver reads the fields it gets. *)
  Definition reads {R} (ev : expr -> (string -> option V) -> (string -> option V) -> R) : Prop :=
    forall e vs vs' args args', (forall n, In n (refs e) -> vs n = vs' n) -> (forall n, args n = args' n) -> ev e vs args = ev e vs' args'.
End Message.
