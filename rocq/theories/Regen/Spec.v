(** Histories of a watched directory, and what a fresh generation would write. *)
From Coq Require Import String List Bool Permutation.
From Verif.Regen Require Import Model.
Import ListNotations.
Local Open Scope string_scope.

Section Histories.
  Context {source fed : Type}.
  Variable gen : sources source -> path -> option (list (pout fed)).

  (** A step: some files are removed without notice, one file changes, and the event for it is handled. *)
  Record step := { missed : list path; event_kind : event; changed : path; content : option source; iteration : list path }.
  Definition after_step (s : sources source) (h : step) : sources source := fun p =>
    if p =? changed h then content h else if existsb (String.eqb p) (missed h) then None else s p.
  (** The kind of the event says what happened. *)
  Definition truthful (h : step) : Prop :=
    match event_kind h with ECreate | EWrite => content h <> None | ERemove | ERename => content h = None end.
  (** Go may iterate over the cache in any order. *)
  Definition any_order (st : state fed) (s : sources source) (h : step) : Prop :=
    Permutation (iteration h) (map fst (fst (handle_own gen s (event_kind h) (changed h) (st_cache st)))).

  (** The files generated from a proto file; None if generation fails. *)
  Fixpoint collect (outs : list (pout fed)) : option (list file) :=
    match outs with
    | [] => Some []
    | PErr :: _ => None
    | PFed _ None :: _ => None
    | PNil :: outs' => collect outs'
    | POk fs :: outs' | PFed fs (Some _) :: outs' => match collect outs' with Some l => Some (fs ++ l)%list | None => None end
    end.
  Definition fresh (s : sources source) (p : path) : option (list file) :=
    match gen s p with Some outs => collect outs | None => None end.

  (** Sources and generator after a history; [good] is what is assumed of each step. The flag says whether the last event's file could be generated
      (or was removed); it is false before the first event. *)
  Inductive history (good : sources source -> step -> Prop) (s0 : sources source) (st0 : state fed) : sources source -> state fed -> bool -> Prop :=
  | Start : history good s0 st0 s0 st0 false
  | Step s st b h b' : history good s0 st0 s st b -> truthful h -> any_order st (after_step s h) h -> good s h ->
      (b' = true <-> (content h <> None -> fresh (after_step s h) (changed h) <> None)) ->
      history good s0 st0 (after_step s h) (handle gen (after_step s h) (event_kind h) (changed h) (iteration h) st) b'.

  (** The state watch mode starts from: the cache of a full generation, over an output directory without left-overs. *)
  Definition started (ps : list path) (s : sources source) (st : state fed) : Prop :=
    (forall p, In p ps <-> s p <> None) /\ generateAll gen s ps [] = Some (st_cache st).
  (** The output directory has exactly what a fresh generation would write to an empty one. *)
  Definition up_to_date (s : sources source) (d : disk) : Prop :=
    forall n c, d n = Some c <-> exists p fs, s p <> None /\ fresh s p = Some fs /\ In {| f_name := n; f_content := c |} fs.
End Histories.

(** Each proto file has output files of its own. *)
Definition files_of {fed} (o : pout fed) : list file := match o with POk fs | PFed fs _ => fs | _ => [] end.
Definition own_outputs {source fed} (gen : sources source -> path -> option (list (pout fed))) (names : path -> list string) : Prop :=
  (forall p, NoDup (names p)) /\ (forall p q n, In n (names p) -> In n (names q) -> p = q) /\
  (forall s p fs, s p <> None -> fresh gen s p = Some fs -> map f_name fs = names p) /\
  (forall s p outs o f, gen s p = Some outs -> In o outs -> In f (files_of o) -> In (f_name f) (names p)).
(** What a step must not do: remove a file that cannot be generated at that time, or matter to other files (as a file they import does). *)
Definition removes_only_generated {source fed} (gen : sources source -> path -> option (list (pout fed))) (s : sources source) (h : @step source) : Prop :=
  forall p, s p <> None -> after_step s h p = None -> fresh gen s p <> None.
Definition matters_to_no_other {source fed} (gen : sources source -> path -> option (list (pout fed))) (s : sources source) (h : @step source) : Prop :=
  forall q, q <> changed h -> after_step s h q <> None -> gen (after_step s h) q = gen s q.
Definition contained {source fed} (gen : sources source -> path -> option (list (pout fed))) (s : sources source) (h : @step source) : Prop :=
  removes_only_generated gen s h /\ matters_to_no_other gen s h.
