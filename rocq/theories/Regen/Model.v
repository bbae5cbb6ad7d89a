(** Generation in watch mode: the build cache and the files written.
    Models: generator/generator.go:100-125 (WriteFiles), 183-222 (GenerateAll), 311-363 (the event handler), 371-475 (otherResults,
    createProtoFile, updateProtoFile, deleteProtoFile, createGeneratorResult), cmd/grpc-federation-generator/main.go:48-55.
    Not modelled: failing writes, and what code generation plugins do (their failure is only logged, line 355). *)
From Coq Require Import String List Bool.
Import ListNotations.
Local Open Scope string_scope.

Definition path := string.
Record file := { f_name : string; f_content : string }.

Section Generator.
  Context {source fed : Type}.
  (** The proto files: contents by absolute path *)
  Definition sources := path -> option source.
  (** What one protoc plugin gives for a file (lines 450-472): failure, no response, a response, or the response of
      protoc-gen-grpc-federation and the resolved files, whose resolution may fail (line 464). *)
  Inductive pout := PErr | PNil | POk (files : list file) | PFed (files : list file) (r : option (list fed)).
  (** compileProto (477-512) and the configured plugins: depends on all sources because of imports. None: compileProto fails. *)
  Variable gen : sources -> path -> option (list pout).

  Record entry := { responses : list (list file); federation : list fed }.
  Definition cache := list (path * entry).
  Definition no_entry : entry := {| responses := []; federation := [] |}.
  Fixpoint find (p : path) (c : cache) : option entry :=
    match c with [] => None | (q, e) :: c' => if p =? q then Some e else find p c' end.
  Definition remove (p : path) (c : cache) : cache := filter (fun x => negb (p =? fst x)) c.
  Definition entry_of (p : path) (c : cache) : entry := match find p c with Some e => e | None => no_entry end.
  Definition put (p : path) (e : entry) (c : cache) : cache := (p, e) :: remove p c.

  Inductive kind := Keep | Create | Delete | Update.
  Record result := { r_path : path; r_kind : kind; r_files : list file; r_fed : list fed }.

  (** generator.go:440-475, the loop over the plugins *)
  Fixpoint loop (p : path) (outs : list pout) (files : list file) (fs : list fed) (c : cache) : cache * option (list file * list fed) :=
    match outs with
    | [] => (c, Some (files, fs))
    | PErr :: _ => (c, None)
    | PNil :: outs' => loop p outs' files fs c
    | POk new :: outs' =>
        let e := entry_of p c in
        loop p outs' (files ++ new) fs (put p {| responses := responses e ++ [new]; federation := federation e |} c)
    | PFed _ None :: _ => (put p (entry_of p c) c, None)
    | PFed new (Some r) :: outs' =>
        let e := entry_of p c in
        loop p outs' (files ++ new) r (put p {| responses := responses e ++ [new]; federation := federation e ++ r |} c)
    end.
  Definition createGeneratorResult (s : sources) (p : path) (k : kind) (c : cache) : cache * option result :=
    match gen s p with
    | None => (c, None)
    | Some outs =>
        match loop p outs [] [] c with
        | (c', Some (files, fs)) => (c', Some {| r_path := p; r_kind := k; r_files := files; r_fed := fs |})
        | (c', None) => (c', None)
        end
    end.
  Definition createProtoFile (s : sources) (p : path) (c : cache) : cache * option result := createGeneratorResult s p Create c.
  Definition updateProtoFile (s : sources) (p : path) (c : cache) : cache * option result := createGeneratorResult s p Update (remove p c).
  Definition deleteProtoFile (p : path) (c : cache) : cache * result :=
    let e := entry_of p c in
    (remove p c, {| r_path := p; r_kind := Delete; r_files := concat (responses e); r_fed := federation e |}).
  (** generator.go:371-399. [order] is the order in which Go iterates over the cache. *)
  Fixpoint otherResults (s : sources) (p : path) (order : list path) (c : cache) : cache * list result :=
    match order with
    | [] => (c, [])
    | q :: order' =>
        if p =? q then otherResults s p order' c
        else match s q with
             | None =>
                 let '(c1, r) := deleteProtoFile q c in
                 let '(c2, rs) := otherResults s p order' c1 in (c2, r :: rs)
             | Some _ =>
                 let e := entry_of q c in
                 let '(c2, rs) := otherResults s p order' c in
                 (c2, {| r_path := q; r_kind := Keep; r_files := concat (responses e); r_fed := federation e |} :: rs)
             end
    end.

  (** What is on disk under the output directory *)
  Definition disk := string -> option string.
  Definition write (f : file) (d : disk) : disk := fun n => if n =? f_name f then Some (f_content f) else d n.
  Definition erase (f : file) (d : disk) : disk := fun n => if n =? f_name f then None else d n.
  (** generator.go:100-125 *)
  Definition writeFiles (d : disk) (r : result) : disk :=
    match r_kind r with Delete => fold_left (fun d f => erase f d) (r_files r) d | _ => fold_left (fun d f => write f d) (r_files r) d end.

  (** GenerateAll (183-222): the cache for the given files, or failure *)
  Fixpoint generateAll (s : sources) (ps : list path) (c : cache) : option cache :=
    match ps with
    | [] => Some c
    | p :: ps' => match createGeneratorResult s p Keep c with (c', Some _) => generateAll s ps' c' | (_, None) => None end
    end.

  Inductive event := ECreate | ERemove | ERename | EWrite.
  Record state := { st_cache : cache; st_disk : disk }.
  (** generator.go:311-363. [order] must list the paths in the cache once the event's own file has been dealt with. *)
  Definition handle_own (s : sources) (ev : event) (p : path) (c : cache) : cache * option result :=
    match ev with
    | ECreate => createProtoFile s p c
    | ERemove | ERename => let '(c', r) := deleteProtoFile p c in (c', Some r)
    | EWrite => updateProtoFile s p c
    end.
  Definition handle (s : sources) (ev : event) (p : path) (order : list path) (st : state) : state :=
    match handle_own s ev p (st_cache st) with
    | (c1, None) => {| st_cache := c1; st_disk := st_disk st |}
    | (c1, Some r) =>
        let '(c2, rs) := otherResults s p order c1 in
        {| st_cache := c2; st_disk := fold_left writeFiles (r :: rs) (st_disk st) |}
    end.
End Generator.
Arguments pout : clear implicits. Arguments cache : clear implicits. Arguments entry : clear implicits. Arguments result : clear implicits.
Arguments sources : clear implicits. Arguments state : clear implicits.
