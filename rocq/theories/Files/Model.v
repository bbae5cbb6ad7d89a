(** * From proto files to resolved files

    Model of Compiler.getProtoFiles and getFileDescriptors,
    compiler/compiler.go:203-230; of resolveFileImportRule and
    resolveFileImportRuleRecursive, resolver/resolver.go:228-310; of
    CELRegistry.RegisterFiles and registerFileDeps, resolver/cel.go:143-194; of
    resolveFiles and the recursion of resolveFile, resolver.go:352-359, 782-833; of
    resultFiles, resolver.go:717-758; and of how Resolve puts them together,
    resolver.go:151-192.

    Simplifications.  A file is its name, and names are numbers: descriptors are kept
    in maps by name (fileNameToDefMap), so that there is one descriptor per name.
    Parsing and linking of a proto file is an oracle.  The rest of resolveFile (its
    plugins, services, messages and enums) is one event. *)

From Coq Require Import List Bool Arith.
Import ListNotations.

Definition mem (x : nat) (l : list nat) : bool := existsb (Nat.eqb x) l.

(** Keeping the first of equal names: compiler.go:209-216, resolver.go:233-240. *)
Fixpoint uniq (seen l : list nat) : list nat :=
  match l with
  | [] => []
  | x :: r => if mem x seen then uniq seen r else x :: uniq (x :: seen) r
  end.

(** ** The compiler *)

Section Compiler.
(** The imports of a linked file. *)
Variable imports : nat -> list nat.

Fixpoint concat_opt {A : Type} (l : list (option (list A))) : option (list A) :=
  match l with
  | [] => Some []
  | None :: _ => None
  | Some x :: r => match concat_opt r with Some y => Some (x ++ y) | None => None end
  end.

(** getFileDescriptors: compiler.go:222-230. *)
Fixpoint descriptors (fuel : nat) (f : nat) : option (list nat) :=
  match fuel with
  | O => None
  | S k =>
      match concat_opt (map (descriptors k) (imports f)) with
      | Some l => Some (l ++ [f])
      | None => None
      end
  end.

(** getProtoFiles: compiler.go:203-220. *)
Definition proto_files (fuel : nat) (linked : list nat) : option (list nat) :=
  match concat_opt (map (descriptors fuel) linked) with
  | Some l => Some (uniq [] l)
  | None => None
  end.

End Compiler.

(** ** Imports of the file option *)

(** The Dependency lists of the descriptors, the imports that failed to compile, and
    (for the statements only) the imports compiled so far. *)
Record istate := {
  i_deps : nat -> list nat;
  i_errors : list (nat * nat);
  i_compiled : list (nat * nat)
}.

Definition put {A : Type} (f : nat -> A) (k : nat) (v : A) : nat -> A :=
  fun x => if x =? k then v else f x.

Section Imports.
(** The import list of the file option; [None] is no option. *)
Variable rule : nat -> option (list nat).
(** compileProto: resolver.go:312-331. *)
Variable compile : nat -> option (list nat).

(** The loop over the paths: resolver.go:277-304; [known] is depMap. *)
Fixpoint paths (known : list nat) (f : nat) (ps : list nat) (s : istate) : list nat * istate :=
  match ps with
  | [] => ([], s)
  | p :: r =>
      if mem p known then paths known f r s else
      let defs := match compile p with Some l => l | None => [] end in
      let s1 := {| i_deps := put (i_deps s) f (i_deps s f ++ [p]);
                   i_errors := match compile p with
                               | Some _ => i_errors s
                               | None => i_errors s ++ [(f, p)]
                               end;
                   i_compiled := i_compiled s ++ [(f, p)] |} in
      let (l, s2) := paths known f r s1 in (defs ++ l, s2)
  end.

(** The loop over the files: resolver.go:257-305. *)
Fixpoint round (fs : list nat) (s : istate) : list nat * istate :=
  match fs with
  | [] => ([], s)
  | f :: r =>
      let (l1, s1) :=
        match rule f with
        | Some ps => paths (i_deps s f) f ps s
        | None => ([], s)
        end in
      let (l2, s2) := round r s1 in (l1 ++ l2, s2)
  end.

(** resolveFileImportRuleRecursive: resolver.go:255-310. *)
Fixpoint closure (fuel : nat) (fs : list nat) (s : istate) : option (list nat * istate) :=
  match fuel with
  | O => None
  | S k =>
      let (l, s1) := round fs s in
      match l with
      | [] => Some ([], s1)
      | _ => match closure k l s1 with
             | Some (l', s2) => Some (l ++ l', s2)
             | None => None
             end
      end
  end.

(** The loop that puts imported files in front: resolver.go:248-254, over the
    reversed list. *)
Fixpoint prepend (news files : list nat) : list nat :=
  match news with
  | [] => files
  | f :: r => if mem f files then prepend r files else prepend r (f :: files)
  end.

(** resolveFileImportRule: resolver.go:228-254. *)
Definition import_rule (fuel : nat) (files : list nat) (s : istate)
  : option (list nat * istate) :=
  match closure fuel files s with
  | Some (l, s1) => Some (prepend (rev (uniq [] l)) files, s1)
  | None => None
  end.

End Imports.

(** ** Registration *)

(** An entry of fileMap: missing, a descriptor, nil. *)
Inductive status := Absent | Pending | Busy.

Record rstate := { r_map : nat -> status; r_done : list nat }.

Inductive failure := Twice (f : nat) | Cycle (f : nat) | Invalid (f : nat).

Section Registration.
Variable deps : nat -> list nat.
(** Whether protodesc.NewFile and the registration of its result accept a file all
    of whose dependencies are registered. *)
Variable valid : nat -> bool.

(** protodesc.NewFile looks dependencies up in the registry: cel.go:182-192. *)
Definition accept (f : nat) (done : list nat) : bool :=
  forallb (fun d => mem d done) (deps f) && valid f.

(** registerFileDeps: cel.go:160-194. *)
Fixpoint register (fuel : nat) (f : nat) (s : rstate) : option (rstate + failure) :=
  match fuel with
  | O => None
  | S k =>
      (fix go (ds : list nat) (s : rstate) : option (rstate + failure) :=
         match ds with
         | [] =>
             let m := put (r_map s) f Absent in
             if mem f (r_done s) then Some (inl {| r_map := m; r_done := r_done s |}) else
             if accept f (r_done s)
             then Some (inl {| r_map := m; r_done := r_done s ++ [f] |})
             else Some (inr (Invalid f))
         | d :: r =>
             match r_map s d with
             | Absent => go r s
             | Busy => Some (inr (Cycle d))
             | Pending =>
                 match register k d s with
                 | Some (inl s') => go r s'
                 | x => x
                 end
             end
         end) (deps f) {| r_map := put (r_map s) f Busy; r_done := r_done s |}
  end.

(** The loop over the map: an entry removed before it is reached is not produced:
    cel.go:152-156.  [order] is the iteration order. *)
Fixpoint register_all (fuel : nat) (order : list nat) (s : rstate)
  : option (rstate + failure) :=
  match order with
  | [] => Some (inl s)
  | f :: r =>
      match r_map s f with
      | Absent => register_all fuel r s
      | _ =>
          match register fuel f s with
          | Some (inl s') => register_all fuel r s'
          | x => x
          end
      end
  end.

Fixpoint duplicate (l : list nat) : option nat :=
  match l with
  | [] => None
  | x :: r => if mem x r then Some x else duplicate r
  end.

(** RegisterFiles: cel.go:143-158; the registered files, in order. *)
Definition register_files (fuel : nat) (order : list nat -> list nat) (done files : list nat)
  : option (list nat + failure) :=
  match duplicate files with
  | Some f => Some (inr (Twice f))
  | None =>
      match register_all fuel (order files)
              {| r_map := fun f => if mem f files then Pending else Absent; r_done := done |} with
      | Some (inl s) => Some (inl (r_done s))
      | Some (inr e) => Some (inr e)
      | None => None
      end
  end.

(** ** Resolution *)

(** fileNameToDefMap has the file. *)
Variable known : nat -> bool.

(** resolveFile: resolver.go:782-833.  The state is cachedFileMap, and the files
    resolved so far in the order in which they were. *)
Fixpoint resolve_file (fuel : nat) (f : nat) (s : list nat) : option (list nat) :=
  match fuel with
  | O => None
  | S k =>
      if mem f s then Some s else
      match
        (fix go (ds : list nat) (s : list nat) : option (list nat) :=
           match ds with
           | [] => Some s
           | d :: r =>
               if known d then
                 match resolve_file k d s with Some s' => go r s' | None => None end
               else go r s
           end) (deps f) s
      with
      | Some s' => Some (s' ++ [f])
      | None => None
      end
  end.

(** resolveFiles: resolver.go:352-359. *)
Fixpoint resolve_files (fuel : nat) (fs : list nat) (s : list nat) : option (list nat) :=
  match fs with
  | [] => Some s
  | f :: r =>
      match resolve_file fuel f s with Some s' => resolve_files fuel r s' | None => None end
  end.

End Registration.

(** ** The result *)

Section Result.
(** HasServiceWithRule or a plugin: resolver.go:736-747. *)
Variable ruled : nat -> bool.
(** The files of the package of a file: Package.Files. *)
Variable package : nat -> list nat.

(** samePackageFiles: resolver.go:749-758. *)
Definition same_package (f : nat) : list nat := filter (fun g => negb (g =? f)) (package f).

(** One loop: files not seen yet are appended. *)
Fixpoint append_new (l : list nat) (ret : list nat) : list nat :=
  match l with
  | [] => ret
  | f :: r => append_new r (if mem f ret then ret else ret ++ [f])
  end.

(** resultFiles: resolver.go:717-734.  fileMap holds the names of the result. *)
Fixpoint result (fs : list nat) (ret : list nat) : list nat :=
  match fs with
  | [] => ret
  | f :: r =>
      if mem f ret then result r ret
      else result r (append_new (same_package f) (ret ++ [f]))
  end.

Definition result_files (all : list nat) : list nat := result (filter ruled all) [].

End Result.

(** ** Resolve *)

Inductive verdict :=
| ImportErrors (es : list (nat * nat))
| RegisterError (e : failure)
| Resolved (files : list nat) (deps : nat -> list nat) (registered : list nat) (log : list nat).

(** Resolve: resolver.go:151-172, from the files to the resolved files. *)
Definition resolve (rule : nat -> option (list nat)) (compile : nat -> option (list nat))
  (valid : nat -> bool) (order : list nat -> list nat) (fuel : nat)
  (deps : nat -> list nat) (done files : list nat) : option verdict :=
  match import_rule rule compile fuel files
          {| i_deps := deps; i_errors := []; i_compiled := [] |} with
  | None => None
  | Some (fs, s) =>
      match i_errors s with
      | _ :: _ => Some (ImportErrors (i_errors s))
      | [] =>
          match register_files (i_deps s) valid fuel order done fs with
          | None => None
          | Some (inr e) => Some (RegisterError e)
          | Some (inl reg) =>
              match resolve_files (i_deps s) (fun f => mem f fs) fuel fs [] with
              | None => None
              | Some log => Some (Resolved fs (i_deps s) reg log)
              end
          end
      end
  end.
