(** * Where generated files are written

    Models resolver/file.go:109-216 (the three output modes, the name of a generated file), the loops
    of generator/generator.go that use them (513-551 and 553-587 for the other two plugins,
    589-623 for the stand-alone generator, 635-688 for the protoc plugin), and
    compiler/compiler.go:104-140 (the name under which a file is compiled).

    path/filepath is modelled on '/'-separated paths, as on Unix. Rel is modelled on the elements of
    the cleaned paths, for targets that end in a name, which paths of proto files do. *)

From Coq Require Import Ascii String List Bool Arith.
From Verif.Base Require Import Text.
Import ListNotations.
Local Open Scope string_scope.

Definition slash : ascii := "/"%char.

(** filepath.IsAbs *)
Definition is_abs (s : string) : bool := match s with String c _ => Ascii.eqb c slash | EmptyString => false end.

(** One element of a path in filepath.Clean; the elements so far are kept last first. *)
Definition push (rooted : bool) (acc : list string) (e : string) : list string :=
  if String.eqb e "" || String.eqb e "." then acc
  else if String.eqb e ".." then
    match acc with
    | [] => if rooted then [] else [".."]
    | x :: acc' => if String.eqb x ".." then ".." :: acc else acc'
    end
  else e :: acc.

(** The elements of the cleaned path. *)
Definition elems (s : string) : list string := rev (fold_left (push (is_abs s)) (split slash s) []).

Definition render (rooted : bool) (l : list string) : string :=
  if rooted then "/" ++ join "/" l else match l with [] => "." | _ => join "/" l end.

(** filepath.Clean *)
Definition Clean (s : string) : string := render (is_abs s) (elems s).

(** filepath.Join of two elements *)
Definition Join (a b : string) : string :=
  match filter (fun s => negb (String.eqb s "")) [a; b] with
  | [] => ""
  | l => Clean (join "/" l)
  end.

(** filepath.Dir: Clean of what is before the last slash, with the slash *)
Definition Dir (s : string) : string :=
  match removelast (split slash s) with
  | [] => "."
  | l => Clean (join "/" l ++ "/")
  end.

(** filepath.Base *)
Definition Base (s : string) : string :=
  match filter (fun e => negb (String.eqb e "")) (split slash s) with
  | [] => if String.eqb s "" then "." else "/"
  | l => last l ""
  end.

(** A base name without filepath.Ext of it: resolver/file.go:199-200, generator/generator.go:631-633. *)
Fixpoint stem (s : string) : string :=
  match s with
  | EmptyString => EmptyString
  | String c s' => if Ascii.eqb c "."%char && negb (has_char "."%char s') then EmptyString else String c (stem s')
  end.

(** strings.ToLower, on ASCII letters. Simplification: other letters are left as they are. *)
Definition lower_char (c : ascii) : ascii :=
  let n := nat_of_ascii c in if (65 <=? n)%nat && (n <=? 90)%nat then ascii_of_nat (n + 32) else c.
Fixpoint ToLower (s : string) : string :=
  match s with EmptyString => EmptyString | String c s' => String (lower_char c) (ToLower s') end.

(** strings.HasPrefix and strings.TrimPrefix *)
Fixpoint cut (p s : string) : option string :=
  match p, s with
  | EmptyString, _ => Some s
  | String a p', String b s' => if Ascii.eqb a b then cut p' s' else None
  | String _ _, EmptyString => None
  end.
Definition HasPrefix (s p : string) : bool := match cut p s with Some _ => true | None => false end.
Definition TrimPrefix (s p : string) : string := match cut p s with Some r => r | None => s end.

(** What is left of two paths after their common elements. *)
Fixpoint strip (a b : list string) : list string * list string :=
  match a, b with
  | x :: a', y :: b' => if String.eqb x y then strip a' b' else (a, b)
  | _, _ => (a, b)
  end.

(** filepath.Rel *)
Definition Rel (base targ : string) : option string :=
  if negb (Bool.eqb (is_abs base) (is_abs targ)) then None
  else match strip (elems base) (elems targ) with
       | ([], []) => Some "."
       | (e :: b, t) => if String.eqb e ".." then None else Some (join "/" (repeat ".." (List.length (e :: b)) ++ t)%list)
       | ([], t) => Some (join "/" t)
       end.

(** resolver/file.go:119-136; the mode is one of the three. *)
Inductive mode := ImportMode | ModulePrefixMode | SourceRelativeMode.
Record config := { c_mode : mode; c_prefix : string; c_filepath : string; c_imports : list string }.

(** What of a resolved file decides its path: its name and the import path of its Go package. *)
Record pfile := { p_name : string; p_gopkg : option string }.

(** relativePath: resolver/file.go:204-216. *)
Fixpoint relative_path (imports : list string) (path : string) : string :=
  match imports with
  | [] => path
  | i :: r => match Rel i path with
              | None => relative_path r path
              | Some rel => if HasPrefix rel ".." then relative_path r path else rel
              end
  end.

(** OutputDir: resolver/file.go:138-148, with importBasedOutputDir (161-166),
    sourceRelativeBasedOutputDir (170-177) and modulePrefixBasedOutputDir (181-192). *)
Definition OutputDir (c : config) (name : string) (gopkg : option string) : option string :=
  match c_mode c with
  | ModulePrefixMode => match gopkg with None => None | Some i => Some (TrimPrefix (TrimPrefix i (c_prefix c)) "/") end
  | SourceRelativeMode => Some (Dir (relative_path (c_imports c) (if String.eqb (c_filepath c) "" then name else c_filepath c)))
  | ImportMode => gopkg
  end.

(** FileName: resolver/file.go:198-202; IsGRPCFederationGeneratedFile: 194-196. *)
Definition generated_suffix : string := "_grpc_federation.pb.go".
Definition FileName (f : pfile) : string := ToLower (stem (Base (p_name f))) ++ generated_suffix.
Fixpoint HasSuffix (s p : string) : bool :=
  String.eqb s p || match s with EmptyString => false | String _ s' => HasSuffix s' p end.
Definition IsGRPCFederationGeneratedFile (path : string) : bool := HasSuffix path generated_suffix.

(** OutputPath: resolver/file.go:153-159. *)
Definition OutputPath (c : config) (f : pfile) : option string :=
  match OutputDir c (p_name f) (p_gopkg f) with None => None | Some dir => Some (Join dir (FileName f)) end.

Fixpoint all_some {A : Type} (l : list (option A)) : option (list A) :=
  match l with
  | [] => Some []
  | Some x :: r => match all_some r with Some xs => Some (x :: xs) | None => None end
  | None :: _ => None
  end.

(** The paths in the answer of the protoc plugin: generator/generator.go:668-685. *)
Definition protoc_paths (c : config) (files : list pfile) : option (list string) := all_some (map (OutputPath c) files).

(** The paths in the answer of the stand-alone generator for the proto file at [entry]: generator/generator.go:604-621.
    [entry] is the path as it was given, of line 596. *)
Definition standalone_path (c : config) (entry : string) (f : pfile) : option string :=
  match OutputDir c entry (p_gopkg f) with None => None | Some dir => Some (Join dir (FileName f)) end.
Definition standalone_paths (c : config) (entry : string) (files : list pfile) : option (list string) :=
  all_some (map (standalone_path c entry) files).

(** The paths of the other two plugins: generator/generator.go:520-549 (".pb.go") and 558-585 ("_grpc.pb.go"). *)
Definition other_path (suffix : string) (c : config) (entry : string) (f : pfile) : option string :=
  match OutputDir c entry (p_gopkg f) with None => None | Some dir => Some (Join dir (stem (Base (p_name f)) ++ suffix)) end.

(** filepath.Abs in the working directory [cwd], an absolute path. *)
Definition Abs (cwd s : string) : string := if is_abs s then Clean s else Join cwd s.

(** RelativePathFromImportPaths: compiler/compiler.go:104-140. An absolute path is used as it is (111-112, 123-124). *)
Definition made_abs (cwd s : string) : string := if is_abs s then s else Abs cwd s.
Fixpoint first_import (imports : list string) (path : string) : option (option string) :=
  match imports with
  | [] => None
  | i :: r => if HasPrefix path i then Some (Rel i path) else first_import r path
  end.
Definition RelativePathFromImportPaths (cwd : string) (imports : list string) (path : string) : option string :=
  match imports with
  | [] => Some path
  | _ => match first_import (map (made_abs cwd) imports) (made_abs cwd path) with
         | Some r => r
         | None => Some path
         end
  end.
