(** * Places in a file system, and where files should be written *)

From Coq Require Import Ascii String List Bool Arith.
From Verif.Base Require Import Text.
From Verif.Paths Require Import Model.
Import ListNotations.
Local Open Scope string_scope.

(** A place is the list of names on the way from the root to it. One element of a path leads from
    one place to another: nothing and "." stay, ".." goes up (at the root it stays), a name goes down. *)
Definition go (place : list string) (e : string) : list string :=
  if String.eqb e "" || String.eqb e "." then place
  else if String.eqb e ".." then removelast place
  else (place ++ [e])%list.
Definition walk (from : list string) (path : string) : list string := fold_left go (split "/"%char path) from.

Definition absolute (path : string) : Prop := exists s, path = "/" ++ s.

(** From every directory, the path [s] leads down along [names]: an absolute path from the root,
    a relative one from the directory itself. *)
Definition leads (abs : bool) (s : string) (names : list string) : Prop :=
  if abs then absolute s /\ walk [] s = names
  else ~ absolute s /\ forall dir, walk dir s = (dir ++ names)%list.

(** The directory of the import path [i] contains what is at [names]. *)
Definition holds (abs : bool) (i : string) (names : list string) : Prop :=
  exists root rest, leads abs i root /\ names = (root ++ rest)%list.

(** The last element of a path. *)
Definition last_element (path n : string) : Prop :=
  ~ In "/"%char (list_ascii_of_string n) /\ (path = n \/ exists d, path = d ++ "/" ++ n).

(** The place, below the output directory, of what is generated for a proto file:
    the directory of its Go package, the same without the prefix of the module, or where the
    proto file is below the first import path it is in. *)
Inductive goes_to (c : config) (f : pfile) : list string -> Prop :=
| To_import : forall i dirs, c_mode c = ImportMode -> p_gopkg f = Some i -> leads false i dirs -> goes_to c f dirs
| To_module : forall i rest dirs, c_mode c = ModulePrefixMode -> p_gopkg f = Some i -> i = c_prefix c ++ "/" ++ rest ->
    leads false rest dirs -> goes_to c f dirs
| To_module_root : c_mode c = ModulePrefixMode -> p_gopkg f = Some (c_prefix c) -> goes_to c f []
| To_source : forall abs pre i post root dirs n, c_mode c = SourceRelativeMode -> c_filepath c = "" ->
    c_imports c = (pre ++ i :: post)%list ->
    leads abs i root -> leads abs (p_name f) (root ++ dirs ++ [n])%list ->
    (forall p, In p pre -> ~ holds abs p (root ++ dirs ++ [n])%list) ->
    (forall t, hd "" (dirs ++ [n])%list <> ".." ++ t) ->
    goes_to c f dirs
| To_source_alone : forall dirs n, c_mode c = SourceRelativeMode -> c_filepath c = "" ->
    leads false (p_name f) (dirs ++ [n])%list -> last_element (p_name f) n ->
    (forall p, In p (c_imports c) -> ~ holds false p (dirs ++ [n])%list) ->
    goes_to c f dirs.

(** [path] is [names] with slashes between them. *)
Definition written (names : list string) : string := String.concat "/" names.

(** Letters in lower case, from a table. *)
Fixpoint in_table (c : ascii) (from to : string) : ascii :=
  match from, to with
  | String a from', String b to' => if Ascii.eqb c a then b else in_table c from' to'
  | _, _ => c
  end.
Fixpoint lower_case (s : string) : string :=
  match s with
  | EmptyString => EmptyString
  | String c s' => String (in_table c "ABCDEFGHIJKLMNOPQRSTUVWXYZ" "abcdefghijklmnopqrstuvwxyz") (lower_case s')
  end.

(** The generated file for x.proto is x_grpc_federation.pb.go, in lower case. *)
Definition generated_name (base : string) : string := lower_case base ++ "_grpc_federation.pb.go".

(** [base].proto is the last element of the name of [f]. *)
Definition proto_base (f : pfile) (base : string) : Prop := last_element (p_name f) (base ++ ".proto").
