(** What an import block means in Go. *)
From Coq Require Import String Ascii List Arith Bool.
From Verif.Base Require Import Text.
From Verif.Imports Require Import Model.
Import ListNotations.
Local Open Scope string_scope.

(** An import without an alias declares the package's own name. For the packages of the tables that is the last element of the path. *)
Definition declared (i : import) : string := if ialias i =? "" then last (split "/" (ipath i)) "" else ialias i.
(** The file's imports: names with paths. *)
Definition scope (f : flags) (pkgs : list gopkg) (al : list (gopkg * string)) : list (string * string) :=
  map (fun i => (declared i, ipath i)) (standardImports f ++ defaultImports f pkgs ++ imports al).
(** The names the generator itself uses. *)
Definition all_flags : flags := {| has_services := true; has_plugins := true; has_attrs := true |}.
Definition reserved : list (string * string) := map (fun i => (declared (fst i), ipath (fst i))) (std_table all_flags ++ default_table all_flags).

Definition digit (c : ascii) : Prop := exists d, d < 10 /\ c = ascii_of_nat (48 + d).
Definition digits (s : string) : Prop := s <> "" /\ Forall digit (list_ascii_of_string s).

(** Packages as protoc hands them over: pointers are identities, files of one package agree on its name, names are not empty and have no
    dot, none is in the Go standard library; and the packages that the generator imports by itself have their real names. *)
Record well_formed (pkgs : list gopkg) : Prop := {
  by_id : forall p q, In p pkgs -> In q pkgs -> gid p = gid q -> p = q;
  one_name : forall p q, In p pkgs -> In q pkgs -> gpath p = gpath q -> gname p = gname q;
  named : forall p, In p pkgs -> gname p <> "";
  no_dot : forall p, In p pkgs -> String.prefix "google." (gname p) = false;
  not_standard : forall p i, In p pkgs -> In i (map fst (std_table all_flags)) -> gpath p <> ipath i;
  known : forall p n, In p pkgs -> In (n, gpath p) reserved -> gname p = n }.
