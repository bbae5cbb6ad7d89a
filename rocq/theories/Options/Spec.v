(** The options a user can give, how they are written, and what they mean together. *)
From Coq Require Import Ascii String List Bool.
From Verif.Base Require Import Text.
From Verif.Options Require Import Model.
Import ListNotations.
Local Open Scope string_scope.

Inductive opt :=
| Module (prefix : string)
| Paths (relative : bool)
| ImportPath (dir : string)
| PluginFile (path sha : string)
| PluginURL (secure : bool) (location sha : string).
Definition print (o : opt) : string :=
  match o with
  | Module p => "module=" ++ p
  | Paths true => "paths=source_relative"
  | Paths false => "paths=import"
  | ImportPath d => "import_paths=" ++ d
  | PluginFile p s => "plugins=file://" ++ p ++ ":" ++ s
  | PluginURL true l s => "plugins=https://" ++ l ++ ":" ++ s
  | PluginURL false l s => "plugins=http://" ++ l ++ ":" ++ s
  end.

Section World.
  Variable abs : string -> option string.
  Variable download : string -> option string.
  Definition url (secure : bool) (l : string) : string := if secure then "https://" ++ l else "http://" ++ l.
  (** Where the plugin's file is, if it can be had. *)
  Definition plugin_of (o : opt) : option wasm :=
    match o with
    | PluginFile p s => match abs p with Some a => Some {| w_path := a; w_sha := s |} | None => None end
    | PluginURL b l s => match download (url b l) with Some a => Some {| w_path := a; w_sha := s |} | None => None end
    | _ => None
    end.
  (** An option that can be honoured. *)
  Definition acceptable (o : opt) : Prop :=
    match o with
    | Module p => p <> "" /\ has_char "="%char p = false
    | Paths _ => True
    | ImportPath d => has_char "="%char d = false
    | PluginFile p s | PluginURL _ p s =>
        has_char "="%char p = false /\ has_char "="%char s = false /\ has_char ":"%char p = false /\ has_char ":"%char s = false /\ plugin_of o <> None
    end.
  Definition the_mode (o : opt) : option mode :=
    match o with Module _ => Some ModulePrefixMode | Paths true => Some SourceRelativeMode | Paths false => Some ImportMode | _ => None end.
  Definition the_prefix (o : opt) : option string := match o with Module p => Some p | _ => None end.
  Definition the_import (o : opt) : option string := match o with ImportPath d => Some d | _ => None end.
  Definition given {A} (f : opt -> option A) (l : list opt) : list A := flat_map (fun o => match f o with Some x => [x] | None => [] end) l.
  (** Where options are given twice, the last counts for mode and prefix, and all count for import paths and plugins. *)
  Definition meaning (l : list opt) : options :=
    {| o_mode := last (given the_mode l) ImportMode;
       o_prefix := last (given the_prefix l) "";
       o_imports := given the_import l;
       o_plugins := given plugin_of l |}.
End World.
Definition not_empty (s : string) : bool := negb (s =? "").

(** Words free of the characters the syntax uses *)
Definition plain (s : string) : Prop := has_char ","%char s = false /\ has_char "="%char s = false /\ has_char ":"%char s = false.
Definition plain_opt (o : opt) : Prop :=
  match o with Module p => plain p | Paths _ => True | ImportPath d => plain d | PluginFile p s | PluginURL _ p s => plain p /\ plain s end.
