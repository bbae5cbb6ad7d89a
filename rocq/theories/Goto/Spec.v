(** What a name in a proto file refers to, without the server's functions. *)

From Coq Require Import Ascii String List Arith Bool.
From Verif.Base Require Import Text.
From Verif.Goto Require Import Model.
Import ListNotations.
Local Open Scope list_scope.
Local Open Scope string_scope.

Definition name_of (d : decl) : string := match d with DMsg n _ => n | DEnum n => n end.

(** A path of names leads to a declaration. *)
Inductive declares : list decl -> list string -> decl -> Prop :=
| declares_here ds d : In d ds -> declares ds [name_of d] d
| declares_inside ds n body p d :
    In (DMsg n body) ds -> declares body p d -> declares ds (n :: p) d.

Definition is_enum (d : decl) : bool := match d with DEnum _ => true | DMsg _ _ => false end.

(** The qualified name of a declaration. *)
Definition qualified (pkg : string) (p : list string) : string :=
  if String.eqb pkg "" then join "." p else pkg ++ "." ++ join "." p.

(** A name in a file of the package [cur] refers to a declaration: it is its qualified
    name, with or without a point before it, or its qualified name without the package
    of the file. *)
Definition refers (cur asked pkg : string) (p : list string) : Prop :=
  qualified pkg p = asked \/ "." ++ qualified pkg p = asked \/ (pkg = cur /\ join "." p = asked).

(** Names are identifiers. *)
Inductive plain : decl -> Prop :=
| plain_enum n : has_char "."%char n = false -> plain (DEnum n)
| plain_msg n body : has_char "."%char n = false -> Forall plain body -> plain (DMsg n body).

(** Only one declaration has the simple name. *)
Definition only (ds : list decl) (p : list string) : Prop :=
  forall q d, declares ds q d -> last q "" = last p "" -> q = p.

(** The method a name refers to. *)
Definition has_method (f : file) (svc m : string) : Prop :=
  exists ms, In (svc, ms) (f_svcs f) /\ In m ms.
Definition refers_method (cur asked : string) (pkg svc m : string) : Prop :=
  qualified pkg [svc] ++ "/" ++ m = asked \/ "." ++ qualified pkg [svc] ++ "/" ++ m = asked \/
  (pkg = cur /\ svc ++ "/" ++ m = asked).

(** A text that ends in another one. *)
Definition ends (s t : string) : Prop := exists a, s = (a ++ t)%string.

(** The package of the open file: the files whose name ends its path have it. *)
Definition open_package (path : string) (files : list file) (cur : string) : Prop :=
  (exists f, In f files /\ ends path (f_name f)) /\
  forall f, In f files -> ends path (f_name f) -> f_pkg f = cur.

(** * What the cursor is on *)

(** The thing below the cursor, inside a message. *)
Inductive thing : Type :=
| OnFieldType | OnFieldAlias | OnMessageAlias | OnDefMessage | OnDefMethod
| OnEnumAlias | OnEnumValueAlias | OnOther.
Inductive cursor : Type :=
| OnImport (name : string)
| InMessages (outer : list string) (m : string) (t : thing)
| InTopEnum (t : bool * bool).

Definition thing_target (t : thing) : target :=
  match t with
  | OnFieldType => TFieldType
  | OnFieldAlias | OnMessageAlias | OnEnumAlias | OnEnumValueAlias => TAlias
  | OnDefMessage => TMessage
  | OnDefMethod => TMethod
  | OnOther => TNothing
  end.
Definition cursor_target (c : cursor) : target :=
  match c with
  | OnImport _ => TImport
  | InMessages _ _ t => thing_target t
  | InTopEnum (a, b) => if a || b then TAlias else TNothing
  end.

(** The location that stands for it: one part set, inside the messages around it. *)
Definition thing_loc (m : string) (t : thing) : mloc :=
  let l alias dm dc f e := MLoc m alias dm dc f None e in
  match t with
  | OnFieldType => l false false false (Some (true, false)) None
  | OnFieldAlias => l false false false (Some (false, true)) None
  | OnMessageAlias => l true false false None None
  | OnDefMessage => l false true false None None
  | OnDefMethod => l false false true None None
  | OnEnumAlias => l false false false None (Some {| e_alias := true; e_value_alias := false |})
  | OnEnumValueAlias => l false false false None (Some {| e_alias := false; e_value_alias := true |})
  | OnOther => l false false false None None
  end.
Definition cursor_loc (c : cursor) : loc :=
  match c with
  | OnImport n => {| l_import := n; l_msg := None; l_enum := None |}
  | InMessages outer m t =>
      {| l_import := "";
         l_msg := Some (fold_right (fun n inner => MLoc n false false false None (Some inner) None)
                                   (thing_loc m t) outer);
         l_enum := None |}
  | InTopEnum (a, b) =>
      {| l_import := ""; l_msg := None; l_enum := Some {| e_alias := a; e_value_alias := b |} |}
  end.
