(** * The enums and plugins of a file

    Model of resolver/file.go:37-91 (AllEnums, AllEnumsIncludeDeps, AllCELPlugins), of
    Message.AllEnums, resolver/message.go:425-435, of the accessors of enums the generator
    knows, createEnumAccessors, resolver/resolver.go:4716-4760, and of those the service has,
    File.Enums, generator/code_generator.go:663-700, with server.go.tmpl:309-314 and
    grpc/federation/cel.go:214-236 and 272.

    Simplifications.  A file is the tree of its imports: imports have no cycle (C43), and
    files that are the same are equal trees.  A map is the list of its entries, and the order
    in which it is iterated over is a parameter.  An enum is its full name, its values and an
    identity. *)

From Coq Require Import Ascii String List Bool Arith ZArith.
From Verif.Base Require Import Sort.
Import ListNotations.
Local Open Scope string_scope.

(** A value of an enum: [rule] is what resolveEnumValueRule, resolver.go:3130-3163, has made of
    its options, with the attributes. *)
Record value := { vname : string; number : Z; rule : option (list (string * string)) }.

Record enum := { fqdn : string; values : list value; id : nat }.

Inductive message := Message (enums : list enum) (nested : list message).

Record plugin := { pname : string; pid : nat }.

Inductive file := File (name : string) (enums : list enum) (messages : list message)
  (plugins : list plugin) (imports : list file).

Definition fname (f : file) : string := match f with File n _ _ _ _ => n end.

(** Message.AllEnums: message.go:425-435. *)
Fixpoint message_enums (m : message) : list enum :=
  match m with Message es nested => (es ++ flat_map message_enums nested)%list end.

(** File.AllEnums: file.go:37-44. *)
Definition own_enums (es : list enum) (ms : list message) : list enum := (es ++ flat_map message_enums ms)%list.

(** A map with string keys. *)
Fixpoint put {A : Type} (key : A -> string) (x : A) (m : list A) : list A :=
  match m with
  | [] => [x]
  | y :: r => if String.eqb (key y) (key x) then x :: r else y :: put key x r
  end.
Fixpoint puts {A : Type} (key : A -> string) (l : list A) (m : list A) : list A :=
  match l with [] => m | x :: r => puts key r (put key x m) end.

Fixpoint cached {A : Type} (n : string) (c : list (string * A)) : option A :=
  match c with [] => None | (k, v) :: r => if String.eqb k n then Some v else cached n r end.

Section Order.
  (** The order of iteration over a map. *)
  Variable order : list enum -> list enum.
  Variable plugin_order : list plugin -> list plugin.

  (** allEnumsIncludeDeps: file.go:71-91. *)
  Fixpoint all_enums (f : file) (c : list (string * list enum)) : list enum * list (string * list enum) :=
    match f with
    | File name es ms _ imports =>
        match cached name c with
        | Some l => (l, c)
        | None =>
            let '(m, c') :=
              (fix go (l : list file) (m : list enum) (c : list (string * list enum)) :=
                 match l with
                 | [] => (m, c)
                 | g :: r => let '(es', c') := all_enums g c in go r (puts fqdn es' m) c'
                 end) imports (puts fqdn (own_enums es ms) []) c in
            let l := sort_by fqdn (order m) in
            (l, (name, l) :: c')
        end
    end.

  (** AllCELPlugins: file.go:51-69. *)
  Fixpoint all_plugins (f : file) : list plugin :=
    match f with
    | File _ _ _ ps imports =>
        sort_by pname (plugin_order
          ((fix go (l : list file) (m : list plugin) :=
              match l with [] => m | g :: r => go r (puts pname (all_plugins g) m) end) imports (puts pname ps [])))
    end.

  (** The calls the resolver makes for one file after the other share a cache:
      resolver.go:4723. *)
  Fixpoint resolved (fs : list file) (c : list (string * list enum)) : list (list enum) :=
    match fs with
    | [] => []
    | f :: r => let '(l, c') := all_enums f c in l :: resolved r c'
    end.

  (** ** Accessors *)

  Inductive accessor := Name | Value | From | Attr.

  (** Enum.AttributeMap has an entry: resolver/enum.go:45-56. *)
  Definition has_attributes (e : enum) : bool :=
    existsb (fun v => match rule v with Some (_ :: _) => true | _ => false end) (values e).

  Fixpoint has_prefix (p s : string) : bool :=
    match p, s with
    | EmptyString, _ => true
    | String a p', String b s' => Ascii.eqb a b && has_prefix p' s'
    | _, _ => false
    end.

  (** createEnumAccessors: resolver.go:4716-4754; [f] is the file of the message. *)
  Definition generator_accessors (f : file) : list (string * accessor) :=
    flat_map (fun e => [(fqdn e, Name); (fqdn e, Value); (fqdn e, From); (fqdn e, Attr)]) (fst (all_enums f [])).

  (** File.Enums: code_generator.go:663-700, server.go.tmpl:309-314; [f] is the file of the
      service.  NewDefaultEnvOptions adds those of google.rpc.Code: cel.go:272. *)
  Definition service_accessors (f : file) : list (string * accessor) :=
    ([("google.rpc.Code", Name); ("google.rpc.Code", Value); ("google.rpc.Code", From)] ++
     flat_map (fun e =>
       if has_prefix "google." (fqdn e) then []
       else if has_prefix "grpc.federation." (fqdn e) then []
       else [(fqdn e, Name); (fqdn e, Value); (fqdn e, From)] ++ (if has_attributes e then [(fqdn e, Attr)] else []))
     (fst (all_enums f [])))%list.
End Order.
