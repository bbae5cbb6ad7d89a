(** * Environment variables of a service

    Models EnvVar.Name and EnvVar.Tag, generator/code_generator.go:402-404, 443-464; the struct generated
    for them, generator/templates/server.go.tmpl:139-144, the field types for expressions, 290-297, and
    the loading when the service is made, 358-363; reflect.StructTag.Get, strconv.Quote and Unquote as far as
    the tags need them; and Process of github.com/kelseyhightower/envconfig v1.4.0 (grpc/federation/alias.go:37),
    which is not part of the repository and modelled from its documented behaviour.

    Simplifications. Bytes outside ASCII are kept by %q: they are taken as printable. The conversion of a
    text to a value of a type is a parameter, and fields of message types, whose fields envconfig reads one by one,
    are not modelled. Carriage returns and NUL do not occur in a tag: %q escapes them. *)

From Coq Require Import Ascii String List Bool Arith.
From Verif.Base Require Import Text.
From Verif.Ident Require Import Model.
Import ListNotations.
Local Open Scope string_scope.

(** ** Quoted strings *)

Definition bslash : ascii := "\"%char.
Definition dquote : ascii := "034"%char.
Definition hex_digit (n : nat) : ascii := nth n ["0"; "1"; "2"; "3"; "4"; "5"; "6"; "7"; "8"; "9"; "a"; "b"; "c"; "d"; "e"; "f"]%char "0"%char.

(** One byte in fmt's %q. *)
Definition quote_char (c : ascii) : string :=
  let n := nat_of_ascii c in
  let esc (d : ascii) := String bslash (String d "") in
  if Ascii.eqb c dquote then esc dquote
  else if Ascii.eqb c bslash then esc bslash
  else if Nat.eqb n 7 then esc "a"%char
  else if Nat.eqb n 8 then esc "b"%char
  else if Nat.eqb n 12 then esc "f"%char
  else if Nat.eqb n 10 then esc "n"%char
  else if Nat.eqb n 13 then esc "r"%char
  else if Nat.eqb n 9 then esc "t"%char
  else if Nat.eqb n 11 then esc "v"%char
  else if Nat.ltb n 32 || Nat.eqb n 127 then String bslash (String "x" (String (hex_digit (n / 16)) (String (hex_digit (n mod 16)) "")))
  else String c "".
Fixpoint quote_body (s : string) : string := match s with EmptyString => EmptyString | String c r => quote_char c ++ quote_body r end.
Definition quote (s : string) : string := String dquote (quote_body s ++ String dquote "").

Definition hex_value (c : ascii) : option nat :=
  let n := nat_of_ascii c in
  if Nat.leb 48 n && Nat.leb n 57 then Some (n - 48) else if Nat.leb 97 n && Nat.leb n 102 then Some (n - 87)
  else if Nat.leb 65 n && Nat.leb n 70 then Some (n - 55) else None.
Definition simple_escape (d : ascii) : option ascii :=
  if Ascii.eqb d dquote then Some dquote else if Ascii.eqb d bslash then Some bslash
  else if Ascii.eqb d "a" then Some (ascii_of_nat 7) else if Ascii.eqb d "b" then Some (ascii_of_nat 8)
  else if Ascii.eqb d "f" then Some (ascii_of_nat 12) else if Ascii.eqb d "n" then Some (ascii_of_nat 10)
  else if Ascii.eqb d "r" then Some (ascii_of_nat 13) else if Ascii.eqb d "t" then Some (ascii_of_nat 9)
  else if Ascii.eqb d "v" then Some (ascii_of_nat 11) else None.

(** strconv.Unquote, on what is between the quotes. Octal, \u and \U escapes do not occur. *)
Fixpoint unquote (s : string) : option string :=
  match s with
  | EmptyString => Some EmptyString
  | String c r =>
      if Ascii.eqb c bslash then
        match r with
        | EmptyString => None
        | String d r' =>
            if Ascii.eqb d "x" then
              match r' with
              | String h (String l r'') =>
                  match hex_value h, hex_value l with
                  | Some a, Some b => option_map (String (ascii_of_nat (16 * a + b))) (unquote r'')
                  | _, _ => None
                  end
              | _ => None
              end
            else match simple_escape d with Some e => option_map (String e) (unquote r') | None => None end
        end
      else if Ascii.eqb c dquote || Nat.eqb (nat_of_ascii c) 10 then None
      else option_map (String c) (unquote r)
  end.

(** ** Struct tags: reflect.StructTag.Lookup *)

Fixpoint skip_spaces (s : string) : string := match s with String c r => if Ascii.eqb c " " then skip_spaces r else s | EmptyString => EmptyString end.
Definition key_char (c : ascii) : bool :=
  Nat.ltb 32 (nat_of_ascii c) && negb (Ascii.eqb c ":") && negb (Ascii.eqb c dquote) && negb (Nat.eqb (nat_of_ascii c) 127).
Fixpoint span_key (s : string) : string * string :=
  match s with
  | String c r => if key_char c then let '(k, t) := span_key r in (String c k, t) else (EmptyString, s)
  | EmptyString => (EmptyString, EmptyString)
  end.
(** The text up to the next quote that is not escaped, and what follows. *)
Fixpoint scan (s : string) : option (string * string) :=
  match s with
  | EmptyString => None
  | String c r =>
      if Ascii.eqb c dquote then Some (EmptyString, r)
      else if Ascii.eqb c bslash then
        match r with
        | EmptyString => None
        | String d r' => match scan r' with Some (q, t) => Some (String c (String d q), t) | None => None end
        end
      else match scan r with Some (q, t) => Some (String c q, t) | None => None end
  end.
(** Each turn takes at least one byte, so the length of the tag is enough. *)
Fixpoint lookup (fuel : nat) (key tag : string) : option string :=
  match fuel with
  | 0 => None
  | S fuel' =>
      match span_key (skip_spaces tag) with
      | (EmptyString, _) => None
      | (name, String c (String d body)) =>
          if Ascii.eqb c ":" && Ascii.eqb d dquote then
            match scan body with
            | None => None
            | Some (q, rest) => if String.eqb key name then unquote q else lookup fuel' key rest
            end
          else None
      | (_, _) => None
      end
  end.
Definition tag_get (tag key : string) : string := match lookup (String.length tag) key tag with Some v => v | None => "" end.

(** strings.ToUpper *)
Fixpoint to_upper (s : string) : string := match s with EmptyString => EmptyString | String c r => String (upper c) (to_upper r) end.

(** strconv.ParseBool without an error and true *)
Definition is_true (s : string) : bool := existsb (String.eqb s) ["1"; "t"; "T"; "TRUE"; "true"; "True"].

Record var_option := { alternate : string; default : string; required : bool; ignored : bool }.

Section Values.
  (** Types and values of variables; what envconfig makes of a text, and the value a field has before. *)
  Context {type value : Type}.
  Variable parse : type -> string -> option value.
  Variable zero : type -> value.

  Record var := { v_name : string; v_type : type; v_option : option var_option }.

  (** EnvVar.Tag: code_generator.go:443-464. *)
  Definition tag (v : var) : string :=
    match v_option v with
    | None => "envconfig:" ++ quote (to_upper (v_name v))
    | Some o =>
        let name := if String.eqb (alternate o) "" then to_upper (v_name v) else alternate o in
        join " " (List.concat
          [["envconfig:" ++ quote name];
           if String.eqb (default o) "" then [] else ["default:" ++ quote (default o)];
           if required o then ["required:" ++ quote "true"] else [];
           if ignored o then ["ignored:" ++ quote "true"] else []])
    end.

  (** A field of the generated struct. *)
  Record field := { f_name : string; f_type : type; f_tag : string }.
  Definition field_of (v : var) : field := {| f_name := public (v_name v); f_type := v_type v; f_tag := tag v |}.

  Fixpoint distinct (l : list string) : bool :=
    match l with [] => true | x :: r => negb (existsb (String.eqb x) r) && distinct r end.
  (** The struct is valid Go: its fields are distinct and no tag, a raw string, has a backquote in it. *)
  Definition struct_ok (fs : list field) : bool :=
    distinct (map f_name fs) && forallb (fun f => negb (has_char "`" (f_tag f))) fs.

  (** envconfig.Process with an empty prefix, one field: [env] is os.LookupEnv. *)
  Definition process_field (env : string -> option string) (f : field) : option value :=
    if is_true (tag_get (f_tag f) "ignored") then Some (zero (f_type f))
    else
      let alt := to_upper (tag_get (f_tag f) "envconfig") in
      let key := to_upper (if String.eqb alt "" then f_name f else alt) in
      let found := match env key with Some s => Some s | None => if String.eqb alt "" then None else env alt end in
      let def := tag_get (f_tag f) "default" in
      match found with
      | Some s => parse (f_type f) s
      | None => if String.eqb def "" then (if is_true (tag_get (f_tag f) "required") then None else Some (zero (f_type f)))
                else parse (f_type f) def
      end.
  Fixpoint process (env : string -> option string) (fs : list field) : option (list value) :=
    match fs with
    | [] => Some []
    | f :: r => match process_field env f with
                | None => None
                | Some x => match process env r with Some xs => Some (x :: xs) | None => None end
                end
    end.

  (** The values of the variables when the service starts. [None]: the generated code does not compile, or the
      constructor returns an error. *)
  Definition start (env : string -> option string) (vars : list var) : option (list value) :=
    if struct_ok (map field_of vars) then process env (map field_of vars) else None.

  (** What an expression reads as a field of grpc.federation.env: server.go.tmpl:290-297, the name of the Go field, then
      its value. *)
  Fixpoint assoc {A : Type} (n : string) (l : list (string * A)) : option A :=
    match l with [] => None | (m, x) :: r => if String.eqb n m then Some x else assoc n r end.
  Definition read (vars : list var) (values : list value) (n : string) : option value :=
    match assoc n (map (fun v => (v_name v, public (v_name v))) vars) with
    | None => None
    | Some g => assoc g (combine (map (fun v => public (v_name v)) vars) values)
    end.
End Values.
Arguments var : clear implicits.
