(** Model of compiler/src/gen/mod.rs:39-89 (files and generators),
    compiler/src/interface.rs:77-179 (writing the generated files) and
    compiler/src/gen/rust/mod.rs:81-88 (the umbrella file).

    The file system is a parameter: [fs_ops] gives the three operations used, over
    any type of states; each may fail. [Err] carries no detail of an I/O error.
    Paths are strings with the separator of Unix. *)

From Coq Require Import Arith NArith Ascii String List Bool.
From Verif Require Import Base Compiler Template.
Import ListNotations.
Local Open Scope string_scope.

(** gen/mod.rs:38-46 *)
Inductive file_type := MessageWriting | MessageReading | Message | StructureFile | EnumFile | UnionFile.
(** gen/mod.rs:48-52 *)
Record file := { fi_name : string; fi_data : string; fi_ty : file_type }.

(** [Path::exists], [std::fs::create_dir], [std::fs::write] *)
Record fs_ops (S : Type) := {
  fs_exists : S -> string -> bool;
  fs_create_dir : S -> string -> option S;
  fs_write : S -> string -> string -> option S }.
Arguments fs_exists {S}. Arguments fs_create_dir {S}. Arguments fs_write {S}.

(** [Path::join]: an absolute second path replaces the first; a separator is added
    unless the first is empty or ends with one. *)
Definition slash : ascii := "/"%char.
Fixpoint ends_with_slash (s : string) : bool :=
  match s with
  | EmptyString => false
  | String c EmptyString => Ascii.eqb c slash
  | String _ r => ends_with_slash r
  end.
Definition join (a b : string) : string :=
  if String.prefix "/" b then b
  else if String.eqb a "" || ends_with_slash a then a ++ b
  else a ++ "/" ++ b.

(** [self.name.find("/").map(|id| &self.name[..id])] *)
Fixpoint before_slash (s : string) : option string :=
  match s with
  | EmptyString => None
  | String c r =>
      if Ascii.eqb c slash then Some EmptyString
      else match before_slash r with Some a => Some (String c a) | None => None end
  end.

(** lib.rs: [Error::Generator] and [Error::Io]; the text of a generator error is
    kept. *)
Inductive derror := DGenerator (e : string) | DIo.

(** Every step returns the state of the file system with its outcome: what was
    written stays written when a later step fails. *)
Definition dres (S A : Type) := (outcome derror A * S)%type.

Section Driver.
Context {S : Type} (fs : fs_ops S).

Definition io {A} (s : S) (o : option S) (a : A) : dres S A :=
  match o with Some s' => (Ok a, s') | None => (Err DIo, s) end.
Definition dbind {A B} (x : dres S A) (k : A -> S -> dres S B) : dres S B :=
  match x with
  | (Ok a, s) => k a s
  | (Err e, s) => (Err e, s)
  | (Panic, s) => (Panic, s)
  end.

(** gen/mod.rs:67-80 *)
Definition file_write (s : S) (f : file) (out_directory : string) : dres S (option string) :=
  if Nat.ltb 1 (String.length (fi_data f)) then
    dbind (match before_slash (fi_name f) with
           | Some sub => io s (fs_create_dir fs s (join out_directory sub)) tt
           | None => (Ok tt, s)
           end)
      (fun _ s =>
         let path := join out_directory (fi_name f) in
         io s (fs_write fs s path (fi_data f)) (Some path))
  else (Ok None, s).

(** gen/mod.rs:82-89; [generate] takes a protocol, here of any type [P]. A
    generator may panic. *)
Record generator (P : Type) := {
  g_generate : P -> outcome string (list file);
  g_umbrella : string -> list string -> outcome string string }.
Arguments g_generate {P}. Arguments g_umbrella {P}.
Definition gen_err {A} (s : S) (x : outcome string A) : dres S A :=
  match x with
  | Ok a => (Ok a, s)
  | Err e => (Err (DGenerator e), s)
  | Panic => (Panic, s)
  end.

(** interface.rs:82-90 *)
Record flags := {
  write_messages : bool; read_messages : bool; use_enums : bool;
  use_structs : bool; use_messages : bool; use_unions : bool }.
(** interface.rs:93-103 *)
Definition flags_new : flags :=
  {| write_messages := false; read_messages := false; use_enums := true;
     use_structs := true; use_messages := true; use_unions := true |}.
(** interface.rs:105-133 *)
Definition set_reads_messages (f : flags) (b : bool) : flags :=
  {| write_messages := write_messages f; read_messages := b; use_enums := use_enums f;
     use_structs := use_structs f; use_messages := use_messages f; use_unions := use_unions f |}.
Definition set_writes_messages (f : flags) (b : bool) : flags :=
  {| write_messages := b; read_messages := read_messages f; use_enums := use_enums f;
     use_structs := use_structs f; use_messages := use_messages f; use_unions := use_unions f |}.
Definition set_use_enums (f : flags) (b : bool) : flags :=
  {| write_messages := write_messages f; read_messages := read_messages f; use_enums := b;
     use_structs := use_structs f; use_messages := use_messages f; use_unions := use_unions f |}.
Definition set_use_structs (f : flags) (b : bool) : flags :=
  {| write_messages := write_messages f; read_messages := read_messages f; use_enums := use_enums f;
     use_structs := b; use_messages := use_messages f; use_unions := use_unions f |}.
Definition set_use_messages (f : flags) (b : bool) : flags :=
  {| write_messages := write_messages f; read_messages := read_messages f; use_enums := use_enums f;
     use_structs := use_structs f; use_messages := b; use_unions := use_unions f |}.
Definition set_use_unions (f : flags) (b : bool) : flags :=
  {| write_messages := write_messages f; read_messages := read_messages f; use_enums := use_enums f;
     use_structs := use_structs f; use_messages := use_messages f; use_unions := b |}.

(** interface.rs:144-153 *)
Definition selected (fl : flags) (f : file) : bool :=
  match fi_ty f with
  | MessageWriting => write_messages fl
  | MessageReading => read_messages fl
  | Message => use_messages fl
  | StructureFile => use_structs fl
  | EnumFile => use_enums fl
  | UnionFile => use_unions fl
  end.

(** interface.rs:154-162: files are written one by one; [collect] stops at the
    first error. *)
Fixpoint write_all (s : S) (out_path : string) (l : list file) : dres S (list string) :=
  match l with
  | [] => (Ok [], s)
  | f :: r =>
      dbind (file_write s f out_path) (fun o s =>
      dbind (write_all s out_path r) (fun ps s =>
      (Ok (match o with Some p => p :: ps | None => ps end), s)))
  end.

(** interface.rs:77-80 *)
Record proto := { pr_name : string; pr_path : string }.

(** interface.rs:138-176: one turn of the loop. *)
Definition generate_one {P} (T : generator P) (name_of : P -> string) (fl : flags) (out_directory : string)
  (s : S) (p : P) : dres S proto :=
  let name := name_of p in
  dbind (gen_err s (g_generate T p)) (fun files s =>
  let out_path := join out_directory name in
  dbind (if fs_exists fs s out_path then (Ok tt, s) else io s (fs_create_dir fs s out_path) tt) (fun _ s =>
  dbind (write_all s out_path (filter (selected fl) files)) (fun paths s =>
  dbind (gen_err s (g_umbrella T name paths)) (fun umbrella s =>
  if Nat.ltb 1 (String.length umbrella) then
    let umbrella_path := join out_path "umbrella.rs" in
    io s (fs_write fs s umbrella_path umbrella) {| pr_name := name; pr_path := umbrella_path |}
  else (Ok {| pr_name := name; pr_path := out_path |}, s))))).

(** interface.rs:135-178 *)
Fixpoint generate {P} (T : generator P) (name_of : P -> string) (fl : flags) (out_directory : string)
  (s : S) (protocols : list P) : dres S (list proto) :=
  match protocols with
  | [] => (Ok [], s)
  | p :: r =>
      dbind (generate_one T name_of fl out_directory s p) (fun x s =>
      dbind (generate T name_of fl out_directory s r) (fun xs s => (Ok (x :: xs), s)))
  end.
End Driver.
Arguments g_generate {P}. Arguments g_umbrella {P}.

(** gen/rust/mod.rs:81-88. [show] is the [Debug] formatting of a path. *)
Definition umbrella_rust (show : string -> string) (proto_name : string) (files : list string) : string :=
  let nl := String newline EmptyString in
  fold_left (fun code file => code ++ "include!(" ++ show file ++ ");" ++ nl) files
    ("pub mod " ++ proto_name ++ " {" ++ nl) ++ "}" ++ nl.
