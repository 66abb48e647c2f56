(** Specification of what running a generator does to the file system (C47), as a
    script of steps that is executed until one fails. *)

From Coq Require Import Arith NArith Ascii String List Bool.
From Verif Require Import Base Compiler Driver.
Import ListNotations.
Local Open Scope string_scope.

Inductive fop :=
| FEnsure (path : string)            (* create the directory unless the path exists *)
| FMake (path : string)              (* create the directory *)
| FWrite (path data : string).       (* create or replace the file *)
Inductive step := SOp (o : fop) | SFail (e : derror) | SPanic.

Definition fop_do {S} (fs : fs_ops S) (s : S) (o : fop) : option S :=
  match o with
  | FEnsure p => if fs_exists fs s p then Some s else fs_create_dir fs s p
  | FMake p => fs_create_dir fs s p
  | FWrite p d => fs_write fs s p d
  end.
Fixpoint run_steps {S} (fs : fs_ops S) (s : S) (l : list step) : outcome derror unit * S :=
  match l with
  | [] => (Ok tt, s)
  | SOp o :: r => match fop_do fs s o with Some s' => run_steps fs s' r | None => (Err DIo, s) end
  | SFail e :: _ => (Err e, s)
  | SPanic :: _ => (Panic, s)
  end.

(** The kinds of files that are enabled. *)
Definition enabled (fl : flags) (t : file_type) : Prop :=
  match t with
  | MessageWriting => write_messages fl = true
  | MessageReading => read_messages fl = true
  | Message => use_messages fl = true
  | StructureFile => use_structs fl = true
  | EnumFile => use_enums fl = true
  | UnionFile => use_unions fl = true
  end.
Definition worth_writing (data : string) : bool := Nat.ltb 1 (String.length data).
(** Files of a generator that are written, in its order. *)
Definition chosen (fl : flags) (f : file) : bool :=
  match fi_ty f with
  | MessageWriting => write_messages fl
  | MessageReading => read_messages fl
  | Message => use_messages fl
  | StructureFile => use_structs fl
  | EnumFile => use_enums fl
  | UnionFile => use_unions fl
  end && worth_writing (fi_data f).

(** The folder of a file: its name up to the first slash, if there is one. *)
Definition folder (name : string) : option string :=
  match String.index 0 "/" name with Some i => Some (substring 0 i name) | None => None end.
(** A file [a/b] first creates directory [a]. *)
Definition file_ops (dir : string) (f : file) : list fop :=
  (match folder (fi_name f) with Some sub => [FMake (join dir sub)] | None => [] end
   ++ [FWrite (join dir (fi_name f)) (fi_data f)])%list.

Section Script.
Context {P : Type} (T : generator P) (name_of : P -> string) (fl : flags) (out : string).
Definition proto_dir (p : P) : string := join out (name_of p).
Definition written (p : P) (files : list file) : list string :=
  map (fun f => join (proto_dir p) (fi_name f)) (filter (chosen fl) files).
Definition script (p : P) : list step :=
  match g_generate T p with
  | Err e => [SFail (DGenerator e)]
  | Panic => [SPanic]
  | Ok files =>
      SOp (FEnsure (proto_dir p))
      :: map SOp (flat_map (file_ops (proto_dir p)) (filter (chosen fl) files))
      ++ match g_umbrella T (name_of p) (written p files) with
         | Err e => [SFail (DGenerator e)]
         | Panic => [SPanic]
         | Ok u => if worth_writing u then [SOp (FWrite (join (proto_dir p) "umbrella.rs") u)] else []
         end
  end%list.
(** The path reported for a protocol. *)
Definition reported (p : P) : proto :=
  let dir := proto_dir p in
  let umbrella := match g_generate T p with
                  | Ok files => match g_umbrella T (name_of p) (written p files) with Ok u => u | _ => "" end
                  | _ => ""
                  end in
  {| pr_name := name_of p; pr_path := if worth_writing umbrella then join dir "umbrella.rs" else dir |}.
End Script.

(** ** File systems that store what is written *)
Inductive entry := EDir | EFile (data : string).
Record stores {S} (fs : fs_ops S) (look : S -> string -> option entry) : Prop := {
  st_exists : forall s p, fs_exists fs s p = true <-> look s p <> None;
  st_create : forall s p s', fs_create_dir fs s p = Some s' ->
    look s p = None /\ forall q, look s' q = if String.eqb q p then Some EDir else look s q;
  st_write : forall s p d s', fs_write fs s p d = Some s' ->
    look s p <> Some EDir /\ forall q, look s' q = if String.eqb q p then Some (EFile d) else look s q }.

(** What a successful script leaves at a path: the last thing written there. *)
Fixpoint last_at (q : string) (l : list step) (before : option entry) : option entry :=
  match l with
  | SOp (FWrite p d) :: r => last_at q r (if String.eqb q p then Some (EFile d) else before)
  | SOp (FMake p) :: r => last_at q r (if String.eqb q p then Some EDir else before)
  | SOp (FEnsure p) :: r =>
      last_at q r (if String.eqb q p then match before with Some e => Some e | None => Some EDir end else before)
  | _ :: r => last_at q r before
  | [] => before
  end.
(** Paths written by a script. *)
Definition write_path (x : step) : list string := match x with SOp (FWrite p _) => [p] | _ => [] end.
Definition write_paths (l : list step) : list string := flat_map write_path l.

(** A file system in memory that meets [stores]. *)
Definition mem := list (string * entry).
Fixpoint mem_look (s : mem) (p : string) : option entry :=
  match s with [] => None | (q, e) :: r => if String.eqb p q then Some e else mem_look r p end.
Definition mem_fs : fs_ops mem := {|
  fs_exists := fun s p => match mem_look s p with Some _ => true | None => false end;
  fs_create_dir := fun s p => match mem_look s p with Some _ => None | None => Some ((p, EDir) :: s) end;
  fs_write := fun s p d => match mem_look s p with Some EDir => None | _ => Some ((p, EFile d) :: s) end |}.
