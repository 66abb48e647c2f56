(** Model of compiler/src/build_script.rs:45-64 ([generate_rust], the function called
    from the build script of a crate).

    Simplifications: the loading closure is the list of its successful calls of
    [Loader::load] and [Loader::import] with the result it returns; the configuring
    closure is a list of calls of the setters of [Protoc]; the output is the list of
    printed lines (writing to standard output does not fail); [Path::display] is the
    path itself (Unix paths that are valid UTF-8). Every failure is a panic, kept with
    its cause. *)

From Coq Require Import Arith NArith Ascii String List Bool.
From Verif Require Import Base Schema Compiler Loader Template Driver GenText SpecLoader SpecRun.
Import ListNotations.
Local Open Scope string_scope.

(** interface.rs:105-133, as calls. *)
Inductive setting :=
| ReadsMessages (b : bool) | WritesMessages (b : bool) | UseEnums (b : bool)
| UseStructs (b : bool) | UseMessages (b : bool) | UseUnions (b : bool).
Definition set_one (f : flags) (x : setting) : flags :=
  match x with
  | ReadsMessages b => set_reads_messages f b
  | WritesMessages b => set_writes_messages f b
  | UseEnums b => set_use_enums f b
  | UseStructs b => set_use_structs f b
  | UseMessages b => set_use_messages f b
  | UseUnions b => set_use_unions f b
  end.
(** interface.rs:93-103, then the closure [configure_fn]. *)
Definition configure (l : list setting) : flags := fold_left set_one l flags_new.

(** [str::to_ascii_uppercase] *)
Fixpoint to_ascii_uppercase (s : string) : string :=
  match s with EmptyString => EmptyString | String c r => String (ascii_upper c) (to_ascii_uppercase r) end.

(** build_script.rs:62 *)
Definition cargo_line (p : proto) : string :=
  "cargo::rustc-env=BP3D_PROTOC_" ++ to_ascii_uppercase (pr_name p) ++ "=" ++ pr_path p.

Inductive cause :=
| CauseLoad                    (* build_script.rs:49 *)
| CauseCompile (e : cerror)    (* build_script.rs:52 *)
| CauseOutDir                  (* build_script.rs:56 *)
| CauseGenerate (e : derror)   (* build_script.rs:58 *)
| CauseInside.                 (* a panic of the compiler or of the generator *)
Inductive ending := Printed (lines : list string) | Panicked (c : cause).

(** build_script.rs:45-64 *)
Definition generate_rust {S} (fs : fs_ops S) (m : mode) (fm : formats) (show : string -> string)
  (load_calls : list call) (load_ok : bool) (settings : list setting) (out_dir : option string) (s : S)
  : ending * S :=
  let loader := loader_after load_calls in
  if negb load_ok then (Panicked CauseLoad, s)
  else match loader_compile m loader (solver_new "::") with
       | Err e => (Panicked (CauseCompile e), s)
       | Panic => (Panicked CauseInside, s)
       | Ok (protocols, w) =>
           let fl := configure settings in
           match out_dir with
           | None => (Panicked CauseOutDir, s)
           | Some out =>
               match generate fs (generator_rust fm show (marked w)) p_name fl out s protocols with
               | (Err e, s) => (Panicked (CauseGenerate e), s)
               | (Panic, s) => (Panicked CauseInside, s)
               | (Ok generated, s) => (Printed (map cargo_line generated), s)
               end
           end
       end.
