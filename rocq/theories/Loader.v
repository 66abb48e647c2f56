(** Model of compiler/src/interface.rs:38-75: loading and compiling protocols.

    Not modelled: reading the files and parsing JSON5 (interface.rs:52-53,
    59-60); the loader is given the descriptions. The solver is
    [SimpleImportSolver]. *)

From Coq Require Import NArith String List Bool.
From Verif Require Import Base Schema Compiler.
Import ListNotations.
Local Open Scope N_scope.

(** interface.rs:38-41 *)
Record loader := {
  ld_models : list sprotocol;
  ld_imported : list (string * sprotocol) }.

(** interface.rs:44-49 *)
Definition loader_new : loader := {| ld_models := []; ld_imported := [] |}.
(** interface.rs:51-56, after parsing *)
Definition loader_load (l : loader) (v : sprotocol) : loader :=
  {| ld_models := ld_models l ++ [v]; ld_imported := ld_imported l |}.
(** interface.rs:58-63, after parsing *)
Definition loader_import (l : loader) (path : string) (v : sprotocol) : loader :=
  {| ld_models := ld_models l; ld_imported := ld_imported l ++ [(path, v)] |}.

Definition world_new : world := {| w_next := 0; w_embedded := [] |}.

(** interface.rs:66-69: imported protocols are compiled in order, each seeing
    those registered before it. *)
Definition compile_imported (m : mode) (sw : import_solver * world) (iv : string * sprotocol)
  : cres (import_solver * world) :=
  let '(s, w) := sw in
  '(p, w) <- protocol_from_model m (solver_resolver s) w (snd iv) ;;
  Ok (solver_register s (fst iv) p, w).

(** interface.rs:70-72: loaded protocols are compiled against the imported ones. *)
Definition compile_loaded (m : mode) (s : import_solver) (pw : list protocol * world) (v : sprotocol)
  : cres (list protocol * world) :=
  let '(ps, w) := pw in
  '(p, w) <- protocol_from_model m (solver_resolver s) w v ;;
  Ok ((ps ++ [p])%list, w).

(** interface.rs:65-74: the compiled protocols, with the final state of the
    [embedded] cells; code generation runs afterwards. *)
Definition loader_compile (m : mode) (l : loader) (solver : import_solver)
  : cres (list protocol * world) :=
  '(s, w) <- foldM (compile_imported m) (solver, world_new) (ld_imported l) ;;
  foldM (compile_loaded m s) ([], w) (ld_models l).
