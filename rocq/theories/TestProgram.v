(** The descriptions of the test program and the three calls of [generate_rust] in its build
    script (testprog/build.rs:32-64); the texts are transcribed in TestJson.v. *)

From Coq Require Import NArith ZArith String List.
From Verif Require Import Base Schema Compiler Loader Json SpecLoader TestJson.
Import ListNotations.
Local Open Scope string_scope.

(** The numbers of these descriptions are non-negative integers. *)
Definition number (j : json) : option N :=
  match j with JInt z => if Z.leb 0 z then Some (Z.to_N z) else None | _ => None end.
(** compiler/src/interface.rs:52-53, 59-60, see Json.v. *)
Definition parse (j : json) : outcome unit sprotocol :=
  match de_protocol number (fun l => l) j with Some v => Ok v | None => Err tt end.
Fixpoint all {A B E} (f : A -> outcome E B) (l : list A) : outcome E (list B) :=
  match l with [] => Ok [] | x :: r => y <- f x ;; ys <- all f r ;; Ok (y :: ys) end.

(** One call of the loader: testprog/build.rs:33-42, 46-48, 52-55. *)
Inductive input := Load (j : json) | Import (j : json) (path : string).
(** compiler/src/interface.rs:51-63 *)
Definition parsed (s : input) : outcome unit call :=
  match s with
  | Load j => v <- parse j ;; Ok (LLoad v)
  | Import j p => v <- parse j ;; Ok (LImport p v)
  end.
(** The protocols that one call of [generate_rust] compiles; [m]: build profile of the build
    script. The error of a description that does not compile is dropped. *)
Definition build_in (m : mode) (l : list input) : outcome unit (list protocol * world) :=
  calls <- all parsed l ;;
  match loader_compile m (loader_after calls) (solver_new "::") with
  | Ok r => Ok r | Err _ => Err tt | Panic => Panic
  end.
Definition build := build_in Debug.
(** testprog/build.rs:32-64 *)
Definition first_run := [Load test_json5; Load structs_json5; Load bits_json5; Load bits2_json5; Load views_json5;
  Load struct_arrays_json5; Load enums_json5; Load values_json5; Load unions2_json5; Load arrays_json5].
Definition second_run := [Import enums_json5 "crate::enums"; Import values_json5 "crate::values"; Load unions_json5].
Definition third_run := [Import enums_json5 "crate::enums"; Import values_json5 "crate::values";
  Import unions_json5 "crate::unions"; Load lists_json5].
Definition runs := [first_run; second_run; third_run].
