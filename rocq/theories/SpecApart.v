(** Specification vocabulary for C83: protocols that import each other. A run of the compiler
    generates the protocols that are loaded, and these only see the ones that are imported
    (compiler/src/interface.rs:65-74), so that a protocol which is imported is generated by
    another run, as in testprog/build.rs. *)

From Coq Require Import Arith NArith String List Bool.
From Verif Require Import Base Schema Compiler Loader SpecLoader SpecRun.
Import ListNotations.

(** The calls of a run that generates [v] after the protocols [earlier], which are imported
    with their import paths. *)
Definition run_of (earlier : list (string * sprotocol)) (v : sprotocol) : list call :=
  (map (fun b => LImport (fst b) (snd b)) earlier ++ [LLoad v])%list.
Definition run_gives (m : mode) (sep : string) (earlier : list (string * sprotocol)) (v : sprotocol)
  (p : protocol) (w : world) : Prop :=
  loader_compile m (loader_after (run_of earlier v)) (solver_new sep) = Ok ([p], w).

(** A program made of the protocols [l], each generated by a run of its own: the readers of
    every protocol are generated in the state its own run ends in. *)
Definition program (m : mode) (sep : string) (l : list (string * sprotocol)) (emb : N -> bool) : Prop :=
  forall earlier path v later p w, l = (earlier ++ (path, v) :: later)%list ->
    run_gives m sep earlier v p w -> generated_in w p emb.

(** [x] has a list of [y]. *)
Definition lists_message (x y : message) : Prop := exists f ty, In f (m_fields x) /\ mf_ty f = TList ty y.
(** A message of [p] has a list of a message that is not one of [p] and that has a list too. *)
Definition lists_imported (p : protocol) : Prop :=
  exists x y, In x (p_messages p) /\ lists_message x y /\ ~ In y (p_messages p) /\ has_list y.
