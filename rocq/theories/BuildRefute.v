(** Sample runs of the build script. *)

From Coq Require Import Arith NArith Ascii String List Bool Lia ZifyN ZifyBool.
From Verif Require Import Base Schema Compiler SamplesComp Runtime Loader SpecLoader SpecRun Template Driver SpecDriver
  DriverThms GenText SpecCode BuildScript SpecBuild BuildThms.
Import ListNotations.
Local Open Scope string_scope.

Definition build_state : mem := Eval vm_compute in
  snd (generate_rust mem_fs Debug build_formats quoted [LLoad main_v; LImport "crate::lib" lib_v] true
         [UseEnums true; ReadsMessages true; UseEnums false] (Some "out") []).
Lemma build_sample :
  let calls := [LLoad main_v; LImport "crate::lib" lib_v] in
  let settings := [UseEnums true; ReadsMessages true; UseEnums false] in
  stores mem_fs mem_look /\ works_below mem_fs mem_look "out" /\ Forall widths_usize (loaded calls) /\
  Forall (fun v => plain (sp_name v) /\ clear (mem_look []) "out" (sp_name v)) (loaded calls) /\
  NoDup (map sp_name (loaded calls)) /\
  generate_rust mem_fs Debug build_formats quoted calls true settings (Some "out") [] =
    (Printed ["cargo::rustc-env=BP3D_PROTOC_MAIN=out/Main/umbrella.rs"], build_state) /\
  map fst build_state = ["out/Main/umbrella.rs"; "out/Main/unions.rs"; "out/Main/structures.rs";
    "out/Main/messages_offsets.rs"; "out/Main/messages_from_slice.rs"; "out/Main/messages.rs"; "out/Main"] /\
  fst (generate_rust mem_fs Debug build_formats quoted calls false settings (Some "out") []) = Panicked CauseLoad /\
  fst (generate_rust mem_fs Debug build_formats quoted calls true settings None []) = Panicked CauseOutDir /\
  fst (generate_rust mem_fs Debug build_formats quoted [LLoad main_v] true settings (Some "out") []) =
    Panicked (CauseCompile (EUndefinedReference "Lib")) /\
  fst (generate_rust mem_fs Debug build_formats quoted calls true settings (Some "out") [("out/Main/unions.rs", EDir)]) =
    Panicked (CauseGenerate DIo).
Proof.
  cbv zeta. split; [exact mem_stores|]. split; [apply mem_works|]. split.
  { constructor; [|constructor]. unfold widths_usize. cbn [main_v sp_structs].
    repeat first [apply Forall_nil | apply Forall_cons | intros b H; cbn in H; first [discriminate H | injection H as <-; reflexivity]]. }
  split.
  { constructor; [|constructor]. split; [apply plain_check; reflexivity|]. split; [left; reflexivity|]. intros f _. discriminate. }
  split; [repeat constructor; cbn; intuition discriminate|].
  repeat split; vm_compute; reflexivity.
Qed.

Lemma same_variable_refuted : exists calls, NoDup (map sp_name (loaded calls)) /\
  fst (generate_rust mem_fs Debug build_formats quoted calls true [] (Some "out") []) =
  Printed ["cargo::rustc-env=BP3D_PROTOC_NET=out/net/umbrella.rs"; "cargo::rustc-env=BP3D_PROTOC_NET=out/Net/umbrella.rs"].
Proof.
  exists [LLoad (tiny "net"); LLoad (tiny "Net")]. split; [repeat constructor; cbn; intuition discriminate|]. vm_compute. reflexivity.
Qed.

Lemma to_single_iff : forall A B (x : option A) (y : option B) a b,
  to_single (x, y) = Some (a, b) <-> x = Some a /\ y = Some b.
Proof. intros A B [x|] [y|] a b; cbn; split; intros H; try discriminate; try (destruct H; discriminate).
  - injection H as <- <-. auto.
  - destruct H as [H1 H2]. injection H1 as <-. injection H2 as <-. reflexivity.
Qed.
