(** Samples for C92: fields that are put into a structure of their own. *)

From Coq Require Import Arith NArith ZArith Ascii String List Bool Lia.
From Verif Require Import Base Schema Codec Compiler Access SpecStruct Samples SpecNest.
Import ListNotations.
Local Open Scope N_scope.
Local Open Scope string_scope.

(** A header of two fields on a whole byte; the group has a scalar, a structure and an array. *)
Definition word_s : structure := compile_one Debug [] [] {| ss_name := "Word"; ss_fields := [scalar "lo" (STUnsigned 4); scalar "hi" (STUnsigned 12)] |}.
Definition nest_structs : smap structure := [("Word", word_s)].
Definition head_f : list sfield := [scalar "kind" (STUnsigned 3); scalar "flags" (STUnsigned 5)].
Definition body_f : list sfield :=
  [scalar "a" (STUnsigned 4); scalar "b" (STSigned 12); scalar "word" (STStruct "Word");
   {| sf_name := "items"; sf_info := STUnsigned 16; sf_view := None; sf_array_len := Some 2 |}].
Definition tail_f : list sfield := [scalar "sum" (STUnsigned 16)].
Definition body_d : sstruct := {| ss_name := "Body"; ss_fields := body_f |}.
Definition frame_d : sstruct := {| ss_name := "Frame"; ss_fields := (head_f ++ scalar "body" (STStruct "Body") :: tail_f)%list |}.
Definition plain_d : sstruct := {| ss_name := "Frame"; ss_fields := (head_f ++ body_f ++ tail_f)%list |}.
Lemma frame_nested : nested head_f body_f tail_f body_d frame_d plain_d.
Proof.
  split; [reflexivity|]. split; [reflexivity|]. split; [eexists; split; reflexivity|]. split; [reflexivity|].
  intros f [[<-|[<-|[]]]|[<-|[]]]; cbn; discriminate.
Qed.
Definition body_s : structure := Eval vm_compute in compile_one Debug [] nest_structs body_d.
Definition frame_s : structure := Eval vm_compute in compile_one Debug [] (sinsert "Body" body_s nest_structs) frame_d.
Definition plain_s : structure := Eval vm_compute in compile_one Debug [] nest_structs plain_d.
Definition frame_b : bytes := [33; 67; 101; 135; 169; 1; 2; 3; 4; 5; 6].

(** The group starts inside of a byte. *)
Definition odd_head : list sfield := [scalar "h" (STUnsigned 4)].
Definition odd_body : list sfield := [scalar "v" (STUnsigned 4)].
Definition odd_grp : sstruct := {| ss_name := "Low"; ss_fields := odd_body |}.
Definition odd_outer : sstruct := {| ss_name := "Odd"; ss_fields := (odd_head ++ scalar "low" (STStruct "Low") :: [])%list |}.
Definition odd_flat : sstruct := {| ss_name := "Odd"; ss_fields := (odd_head ++ odd_body ++ [])%list |}.
Lemma odd_nested : nested odd_head odd_body [] odd_grp odd_outer odd_flat.
Proof.
  split; [reflexivity|]. split; [reflexivity|]. split; [eexists; split; reflexivity|]. split; [reflexivity|].
  intros f [[<-|[]]|[]]; cbn; discriminate.
Qed.
Definition odd_g : structure := Eval vm_compute in compile_one Debug [] [] odd_grp.
Definition odd_x : structure := Eval vm_compute in compile_one Debug [] (sinsert "Low" odd_g []) odd_outer.
Definition odd_z : structure := Eval vm_compute in compile_one Debug [] [] odd_flat.
