(** Samples for C93: an array field as separate fields. *)

From Coq Require Import Arith NArith ZArith Ascii String List Bool Lia.
From Verif Require Import Base Schema Bits Codec Compiler Access SpecStruct Samples SpecUnroll.
Import ListNotations.
Local Open Scope N_scope.
Local Open Scope string_scope.

(** Three numbers of 24 bits behind a byte of flags. *)
Definition flags_f : list sfield := [scalar "kind" (STUnsigned 3); scalar "flags" (STUnsigned 5)].
Definition axes_f : sfield := {| sf_name := "axes"; sf_info := STSigned 24; sf_view := None; sf_array_len := Some 3 |}.
Definition axis_fs : list sfield := [scalar "x" (STSigned 24); scalar "y" (STSigned 24); scalar "z" (STSigned 24)].
Definition end_f : list sfield := [scalar "sum" (STUnsigned 16)].
Definition axes_d : sstruct := {| ss_name := "Point"; ss_fields := (flags_f ++ axes_f :: end_f)%list |}.
Definition axis_d : sstruct := {| ss_name := "Point"; ss_fields := (flags_f ++ axis_fs ++ end_f)%list |}.
Lemma axes_unrolled : unrolled flags_f axes_f axis_fs end_f axes_d axis_d.
Proof.
  repeat (split; [reflexivity|]). split; [intro n; discriminate|]. intros f [<-|[<-|[<-|[]]]]; repeat split.
Qed.
Definition axes_s : structure := Eval vm_compute in compile_one Debug [] [] axes_d.
Definition axis_s : structure := Eval vm_compute in compile_one Debug [] [] axis_d.
Definition axes_b : bytes := [7; 1; 2; 3; 4; 5; 6; 255; 254; 253; 9; 9].
Definition fixed_at (s : structure) (i : nat) : fixed_field :=
  match nth_error (s_fields s) i with
  | Some (FFixed f) => f
  | _ => demo_fixed 0
  end.
Definition axes_a : array_field := Eval vm_compute in match nth_error (s_fields axes_s) 2 with Some (FArray f) => f | _ => first_array axes_s end.

(** Two numbers of 12 bits. *)
Definition pair_f : sfield := {| sf_name := "x"; sf_info := STUnsigned 12; sf_view := None; sf_array_len := Some 2 |}.
Definition pair_fs : list sfield := [scalar "a" (STUnsigned 12); scalar "b" (STUnsigned 12)].
Definition pair_d : sstruct := {| ss_name := "Pair"; ss_fields := ([] ++ pair_f :: [])%list |}.
Definition pair_d' : sstruct := {| ss_name := "Pair"; ss_fields := ([] ++ pair_fs ++ [])%list |}.
Lemma pair_unrolled : unrolled [] pair_f pair_fs [] pair_d pair_d'.
Proof. repeat (split; [reflexivity|]). split; [intro n; discriminate|]. intros f [<-|[<-|[]]]; repeat split. Qed.
Definition pair_s : structure := Eval vm_compute in compile_one Debug [] [] pair_d.
Definition pair_s' : structure := Eval vm_compute in compile_one Debug [] [] pair_d'.
Definition pair_a : array_field := Eval vm_compute in match nth_error (s_fields pair_s) 0 with Some (FArray f) => f | _ => first_array pair_s end.
Definition pair_b : fixed_field := Eval vm_compute in fixed_at pair_s' 1.
Definition axis_y : fixed_field := Eval vm_compute in fixed_at axis_s 3.
