(** Samples for C95. *)

From Coq Require Import NArith ZArith Reals Psatz String List Floats.SpecFloat.
From Flocq Require Import Core BinarySingleNaN.
From Verif Require Import Base Schema Bits Codec Compiler Access SpecStruct SpecFloats SpecFloatOrder Samples StructRefute FloatThms FloatRefute.
Import ListNotations.
Local Open Scope R_scope.

(** A range from ten to a hundred in 60 bits, more than a float has digits. *)
Definition wide : sstruct := {| ss_name := "Wide"; ss_fields := [ float_field "level" 60 (SVFloatRange f_ten f_hundred) ] |}.
Definition wide_s : structure := compile_one Debug [] [] wide.
Definition wide_fixed : fixed_field := first_fixed wide_s.
Lemma ten_val : real_of f_ten = 10.
Proof.
  replace f_ten with (S754_finite false 5629499534213120 (-49)) by (vm_compute; reflexivity).
  rewrite real_val. unfold SF2R, F2R. cbn. lra.
Qed.
Lemma hundred_val : real_of f_hundred = 100.
Proof.
  replace f_hundred with (S754_finite false 7036874417766400 (-46)) by (vm_compute; reflexivity).
  rewrite real_val. unfold SF2R, F2R. cbn. lra.
Qed.
Lemma wide_stepped : stepped 60 (SVFloatRange f_ten f_hundred) 10 (100 / (raws 60 - 1)) /\
  0 <= 100 / (raws 60 - 1) <= powerRZ 2 100 /\ Rabs 10 <= powerRZ 2 100.
Proof.
  split; [cbn [stepped]; split; [split; [vm_compute; reflexivity|exact I]|]; split; [split; [vm_compute; reflexivity|exact I]|];
    split; [reflexivity|]; rewrite ten_val, hundred_val; split; reflexivity|].
  assert (H : 1000 <= raws 60). { unfold raws. rewrite <- pw_powerRZ. change (bpow radix2 (Z.of_N 60)) with (IZR (2 ^ 60)). apply IZR_le. discriminate. }
  assert (H2 : 1000 <= powerRZ 2 100). { rewrite <- pw_powerRZ. change (bpow radix2 100) with (IZR (2 ^ 100)). apply IZR_le. discriminate. }
  split; [|rewrite Rabs_pos_eq; lra]. split.
  - apply Rmult_le_pos; [lra|]. apply Rlt_le, Rinv_0_lt_compat. lra.
  - apply Rle_trans with 1; [|lra]. apply Rmult_le_reg_r with (raws 60 - 1); [lra|]. replace (100 / (raws 60 - 1) * (raws 60 - 1)) with 100 by (field; lra). lra.
Qed.

(** A factor too big for the 32 bit float of a field of 8 bits, and one that is negative. *)
Definition f_huge : f64 := f64_of_N (2 ^ 200).
Definition factor_d (x : f64) (n : N) : sstruct := {| ss_name := "Factor"; ss_fields := [ float_field "v" n (SVFloatMultiplier x) ] |}.
Definition factor_s (x : f64) (n : N) : structure := compile_one Debug [] [] (factor_d x n).
Definition factor_fixed (x : f64) (n : N) : fixed_field := first_fixed (factor_s x n).
Lemma beyond_ordered : at_most (f_of_N F32 4095) (f_of_N F32 4096).
Proof.
  replace (f_of_N F32 4095) with (S754_finite false 16773120 (-12)) by (vm_compute; reflexivity).
  replace (f_of_N F32 4096) with (S754_finite false 8388608 (-11)) by (vm_compute; reflexivity).
  cbn [at_most]. rewrite !real_val. unfold SF2R, F2R. cbn. lra.
Qed.

(** A factor of minus one half. *)
Definition f_down : f64 := S754_finite true 4503599627370496 (-53).
Lemma down_val : real_of f_down = - (1 / 2).
Proof. rewrite real_val. unfold f_down, SF2R, F2R. cbn. lra. Qed.
Lemma down_stepped : stepped 8 (SVFloatMultiplier f_down) 0 (- (1 / 2)) /\ moderate (- - (1 / 2)) /\ 0 <= - - (1 / 2) <= powerRZ 2 100.
Proof.
  assert (H1 : powerRZ 2 (-100) <= 1 / 2).
  { rewrite <- pw_powerRZ. change (1 / 2) with (1 * / 2). rewrite Rmult_1_l. change (/ 2) with (bpow radix2 (-1)). apply bpow_le. discriminate. }
  assert (H2 : 1000 <= powerRZ 2 100). { rewrite <- pw_powerRZ. change (bpow radix2 100) with (IZR (2 ^ 100)). apply IZR_le. discriminate. }
  split; [split; [split; [vm_compute; reflexivity|exact I]|]; split; [reflexivity|symmetry; exact down_val]|].
  unfold moderate. repeat split; lra.
Qed.
(** -3 and -1 as 32 bit floats. *)
Definition minus3 : spec_float := S754_finite true 12582912 (-22).
Definition minus1 : spec_float := S754_finite true 8388608 (-23).
Lemma minus_ordered : at_most minus3 minus1.
Proof. unfold minus3, minus1. cbn [at_most]. rewrite !real_val. unfold SF2R, F2R. cbn. lra. Qed.
