(** Float views: a sample structure and refutations (C09, C58). *)

From Coq Require Import ZArith NArith Reals Psatz String List Floats.SpecFloat.
From Flocq Require Import Core BinarySingleNaN.
From Verif Require Import Base Schema Bits Codec Compiler Access SpecStruct SpecFloats Samples StructRefute FloatThms.
Import ListNotations.
Local Open Scope N_scope.
Local Open Scope string_scope.

Definition float_field (name : string) (n : N) (view : sview) : sfield :=
  {| sf_name := name; sf_info := STFloat n; sf_view := Some view; sf_array_len := None |}.
Definition f_hundred : f64 := f64_of_N 100.
(** 0.01 *)
Definition f_cent : f64 := f64_div f64_one f_hundred.
Definition measures : sstruct :=
  {| ss_name := "Measures";
     ss_fields :=
       [ scalar "kind" (STUnsigned 4);
         float_field "level" 12 (SVFloatMultiplier f_cent);
         float_field "percent" 8 (SVFloatRange f64_zero f_hundred);
         float_field "half" 16 (SVFloatMultiplier f_half) ] |}.
Definition measures_s : structure := compile_one Debug [] [] measures.
Definition measures_fixed (i : nat) : fixed_field :=
  match nth_error (s_fields measures_s) i with Some (FFixed f) => f | _ => first_fixed measures_s end.

Lemma write_back_refuted : exists d s f y,
  structure_from_model Debug Little [] [] 0 d = Ok s /\ nth_error (s_fields s) 0 = Some (FFixed f) /\
  ss_fields d = [ float_field "v" 8 (SVFloatMultiplier f_cent) ] /\
  get_view (E:=cerror) Release f [5] = Ok (XFloat y) /\
  set_view (E:=cerror) Release f [5] (XFloat y) = Ok [4].
Proof.
  exists {| ss_name := "Cents"; ss_fields := [ float_field "v" 8 (SVFloatMultiplier f_cent) ] |}. do 3 eexists.
  split; [vm_compute; reflexivity|]. split; [reflexivity|]. split; [reflexivity|]. split; vm_compute; reflexivity.
Qed.

Lemma wrap_refuted : exists d s f v,
  structure_from_model Debug Little [] [] 0 d = Ok s /\ nth_error (s_fields s) 0 = Some (FFixed f) /\
  ss_fields d = [ float_field "v" 12 (SVFloatMultiplier f_one) ] /\
  is_view 12 v /\ real_of v = 4096%R /\
  set_view (E:=cerror) Release f [255; 255] (XFloat v) = Ok [0; 240] /\
  get_view (E:=cerror) Release f [0; 240] = Ok (XFloat (S754_zero false)).
Proof.
  exists {| ss_name := "Wrap"; ss_fields := [ float_field "v" 12 (SVFloatMultiplier f_one) ] |}. do 2 eexists.
  exists (S754_finite false 8388608 (-11)).
  split; [vm_compute; reflexivity|]. split; [reflexivity|]. split; [reflexivity|].
  split; [split; [reflexivity|exact I]|]. split; [rewrite real_val; unfold SF2R, F2R; cbn; lra|]. split; vm_compute; reflexivity.
Qed.

Lemma wide_refuted : exists d s f v y buf,
  structure_from_model Debug Little [] [] 0 d = Ok s /\ nth_error (s_fields s) 0 = Some (FFixed f) /\
  ss_fields d = [ float_field "v" 32 (SVFloatMultiplier (f64_of_N 3)) ] /\
  is_view 32 v /\ (0 <= real_of v <= 3 * (raws 32 - 1))%R /\
  set_view (E:=cerror) Release f [0; 0; 0; 0] (XFloat v) = Ok buf /\
  get_view (E:=cerror) Release f buf = Ok (XFloat y) /\ (Rabs (real_of y - real_of v) > 80 * 3)%R.
Proof.
  exists {| ss_name := "Wide"; ss_fields := [ float_field "v" 32 (SVFloatMultiplier (f64_of_N 3)) ] |}. do 2 eexists.
  exists (S754_finite false 8388613 8), (S754_finite false 8388614 8). eexists.
  split; [vm_compute; reflexivity|]. split; [reflexivity|]. split; [reflexivity|].
  split; [split; [reflexivity|exact I]|].
  split; [unfold raws; rewrite <- pw_powerRZ, real_val; unfold SF2R, F2R; cbn; lra|]. split; [vm_compute; reflexivity|]. split; [vm_compute; reflexivity|].
  rewrite !real_val. unfold SF2R, F2R. cbn. rewrite Rabs_pos_eq; lra.
Qed.

Lemma cent_moderate : scaled_by 12 (SVFloatMultiplier f_cent) (real_of f_cent) /\ moderate (real_of f_cent).
Proof.
  split; [split; [split; [reflexivity|exact I]|reflexivity]|]. unfold moderate. rewrite <- !pw_powerRZ, real_val.
  replace f_cent with (S754_finite false 5764607523034235 (-59)) by (vm_compute; reflexivity).
  unfold SF2R, F2R. cbn [cond_Zopp Fnum Fexp]. split.
  - apply Rle_trans with (1 * bpow radix2 (-59))%R; [rewrite Rmult_1_l; apply bpow_le; discriminate|].
    apply Rmult_le_compat_r; [apply bpow_ge_0|]. apply IZR_le. discriminate.
  - apply Rle_trans with (bpow radix2 53 * bpow radix2 (-59))%R.
    + apply Rmult_le_compat_r; [apply bpow_ge_0|]. cbn. lra.
    + rewrite <- bpow_plus. apply bpow_le. discriminate.
Qed.
Lemma percent_moderate : scaled_by 8 (SVFloatRange f64_zero f_hundred) (100 / 255) /\ moderate (100 / 255).
Proof.
  split.
  - split; [split; [reflexivity|exact I]|]. split; [reflexivity|]. split; [split; [reflexivity|exact I]|].
    replace f_hundred with (S754_finite false 7036874417766400 (-46)) by (vm_compute; reflexivity).
    unfold raws. rewrite <- pw_powerRZ, real_val. unfold SF2R, F2R. cbn. lra.
  - unfold moderate. rewrite <- !pw_powerRZ. split.
    + apply Rle_trans with (bpow radix2 (-3)); [apply bpow_le; discriminate|cbn; lra].
    + apply Rle_trans with (bpow radix2 0); [cbn; lra|apply bpow_le; discriminate].
Qed.

(** A sample: ten to a hundred in eight bits. *)
Definition f_ten : f64 := f64_of_N 10.
Definition gauge : sstruct := {| ss_name := "Gauge"; ss_fields := [ float_field "level" 8 (SVFloatRange f_ten f_hundred) ] |}.
Definition gauge_s : structure := compile_one Debug [] [] gauge.
Definition gauge_fixed : fixed_field := first_fixed gauge_s.
Lemma ten_hundred : real_of f_ten = 10%R /\ real_of f_hundred = 100%R.
Proof.
  replace f_hundred with (S754_finite false 7036874417766400 (-46)) by (vm_compute; reflexivity).
  replace f_ten with (S754_finite false 5629499534213120 (-49)) by (vm_compute; reflexivity).
  rewrite !real_val. unfold SF2R, F2R. cbn. split; lra.
Qed.
Lemma gauge_moderate : moderate (Rabs (real_of f_ten)) /\ (100 / 255 = real_of f_hundred / (raws 8 - 1))%R /\ moderate (100 / 255).
Proof.
  destruct ten_hundred as (-> & ->). split; [|split].
  - rewrite Rabs_pos_eq by lra. unfold moderate. rewrite <- !pw_powerRZ. split.
    + apply Rle_trans with (bpow radix2 0); [apply bpow_le; discriminate|cbn; lra].
    + apply Rle_trans with (bpow radix2 4); [cbn; lra|apply bpow_le; discriminate].
  - unfold raws. rewrite <- pw_powerRZ. cbn. lra.
  - apply percent_moderate.
Qed.
