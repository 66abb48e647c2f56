(** Property theorems C09 and C58: float views, and C59 about numbers in descriptions. Floats are compared as real numbers
    ([real_of], SpecFloats.v). [view_eps n] is half a unit in the last place of the
    type of the view, [raws n] the number of raw values. *)

From Coq Require Import NArith ZArith Reals String List Floats.SpecFloat.
From Verif Require Import Base Schema Bits Codec Compiler Access Json SpecJson SpecStruct SpecFloats Samples StructRefute
  FloatDecl FloatMore FloatRefute FloatView FloatRange JsonFloat.
Import ListNotations.
Local Open Scope R_scope.

(** ** C09: within one step *)

(** A multiplier, or a range starting at zero, for which the width is at least three bits
    less than the precision of the view type (every width up to 50 but 32) and the step is between
    2^-100 and 2^100. A value between 0 and the largest representable one is read back within
    one step, up to [11 * 2^n] rounding errors; a raw value stands for its multiple of the step up to
    five rounding errors, so 0 is exact. Missing: ranges not starting at zero (refuted in
    Props_Struct.v, described by C09_range_partial), the other widths (32 is refuted below) and other steps. *)
Theorem C09_scaled_view_partial : forall E m mr enums structs id d s i df f n o w view step,
  structure_from_model m Little enums structs id d = Ok s ->
  no_overflow m structs d ->
  nth_error (ss_fields d) i = Some df ->
  sf_info df = STFloat n -> sf_view df = Some view ->
  nth_error (s_fields s) i = Some (FFixed f) -> declared_at structs d i o w ->
  w = n -> addressable o n -> (Z.of_N n + 3 <= view_digits n)%Z ->
  scaled_by n view step -> moderate step ->
  forall buf, (s_byte_size s <= len buf)%N -> bytes_ok buf ->
    (exists raw y, is_field_value buf o n raw /\ get_view (E:=E) mr f buf = Ok (XFloat y) /\ is_view n y /\
       Rabs (real_of y - step * INR (N.to_nat raw)) <= 5 * view_eps n * (step * INR (N.to_nat raw))) /\
    (forall v, is_view n v -> 0 <= real_of v <= step * (raws n - 1) ->
       exists buf' raw y, set_view (E:=E) mr f buf (XFloat v) = Ok buf' /\
         is_field_update buf o n raw buf' /\ get_view (E:=E) mr f buf' = Ok (XFloat y) /\ is_view n y /\
         Rabs (real_of y - real_of v) <= step * (1 + 11 * raws n * view_eps n)).
Proof. exact (@scaled_view). Qed.
Print Assumptions C09_scaled_view_partial.

(** A power of two as multiplier: every width up to the precision, without any error. *)
Theorem C09_power_of_two_partial : forall E m mr enums structs id d s i df f n o w mult k,
  structure_from_model m Little enums structs id d = Ok s ->
  no_overflow m structs d ->
  nth_error (ss_fields d) i = Some df ->
  sf_info df = STFloat n -> sf_view df = Some (SVFloatMultiplier mult) ->
  nth_error (s_fields s) i = Some (FFixed f) -> declared_at structs d i o w ->
  w = n -> addressable o n -> (Z.of_N n <= view_digits n)%Z ->
  is_f64 mult -> real_of mult = powerRZ 2 k -> (-100 <= k <= 100)%Z ->
  forall buf, (s_byte_size s <= len buf)%N -> bytes_ok buf ->
    (exists raw y, is_field_value buf o n raw /\ get_view (E:=E) mr f buf = Ok (XFloat y) /\ is_view n y /\
       real_of y = real_of mult * INR (N.to_nat raw) /\ set_view (E:=E) mr f buf (XFloat y) = Ok buf) /\
    (forall v, is_view n v -> 0 <= real_of v < real_of mult * raws n ->
       exists buf' raw y, set_view (E:=E) mr f buf (XFloat v) = Ok buf' /\
         is_field_update buf o n raw buf' /\ get_view (E:=E) mr f buf' = Ok (XFloat y) /\ is_view n y /\
         real_of y = real_of mult * INR (N.to_nat raw) /\ real_of y <= real_of v < real_of y + real_of mult).
Proof. exact (@power_of_two_view). Qed.
Print Assumptions C09_power_of_two_partial.

(** Negative numbers, minus infinity and NaN store 0, infinity the largest raw value. *)
Theorem C09_outside_partial : forall E m mr enums structs id d s i df f n o w view step,
  structure_from_model m Little enums structs id d = Ok s ->
  no_overflow m structs d ->
  nth_error (ss_fields d) i = Some df ->
  sf_info df = STFloat n -> sf_view df = Some view ->
  nth_error (s_fields s) i = Some (FFixed f) -> declared_at structs d i o w ->
  w = n -> addressable o n -> (Z.of_N n + 3 <= view_digits n)%Z ->
  scaled_by n view step -> moderate step ->
  forall buf, (s_byte_size s <= len buf)%N -> bytes_ok buf ->
    (forall v, below_zero v \/ v = S754_nan ->
      exists buf', set_view (E:=E) mr f buf (XFloat v) = Ok buf' /\ is_field_update buf o n 0 buf') /\
    (exists buf', set_view (E:=E) mr f buf (XFloat (S754_infinity false)) = Ok buf' /\ is_field_update buf o n (2 ^ n - 1) buf').
Proof. exact (@outside). Qed.
Print Assumptions C09_outside_partial.

Example C09_nonvacuous :
  structure_from_model Debug Little [] [] 0 measures = Ok measures_s /\ no_overflow Debug [] measures /\
  nth_error (s_fields measures_s) 1 = Some (FFixed (measures_fixed 1)) /\ declared_at [] measures 1 4 12 /\ addressable 4 12 /\
  scaled_by 12 (SVFloatMultiplier f_cent) (real_of f_cent) /\ moderate (real_of f_cent) /\
  nth_error (s_fields measures_s) 2 = Some (FFixed (measures_fixed 2)) /\ declared_at [] measures 2 16 8 /\ addressable 16 8 /\
  scaled_by 8 (SVFloatRange f64_zero f_hundred) (100 / 255) /\ moderate (100 / 255) /\
  nth_error (s_fields measures_s) 3 = Some (FFixed (measures_fixed 3)) /\ declared_at [] measures 3 24 16 /\ addressable 24 16 /\
  set_view (E:=cerror) Release (measures_fixed 1) [7%N; 0%N; 0%N; 0%N; 0%N] (XFloat (f_of_N F32 12)) = Ok [7%N; 75%N; 0%N; 0%N; 0%N].
Proof.
  split; [vm_compute; reflexivity|]. split; [left; reflexivity|].
  split; [reflexivity|]. split; [solve_at|]. split; [vm_compute; discriminate|]. split; [apply cent_moderate|]. split; [apply cent_moderate|].
  split; [reflexivity|]. split; [solve_at|]. split; [vm_compute; reflexivity|]. split; [apply percent_moderate|]. split; [apply percent_moderate|].
  split; [reflexivity|]. split; [solve_at|]. split; [vm_compute; reflexivity|]. vm_compute; reflexivity.
Qed.

(** A range from any minimum [lo], positive or negative: the accessors in fact use
    [lo + step * raw] with [step] the maximum divided by the largest raw value, whereas the setter
    subtracts [lo] after dividing by the step. So what is read back is the stored value shifted by
    [lo * (1 - step)], up to one step and rounding: the property holds of a range exactly when this
    shift is within a step. *)
Theorem C09_range_partial : forall E m mr enums structs id d s i df f n o w lo hi step,
  structure_from_model m Little enums structs id d = Ok s ->
  no_overflow m structs d ->
  nth_error (ss_fields d) i = Some df ->
  sf_info df = STFloat n -> sf_view df = Some (SVFloatRange lo hi) ->
  nth_error (s_fields s) i = Some (FFixed f) -> declared_at structs d i o w ->
  w = n -> addressable o n -> (Z.of_N n + 4 <= view_digits n)%Z ->
  is_f64 lo -> is_f64 hi -> real_of lo = 0 \/ moderate (Rabs (real_of lo)) ->
  step = real_of hi / (raws n - 1) -> moderate step ->
  forall buf, (s_byte_size s <= len buf)%N -> bytes_ok buf ->
    (exists raw y, is_field_value buf o n raw /\ get_view (E:=E) mr f buf = Ok (XFloat y) /\ is_view n y /\
       Rabs (real_of y - (real_of lo + step * INR (N.to_nat raw))) <= 7 * view_eps n * (Rabs (real_of lo) + step * INR (N.to_nat raw))) /\
    (forall v, is_view n v -> 0 <= real_of v <= step * raws n -> 0 <= real_of v / step - real_of lo <= raws n - 1 ->
       exists buf' raw y, set_view (E:=E) mr f buf (XFloat v) = Ok buf' /\ is_field_update buf o n raw buf' /\
         (raw < 2 ^ n)%N /\ Rabs (INR (N.to_nat raw) - (real_of v / step - real_of lo)) <= 1 + 8 * raws n * view_eps n /\
         get_view (E:=E) mr f buf' = Ok (XFloat y) /\ is_view n y /\
         Rabs (real_of y - (real_of v + real_of lo * (1 - step))) <= step * (1 + 15 * raws n * view_eps n) + 7 * view_eps n * Rabs (real_of lo)).
Proof. exact (@range_view). Qed.
Print Assumptions C09_range_partial.

(** Raw 0 reads as the minimum. The largest raw value reads as the sum of the minimum and the
    maximum, so never as the maximum when the minimum is above the rounding error. *)
Theorem C09_range_ends : forall E m mr enums structs id d s i df f n o w lo hi step,
  structure_from_model m Little enums structs id d = Ok s ->
  no_overflow m structs d ->
  nth_error (ss_fields d) i = Some df ->
  sf_info df = STFloat n -> sf_view df = Some (SVFloatRange lo hi) ->
  nth_error (s_fields s) i = Some (FFixed f) -> declared_at structs d i o w ->
  w = n -> addressable o n -> (Z.of_N n + 4 <= view_digits n)%Z ->
  is_f64 lo -> is_f64 hi -> real_of lo = 0 \/ moderate (Rabs (real_of lo)) ->
  step = real_of hi / (raws n - 1) -> moderate step ->
  forall buf, (s_byte_size s <= len buf)%N -> bytes_ok buf ->
    (is_field_value buf o n 0 -> exists y, get_view (E:=E) mr f buf = Ok (XFloat y) /\
       Rabs (real_of y - real_of lo) <= 7 * view_eps n * Rabs (real_of lo)) /\
    (is_field_value buf o n (2 ^ n - 1) -> exists y, get_view (E:=E) mr f buf = Ok (XFloat y) /\
       Rabs (real_of y - (real_of lo + real_of hi)) <= 7 * view_eps n * (Rabs (real_of lo) + real_of hi) /\
       (7 * view_eps n * (Rabs (real_of lo) + real_of hi) < Rabs (real_of lo) -> real_of y <> real_of hi)).
Proof. exact (@range_ends). Qed.
Print Assumptions C09_range_ends.

Example C09_range_nonvacuous :
  structure_from_model Debug Little [] [] 0 gauge = Ok gauge_s /\ no_overflow Debug [] gauge /\
  nth_error (s_fields gauge_s) 0 = Some (FFixed gauge_fixed) /\ declared_at [] gauge 0 0 8 /\ addressable 0 8 /\
  ss_fields gauge = [ float_field "level" 8 (SVFloatRange f_ten f_hundred) ] /\
  is_f64 f_ten /\ is_f64 f_hundred /\ moderate (Rabs (real_of f_ten)) /\
  100 / 255 = real_of f_hundred / (raws 8 - 1) /\ moderate (100 / 255) /\
  (* 55 is stored as 130 and so read back as 60.98 *)
  set_view (E:=cerror) Release gauge_fixed [0%N] (XFloat (f_of_N F32 55)) = Ok [130%N].
Proof.
  split; [vm_compute; reflexivity|]. split; [left; reflexivity|]. split; [reflexivity|]. split; [solve_at|].
  split; [vm_compute; reflexivity|]. split; [reflexivity|].
  split; [split; [vm_compute; reflexivity|exact I]|]. split; [split; [vm_compute; reflexivity|exact I]|].
  split; [apply gauge_moderate|]. split; [apply gauge_moderate|]. split; [apply gauge_moderate|]. vm_compute; reflexivity.
Qed.

(** A value above the range is not stored as the largest raw value: it wraps to 0 and
    reads as 0 when the field is narrower than its raw type. *)
Theorem C09_above_refuted : exists d s f v,
  structure_from_model Debug Little [] [] 0 d = Ok s /\ nth_error (s_fields s) 0 = Some (FFixed f) /\
  ss_fields d = [ float_field "v" 12 (SVFloatMultiplier f_one) ] /\
  is_view 12 v /\ real_of v = 4096 /\
  set_view (E:=cerror) Release f [255%N; 255%N] (XFloat v) = Ok [0%N; 240%N] /\
  get_view (E:=cerror) Release f [0%N; 240%N] = Ok (XFloat (S754_zero false)).
Proof. exact wrap_refuted. Qed.
Print Assumptions C09_above_refuted.

(** The view of 32 bits is an f32: a value in the range is read back more than 80 steps away. *)
Theorem C09_wide_refuted : exists d s f v y buf,
  structure_from_model Debug Little [] [] 0 d = Ok s /\ nth_error (s_fields s) 0 = Some (FFixed f) /\
  ss_fields d = [ float_field "v" 32 (SVFloatMultiplier (f64_of_N 3)) ] /\
  is_view 32 v /\ 0 <= real_of v <= 3 * (raws 32 - 1) /\
  set_view (E:=cerror) Release f [0%N; 0%N; 0%N; 0%N] (XFloat v) = Ok buf /\
  get_view (E:=cerror) Release f buf = Ok (XFloat y) /\ Rabs (real_of y - real_of v) > 80 * 3.
Proof. exact wide_refuted. Qed.
Print Assumptions C09_wide_refuted.

(** ** C58: writing back what was read *)

(** The raw value is the same or one less. A power of two keeps it: C09_power_of_two_partial. *)
Theorem C58_write_back_partial : forall E m mr enums structs id d s i df f n o w view step,
  structure_from_model m Little enums structs id d = Ok s ->
  no_overflow m structs d ->
  nth_error (ss_fields d) i = Some df ->
  sf_info df = STFloat n -> sf_view df = Some view ->
  nth_error (s_fields s) i = Some (FFixed f) -> declared_at structs d i o w ->
  w = n -> addressable o n -> (Z.of_N n + 4 <= view_digits n)%Z ->
  scaled_by n view step -> moderate step ->
  forall buf, (s_byte_size s <= len buf)%N -> bytes_ok buf ->
    exists raw y raw' buf', is_field_value buf o n raw /\ get_view (E:=E) mr f buf = Ok (XFloat y) /\
      set_view (E:=E) mr f buf (XFloat y) = Ok buf' /\ is_field_update buf o n raw' buf' /\
      (raw' = raw \/ (raw' + 1)%N = raw).
Proof. exact (@write_back). Qed.
Print Assumptions C58_write_back_partial.

Example C58_nonvacuous : exists y,
  get_view (E:=cerror) Release (measures_fixed 1) [7%N; 75%N; 0%N; 0%N; 0%N] = Ok (XFloat y) /\
  set_view (E:=cerror) Release (measures_fixed 1) [7%N; 75%N; 0%N; 0%N; 0%N] (XFloat y) = Ok [7%N; 75%N; 0%N; 0%N; 0%N].
Proof. eexists. split; vm_compute; reflexivity. Qed.

(** A range from any minimum [lo]: where the value that was read can be stored, the raw value moves
    by [lo * (1 - step) / step], up to one and rounding. Missing: values that cannot be stored. *)
Theorem C58_range_partial : forall E m mr enums structs id d s i df f n o w lo hi step,
  structure_from_model m Little enums structs id d = Ok s ->
  no_overflow m structs d ->
  nth_error (ss_fields d) i = Some df ->
  sf_info df = STFloat n -> sf_view df = Some (SVFloatRange lo hi) ->
  nth_error (s_fields s) i = Some (FFixed f) -> declared_at structs d i o w ->
  w = n -> addressable o n -> (Z.of_N n + 4 <= view_digits n)%Z ->
  is_f64 lo -> is_f64 hi -> real_of lo = 0 \/ moderate (Rabs (real_of lo)) ->
  step = real_of hi / (raws n - 1) -> moderate step ->
  forall buf, (s_byte_size s <= len buf)%N -> bytes_ok buf ->
    exists raw y, is_field_value buf o n raw /\ get_view (E:=E) mr f buf = Ok (XFloat y) /\
      (0 <= real_of y <= step * raws n -> 0 <= real_of y / step - real_of lo <= raws n - 1 ->
       exists buf' raw', set_view (E:=E) mr f buf (XFloat y) = Ok buf' /\ is_field_update buf o n raw' buf' /\ (raw' < 2 ^ n)%N /\
         Rabs (INR (N.to_nat raw') - (INR (N.to_nat raw) + real_of lo * (1 - step) / step))
           <= 1 + 8 * raws n * view_eps n + 7 * view_eps n * (Rabs (real_of lo) / step + INR (N.to_nat raw))).
Proof. exact (@range_write_back). Qed.
Print Assumptions C58_range_partial.

(** Raw 100 of the range from 10 to 100 moves to 115. *)
Example C58_range_nonvacuous : exists y,
  get_view (E:=cerror) Release gauge_fixed [100%N] = Ok (XFloat y) /\
  set_view (E:=cerror) Release gauge_fixed [100%N] (XFloat y) = Ok [115%N].
Proof. eexists. split; vm_compute; reflexivity. Qed.

(** With the multiplier 0.01 in 8 bits the raw value 5 becomes 4. *)
Theorem C58_write_back_refuted : exists d s f y,
  structure_from_model Debug Little [] [] 0 d = Ok s /\ nth_error (s_fields s) 0 = Some (FFixed f) /\
  ss_fields d = [ float_field "v" 8 (SVFloatMultiplier f_cent) ] /\
  get_view (E:=cerror) Release f [5%N] = Ok (XFloat y) /\
  set_view (E:=cerror) Release f [5%N] (XFloat y) = Ok [4%N].
Proof. exact write_back_refuted. Qed.
Print Assumptions C58_write_back_refuted.

(** ** C59: integers in the place of floats *)

(** An integer given for the bound of a range or for a multiplier stands for the nearest f64, the
    integer itself up to 2^53. *)
Theorem C59_integers : forall z v, is_real (JInt z) v ->
  is_f64 v /\ (forall y, is_f64 y -> Rabs (real_of v - IZR z) <= Rabs (real_of y - IZR z)) /\
  ((- 2 ^ 53 <= z <= 2 ^ 53)%Z -> real_of v = IZR z).
Proof. exact integer_nearest. Qed.
Print Assumptions C59_integers.

Example C59_integers_nonvacuous : is_real (JInt (-5)) (f64_of_Z (-5)) /\ is_real (JInt (2 ^ 62 + 1)) (f64_of_Z (2 ^ 62)).
Proof. split; right; eexists; (split; [reflexivity|split; [split; [discriminate|reflexivity]|vm_compute; reflexivity]]). Qed.
