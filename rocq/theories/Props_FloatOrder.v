(** Property theorems for C95: float views keep the order of values. [at_most] and [stepped] are in
    SpecFloatOrder; NaN is never at most anything. *)

From Coq Require Import NArith ZArith Reals String List Floats.SpecFloat.
From Verif Require Import Base Schema Bits Codec Compiler Access SpecStruct SpecFloats SpecFloatOrder Samples StructRefute FloatRefute
  FloatOrderView FloatFalling SamplesFloatOrder.
Import ListNotations.
Local Open Scope R_scope.

(** Reading: for every width, also those wider than the digits of the view type, and every step from zero
    to 2^100, a greater raw value never reads as a smaller number. *)
Theorem C95_read_partial : forall E m mr enums structs id d s i df f n o w view lo step,
  structure_from_model m Little enums structs id d = Ok s ->
  no_overflow m structs d ->
  nth_error (ss_fields d) i = Some df ->
  sf_info df = STFloat n -> sf_view df = Some view ->
  nth_error (s_fields s) i = Some (FFixed f) -> declared_at structs d i o w ->
  w = n -> addressable o n ->
  stepped n view lo step -> 0 <= step <= powerRZ 2 100 -> Rabs lo <= powerRZ 2 100 ->
  forall buf buf' raw raw', (s_byte_size s <= len buf)%N -> bytes_ok buf -> (s_byte_size s <= len buf')%N -> bytes_ok buf' ->
    is_field_value buf o n raw -> is_field_value buf' o n raw' -> (raw <= raw')%N ->
    exists y y', get_view (E:=E) mr f buf = Ok (XFloat y) /\ get_view (E:=E) mr f buf' = Ok (XFloat y') /\ at_most y y'.
Proof. exact (@read_order). Qed.
Print Assumptions C95_read_partial.

(** Writing and reading back: of two values of the view type, infinities and negative numbers included,
    the smaller one is stored as a smaller or equal raw value and reads as a smaller or equal number, as
    long as the greater one is within the scale. *)
Theorem C95_write_partial : forall E m mr enums structs id d s i df f n o w view step,
  structure_from_model m Little enums structs id d = Ok s ->
  no_overflow m structs d ->
  nth_error (ss_fields d) i = Some df ->
  sf_info df = STFloat n -> sf_view df = Some view ->
  nth_error (s_fields s) i = Some (FFixed f) -> declared_at structs d i o w ->
  w = n -> addressable o n -> (Z.of_N n + 3 <= view_digits n)%Z ->
  scaled_by n view step -> moderate step ->
  forall buf buf' v v', (s_byte_size s <= len buf)%N -> bytes_ok buf -> (s_byte_size s <= len buf')%N -> bytes_ok buf' ->
    of_view_type n v -> of_view_type n v' -> at_most v v' -> is_number v' -> real_of v' <= step * (raws n - 1) ->
    exists out out' raw raw' y y',
      set_view (E:=E) mr f buf (XFloat v) = Ok out /\ set_view (E:=E) mr f buf' (XFloat v') = Ok out' /\
      is_field_update buf o n raw out /\ is_field_update buf' o n raw' out' /\ (raw <= raw' < 2 ^ n)%N /\
      get_view (E:=E) mr f out = Ok (XFloat y) /\ get_view (E:=E) mr f out' = Ok (XFloat y') /\ at_most y y'.
Proof. exact (@write_order_scaled). Qed.
Print Assumptions C95_write_partial.

(** Fields of 8, 16, 32 and 64 bits: any two values, also above the scale, with any minimum. *)
Theorem C95_full_partial : forall E m mr enums structs id d s i df f n o w view lo step,
  structure_from_model m Little enums structs id d = Ok s ->
  no_overflow m structs d ->
  nth_error (ss_fields d) i = Some df ->
  sf_info df = STFloat n -> sf_view df = Some view ->
  nth_error (s_fields s) i = Some (FFixed f) -> declared_at structs d i o w ->
  w = n -> addressable o n -> (n = 8 \/ n = 16 \/ n = 32 \/ n = 64)%N ->
  stepped n view lo step -> moderate step -> Rabs lo <= powerRZ 2 100 ->
  forall buf buf' v v', (s_byte_size s <= len buf)%N -> bytes_ok buf -> (s_byte_size s <= len buf')%N -> bytes_ok buf' ->
    of_view_type n v -> of_view_type n v' -> at_most v v' ->
    exists out out' raw raw' y y',
      set_view (E:=E) mr f buf (XFloat v) = Ok out /\ set_view (E:=E) mr f buf' (XFloat v') = Ok out' /\
      is_field_update buf o n raw out /\ is_field_update buf' o n raw' out' /\ (raw <= raw' < 2 ^ n)%N /\
      get_view (E:=E) mr f out = Ok (XFloat y) /\ get_view (E:=E) mr f out' = Ok (XFloat y') /\ at_most y y'.
Proof. exact (@write_order_full). Qed.
Print Assumptions C95_full_partial.

(** The same for a range with any minimum. What is read may be shifted (C09_range_partial); the order is not. *)
Theorem C95_range_partial : forall E m mr enums structs id d s i df f n o w lo hi step,
  structure_from_model m Little enums structs id d = Ok s ->
  no_overflow m structs d ->
  nth_error (ss_fields d) i = Some df ->
  sf_info df = STFloat n -> sf_view df = Some (SVFloatRange lo hi) ->
  nth_error (s_fields s) i = Some (FFixed f) -> declared_at structs d i o w ->
  w = n -> addressable o n -> (Z.of_N n + 4 <= view_digits n)%Z ->
  is_f64 lo -> is_f64 hi -> real_of lo = 0 \/ moderate (Rabs (real_of lo)) ->
  step = real_of hi / (raws n - 1) -> moderate step ->
  forall buf buf' v v', (s_byte_size s <= len buf)%N -> bytes_ok buf -> (s_byte_size s <= len buf')%N -> bytes_ok buf' ->
    of_view_type n v -> of_view_type n v' -> at_most v v' -> is_number v' ->
    0 <= real_of v' <= step * raws n -> 0 <= real_of v' / step - real_of lo <= raws n - 1 ->
    exists out out' raw raw' y y',
      set_view (E:=E) mr f buf (XFloat v) = Ok out /\ set_view (E:=E) mr f buf' (XFloat v') = Ok out' /\
      is_field_update buf o n raw out /\ is_field_update buf' o n raw' out' /\ (raw <= raw' < 2 ^ n)%N /\
      get_view (E:=E) mr f out = Ok (XFloat y) /\ get_view (E:=E) mr f out' = Ok (XFloat y') /\ at_most y y'.
Proof. exact (@write_order_range). Qed.
Print Assumptions C95_range_partial.

(** With a negative step the raw values run the other way: a greater raw value never reads as a greater
    number. *)
Theorem C95_falling_read_partial : forall E m mr enums structs id d s i df f n o w view lo step,
  structure_from_model m Little enums structs id d = Ok s ->
  no_overflow m structs d ->
  nth_error (ss_fields d) i = Some df ->
  sf_info df = STFloat n -> sf_view df = Some view ->
  nth_error (s_fields s) i = Some (FFixed f) -> declared_at structs d i o w ->
  w = n -> addressable o n ->
  stepped n view lo step -> 0 <= - step <= powerRZ 2 100 -> Rabs lo <= powerRZ 2 100 ->
  forall buf buf' raw raw', (s_byte_size s <= len buf)%N -> bytes_ok buf -> (s_byte_size s <= len buf')%N -> bytes_ok buf' ->
    is_field_value buf o n raw -> is_field_value buf' o n raw' -> (raw <= raw')%N ->
    exists y y', get_view (E:=E) mr f buf = Ok (XFloat y) /\ get_view (E:=E) mr f buf' = Ok (XFloat y') /\ at_most y' y.
Proof. exact (@read_falling). Qed.
Print Assumptions C95_falling_read_partial.

(** Of two values the smaller one is stored as a greater or equal raw value, and still reads as a smaller
    or equal number. *)
Theorem C95_falling_partial : forall E m mr enums structs id d s i df f n o w view lo step,
  structure_from_model m Little enums structs id d = Ok s ->
  no_overflow m structs d ->
  nth_error (ss_fields d) i = Some df ->
  sf_info df = STFloat n -> sf_view df = Some view ->
  nth_error (s_fields s) i = Some (FFixed f) -> declared_at structs d i o w ->
  w = n -> addressable o n -> (n = 8 \/ n = 16 \/ n = 32 \/ n = 64)%N ->
  stepped n view lo step -> moderate (- step) -> Rabs lo <= powerRZ 2 100 ->
  forall buf buf' v v', (s_byte_size s <= len buf)%N -> bytes_ok buf -> (s_byte_size s <= len buf')%N -> bytes_ok buf' ->
    of_view_type n v -> of_view_type n v' -> at_most v v' ->
    exists out out' raw raw' y y',
      set_view (E:=E) mr f buf (XFloat v) = Ok out /\ set_view (E:=E) mr f buf' (XFloat v') = Ok out' /\
      is_field_update buf o n raw out /\ is_field_update buf' o n raw' out' /\ (raw' <= raw < 2 ^ n)%N /\
      get_view (E:=E) mr f out = Ok (XFloat y) /\ get_view (E:=E) mr f out' = Ok (XFloat y') /\ at_most y y'.
Proof. exact (@write_falling). Qed.
Print Assumptions C95_falling_partial.

(** A step of minus one half: -3 is stored as 6 and -1 as 2. *)
Example C95_falling_nonvacuous :
  structure_from_model Debug Little [] [] 0 (factor_d f_down 8) = Ok (factor_s f_down 8) /\ no_overflow Debug [] (factor_d f_down 8) /\
  nth_error (s_fields (factor_s f_down 8)) 0 = Some (FFixed (factor_fixed f_down 8)) /\ declared_at [] (factor_d f_down 8) 0 0 8 /\ addressable 0 8 /\
  stepped 8 (SVFloatMultiplier f_down) 0 (- (1 / 2)) /\ moderate (- - (1 / 2)) /\ 0 <= - - (1 / 2) <= powerRZ 2 100 /\
  of_view_type 8 minus3 /\ of_view_type 8 minus1 /\ at_most minus3 minus1 /\
  set_view (E:=cerror) Debug (factor_fixed f_down 8) [0%N] (XFloat minus3) = Ok [6%N] /\
  set_view (E:=cerror) Debug (factor_fixed f_down 8) [0%N] (XFloat minus1) = Ok [2%N] /\
  get_view (E:=cerror) Debug (factor_fixed f_down 8) [6%N] = Ok (XFloat minus3) /\
  get_view (E:=cerror) Debug (factor_fixed f_down 8) [2%N] = Ok (XFloat minus1).
Proof.
  split; [vm_compute; reflexivity|]. split; [left; reflexivity|]. split; [reflexivity|]. split; [solve_at|]. split; [vm_compute; reflexivity|].
  split; [apply down_stepped|]. split; [apply down_stepped|]. split; [apply down_stepped|].
  split; [vm_compute; reflexivity|]. split; [vm_compute; reflexivity|]. split; [exact minus_ordered|].
  repeat (split; [vm_compute; reflexivity|]). vm_compute. reflexivity.
Qed.

(** Beyond the scale the order is lost: 4095 is stored as it is, 4096 as 0. *)
Theorem C95_above_refuted : exists v v',
  structure_from_model Debug Little [] [] 0 (factor_d f_one 12) = Ok (factor_s f_one 12) /\
  nth_error (s_fields (factor_s f_one 12)) 0 = Some (FFixed (factor_fixed f_one 12)) /\
  of_view_type 12 v /\ of_view_type 12 v' /\ at_most v v' /\
  set_view (E:=cerror) Release (factor_fixed f_one 12) [0%N; 0%N] (XFloat v) = Ok [255%N; 15%N] /\
  set_view (E:=cerror) Release (factor_fixed f_one 12) [0%N; 0%N] (XFloat v') = Ok [0%N; 0%N].
Proof.
  exists (f_of_N F32 4095), (f_of_N F32 4096). split; [vm_compute; reflexivity|]. split; [reflexivity|].
  split; [vm_compute; reflexivity|]. split; [vm_compute; reflexivity|]. split; [exact beyond_ordered|]. split; vm_compute; reflexivity.
Qed.
Print Assumptions C95_above_refuted.

(** A factor too big for the view type: raw 0 reads as NaN, which is not at most infinity. *)
Theorem C95_huge_refuted :
  structure_from_model Debug Little [] [] 0 (factor_d f_huge 8) = Ok (factor_s f_huge 8) /\
  nth_error (s_fields (factor_s f_huge 8)) 0 = Some (FFixed (factor_fixed f_huge 8)) /\
  get_view (E:=cerror) Release (factor_fixed f_huge 8) [0%N] = Ok (XFloat S754_nan) /\
  get_view (E:=cerror) Release (factor_fixed f_huge 8) [1%N] = Ok (XFloat (S754_infinity false)) /\
  ~ at_most S754_nan (S754_infinity false).
Proof.
  split; [vm_compute; reflexivity|]. split; [reflexivity|]. split; [vm_compute; reflexivity|]. split; [vm_compute; reflexivity|].
  intro H; exact H.
Qed.
Print Assumptions C95_huge_refuted.

(** A field of 60 bits, wider than the digits of its view; and a field of 12 bits with its neighbours. *)
Example C95_nonvacuous :
  structure_from_model Debug Little [] [] 0 wide = Ok wide_s /\ no_overflow Debug [] wide /\
  nth_error (s_fields wide_s) 0 = Some (FFixed wide_fixed) /\ declared_at [] wide 0 0 60 /\ addressable 0 60 /\
  stepped 60 (SVFloatRange f_ten f_hundred) 10 (100 / (raws 60 - 1)) /\ 0 <= 100 / (raws 60 - 1) <= powerRZ 2 100 /\ Rabs 10 <= powerRZ 2 100 /\
  nth_error (s_fields measures_s) 1 = Some (FFixed (measures_fixed 1)) /\ declared_at [] measures 1 4 12 /\ addressable 4 12 /\
  scaled_by 12 (SVFloatMultiplier f_cent) (real_of f_cent) /\ moderate (real_of f_cent) /\
  nth_error (s_fields measures_s) 2 = Some (FFixed (measures_fixed 2)) /\ declared_at [] measures 2 16 8 /\ addressable 16 8 /\
  stepped 8 (SVFloatRange f64_zero f_hundred) 0 (100 / 255) /\ moderate (100 / 255) /\
  at_most (S754_infinity true) (S754_zero false) /\ of_view_type 12 (S754_infinity true).
Proof.
  split; [vm_compute; reflexivity|]. split; [left; reflexivity|]. split; [reflexivity|]. split; [solve_at|]. split; [vm_compute; discriminate|].
  split; [apply wide_stepped|]. split; [apply wide_stepped|]. split; [apply wide_stepped|].
  split; [reflexivity|]. split; [solve_at|]. split; [vm_compute; discriminate|]. split; [apply cent_moderate|]. split; [apply cent_moderate|].
  split; [reflexivity|]. split; [solve_at|]. split; [vm_compute; reflexivity|].
  split; [apply scaled_stepped; [reflexivity|apply percent_moderate]|]. split; [apply percent_moderate|].
  split; [exact I|]. reflexivity.
Qed.
