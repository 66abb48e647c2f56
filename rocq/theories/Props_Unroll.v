(** Property theorems C93: an array field can be replaced by separate fields, and back. [s] is the compiled
    structure with the array and [s'] the one with the fields. The declared size is below 2^64 bits throughout. *)

From Coq Require Import Arith NArith String List Bool Lia.
From Verif Require Import Base Schema Bits Codec Compiler Access SpecStruct SpecUnroll UnrollMain Samples SamplesUnroll.
Import ListNotations.
Local Open Scope N_scope.
Local Open Scope string_scope.

(** The array is accepted exactly if the fields are and make up whole bytes. *)
Theorem C93_accepted : forall m endi enums structs before df items after d d' b, unrolled before df items after d d' ->
  get_bit_size (sf_info df) = Some b -> (forall t, declared_total structs (ss_fields d) = Some t -> t < 2 ^ 64) ->
  forall i j, (exists s, structure_from_model m endi enums structs i d = Ok s) <->
    (exists s', structure_from_model m endi enums structs j d' = Ok s') /\ (b * N.of_nat (length items)) mod 8 = 0.
Proof. exact unroll_accepted. Qed.
Print Assumptions C93_accepted.

(** The size is the same, all other fields are the same, and there is a field of the same type for every item. *)
Theorem C93_layout : forall m endi enums structs before df items after d d' b, unrolled before df items after d d' ->
  get_bit_size (sf_info df) = Some b -> (forall t, declared_total structs (ss_fields d) = Some t -> t < 2 ^ 64) ->
  forall i j s s', structure_from_model m endi enums structs i d = Ok s -> structure_from_model m endi enums structs j d' = Ok s' ->
  s_name s' = s_name s /\ s_bit_size s' = s_bit_size s /\ s_byte_size s' = s_byte_size s /\
  (forall n, (n < length before)%nat -> nth_error (s_fields s') n = nth_error (s_fields s) n) /\
  (forall n, nth_error (s_fields s') (length before + length items + n) = nth_error (s_fields s) (length before + 1 + n)) /\
  exists f, nth_error (s_fields s) (length before) = Some (FArray f) /\ fa_array_len f = N.of_nat (length items) /\
  forall n v, nth_error items n = Some v -> exists f', nth_error (s_fields s') (length before + n) = Some (FFixed f') /\
    ff_name f' = sf_name v /\ ff_ty f' = fa_ty f.
Proof. exact unroll_layout. Qed.
Print Assumptions C93_layout.

(** The accessors of an item read and write what those of its field do, if items are whole bytes and start on
    a byte boundary. [o] is the number of bits in front of the array. *)
Theorem C93_items_partial : forall m mr enums structs before df items after d d' b o, unrolled before df items after d d' ->
  get_bit_size (sf_info df) = Some b -> get_simple_type (sf_info df) <> Boolean ->
  (forall t, declared_total structs (ss_fields d) = Some t -> t < 2 ^ 64) -> declared_total structs before = Some o ->
  forall i j s s' f, structure_from_model m Little enums structs i d = Ok s -> structure_from_model m Little enums structs j d' = Ok s' ->
  nth_error (s_fields s) (length before) = Some (FArray f) ->
  forall E, b mod 8 = 0 -> o mod 8 = 0 ->
  forall n f', n < N.of_nat (length items) -> nth_error (s_fields s') (length before + N.to_nat n) = Some (FFixed f') ->
  forall data, s_byte_size s <= len data -> bytes_ok data ->
  arr_get (E:=E) mr f data n = get_raw mr f' data /\ forall v, arr_set (E:=E) mr f data n v = set_raw mr f' data v.
Proof. exact item_same. Qed.
Print Assumptions C93_items_partial.

(** Both are needed wherever the accessors of all the fields are right. *)
Theorem C93_exact : forall m mr enums structs before df items after d d' b o, unrolled before df items after d d' ->
  get_bit_size (sf_info df) = Some b -> get_simple_type (sf_info df) <> Boolean ->
  (forall t, declared_total structs (ss_fields d) = Some t -> t < 2 ^ 64) -> declared_total structs before = Some o ->
  forall i j s s' f, structure_from_model m Little enums structs i d = Ok s -> structure_from_model m Little enums structs j d' = Ok s' ->
  nth_error (s_fields s) (length before) = Some (FArray f) ->
  forall E, 0 < b <= 64 -> (forall n, n < N.of_nat (length items) -> addressable (o + b * n) b) ->
  ((forall n f' data, n < N.of_nat (length items) -> nth_error (s_fields s') (length before + N.to_nat n) = Some (FFixed f') ->
      s_byte_size s <= len data -> bytes_ok data -> arr_get (E:=E) mr f data n = get_raw mr f' data) <-> b mod 8 = 0 /\ o mod 8 = 0) /\
  ((forall n f' data v, n < N.of_nat (length items) -> nth_error (s_fields s') (length before + N.to_nat n) = Some (FFixed f') ->
      s_byte_size s <= len data -> bytes_ok data -> arr_set (E:=E) mr f data n v = set_raw mr f' data v) <-> b mod 8 = 0 /\ o mod 8 = 0).
Proof. exact item_exact. Qed.
Print Assumptions C93_exact.

(** Three signed numbers of 24 bits behind a byte of flags. *)
Example C93_nonvacuous : unrolled flags_f axes_f axis_fs end_f axes_d axis_d /\
  get_bit_size (sf_info axes_f) = Some 24 /\ get_simple_type (sf_info axes_f) <> Boolean /\
  declared_total [] (ss_fields axes_d) = Some 96 /\ declared_total [] flags_f = Some 8 /\
  structure_from_model Debug Little [] [] 0 axes_d = Ok axes_s /\ structure_from_model Debug Little [] [] 0 axis_d = Ok axis_s /\
  nth_error (s_fields axes_s) 2 = Some (FArray axes_a) /\ nth_error (s_fields axis_s) 3 = Some (FFixed axis_y) /\
  s_byte_size axes_s = len axes_b /\ bytes_ok axes_b /\
  arr_get (E:=cerror) Debug axes_a axes_b 1 = Ok 394500 /\ get_raw (E:=cerror) Debug axis_y axes_b = Ok 394500.
Proof.
  split; [exact axes_unrolled|]. split; [reflexivity|]. split; [discriminate|]. repeat (split; [vm_compute; reflexivity|]).
  split; [repeat constructor|]. split; vm_compute; reflexivity.
Qed.

(** Items of 12 bits are accepted and read other bits than the fields, whose accessors are right. *)
Theorem C93_odd_items_refuted : exists data,
  unrolled [] pair_f pair_fs [] pair_d pair_d' /\ declared_total [] (ss_fields pair_d) = Some 24 /\
  structure_from_model Debug Little [] [] 0 pair_d = Ok pair_s /\ structure_from_model Debug Little [] [] 0 pair_d' = Ok pair_s' /\
  nth_error (s_fields pair_s) 0 = Some (FArray pair_a) /\ nth_error (s_fields pair_s') 1 = Some (FFixed pair_b) /\ addressable 12 12 /\
  s_byte_size pair_s = len data /\ bytes_ok data /\
  arr_get (E:=cerror) Debug pair_a data 1 = Ok 67 /\ get_raw (E:=cerror) Debug pair_b data = Ok 1620.
Proof.
  exists [33; 67; 101]. split; [exact pair_unrolled|]. repeat (split; [vm_compute; reflexivity|]).
  split; [discriminate|]. split; [reflexivity|]. split; [repeat constructor|]. split; vm_compute; reflexivity.
Qed.
Print Assumptions C93_odd_items_refuted.
