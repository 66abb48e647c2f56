(** Properties C60 to C63: the Swift runtime. *)

From Coq Require Import Arith NArith ZArith List Bool.
From Verif Require Import Base Schema Codec Compiler SpecUtf8 Runtime SpecWire Swift SpecSwift
  SwiftThms SwiftExact SwiftMore SwiftCodec SwiftUnaligned SwiftRefute SwiftCut.
Import ListNotations.
Local Open Scope N_scope.

(** ** C60: what Swift writes *)

(** A value that has an encoding is written, behind what was written before. *)
Theorem C60_writes : forall t v e b d, s_encodes t v e -> written b d ->
  exists b', s_write t v b = Ok b' /\ written b' (d ++ e).
Proof. exact swift_writes. Qed.
Print Assumptions C60_writes.

(** The Rust runtime writes the same bytes. *)
Theorem C60_rust_agrees : forall t v e s, well_typed t -> s_encodes t v e -> rust_write t v s = (s ++ e, Ok tt).
Proof. exact rust_writes. Qed.
Print Assumptions C60_rust_agrees.

(** A write that returns has written an encoding. Missing: strings and lists too
    long for a length of 16 bits, see [C60_refuted]. *)
Theorem C60_wrote_partial : forall t v b d b', representable t v -> written b d -> s_write t v b = Ok b' ->
  exists e, s_encodes t v e /\ written b' (d ++ e).
Proof. exact swift_wrote. Qed.
Print Assumptions C60_wrote_partial.

(** Exactly: a value is not written, with a trap, if and only if something in it
    is too long for a length of 8, 32 or 64 bits. If it is written, it is as its
    encoding if and only if no string or list is too long for a length of 16 bits,
    no string to be ended by 0 contains one and the items of arrays have the size
    that was declared. *)
Theorem C60_writes_exact : forall t v b d, well_typed t -> swift_value t v -> written b d ->
  (s_write t v b = Panic <-> too_long t v) /\
  (~ too_long t v -> exists b' e, s_write t v b = Ok b' /\ written b' (d ++ e) /\ (s_encodes t v e <-> representable t v)).
Proof. exact swift_writes_exact. Qed.
Print Assumptions C60_writes_exact.

(** A string of 65536 bytes is written with the length 0. *)
Theorem C60_refuted : forall dec m, exists s b, is_utf8 s /\
  s_write (SVarchar LE 2) (SS s) db_empty = Ok b /\ ~ (exists e, s_encodes (SVarchar LE 2) (SS s) e) /\
  s_from dec m (SVarchar LE 2) b = Panic.
Proof. exact long_truncated. Qed.
Print Assumptions C60_refuted.

(** Other widths of the length trap. *)
Theorem C60_too_long : forall o sz s b, sz <> 2%nat -> tmod sz <= len s ->
  s_write (SVarchar o sz) (SS s) b = Panic.
Proof. exact too_long_traps. Qed.
Print Assumptions C60_too_long.
Theorem C60_too_many : forall o sz t l b, sz <> 2%nat -> tmod sz <= len l ->
  s_write (SList o sz t) (SL l) b = Panic.
Proof. exact too_many_traps. Qed.
Print Assumptions C60_too_many.

(** ** C61: what Swift reads *)

(** Plain values are read wherever they are, with their size. *)
Theorem C61_reads_partial : forall dec m t v e s b, decodes_utf8 dec -> well_typed t -> plain t v ->
  s_encodes_lax t v e -> holds b (e ++ s) -> s_from dec m t b = Ok (Z.of_nat (length e), v).
Proof. exact swift_reads. Qed.
Print Assumptions C61_reads_partial.

(** Nothing else is, except strings ended by 0 at the start of the storage: an
    encoding is read back, with its size, exactly if the value is plain or is
    such a string. *)
Theorem C61_reads_exact : forall dec m t v e s b, decodes_utf8 dec -> never_shrinks dec ->
  well_typed t -> array_items_numbers t -> s_encodes_lax t v e -> holds b (e ++ s) ->
  (s_from dec m t b = Ok (Z.of_nat (length e), v) <->
   plain t v \/ (t = SNts /\ v <> SS [] /\ db_start b = 0%Z)).
Proof. exact swift_reads_exact. Qed.
Print Assumptions C61_reads_exact.

(** A string ended by 0 is read at the start of the storage ... *)
Theorem C61_nts_partial : forall dec m s e r b, decodes_utf8 dec -> s <> [] ->
  s_encodes_lax SNts (SS s) e -> holds b (e ++ r) -> db_start b = 0%Z ->
  s_from dec m SNts b = Ok (Z.of_nat (length e), SS s).
Proof. exact nts_at_start. Qed.
Print Assumptions C61_nts_partial.

(** ... but not elsewhere. *)
Theorem C61_nts_refuted : exists b s e, is_utf8 s /\ s_encodes SNts (SS s) e /\ holds b e /\
  forall m, s_from (fun s => s) m SNts b = Ok (Z.of_nat (length e + 1), SS (s ++ [0])).
Proof. exact nts_elsewhere. Qed.
Print Assumptions C61_nts_refuted.

(** The size of an optional value that is there is one short. *)
Theorem C61_optional_refuted : forall dec m t v e s b, decodes_utf8 dec -> well_typed t -> plain t v ->
  s_encodes_lax (SOpt t) (SO (Some v)) e -> holds b (e ++ s) ->
  s_from dec m (SOpt t) b = Ok (Z.of_nat (length e) - 1, SO (Some v))%Z.
Proof. exact optional_present. Qed.
Print Assumptions C61_optional_refuted.

(** Empty strings and lists trap. *)
Theorem C61_empty_string_refuted : forall dec m o sz e s b, uint_size sz ->
  s_encodes_lax (SVarchar o sz) (SS []) e -> holds b (e ++ s) -> s_from dec m (SVarchar o sz) b = Panic.
Proof. exact empty_varchar_traps. Qed.
Print Assumptions C61_empty_string_refuted.
Theorem C61_empty_nts_refuted : forall dec m s b, holds b (0%N :: s) -> db_start b = 0%Z -> s_from dec m SNts b = Panic.
Proof. exact empty_nts_traps. Qed.
Print Assumptions C61_empty_nts_refuted.
Theorem C61_empty_list_refuted : forall dec m o sz t e s b, uint_size sz ->
  s_encodes_lax (SList o sz t) (SL []) e -> holds b (e ++ s) -> s_from dec m (SList o sz t) b = Panic.
Proof. exact empty_list_traps. Qed.
Print Assumptions C61_empty_list_refuted.

(** What is not UTF-8 is not reported but converted. *)
Theorem C61_utf8_refuted : forall dec m o sz s p r b, uint_size sz -> s <> [] ->
  number (endian o) sz (len s) p -> holds b (p ++ s ++ r) ->
  s_from dec m (SVarchar o sz) b = Ok (Z.of_nat (length p + length s), SS (dec s)).
Proof. exact invalid_utf8. Qed.
Print Assumptions C61_utf8_refuted.

(** Numbers that are cut short are reported, and strings whose 0 is missing at the
    end of the storage. *)
Theorem C61_truncated : forall dec m o sz b d, holds b d -> (length d < sz)%nat ->
  s_from dec m (SVal o sz) b = Err STruncated.
Proof. exact value_truncated. Qed.
Print Assumptions C61_truncated.
Theorem C61_nts_truncated : forall dec m b d, holds_before b d [] -> ~ In 0 d -> s_from dec m SNts b = Err STruncated.
Proof. exact nts_truncated. Qed.
Print Assumptions C61_nts_truncated.

Theorem C61_optional_truncated : forall dec m t b, holds b [] -> s_from dec m (SOpt t) b = Err STruncated.
Proof. exact optional_truncated. Qed.
Print Assumptions C61_optional_truncated.
Theorem C61_prefix_truncated : forall dec m o sz b d, holds b d -> (length d < sz)%nat ->
  s_from dec m (SVarchar o sz) b = Err STruncated /\
  (forall t, s_from dec m (SList o sz t) b = Err STruncated) /\
  (forall k t, s_from dec m (SArray o sz k t) b = Err STruncated).
Proof. exact prefix_truncated. Qed.
Print Assumptions C61_prefix_truncated.

(** A string cut short is not reported: it traps in debug builds, and bytes behind
    the window are read otherwise. *)
Theorem C61_short_string_refuted : forall dec o sz p n d b, uint_size sz -> number (endian o) sz n p ->
  holds b (p ++ d) -> len d < n -> s_from dec Debug (SVarchar o sz) b = Panic.
Proof. exact varchar_short_traps. Qed.
Print Assumptions C61_short_string_refuted.
Theorem C61_beyond_refuted : exists b d s, holds b d /\ is_utf8 s /\ (db_size b < Z.of_nat (length s))%Z /\
  s_from (fun s => s) Release (SVarchar LE 1) b = Ok (4%Z, SS s).
Proof. exact varchar_beyond. Qed.
Print Assumptions C61_beyond_refuted.

(** A length of 2^63 or more traps in every build: eight bytes of input are enough. *)
Theorem C61_huge_length_refuted : forall dec m o sz p n d b t k, uint_size sz -> number (endian o) sz n p ->
  holds b (p ++ d) -> 2 ^ 63 <= n ->
  s_from dec m (SVarchar o sz) b = Panic /\ s_from dec m (SList o sz t) b = Panic /\
  s_from dec m (SArray o sz k t) b = Panic.
Proof. exact huge_length_traps. Qed.
Print Assumptions C61_huge_length_refuted.
(** An array of items of [k] bytes that is cut short is reported, unless its size does
    not fit in an Int. *)
Theorem C61_array_cut_exact : forall dec m o sz p n d b t k, uint_size sz -> number (endian o) sz n p ->
  holds b (p ++ d) -> (0 < k)%Z -> (Z.of_nat (length d) < Z.of_N n * k)%Z ->
  s_from dec m (SArray o sz k t) b =
  if (Z.of_nat sz + Z.of_N n * k <? 2 ^ 63)%Z then Err STruncated else Panic.
Proof. exact array_cut. Qed.
Print Assumptions C61_array_cut_exact.
(** A list of numbers that is cut short is reported. *)
Theorem C61_list_cut_partial : forall dec m o sz p n d b o' sz', uint_size sz -> uint_size sz' ->
  number (endian o) sz n p -> holds b (p ++ d) -> bytes_ok d -> len d < n * N.of_nat sz' -> n < 2 ^ 63 ->
  s_from dec m (SList o sz (SVal o' sz')) b = Err STruncated.
Proof. exact list_cut. Qed.
Print Assumptions C61_list_cut_partial.

(** Numbers and lists of numbers that are read are there. *)
Theorem C61_sound_partial : forall dec m t b d k v, well_typed t -> numeric t -> holds b d -> bytes_ok d ->
  s_from dec m t b = Ok (k, v) -> exists e s, d = e ++ s /\ k = Z.of_nat (length e) /\ s_encodes t v e.
Proof. exact swift_sound. Qed.
Print Assumptions C61_sound_partial.

(** ** C62: the codecs of structures *)

(** On a window of the size of the type, bytes and bits are read as in Rust. *)
Theorem C62_byte_read : forall m o sz b w, uint_size sz -> holds b w -> bytes_ok w -> length w = sz ->
  same_read (s_byte_read m o sz b) (byte_read o sz w).
Proof. exact byte_read_same. Qed.
Print Assumptions C62_byte_read.
Theorem C62_bit_read : forall m m' o sz bo bs b w, uint_size sz -> holds b w -> bytes_ok w -> length w = sz ->
  bits_fit o sz bo bs -> same_read (s_bit_read m o sz bo bs b) (bit_read m' o sz bo bs w).
Proof. exact bit_read_same. Qed.
Print Assumptions C62_bit_read.

(** Bytes are written as in Rust, and so are bits of 16 and 64 bit numbers. *)
Theorem C62_byte_write : forall m o sz v b w, holds b w -> untouched b -> length w = sz ->
  same_write b (s_byte_write m o sz v b) (byte_write o sz w v).
Proof. exact byte_write_same. Qed.
Print Assumptions C62_byte_write.
Theorem C62_bit_write_partial : forall m m' o sz bo bs v b w, sz = 2%nat \/ sz = 8%nat -> holds b w -> untouched b ->
  bytes_ok w -> length w = sz -> bits_fit o sz bo bs ->
  same_write b (s_bit_write m o sz bo bs v b) (bit_write m' o sz bo bs w v).
Proof. exact bit_write_same. Qed.
Print Assumptions C62_bit_write_partial.

(** Writing bits of an 8 or 32 bit number traps. *)
Theorem C62_bit_write_refuted : forall m o sz bo bs v b w, sz = 1%nat \/ sz = 4%nat -> holds b w -> bytes_ok w ->
  length w = sz -> bits_fit o sz bo bs -> s_bit_write m o sz bo bs v b = Panic.
Proof. exact bit_write_traps. Qed.
Print Assumptions C62_bit_write_refuted.

(** On a window of another size, bits are read as in Rust when the storage goes
    on behind the window, and the read traps when it does not. *)
Theorem C62_unaligned_read_partial : forall m m' sz bo bs b w x after, uint_size sz -> holds_before b w (x :: after) ->
  bytes_ok (w ++ [x]) -> length w <> sz -> (length w <= 8)%nat -> bits_fit LE sz bo bs -> bo + bs <= 8 * N.of_nat sz ->
  bo + bs <= 8 * len w ->
  same_read (s_bit_read m LE sz bo bs b) (bit_read m' LE sz bo bs w).
Proof. exact bit_read_unaligned_same. Qed.
Print Assumptions C62_unaligned_read_partial.
Theorem C62_unaligned_read_refuted : forall m o sz bo bs b w, holds_before b w [] -> length w <> sz ->
  s_bit_read m o sz bo bs b = Panic /\ s_byte_read m o sz b = Panic.
Proof. exact unaligned_read_traps. Qed.
Print Assumptions C62_unaligned_read_refuted.

(** Three bytes read as a 32 bit number include the one behind them. *)
Theorem C62_unaligned_bytes_refuted : exists b w, holds b w /\ forall m,
  s_byte_read m LE 4 b = Ok 0x04030201 /\ byte_read (E:=rerror) LE 4 w = Ok 0x030201.
Proof. exact unaligned_bytes. Qed.
Print Assumptions C62_unaligned_bytes_refuted.

(** Writes to a window of another size do not depend on the value, and clobber
    bytes behind the window. *)
Theorem C62_lost_bytes_refuted : forall m o sz v v' b w, uint_size sz -> holds b w -> length w <> sz ->
  s_byte_write m o sz v b = s_byte_write m o sz v' b.
Proof. exact byte_write_ignores. Qed.
Print Assumptions C62_lost_bytes_refuted.
Theorem C62_lost_bits_refuted : forall m o sz bo bs v v' b w, uint_size sz -> holds b w -> length w <> sz ->
  s_bit_write m o sz bo bs v b = s_bit_write m o sz bo bs v' b.
Proof. exact bit_write_ignores. Qed.
Print Assumptions C62_lost_bits_refuted.
Theorem C62_clobbered_refuted : exists b w, holds_before b w [4; 9; 9; 9; 9; 9; 9] /\ forall m, exists b',
  s_byte_write m LE 4 77 b = Ok b' /\ db_data b' = [1; 2; 3; 4; 0; 0; 0; 0; 9; 9].
Proof. exact unaligned_overwrites. Qed.
Print Assumptions C62_clobbered_refuted.

(** Exactly what they do: eight bytes are written, which are the old ones and zeros; or they trap. *)
Theorem C62_unaligned_bytes_exact : forall m o sz v b w x after, uint_size sz -> holds_before b w (x :: after) -> untouched b ->
  length w <> sz -> exists b', s_byte_write m o sz v b = Ok b' /\ copied_over b w x after b'.
Proof. exact byte_write_unaligned_exact. Qed.
Print Assumptions C62_unaligned_bytes_exact.
Theorem C62_unaligned_bits_exact : forall m o sz bo bs v b w x after, uint_size sz -> holds_before b w (x :: after) -> untouched b ->
  bytes_ok (w ++ [x]) -> length w <> sz -> bits_fit o sz bo bs ->
  ((sz = 2%nat \/ sz = 8%nat) /\ exists b', s_bit_write m o sz bo bs v b = Ok b' /\ copied_over b w x after b') \/
  ((sz = 1%nat \/ sz = 4%nat) /\ s_bit_write m o sz bo bs v b = Panic).
Proof. exact bit_write_unaligned_exact. Qed.
Print Assumptions C62_unaligned_bits_exact.
Theorem C62_unaligned_write_refuted : forall m o sz bo bs v b w, holds_before b w [] -> length w <> sz ->
  s_bit_write m o sz bo bs v b = Panic /\ s_byte_write m o sz v b = Panic.
Proof. exact unaligned_write_traps. Qed.
Print Assumptions C62_unaligned_write_refuted.

Example C62_unaligned_nonvacuous :
  let b := {| db_data := [7; 1; 2; 3; 4; 9]; db_mut := true; db_start := 1; db_end := 4; db_cursor := 1 |} in
  holds_before b [1; 2; 3] [4; 9] /\ untouched b /\ bits_fit LE 2 3 10 /\
  (exists b', s_byte_write Debug LE 4 77 b = Ok b' /\ db_data b' = [7; 1; 2; 3; 4; 0; 0; 0; 0]).
Proof.
  cbv zeta. split; [exists [7]; repeat split; reflexivity|]. split; [reflexivity|]. split; [repeat split; try reflexivity; discriminate|].
  eexists. split; reflexivity.
Qed.

(** The second write through a buffer goes behind its window. *)
Theorem C62_second_write_refuted : exists b w b1 b2, holds b w /\ untouched b /\
  s_byte_write Debug LE 1 5 b = Ok b1 /\ s_byte_write Debug LE 1 6 b1 = Ok b2 /\
  db_data b2 = [5; 6] /\ byte_write (E:=rerror) LE 1 [5] 6 = Ok [6].
Proof. exact second_write. Qed.
Print Assumptions C62_second_write_refuted.

(** Items of arrays, when they have the size of their type. *)
Theorem C62_array_count : forall sz b d, uint_size sz -> holds b d ->
  exists n, s_array_count (8 * Z.of_nat sz) b = Ok (Z.of_N n) /\ array_len (E:=rerror) (8 * N.of_nat sz) d = Ok n.
Proof. exact array_count_same. Qed.
Print Assumptions C62_array_count.
Theorem C62_array_get : forall m m' o sz b d i, uint_size sz -> holds b d -> bytes_ok d ->
  (N.of_nat sz * (i + 1) <= len d) ->
  same_read (s_array_get m o sz (8 * Z.of_nat sz) b (Z.of_N i)) (array_get_raw m' o sz (8 * N.of_nat sz) d i).
Proof. exact array_get_same. Qed.
Print Assumptions C62_array_get.
Theorem C62_array_set_partial : forall m m' o sz b d i v, uint_size sz -> holds b d -> db_mut b = true ->
  (N.of_nat sz * (i + 1) <= len d) ->
  exists d' b', array_set_raw (E:=rerror) m' o sz (8 * N.of_nat sz) d i v = Ok d' /\
    s_array_set m o sz (8 * Z.of_nat sz) b (Z.of_N i) v = Ok b' /\ stored b d' b' /\ holds b' d'.
Proof. exact array_set_same. Qed.
Print Assumptions C62_array_set_partial.

(** An index outside of the array traps in a debug build; any other build reads the
    bytes that lie there in the storage, in front of the array for a negative index. *)
Theorem C62_array_outside_debug : forall o sz b d i, uint_size sz -> holds b d ->
  (i < 0 \/ Z.of_nat (length d) < Z.of_nat sz * (i + 1))%Z ->
  s_array_get Debug o sz (8 * Z.of_nat sz) b i = Panic.
Proof. exact array_outside_debug. Qed.
Print Assumptions C62_array_outside_debug.
Theorem C62_array_outside_refuted : forall o sz b i x y z n, uint_size sz ->
  db_data b = x ++ y ++ z -> (Z.of_nat (length (db_data b)) < 2 ^ 63)%Z -> (0 <= db_start b < 2 ^ 63)%Z ->
  Z.of_nat (length x) = (db_start b + Z.of_nat sz * i)%Z -> number (endian o) sz n y ->
  s_array_get Release o sz (8 * Z.of_nat sz) b i = Ok n.
Proof. exact array_outside_release. Qed.
Print Assumptions C62_array_outside_refuted.
(** Setting such an item traps in a debug build, and otherwise overwrites the bytes
    that lie there. *)
Theorem C62_array_set_outside_debug : forall o sz b d i v, uint_size sz -> holds b d ->
  (i < 0 \/ Z.of_nat (length d) < Z.of_nat sz * (i + 1))%Z ->
  s_array_set Debug o sz (8 * Z.of_nat sz) b i v = Panic.
Proof. exact array_set_outside_debug. Qed.
Print Assumptions C62_array_set_outside_debug.
Theorem C62_array_set_outside_refuted : forall o sz b i x y z v, uint_size sz -> db_mut b = true ->
  db_data b = x ++ y ++ z -> (Z.of_nat (length (db_data b)) < 2 ^ 63)%Z -> (0 <= db_start b < 2 ^ 63)%Z ->
  Z.of_nat (length x) = (db_start b + Z.of_nat sz * i)%Z -> length y = sz -> v < tmod sz ->
  exists b' y', s_array_set Release o sz (8 * Z.of_nat sz) b i v = Ok b' /\
    db_data b' = x ++ y' ++ z /\ number (endian o) sz v y' /\ db_start b' = db_start b /\ db_end b' = db_end b.
Proof. exact array_set_outside_release. Qed.
Print Assumptions C62_array_set_outside_refuted.
Example C62_array_outside_nonvacuous :
  let b := {| db_data := [7; 1; 2; 3; 4; 9]; db_mut := false; db_start := 1; db_end := 5; db_cursor := 1 |} in
  holds b [1; 2; 3; 4] /\ db_data b = [] ++ [7] ++ [1; 2; 3; 4; 9] /\ number (endian LE) 1 7 [7] /\
  s_array_get Release LE 1 8 b (-1) = Ok 7 /\ s_array_get Release LE 1 8 b 4 = Ok 9 /\ s_array_get Debug LE 1 8 b (-1) = Panic /\
  (exists b', s_array_set Release LE 1 8 {| db_data := db_data b; db_mut := true; db_start := 1; db_end := 5; db_cursor := 1 |} (-1) 55 = Ok b' /\
    db_data b' = [55; 1; 2; 3; 4; 9]).
Proof.
  cbv zeta. split; [exists [7], [9]; repeat split|]. split; [reflexivity|].
  split; [split; [reflexivity|split; [repeat constructor|reflexivity]]|].
  repeat (split; [vm_compute; reflexivity|]). eexists. split; vm_compute; reflexivity.
Qed.

(** An item set in a buffer made of constant data is lost. *)
Theorem C62_array_set_refuted : forall m o sz ibs b i v b', db_mut b = false -> s_array_set m o sz ibs b i v = Ok b' -> b' = b.
Proof. exact array_set_const. Qed.
Print Assumptions C62_array_set_refuted.

Theorem C62_const_refuted : forall m o sz d i v, uint_size sz -> (Z.of_nat (length d) < 2 ^ 63)%Z -> N.of_nat sz * (i + 1) <= len d ->
  holds (db_of_const d) d /\ s_array_set m o sz (8 * Z.of_nat sz) (db_of_const d) (Z.of_N i) v = Ok (db_of_const d).
Proof. exact const_array. Qed.
Print Assumptions C62_const_refuted.

(** ** C63: writing and reading back *)

Theorem C63_roundtrip_partial : forall dec m t v b, decodes_utf8 dec -> well_typed t -> representable t v -> plain t v ->
  s_write t v db_empty = Ok b -> (db_size b < 2 ^ 63)%Z -> s_from dec m t b = Ok (db_size b, v).
Proof. exact swift_roundtrip. Qed.
Print Assumptions C63_roundtrip_partial.

Theorem C63_clear : forall b d, holds b d -> holds (db_clear b) [] /\ db_is_empty (db_clear b) = true.
Proof. exact clear_empty. Qed.
Print Assumptions C63_clear.

(** A buffer that is cleared is used again, for types without optional values and
    strings ended by 0. *)
Theorem C63_reuse_partial : forall t v e b d, no_flags t -> well_typed t -> s_encodes t v e -> holds b d ->
  exists b', s_write t v (db_clear b) = Ok b' /\ db_to_data b' = Ok e /\ db_size b' = Z.of_nat (length e).
Proof. exact swift_reuse. Qed.
Print Assumptions C63_reuse_partial.

(** Values of every type are written to a cleared buffer whose storage is longer
    than their encoding, or has no byte left. *)
Theorem C63_reuse_longer_partial : forall t v e b d after, well_typed t -> s_encodes t v e -> holds_before b d after ->
  d ++ after = [] \/ (length e < length (d ++ after))%nat ->
  exists b', s_write t v (db_clear b) = Ok b' /\ db_to_data b' = Ok e /\ db_size b' = Z.of_nat (length e).
Proof. exact swift_reuse_room. Qed.
Print Assumptions C63_reuse_longer_partial.

(** Writing [nil, nil] to a buffer that held [7]. *)
Theorem C63_reuse_refuted : forall dec m, exists b1 b2,
  s_write opts first_value db_empty = Ok b1 /\
  s_write opts second_value (db_clear b1) = Ok b2 /\
  s_encodes opts second_value [2; 0; 0] /\
  db_to_data b2 = Ok [2; 0; 7] /\
  s_from dec m opts b2 = Err STruncated.
Proof. exact reuse_refuted. Qed.
Print Assumptions C63_reuse_refuted.

(** ** The hypotheses are met *)

Definition pairs := SList BE 2 (SArray LE 1 4 (SVal LE 4)).
Definition pairs_value := SL [SL [SN 1; SN 0xFFFFFFFF]; SL [SN 0x01020304]].
Definition pairs_bytes := [0; 2; 2; 1; 0; 0; 0; 255; 255; 255; 255; 1; 4; 3; 2; 1].

Example pairs_typed : well_typed pairs.
Proof. cbn. unfold uint_size. auto 10. Qed.
Example pairs_encoded : s_encodes pairs pairs_value pairs_bytes.
Proof.
  exists [0; 2], [[2; 1; 0; 0; 0; 255; 255; 255; 255]; [1; 4; 3; 2; 1]]. split; [|split; [|reflexivity]].
  - split; [reflexivity|]. split; [repeat constructor|reflexivity].
  - constructor; [|constructor; [|constructor]].
    + exists [2], [[1; 0; 0; 0]; [255; 255; 255; 255]]. split; [|split; [|split; [|reflexivity]]].
      * split; [reflexivity|]. split; [repeat constructor|reflexivity].
      * constructor; [|constructor; [|constructor]]; (split; [reflexivity|]; split; [repeat constructor|reflexivity]).
      * repeat constructor.
    + exists [1], [[4; 3; 2; 1]]. split; [|split; [|split; [|reflexivity]]].
      * split; [reflexivity|]. split; [repeat constructor|reflexivity].
      * constructor; [|constructor]. split; [reflexivity|]. split; [repeat constructor|reflexivity].
      * repeat constructor.
Qed.
Example pairs_plain : plain pairs pairs_value /\ numeric pairs /\ no_flags pairs.
Proof. repeat split; try discriminate; repeat constructor; discriminate. Qed.
Example pairs_exact : array_items_numbers pairs /\ decodes_utf8 (fun s => s) /\ never_shrinks (fun s => s) /\
  array_items_numbers (SOpt SNts) /\ ~ plain (SOpt SNts) (SO (Some (SS [65]))) /\
  s_encodes (SOpt SNts) (SO (Some (SS [65]))) [1; 65; 0].
Proof.
  split; [reflexivity|]. split; [intros s _; reflexivity|]. split; [intros d; apply le_n|]. split; [exact I|]. split; [intros []|].
  cbn. exists 1, [65; 0]. repeat split; try reflexivity.
  - exists [65]. split; [constructor; [left; reflexivity|constructor]|reflexivity].
  - constructor; [discriminate|constructor].
Qed.
Example reuse_longer : s_encodes (SOpt (SVal LE 1)) (SO (Some (SN 9))) [1; 9] /\
  exists b, holds_before b [7; 7; 7] [] /\ exists b', s_write (SOpt (SVal LE 1)) (SO (Some (SN 9))) (db_clear b) = Ok b' /\
  db_data b' = [1; 9; 7].
Proof.
  split. { exists 1, [9]. repeat split; repeat constructor. }
  exists {| db_data := [7; 7; 7]; db_mut := true; db_start := 0; db_end := 3; db_cursor := 3 |}. split.
  - exists []. repeat split.
  - eexists. split; [vm_compute; reflexivity|reflexivity].
Qed.
Example pairs_value_exact : swift_value pairs pairs_value /\ ~ too_long pairs pairs_value /\
  swift_value (SVarchar LE 1) (SS (repeat 65 256)) /\ too_long (SVarchar LE 1) (SS (repeat 65 256)) /\
  swift_value SNts (SS [0]) /\ ~ representable SNts (SS [0]).
Proof.
  split; [repeat constructor|]. split.
  { intros [(_ & H)|H]; [exact (H eq_refl)|]. inversion H as [? ? H1|? ? H1]; subst.
    - destruct H1 as [(_ & H1)|H1]; [exact (H1 eq_refl)|]. inversion H1 as [? ? H2|? ? H2]; subst; [exact H2|].
      inversion H2 as [? ? H3|? ? H3]; subst; [exact H3|inversion H3].
    - inversion H1 as [? ? H2|? ? H2]; subst; [|inversion H2]. destruct H2 as [(_ & H2)|H2]; [exact (H2 eq_refl)|].
      inversion H2 as [? ? H3|? ? H3]; subst; [exact H3|inversion H3]. }
  split.
  { exists (repeat 65 256). split; [|reflexivity]. apply Forall_forall. intros x H. apply repeat_spec in H. subst x. left. reflexivity. }
  split; [split; [discriminate|intros H; discriminate H]|]. split.
  - exists [0]. split; [constructor; [left; reflexivity|constructor]|reflexivity].
  - intros (_ & H). inversion H. congruence.
Qed.
Example pairs_representable : representable pairs pairs_value.
Proof.
  split; [reflexivity|]. repeat constructor; try (intros; reflexivity); intros e (H & _); cbn in H; rewrite H; reflexivity.
Qed.
Example pairs_written : exists b, s_write pairs pairs_value db_empty = Ok b /\ written b pairs_bytes /\
  forall m, s_from (fun s => s) m pairs b = Ok (16%Z, pairs_value).
Proof. eexists. split; [vm_compute; reflexivity|]. split; [reflexivity|]. intros []; vm_compute; reflexivity. Qed.

(** A window in the middle of its storage: 12 bits of a big endian number. *)
Definition middle : dbuf := {| db_data := [9; 0xAB; 0xF0; 8]; db_mut := true; db_start := 1; db_end := 3; db_cursor := 1 |}.
Example middle_holds : holds_before middle [0xAB; 0xF0] [8] /\ untouched middle /\ bits_fit BE 2 0 12.
Proof. split; [exists [9]; repeat split|]. split; [reflexivity|]. repeat split; discriminate. Qed.
Example middle_read : forall m, s_bit_read m BE 2 0 12 middle = Ok 0xABF.
Proof. intros []; reflexivity. Qed.
Example middle_unaligned : bits_fit LE 4 3 10 /\ forall m, s_bit_read m LE 4 3 10 middle = Ok 0x215.
Proof. split; [repeat split; discriminate|]. intros []; vm_compute; reflexivity. Qed.
Example middle_array : forall m, s_array_get m BE 1 8 middle 1 = Ok 0xF0 /\
  exists b, s_array_set m BE 1 8 middle 1 7 = Ok b /\ db_data b = [9; 0xAB; 7; 8].
Proof. intros []; (split; [reflexivity|]; eexists; split; vm_compute; reflexivity). Qed.

(** Lengths that say too much: 2^63 items, 2^62 items of 4 bytes, 3 items of which 2
    are there. *)
Example cut_lengths :
  number (endian BE) 8 (2 ^ 63) [128; 0; 0; 0; 0; 0; 0; 0] /\ holds (db_of_bytes [128; 0; 0; 0; 0; 0; 0; 0]) ([128; 0; 0; 0; 0; 0; 0; 0] ++ []) /\
  s_from (fun s => s) Release (SVarchar BE 8) (db_of_bytes [128; 0; 0; 0; 0; 0; 0; 0]) = Panic /\
  s_from (fun s => s) Release (SArray BE 8 4 (SVal LE 4)) (db_of_bytes [64; 0; 0; 0; 0; 0; 0; 0]) = Panic /\
  s_from (fun s => s) Release (SArray BE 8 4 (SVal LE 4)) (db_of_bytes [16; 0; 0; 0; 0; 0; 0; 0]) = Err STruncated /\
  s_from (fun s => s) Debug (SList LE 1 (SVal LE 1)) (db_of_bytes [3; 7; 8]) = Err STruncated.
Proof.
  split; [split; [reflexivity|split; [repeat constructor|vm_compute; reflexivity]]|].
  split; [exists [], []; repeat split|]. repeat split; vm_compute; reflexivity.
Qed.
