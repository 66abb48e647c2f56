(** Property C101: the views of the Swift code read what the views of the Rust code read. *)

From Coq Require Import Arith NArith ZArith Ascii String List Bool.
From Verif Require Import Base Schema Codec Compiler Access SpecStruct Runtime GenText SpecGen SpecCode
  Swift SpecSwift SpecSwiftGen Samples SwiftView SpecSwiftView SwiftViewThms SwiftArray SwiftChain SamplesSwiftView.
Import ListNotations.
Local Open Scope N_scope.

(** Scalars in 1, 2, 4 or 8 bytes: both languages show the same value, except for a
    number in a gap of an enumeration. *)
Theorem C101_view_exact : forall m mr mg enums structs id d s i f o w b data n,
  structure_from_model m Little enums structs id d = Ok s -> no_overflow m structs d ->
  nth_error (s_fields s) i = Some (FFixed f) -> declared_at structs d i o w -> 0 < w <= 64 ->
  from_description f ->
  holds b data -> s_byte_size s <= len data -> bytes_ok data -> N.of_nat (storage_bytes w) = ceil8 w ->
  get_raw (E:=rerror) mg f data = Ok n ->
  (same_view (swift_get_view mr f (placed o w) b) (get_view mg f data) <-> without_gap f n).
Proof.
  exact (fun m mr mg enums structs id d s i f o w b data n H Hno Hf Hd Hw =>
    view_exact m mr mg enums structs id d s i f o w H Hno Hf Hd Hw b data n).
Qed.
Print Assumptions C101_view_exact.

(** Scalars in 3, 5, 6 or 7 bytes that are not whole bytes: the same, if the storage
    goes on behind them. *)
Theorem C101_bits_exact : forall m mr mg enums structs id d s i f o w b data after n,
  structure_from_model m Little enums structs id d = Ok s -> no_overflow m structs d ->
  nth_error (s_fields s) i = Some (FFixed f) -> declared_at structs d i o w -> 0 < w <= 64 ->
  from_description f ->
  holds_before b data after -> s_byte_size s <= len data -> bytes_ok (data ++ after) ->
  w mod 8 <> 0 -> N.of_nat (storage_bytes w) <> ceil8 w ->
  o mod 8 + w <= 8 * ceil8 w -> o / 8 + ceil8 w < len (data ++ after) ->
  get_raw (E:=rerror) mg f data = Ok n ->
  (same_view (swift_get_view mr f (placed o w) b) (get_view mg f data) <-> without_gap f n).
Proof.
  exact (fun m mr mg enums structs id d s i f o w b data after n H Hno Hf Hd Hw =>
    view_bits m mr mg enums structs id d s i f o w H Hno Hf Hd Hw b data after n).
Qed.
Print Assumptions C101_bits_exact.

(** Numbers of 3, 5, 6 or 7 whole bytes, when the byte behind them is not zero: an
    unsigned view shows a larger number, a signed view shows a number that is not
    negative as a negative one. *)
Theorem C101_behind_refuted : forall m mr mg enums structs id d s i f o w b data after,
  structure_from_model m Little enums structs id d = Ok s -> no_overflow m structs d ->
  nth_error (s_fields s) i = Some (FFixed f) -> declared_at structs d i o w -> 0 < w <= 64 ->
  holds_before b data after -> s_byte_size s <= len data -> bytes_ok (data ++ after) ->
  w mod 8 = 0 -> N.of_nat (storage_bytes w) <> ceil8 w -> o / 8 + ceil8 w < len (data ++ after) ->
  nth (N.to_nat (o / 8 + ceil8 w)) (data ++ after) 0 <> 0 ->
  (ff_view f = VNone -> exists n k, n < 2 ^ w /\ k <> 0 /\
     get_view (E:=rerror) mg f data = Ok (XInt (Z.of_N n)) /\
     swift_get_view mr f (placed o w) b = Ok (XInt (Z.of_N (n + 2 ^ w * k)))) /\
  (forall mp, ff_view f = VSignedCast mp -> exists z, (- 2 ^ (Z.of_N w - 1) <= z < 2 ^ (Z.of_N w - 1))%Z /\
     get_view (E:=rerror) mg f data = Ok (XInt z) /\
     swift_get_view mr f (placed o w) b = Ok (XInt (if (z <? 0)%Z then z else (z - 2 ^ (Z.of_N w - 1))%Z))).
Proof.
  exact (fun m mr mg enums structs id d s i f o w b data after H Hno Hf Hd Hw =>
    view_behind m mr mg enums structs id d s i f o w H Hno Hf Hd Hw b data after).
Qed.
Print Assumptions C101_behind_refuted.

(** All of these trap in Swift at the end of the storage, and are read in Rust. *)
Theorem C101_trap_refuted : forall m mr mg enums structs id d s i f o w b data,
  structure_from_model m Little enums structs id d = Ok s -> no_overflow m structs d ->
  nth_error (s_fields s) i = Some (FFixed f) -> declared_at structs d i o w -> 0 < w <= 64 ->
  holds_before b data [] -> len data = s_byte_size s ->
  N.of_nat (storage_bytes w) <> ceil8 w -> o / 8 + ceil8 w = s_byte_size s -> bytes_ok data ->
  swift_get_view mr f (placed o w) b = Panic /\ exists x, get_view (E:=rerror) mg f data = Ok x.
Proof.
  exact (fun m mr mg enums structs id d s i f o w b data H Hno Hf Hd Hw =>
    view_traps m mr mg enums structs id d s i f o w H Hno Hf Hd Hw b data).
Qed.
Print Assumptions C101_trap_refuted.

(** Arrays of [k] unsigned numbers, the only items the Swift runtime has, of [c] bytes.
    With 1, 2, 4 or 8 bytes both languages read the same items. *)
Theorem C101_array_same : forall m mr mg enums structs id d s i df f c k o b data n,
  structure_from_model m Little enums structs id d = Ok s -> no_overflow m structs d ->
  nth_error (ss_fields d) i = Some df -> sf_info df = STUnsigned (8 * c) -> sf_array_len df = Some k ->
  nth_error (s_fields s) i = Some (FArray f) -> declared_at structs d i o (8 * c * k) ->
  holds b data -> s_byte_size s <= len data -> bytes_ok data ->
  N.of_nat (storage_bytes (8 * c)) = c -> n < k ->
  same_read (swift_array_item mr f b (Z.of_N n)) (arr_get mg f data n).
Proof.
  exact (fun m mr mg enums structs id d s i df f c k o b data n H Hno Hd Hi Hk Hf Hat =>
    swift_array_same m enums structs id d s i df f c k o H Hno Hd Hi Hk Hf Hat mr mg b data n).
Qed.
Print Assumptions C101_array_same.

(** Arrays of numbers of 3, 5, 6 or 7 bytes: the byte behind the item is read as its
    highest byte, and an item at the end of the storage traps. *)
Theorem C101_array_behind_refuted : forall m mr mg enums structs id d s i df f c k o b data after n,
  structure_from_model m Little enums structs id d = Ok s -> no_overflow m structs d ->
  nth_error (ss_fields d) i = Some df -> sf_info df = STUnsigned (8 * c) -> sf_array_len df = Some k ->
  nth_error (s_fields s) i = Some (FArray f) -> declared_at structs d i o (8 * c * k) ->
  holds_before b data after -> s_byte_size s <= len data -> bytes_ok (data ++ after) ->
  N.of_nat (storage_bytes (8 * c)) <> c -> n < k ->
  (o / 8 + c * (n + 1) < len (data ++ after) ->
   exists v, arr_get (E:=rerror) mg f data n = Ok v /\
     swift_array_item mr f b (Z.of_N n) =
       Ok (v + 2 ^ (8 * c) * nth (N.to_nat (o / 8 + c * (n + 1))) (data ++ after) 0)) /\
  (o / 8 + c * (n + 1) = len (data ++ after) ->
   (exists v, arr_get (E:=rerror) mg f data n = Ok v) /\ swift_array_item mr f b (Z.of_N n) = Panic).
Proof.
  exact (fun m mr mg enums structs id d s i df f c k o b data after n H Hno Hd Hi Hk Hf Hat =>
    swift_array_behind m enums structs id d s i df f c k o H Hno Hd Hi Hk Hf Hat mr mg b data after n).
Qed.
Print Assumptions C101_array_behind_refuted.

(** Writing such an item of 1, 2, 4 or 8 bytes leaves the bytes that Rust leaves. *)
Theorem C101_array_assign_same : forall m mr mg enums structs id d s i df f c k o b data n v,
  structure_from_model m Little enums structs id d = Ok s -> no_overflow m structs d ->
  nth_error (ss_fields d) i = Some df -> sf_info df = STUnsigned (8 * c) -> sf_array_len df = Some k ->
  nth_error (s_fields s) i = Some (FArray f) -> declared_at structs d i o (8 * c * k) ->
  holds b data -> db_mut b = true -> s_byte_size s <= len data ->
  N.of_nat (storage_bytes (8 * c)) = c -> n < k ->
  exists data' b', arr_set (E:=rerror) mg f data n v = Ok data' /\
    swift_array_assign mr f b (Z.of_N n) v = Ok b' /\ stored b data' b'.
Proof.
  exact (fun m mr mg enums structs id d s i df f c k o b data n v H Hno Hd Hi Hk Hf Hat =>
    swift_array_assign_same m enums structs id d s i df f c k o H Hno Hd Hi Hk Hf Hat mr mg b data n v).
Qed.
Print Assumptions C101_array_assign_same.

(** Writing an item of 3, 5, 6 or 7 bytes does the same for every value in Swift, and
    leaves other bytes for other values in Rust. *)
Theorem C101_array_assign_refuted : forall m mr mg enums structs id d s i df f c k o b data n v v',
  structure_from_model m Little enums structs id d = Ok s -> no_overflow m structs d ->
  nth_error (ss_fields d) i = Some df -> sf_info df = STUnsigned (8 * c) -> sf_array_len df = Some k ->
  nth_error (s_fields s) i = Some (FArray f) -> declared_at structs d i o (8 * c * k) ->
  holds b data -> s_byte_size s <= len data -> bytes_ok data ->
  N.of_nat (storage_bytes (8 * c)) <> c -> n < k -> v < 2 ^ (8 * c) -> v' < 2 ^ (8 * c) -> v <> v' ->
  swift_array_assign mr f b (Z.of_N n) v = swift_array_assign mr f b (Z.of_N n) v' /\
  exists data1 data2, arr_set (E:=rerror) mg f data n v = Ok data1 /\ arr_set (E:=rerror) mg f data n v' = Ok data2 /\
    data1 <> data2.
Proof.
  exact (fun m mr mg enums structs id d s i df f c k o b data n v v' H Hno Hd Hi Hk Hf Hat =>
    swift_array_assign_lost m enums structs id d s i df f c k o H Hno Hd Hi Hk Hf Hat mr mg b data n v v').
Qed.
Print Assumptions C101_array_assign_refuted.

(** A scalar in 1, 2, 4 or 8 bytes at the end of a chain of structure fields, wherever
    these start: both languages read the same number. *)
Theorem C101_chain_same : forall m mr mg structs name s path o w b data,
  built m structs -> sget name structs = Some s -> path_at s path o w -> 0 < w <= 64 ->
  N.of_nat (storage_bytes w) = ceil8 w -> holds b data -> s_byte_size s <= len data -> bytes_ok data ->
  same_read (swift_path_get mr s path b) (path_get mg s path data).
Proof. exact chain_same. Qed.
Print Assumptions C101_chain_same.

(** A chain of structure fields ends at the same bytes in both languages, so that the
    theorems above hold there too. *)
Theorem C101_chain_part_same : forall m mr structs name s path r b data,
  built m structs -> sget name structs = Some s -> leads_to s path r ->
  holds b data -> s_byte_size s <= len data -> bytes_ok data ->
  exists w x, swift_path_part mr s path b = Ok (r, w) /\ rust_path_part (E:=rerror) s path data = Ok (r, x) /\
    holds w x /\ s_byte_size r <= len x /\ bytes_ok x.
Proof. exact chain_part. Qed.
Print Assumptions C101_chain_part_same.

(** ** The hypotheses are met *)

Example chain_part_met : leads_to outer_s [1%nat] inner_s /\
  rust_path_part (E:=rerror) outer_s [1%nat] [1; 48; 18; 4] = Ok (inner_s, [48; 18]) /\
  exists w, swift_path_part Debug outer_s [1%nat] (db_of_bytes [1; 48; 18; 4]) = Ok (inner_s, w) /\ holds w [48; 18].
Proof.
  split; [eapply leads_on; [reflexivity|constructor]|]. split; [vm_compute; reflexivity|].
  eexists. split; [vm_compute; reflexivity|]. exists [1], [4]. repeat split.
Qed.

Example chain_met :
  built Debug outer_structs /\ sget "Outer" outer_structs = Some outer_s /\
  path_at outer_s [1%nat; 1%nat] 12 12 /\ N.of_nat (storage_bytes 12) = ceil8 12 /\
  holds (db_of_bytes [1; 48; 18; 4]) [1; 48; 18; 4] /\ s_byte_size outer_s <= len [1; 48; 18; 4] /\
  swift_path_get Debug outer_s [1%nat; 1%nat] (db_of_bytes [1; 48; 18; 4]) = Ok 291.
Proof.
  split.
  { assert (Hi : built Debug [("Inner"%string, inner_s)]).
    { apply (built_def Debug [] [] 0 inner inner_s "Inner" []); [constructor| | |constructor].
      - vm_compute. reflexivity.
      - left. reflexivity. }
    apply (built_def Debug [] [("Inner"%string, inner_s)] 0 outer outer_s "Outer" [("Inner"%string, inner_s)]); try exact Hi.
    - vm_compute. reflexivity.
    - left. reflexivity. }
  split; [reflexivity|]. split.
  { change 12 with (total_bits (firstn 1 (s_fields outer_s)) + 4) at 1.
    eapply path_struct; [reflexivity|].
    change 4 with (total_bits (firstn 1 (s_fields inner_s))).
    refine (path_scalar inner_s 1 (second_fixed inner_s) _). reflexivity. }
  split; [reflexivity|]. split; [exists [], []; repeat split|].
  split; [vm_compute; discriminate|]. vm_compute. reflexivity.
Qed.

(** The words are 0x0201, 0x0403, 0x0605; the marks are 0x090807 and 0x0c0b0a. *)
Example rows_compiles : structure_from_model Debug Little sample_enums [] 0 rows = Ok rows_s /\
  no_overflow Debug [] rows /\ len rows_buf = s_byte_size rows_s /\ bytes_ok rows_buf /\
  holds_before rows_window rows_buf [] /\ holds rows_window rows_buf /\
  nth_error (s_fields rows_s) 0 = Some (FArray (rows_array 0)) /\ declared_at [] rows 0 0 (8 * 2 * 3) /\
  nth_error (s_fields rows_s) 1 = Some (FArray (rows_array 1)) /\ declared_at [] rows 1 48 (8 * 3 * 2) /\
  N.of_nat (storage_bytes (8 * 2)) = 2 /\ N.of_nat (storage_bytes (8 * 3)) <> 3.
Proof.
  split; [vm_compute; reflexivity|]. split; [left; reflexivity|]. split; [reflexivity|].
  split; [repeat constructor|]. split; [exists []; repeat split|]. split; [exists [], []; repeat split|].
  split; [reflexivity|]. split; [split; [reflexivity|eexists; split; reflexivity]|].
  split; [reflexivity|]. split; [split; [reflexivity|eexists; split; reflexivity]|].
  split; [reflexivity|discriminate].
Qed.
Example rows_assign : db_mut rows_window = true /\ holds rows_window rows_buf /\
  exists b', swift_array_assign Debug (rows_array 0) rows_window 1 0xabcd = Ok b' /\
    db_data b' = [1; 2; 0xcd; 0xab; 5; 6; 7; 8; 9; 10; 11; 12].
Proof.
  split; [reflexivity|]. split; [exists [], []; repeat split|]. eexists. split; vm_compute; reflexivity.
Qed.
(** A mark is not written, but the bytes behind it are cleared and the storage grows. *)
Example rows_assign_lost :
  exists b', swift_array_assign Debug (rows_array 1) rows_window 0 0xabcdef = Ok b' /\
    db_data b' = [1; 2; 3; 4; 5; 6; 7; 8; 9; 10; 0; 0; 0; 0] /\
    arr_set (E:=rerror) Debug (rows_array 1) rows_buf 0 0xabcdef = Ok [1; 2; 3; 4; 5; 6; 0xef; 0xcd; 0xab; 10; 11; 12].
Proof. eexists. split; [vm_compute; reflexivity|]. split; vm_compute; reflexivity. Qed.
Example rows_read :
  swift_array_item Debug (rows_array 0) rows_window 2 = Ok 0x0605 /\
  arr_get (E:=rerror) Debug (rows_array 0) rows_buf 2 = Ok 0x0605 /\
  swift_array_item Debug (rows_array 1) rows_window 0 = Ok 0x0a090807 /\
  arr_get (E:=rerror) Debug (rows_array 1) rows_buf 0 = Ok 0x090807 /\
  swift_array_item Debug (rows_array 1) rows_window 1 = Panic /\
  arr_get (E:=rerror) Debug (rows_array 1) rows_buf 1 = Ok 0x0c0b0a.
Proof. vm_compute. repeat split. Qed.


Example dial_compiles : structure_from_model Debug Little sample_enums [] 0 dial = Ok dial_s /\
  no_overflow Debug [] dial /\ len dial_buf = s_byte_size dial_s /\ bytes_ok dial_buf /\
  holds_before dial_window dial_buf [] /\ holds dial_window dial_buf.
Proof.
  split; [vm_compute; reflexivity|]. split; [left; reflexivity|]. split; [reflexivity|].
  split; [repeat constructor|]. split; [exists []; repeat split|exists [], []; repeat split].
Qed.
(** "color" and "small" show the same in both languages. *)
Example dial_same :
  nth_error (s_fields dial_s) 1 = Some (FFixed (dial_fixed 1)) /\ declared_at [] dial 1 24 8 /\
  from_description (dial_fixed 1) /\ without_gap (dial_fixed 1) 2 /\
  get_raw (E:=rerror) Release (dial_fixed 1) dial_buf = Ok 2 /\
  swift_get_view Debug (dial_fixed 1) (placed 24 8) dial_window = Ok (XEnum (Some 2)) /\
  declared_at [] dial 3 40 5 /\
  swift_get_view Debug (dial_fixed 3) (placed 40 5) dial_window = Ok (XInt (-2)).
Proof.
  split; [reflexivity|]. split; [split; [reflexivity|eexists; split; reflexivity]|].
  split; [intros e He; exists color; injection He as <-; reflexivity|].
  split; [left; vm_compute; auto|]. split; [reflexivity|]. split; [vm_compute; reflexivity|].
  split; [split; [reflexivity|eexists; split; reflexivity]|vm_compute; reflexivity].
Qed.
(** The number 3 is in the gap of "hole". *)
Example dial_gap :
  nth_error (s_fields dial_s) 2 = Some (FFixed (dial_fixed 2)) /\ declared_at [] dial 2 32 8 /\
  from_description (dial_fixed 2) /\ ~ without_gap (dial_fixed 2) 3 /\
  get_view (E:=rerror) Debug (dial_fixed 2) dial_buf = Ok (XEnum (Some 3)) /\
  swift_get_view Debug (dial_fixed 2) (placed 32 8) dial_window = Ok (XEnum None).
Proof.
  split; [reflexivity|]. split; [split; [reflexivity|eexists; split; reflexivity]|].
  split; [intros e He; exists holes; injection He as <-; reflexivity|].
  split; [vm_compute; intros [[X|[X|[]]]|X]; discriminate|]. split; vm_compute; reflexivity.
Qed.
(** "turn" holds 5 and is shown as 5 - 2^23; "wide", the last field, traps. *)
Example dial_behind :
  nth_error (s_fields dial_s) 0 = Some (FFixed (dial_fixed 0)) /\ declared_at [] dial 0 0 24 /\
  get_view (E:=rerror) Debug (dial_fixed 0) dial_buf = Ok (XInt 5) /\
  swift_get_view Debug (dial_fixed 0) (placed 0 24) dial_window = Ok (XInt (5 - 2 ^ 23)) /\
  nth_error (s_fields dial_s) 4 = Some (FFixed (dial_fixed 4)) /\ declared_at [] dial 4 45 19 /\
  swift_get_view Debug (dial_fixed 4) (placed 45 19) dial_window = Panic.
Proof.
  split; [reflexivity|]. split; [split; [reflexivity|eexists; split; reflexivity]|].
  split; [vm_compute; reflexivity|]. split; [vm_compute; reflexivity|]. split; [reflexivity|].
  split; [split; [reflexivity|eexists; split; reflexivity]|]. vm_compute. reflexivity.
Qed.
