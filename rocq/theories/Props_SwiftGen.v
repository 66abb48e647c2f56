(** Property C64: the code of the Swift generator. *)

From Coq Require Import Arith NArith ZArith Ascii String List Bool.
From Verif Require Import Base Schema Codec Compiler Access SpecStruct Runtime Driver GenText SpecGen SpecCode
  Swift SpecSwift SpecSwiftGen Samples SwiftGenThms SwiftGetThms.
Import ListNotations.
Local Open Scope N_scope.

(** ** The file *)

(** One file, with the lines of [swift_structure_lines] for each structure; it has
    the name of the Rust file. Fields for which Rust panics panic here. *)
Theorem C64_file : forall fm p, Forall (fun s => Forall field_generates (s_fields s)) (p_structs p) ->
  swift_files fm p =
  Ok [{| fi_ty := StructureFile; fi_name := "structures.rs"%string;
         fi_data := joined (map (swift_structure_lines (type_path_get (p_type_path_by_name p)) (fm_f64 fm)) (p_structs p)) |}].
Proof. exact swift_file. Qed.
Print Assumptions C64_file.
Theorem C64_file_panic : forall fm p, ~ Forall (fun s => Forall field_generates (s_fields s)) (p_structs p) ->
  swift_files fm p = Panic.
Proof. exact swift_file_panic. Qed.
Print Assumptions C64_file_panic.

(** The accessors of a scalar declared at bits [o .. o+w) are those of [placed o w]. *)
Theorem C64_accessors : forall m enums structs id d s i f o w path show,
  structure_from_model m Little enums structs id d = Ok s -> no_overflow m structs d ->
  nth_error (s_fields s) i = Some (FFixed f) -> declared_at structs d i o w -> 0 < w <= 64 ->
  swift_getter_lines path show (FFixed f) = (swift_raw_getter (ff_name f) (placed o w) ++ swift_view_getter path show f)%list /\
  swift_setter_lines path show (FFixed f) =
    (swift_raw_setter (ff_name f) (placed o w) ++ swift_view_setter path show f (placed o w))%list.
Proof.
  exact (fun m enums structs id d s i f o w path show H Hno Hf Hd Hw =>
    swift_accessor_text m enums structs id d s i f o w H Hno Hf Hd Hw path show).
Qed.
Print Assumptions C64_accessors.
Theorem C64_type_names : forall t, swift_type t = swift_type_text t.
Proof. exact swift_type_names. Qed.
Print Assumptions C64_type_names.

(** The setters are lines of Rust: the code is not Swift as soon as there is a
    scalar. *)
Theorem C64_setters_refuted : forall path show s f a, In (FFixed f) (s_fields s) -> gen_fixed (E:=Empty_set) f = Ok a ->
  In ("impl<T: AsMut<[u8]>> " ++ s_name s ++ "<T> {")%string (swift_structure_lines path show s) /\
  In ("    pub fn set_raw_" ++ ff_name f ++ "(&mut self, value: " ++ swift_unsigned (ac_raw a) ++ ") {")%string
    (swift_structure_lines path show s).
Proof. exact swift_setters_rust. Qed.
Print Assumptions C64_setters_refuted.

(** ** What the raw getters compute *)

(** Scalars in 1, 2, 4 or 8 bytes: what the Rust getter returns. *)
Theorem C64_getter_partial : forall m mr mg enums structs id d s i f o w b data,
  structure_from_model m Little enums structs id d = Ok s -> no_overflow m structs d ->
  nth_error (s_fields s) i = Some (FFixed f) -> declared_at structs d i o w -> 0 < w <= 64 ->
  holds b data -> s_byte_size s <= len data -> bytes_ok data -> N.of_nat (storage_bytes w) = ceil8 w ->
  same_read (swift_get mr (placed o w) b) (get_raw mg f data).
Proof.
  exact (fun m mr mg enums structs id d s i f o w b data H Hno Hf Hd Hw =>
    swift_get_aligned m mr enums structs id d s i f o w H Hno Hf Hd Hw mg b data).
Qed.
Print Assumptions C64_getter_partial.

(** Scalars of 3, 5, 6 or 7 bytes that are not whole bytes: the same, if the storage
    goes on behind them. *)
Theorem C64_getter_bits_partial : forall m mr mg enums structs id d s i f o w b data after,
  structure_from_model m Little enums structs id d = Ok s -> no_overflow m structs d ->
  nth_error (s_fields s) i = Some (FFixed f) -> declared_at structs d i o w -> 0 < w <= 64 ->
  holds_before b data after -> s_byte_size s <= len data -> bytes_ok (data ++ after) ->
  w mod 8 <> 0 -> N.of_nat (storage_bytes w) <> ceil8 w ->
  o mod 8 + w <= 8 * ceil8 w -> o / 8 + ceil8 w < len (data ++ after) ->
  same_read (swift_get mr (placed o w) b) (get_raw mg f data).
Proof.
  exact (fun m mr mg enums structs id d s i f o w b data after H Hno Hf Hd Hw =>
    swift_get_bits m mr enums structs id d s i f o w H Hno Hf Hd Hw mg b data after).
Qed.
Print Assumptions C64_getter_bits_partial.

(** Scalars of 3, 5, 6 or 7 whole bytes: the byte behind them is added on top. *)
Theorem C64_getter_refuted : forall m mr mg enums structs id d s i f o w b data after,
  structure_from_model m Little enums structs id d = Ok s -> no_overflow m structs d ->
  nth_error (s_fields s) i = Some (FFixed f) -> declared_at structs d i o w -> 0 < w <= 64 ->
  holds_before b data after -> s_byte_size s <= len data -> bytes_ok (data ++ after) ->
  w mod 8 = 0 -> N.of_nat (storage_bytes w) <> ceil8 w -> o / 8 + ceil8 w < len (data ++ after) ->
  exists n, get_raw (E:=rerror) mg f data = Ok n /\
    swift_get mr (placed o w) b = Ok (n + 2 ^ w * nth (N.to_nat (o / 8 + ceil8 w)) (data ++ after) 0).
Proof.
  exact (fun m mr mg enums structs id d s i f o w b data after H Hno Hf Hd Hw =>
    swift_get_behind m mr enums structs id d s i f o w H Hno Hf Hd Hw mg b data after).
Qed.
Print Assumptions C64_getter_refuted.

(** Both trap at the end of the storage. *)
Theorem C64_getter_trap_refuted : forall m mr enums structs id d s i f o w b data,
  structure_from_model m Little enums structs id d = Ok s -> no_overflow m structs d ->
  nth_error (s_fields s) i = Some (FFixed f) -> declared_at structs d i o w -> 0 < w <= 64 ->
  holds_before b data [] -> len data = s_byte_size s ->
  N.of_nat (storage_bytes w) <> ceil8 w -> o / 8 + ceil8 w = s_byte_size s ->
  swift_get mr (placed o w) b = Panic.
Proof.
  exact (fun m mr enums structs id d s i f o w b data H Hno Hf Hd Hw =>
    swift_get_traps m mr enums structs id d s i f o w H Hno Hf Hd Hw b data).
Qed.
Print Assumptions C64_getter_trap_refuted.

(** Arrays and structures in a structure are windows on their bytes. *)
Theorem C64_part : forall m loc b d, holds b d -> l_byte_offset loc + l_byte_size loc <= len d ->
  exists w, swift_part m loc b = Ok w /\
    holds w (firstn (N.to_nat (l_byte_size loc)) (skipn (N.to_nat (l_byte_offset loc)) d)).
Proof. exact part_window. Qed.
Print Assumptions C64_part.

(** ** Structures *)

(** Reading a structure takes its bytes, as in Rust, or reports that some are
    missing; the empty structure traps in debug builds. *)
Theorem C64_from_partial : forall m size b d, holds b d -> 0 < size <= len d ->
  exists w, swift_structure_from m size b = Ok (size, w) /\ holds w (firstn (N.to_nat size) d) /\
    struct_from_slice size d = Ok (size, firstn (N.to_nat size) d).
Proof. exact structure_from_ok. Qed.
Print Assumptions C64_from_partial.
Theorem C64_from_truncated : forall m size b d, holds b d -> len d < size ->
  swift_structure_from m size b = Err STruncated /\ struct_from_slice size d = Err Truncated.
Proof. exact structure_from_truncated. Qed.
Print Assumptions C64_from_truncated.
Theorem C64_from_empty_refuted : forall b d, holds b d -> swift_structure_from Debug 0 b = Panic.
Proof. exact structure_from_empty. Qed.
Print Assumptions C64_from_empty_refuted.
Theorem C64_write_partial : forall s d b e, holds s d -> d <> [] -> written b e ->
  exists b', swift_structure_write s b = Ok b' /\ written b' (e ++ d).
Proof. exact structure_write_ok. Qed.
Print Assumptions C64_write_partial.

(** ** The hypotheses are met *)

Definition demo_window : dbuf := db_of_bytes demo_buf.
Example demo_window_holds : holds_before demo_window demo_buf [] /\ holds demo_window demo_buf /\ bytes_ok demo_buf.
Proof.
  split; [exists []; repeat split|]. split; [exists [], []; repeat split|]. repeat constructor.
Qed.
Example demo_generates : Forall field_generates (s_fields demo_s).
Proof. vm_compute. repeat constructor; discriminate. Qed.
Example demo_text : nth_error (s_fields demo_s) 1 = Some (FFixed (demo_fixed 1)) /\ declared_at [] demo 1 3 5 /\
  swift_raw_getter "b" (placed 3 5) =
    ["    public raw_b: UInt8 {";
     "        BP3DProto.BP3DProto.BitCodecLE.readAligned(UInt8.self, self.data[0...1], bitOffset: 3, bitSize: 5)";
     "";
     "    }"]%string.
Proof.
  split; [reflexivity|]. split; [split; [reflexivity|eexists; split; reflexivity]|]. vm_compute. reflexivity.
Qed.
(** "b" is read as in Rust, "c" with the byte of "color" on top. *)
Example demo_read : forall m, swift_get m (placed 3 5) demo_window = Ok 20 /\
  get_raw (E:=rerror) m (demo_fixed 1) demo_buf = Ok 20.
Proof. intros []; split; vm_compute; reflexivity. Qed.
Example demo_behind : declared_at [] demo 2 8 24 /\ (forall m, swift_get m (placed 8 24) demo_window = Ok 0x01FF0201) /\
  (forall m, get_raw (E:=rerror) m (demo_fixed 2) demo_buf = Ok 0xFF0201).
Proof.
  split; [split; [reflexivity|eexists; split; reflexivity]|]. split; intros []; vm_compute; reflexivity.
Qed.
