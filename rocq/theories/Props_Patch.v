(** Property theorems C85: a structure inside a received message, read and changed in place. *)

From Coq Require Import Arith NArith String List Bool.
From Verif Require Import Base Schema Codec Compiler Access Bits SpecStruct Runtime Gen SpecOffsets SpecStream SpecDecode SpecPatch PatchThms
  StructRefute Samples SamplesComp SamplesMsg SamplesPatch.
Import ListNotations.
Local Open Scope N_scope.
Local Open Scope string_scope.

(** The bytes where the offsets say a structure is are the structure, and other bytes of its size there
    change this structure and nothing else. [free d] only asks that unions which take their discriminant
    from the structure find the same one. *)
Theorem C85_structure : forall m emb x b n v o pos s data again free, len b < 2 ^ 64 -> bytes_ok b ->
  read_msg_offsets m emb x b = Ok (n, (v, o)) -> structure_at m emb x v o pos s data again free -> 0 < s_byte_size s ->
  pos + s_byte_size s <= n /\ n <= len b /\ window b pos (pos + s_byte_size s) = data /\ again data = v /\
  forall d, len d = s_byte_size s -> bytes_ok d -> free d ->
    len (overwrite b pos d) = len b /\ read_msg m emb x (overwrite b pos d) = Ok (n, again d).
Proof. exact structure_in_place. Qed.
Print Assumptions C85_structure.

(** So the getter of a field on these bytes gives what the declared bits of the message hold, and its
    setter changes these bits of the message only. *)
Theorem C85_field : forall E mc m emb enums structs id dd s i f fo w x b n v o pos data again free,
  structure_from_model mc Little enums structs id dd = Ok s -> no_overflow mc structs dd ->
  nth_error (s_fields s) i = Some (FFixed f) -> declared_at structs dd i fo w -> 0 < w <= 64 -> addressable fo w ->
  len b < 2 ^ 64 -> bytes_ok b ->
  read_msg_offsets m emb x b = Ok (n, (v, o)) -> structure_at m emb x v o pos s data again free ->
  (exists r, get_raw (E:=E) m f data = Ok r /\ is_field_value b (8 * pos + fo) w r) /\
  (forall r, exists data', set_raw (E:=E) m f data r = Ok data' /\
     is_field_update b (8 * pos + fo) w r (overwrite b pos data') /\
     (free data' -> read_msg m emb x (overwrite b pos data') = Ok (n, again data'))).
Proof. exact field_in_place. Qed.
Print Assumptions C85_field.

(** A position in an optional nested message, in an array and in an item of a list, all in one message. *)
Example C85_nonvacuous : bytes_ok fleet_b /\
  read_msg_offsets Debug fleet_emb fleet_x fleet_b = Ok (31, (fleet_v, fleet_o)) /\
  (exists again free, structure_at Debug fleet_emb fleet_x fleet_v fleet_o 5 pos_s [1; 2; 3] again free /\ (forall d, free d) /\
     again [7; 7; 7] = VMsg [VOpt (Some (VMsg [VStr bob; VStruct [7; 7; 7]])); VListing [10; 11; 12; 13; 14; 15] 2;
       VListing (box_b eve [4; 5; 6] ++ box_b bob [7; 8; 9])%list 2]) /\
  (exists again free, structure_at Debug fleet_emb fleet_x fleet_v fleet_o 12 pos_s [13; 14; 15] again free /\ (forall d, free d)) /\
  (exists again free, structure_at Debug fleet_emb fleet_x fleet_v fleet_o 28 pos_s [7; 8; 9] again free /\ (forall d, free d)) /\
  structure_from_model Debug Little [] [] 0 pos_d = Ok pos_s /\ nth_error (s_fields pos_s) 1 = Some (FFixed pos_y) /\
  declared_at [] pos_d 1 12 12 /\ addressable 12 12 /\ s_byte_size pos_s = 3 /\
  get_raw (E:=cerror) Debug pos_y [7; 8; 9] = Ok 144.
Proof.
  split; [repeat constructor|]. split; [exact fleet_read|]. split; [exact fleet_inside|]. split; [exact fleet_item|].
  split; [exact fleet_element|]. split; [vm_compute; reflexivity|]. split; [reflexivity|]. split; [solve_at|].
  split; [vm_compute; discriminate|]. split; vm_compute; reflexivity.
Qed.
