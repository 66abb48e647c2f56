(** C99: a structure is a record of its scalars and array items, at every depth.
    The vocabulary is in SpecPlace.v. *)

From Coq Require Import Arith NArith String List.
From Verif Require Import Base Schema Bits Codec Compiler Access SpecStruct Samples Runtime Gen SpecOffsets SpecStream SpecPatch
  SamplesMsg SamplesPatch SamplesNest Place SpecPlace PlaceThms PlacePatch PlaceExact SamplesPlace.
Import ListNotations.
Local Open Scope N_scope.

(** Two places of a structure have no bit in common, and all are inside of the
    structure. *)
Theorem C99_apart : forall m structs name s, built m structs -> sget name structs = Some s -> forall path item o w path' item' o' w',
  at_place s path item o w -> at_place s path' item' o' w' ->
  o + w <= s_bit_size s /\ ((path, item) <> (path', item') -> o + w <= o' \/ o' + w' <= o).
Proof. exact apart. Qed.
Print Assumptions C99_apart.

(** After any history of setter calls, each getter gives the last value that was
    written to its place, reduced to its width, or else the value it gave before.
    Missing: places that are not reachable (structures and items that start
    inside of a byte, scalars that do not fit the bytes that are fetched, items
    that are not whole bytes). *)
Theorem C99_record_partial : forall E mr m structs name s, built m structs -> sget name structs = Some s ->
  forall h buf, (forall p v, In (p, v) h -> exists o w, reachable s p o w) ->
  s_byte_size s <= len buf -> bytes_ok buf ->
  exists buf', place_run (E:=E) mr s h buf = Ok buf' /\ length buf' = length buf /\ bytes_ok buf' /\
    forall p o w, reachable s p o w ->
      place_get (E:=E) mr s p buf' =
        match last_written h p with Some v => Ok (v mod 2 ^ w) | None => place_get mr s p buf end.
Proof. exact @places_independent. Qed.
Print Assumptions C99_record_partial.

(** Only the last value written to each place matters: two histories that agree
    on it give the same bytes, in whatever order the setters were called. *)
Theorem C99_order_partial : forall E mr m structs name s, built m structs -> sget name structs = Some s ->
  forall h1 h2 buf, (forall p v, In (p, v) h1 -> exists o w, reachable s p o w) ->
  (forall p v, In (p, v) h2 -> exists o w, reachable s p o w) ->
  (forall p, last_written h1 p = last_written h2 p) -> s_byte_size s <= len buf -> bytes_ok buf ->
  exists buf', place_run (E:=E) mr s h1 buf = Ok buf' /\ place_run (E:=E) mr s h2 buf = Ok buf'.
Proof. exact @order_free. Qed.
Print Assumptions C99_order_partial.

(** Bits outside of the places written keep their value. *)
Theorem C99_outside_partial : forall E mr m structs name s, built m structs -> sget name structs = Some s ->
  forall h buf, (forall p v, In (p, v) h -> exists o w, reachable s p o w) -> s_byte_size s <= len buf -> bytes_ok buf ->
  exists buf', place_run (E:=E) mr s h buf = Ok buf' /\
    forall i, (forall p v o w, In (p, v) h -> reachable s p o w -> i < o \/ o + w <= i) -> bit_at buf' i = bit_at buf i.
Proof. exact @outside_kept. Qed.
Print Assumptions C99_outside_partial.

(** A frame with a structure in a structure and an array in a structure. *)
Example C99_nonvacuous :
  built Debug frame_structs /\ sget "Frame" frame_structs = Some frame_s /\
  reachable frame_s hi_p 28 12 /\ reachable frame_s item_p 56 16 /\ reachable frame_s sum_p 72 16 /\
  s_byte_size frame_s = len frame_b /\ bytes_ok frame_b /\
  frame_h = [(item_p, 513); (hi_p, 4097); (item_p, 65538)] /\
  last_written frame_h hi_p = Some 4097 /\ last_written frame_h item_p = Some 65538 /\ last_written frame_h sum_p = None /\
  place_run (E:=cerror) Debug frame_s frame_h frame_b = Ok [33; 67; 101; 23; 0; 1; 2; 2; 0; 5; 6] /\
  place_get (E:=cerror) Debug frame_s hi_p [33; 67; 101; 23; 0; 1; 2; 2; 0; 5; 6] = Ok 1 /\
  place_get (E:=cerror) Debug frame_s item_p [33; 67; 101; 23; 0; 1; 2; 2; 0; 5; 6] = Ok 2 /\
  place_get (E:=cerror) Debug frame_s sum_p [33; 67; 101; 23; 0; 1; 2; 2; 0; 5; 6] = Ok 1541.
Proof.
  split; [exact frame_built|]. split; [reflexivity|]. split; [exact hi_reach|]. split; [exact item_reach|]. split; [exact sum_reach|].
  split; [reflexivity|]. split; [repeat constructor|]. vm_compute. repeat split.
Qed.

(** The guard is necessary: a structure is a record of all its places if and only
    if all its places are reachable. *)
Theorem C99_exact : forall E mr m structs name s, built m structs -> sget name structs = Some s -> usual s ->
  ((forall h buf, (forall p v, In (p, v) h -> exists o w, at_place s (pl_path p) (pl_item p) o w) ->
      s_byte_size s <= len buf -> bytes_ok buf ->
      exists buf', place_run (E:=E) mr s h buf = Ok buf' /\
        forall p o w, at_place s (pl_path p) (pl_item p) o w ->
          place_get (E:=E) mr s p buf' =
            match last_written h p with Some v => Ok (v mod 2 ^ w) | None => place_get mr s p buf end) <->
   (forall p o w, at_place s (pl_path p) (pl_item p) o w -> reachable s p o w)).
Proof. exact @record_exact. Qed.
Print Assumptions C99_exact.

(** Compiled structures are usual, but for two oddities of descriptions. *)
Theorem C99_usual : forall m enums structs id d s, structure_from_model m Little enums structs id d = Ok s -> no_overflow m structs d ->
  (forall f, In f (ss_fields d) -> sf_array_len f <> Some 0 /\ forall b, sf_info f = STBoolean b -> 0 < b <= 8) ->
  (forall n r, sget n structs = Some r -> usual r) -> usual s.
Proof. exact usual_compiled. Qed.
Print Assumptions C99_usual.

Example C99_usual_nonvacuous : usual frame_s /\ usual odd_x.
Proof. exact (conj frame_usual odd_usual). Qed.

(** The same for a structure inside of a received message (C85): after any
    number of changes of the bytes where the offsets say the structure is, the
    written places of the message hold the last values, all other bits of the
    message are kept, and the message decodes to the same value with this
    structure changed. *)
Theorem C99_message_partial : forall E mc m emb structs name s h x b n v o pos data again free,
  built mc structs -> sget name structs = Some s -> (forall p r, In (p, r) h -> exists po w, reachable s p po w) ->
  len b < 2 ^ 64 -> bytes_ok b ->
  read_msg_offsets m emb x b = Ok (n, (v, o)) -> structure_at m emb x v o pos s data again free -> 0 < s_byte_size s ->
  exists data', place_run (E:=E) m s h data = Ok data' /\ len (overwrite b pos data') = len b /\
    (forall i,
      (forall p r po w, last_written h p = Some r -> reachable s p po w -> 8 * pos + po <= i < 8 * pos + po + w ->
         bit_at (overwrite b pos data') i = N.testbit r (i - (8 * pos + po))) /\
      ((forall p r po w, In (p, r) h -> reachable s p po w -> i < 8 * pos + po \/ 8 * pos + po + w <= i) ->
         bit_at (overwrite b pos data') i = bit_at b i)) /\
    (free data' -> read_msg m emb x (overwrite b pos data') = Ok (n, again data')).
Proof. exact places_in_place. Qed.
Print Assumptions C99_message_partial.

Example C99_message_nonvacuous :
  built Debug pos_structs /\ sget "Pos" pos_structs = Some pos_s /\ reachable pos_s x_p 0 12 /\ reachable pos_s y_p 12 12 /\
  bytes_ok fleet_b /\ read_msg_offsets Debug fleet_emb fleet_x fleet_b = Ok (31, (fleet_v, fleet_o)) /\
  (exists again free, structure_at Debug fleet_emb fleet_x fleet_v fleet_o 28 pos_s [7; 8; 9] again free /\ (forall d, free d)) /\
  0 < s_byte_size pos_s /\ pos_h = [(y_p, 291); (x_p, 1110)] /\ place_run (E:=cerror) Debug pos_s pos_h [7; 8; 9] = Ok [86; 52; 18].
Proof.
  split; [exact pos_built|]. split; [reflexivity|]. split; [exact x_reach|]. split; [exact y_reach|]. split; [repeat constructor|].
  split; [exact fleet_read|]. split; [exact fleet_element|]. vm_compute. auto.
Qed.

(** Two places of a structure that is not byte aligned are not independent: a
    write to a nested scalar changes another field. *)
Theorem C99_shared_refuted : exists s p q v buf buf',
  sget "Odd" odd_structs = Some s /\ built Debug odd_structs /\
  at_place s (pl_path p) (pl_item p) 4 4 /\ at_place s (pl_path q) (pl_item q) 0 4 /\ len buf = s_byte_size s /\ bytes_ok buf /\
  place_get (E:=cerror) Debug s q buf = Ok 0 /\ place_set (E:=cerror) Debug s p buf v = Ok buf' /\ place_get (E:=cerror) Debug s q buf' = Ok 5.
Proof. exact shared_refuted. Qed.
Print Assumptions C99_shared_refuted.
