(** Any number of changes of a structure inside of a received message (C99). *)

From Coq Require Import Arith NArith ZArith List Bool Lia ZifyBool ZifyN ZifyNat.
From Verif Require Import Base Schema Codec Compiler Access Bits BitsFacts SpecStruct StructFacts NestedThms Runtime Gen SpecOffsets SpecStream
  SpecPatch PatchThms StreamThms ReplaceThms Place SpecPlace PlaceThms.
Import ListNotations.
Local Open Scope N_scope.

Theorem places_in_place : forall E mc m emb structs name s h x b n v o pos data again free,
  built mc structs -> sget name structs = Some s -> (forall p r, In (p, r) h -> exists po w, reachable s p po w) ->
  len b < 2 ^ 64 -> bytes_ok b ->
  read_msg_offsets m emb x b = Ok (n, (v, o)) -> structure_at m emb x v o pos s data again free -> 0 < s_byte_size s ->
  exists data', place_run (E:=E) m s h data = Ok data' /\ len (overwrite b pos data') = len b /\
    (forall i,
      (forall p r po w, last_written h p = Some r -> reachable s p po w -> 8 * pos + po <= i < 8 * pos + po + w ->
         bit_at (overwrite b pos data') i = N.testbit r (i - (8 * pos + po))) /\
      ((forall p r po w, In (p, r) h -> reachable s p po w -> i < 8 * pos + po \/ 8 * pos + po + w <= i) ->
         bit_at (overwrite b pos data') i = bit_at b i)) /\
    (free data' -> read_msg m emb x (overwrite b pos data') = Ok (n, again data')).
Proof.
  intros E mc m emb structs name s h x b n v o pos data again free Hbt Hs Hg Hl Hb Ho H Hz.
  pose proof (built_ok _ _ Hbt _ _ Hs) as Hok. pose proof (built_deep _ _ Hbt _ _ Hs) as Hd.
  destruct (patched m emb x v o pos s data again free H Hz b n Hl Hb Ho) as (p & q & -> & -> & Hdl & Hn & _ & HP).
  assert (Hbd : bytes_ok data) by (apply bytes_ok_parts in Hb; destruct Hb as (_ & Hb); apply bytes_ok_parts in Hb; apply Hb).
  destruct (history_bits (E:=E) m s Hok Hd h data Hg ltac:(lia) Hbd) as (data' & R & L & O & B).
  assert (El : len data' = len data) by (unfold len; lia).
  exists data'. split; [exact R|]. rewrite overwrite_app by auto. split; [rewrite !len_app; lia|]. split; [|intro Hf; apply HP; assumption].
  intro i. rewrite !bit_at_app, El. split.
  - intros k r po w HL Hk Hi. pose proof (place_le _ _ _ _ _ Hok (proj1 Hk)) as Hle.
    rewrite (struct_bytes _ Hok) in Hdl. pose proof (ceil8_cover (s_bit_size s)).
    replace (i <? 8 * len p) with false by lia. replace (i - 8 * len p <? 8 * len data) with true by lia.
    rewrite (proj1 (B (i - 8 * len p)) k r po w HL Hk) by lia. f_equal. lia.
  - intro Hout. destruct (N.ltb_spec i (8 * len p)); [reflexivity|]. destruct (N.ltb_spec (i - 8 * len p) (8 * len data)); [|reflexivity].
    apply (proj2 (B (i - 8 * len p))). intros k r po w HL Hk. apply last_in in HL. pose proof (Hout k r po w HL Hk). lia.
Qed.
