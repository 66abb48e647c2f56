(** Property theorems for C78: what decoding gives for every message and every byte string.
    [decodes], with its cases for every kind of member, is in SpecDecode. *)

From Coq Require Import Arith NArith ZArith Ascii String List Bool Lia.
From Verif Require Import Base Schema Codec Bits Compiler Access Runtime Gen SpecWire SpecUnion SpecDecode DecodeThms
  Samples SamplesComp SamplesMsg MsgRefute.
Import ListNotations.
Local Open Scope N_scope.

(** The reader returns a value and a size exactly if the specification finds this value in that many
    bytes; it returns an error exactly if the specification stops with it; it panics exactly where
    the specification says so. *)
Theorem C78_decode_exact : forall m emb x b, len b < 2 ^ 64 -> bytes_ok b ->
  (forall n v, read_msg m emb x b = Ok (n, v) <-> exists c r, b = c ++ r /\ n = len c /\ decodes m emb x b (Found c v r)) /\
  (forall e, read_msg m emb x b = Err e <-> decodes m emb x b (Stops (Reports e))) /\
  (read_msg m emb x b = Panic <-> decodes m emb x b (Stops Crashes)).
Proof. exact decode_exact. Qed.
Print Assumptions C78_decode_exact.

(** The specification gives exactly one result for every input. *)
Theorem C78_deterministic : forall m emb x b, len b < 2 ^ 64 -> bytes_ok b ->
  exists o, decodes m emb x b o /\ forall o', decodes m emb x b o' -> o' = o.
Proof. exact decode_deterministic. Qed.
Print Assumptions C78_deterministic.

(** A frame and one more byte; a packet cut behind the first item of its array; cut in its note;
    an array of 2^62 items of 4 bytes, with and without overflow checks. *)
Example C78_nonvacuous :
  len (frame_b ++ [9]) < 2 ^ 64 /\ bytes_ok (frame_b ++ [9]) /\
  decodes Debug extra_emb frame_x (frame_b ++ [9]) (Found frame_b frame_v [9]) /\
  decodes Debug main_emb packet_x (firstn 20 packet_b) (Stops (Reports Truncated)) /\
  decodes Release main_emb packet_x (firstn 7 packet_b) (Stops Crashes) /\
  decodes Debug extra_emb big_x [0; 0; 0; 0; 0; 0; 0; 64] (Stops Crashes) /\
  decodes Release extra_emb big_x [0; 0; 0; 0; 0; 0; 0; 64]
    (Found [0; 0; 0; 0; 0; 0; 0; 64] (VMsg [VListing [] (2 ^ 62)]) []).
Proof.
  assert (Hby : forall k, bytes_ok (firstn k (packet_b ++ [9]))).
  { intro k. assert (H : bytes_ok (packet_b ++ [9])) by (vm_compute; repeat constructor).
    unfold bytes_ok in *. rewrite Forall_forall in *. intros a Ha. apply H.
    rewrite <- (firstn_skipn k (packet_b ++ [9])). apply in_or_app. left. exact Ha. }
  assert (Hfr : bytes_ok (frame_b ++ [9])) by (vm_compute; repeat constructor).
  split; [vm_compute; reflexivity|]. split; [exact Hfr|].
  split.
  { destruct (C78_decode_exact Debug extra_emb frame_x (frame_b ++ [9])) as (H & _ & _); [vm_compute; reflexivity|exact Hfr|].
    destruct (proj1 (H 21 frame_v)) as (c & r & Hb & Hn & Hd); [vm_compute; reflexivity|].
    assert (c = frame_b /\ r = [9]) as [-> ->]; [|exact Hd].
    split.
    - transitivity (firstn 21 (c ++ r)); [|rewrite <- Hb; reflexivity].
      replace 21%nat with (length c) by (unfold len in Hn; lia). rewrite firstn_app, firstn_all, Nat.sub_diag, firstn_O, app_nil_r. reflexivity.
    - transitivity (skipn 21 (c ++ r)); [|rewrite <- Hb; reflexivity].
      replace 21%nat with (length c) by (unfold len in Hn; lia). rewrite skipn_app, skipn_all, Nat.sub_diag. reflexivity. }
  split.
  { destruct (C78_decode_exact Debug main_emb packet_x (firstn 20 packet_b)) as (_ & H & _);
      [vm_compute; reflexivity|exact (Hby 20%nat)|]. apply H. vm_compute. reflexivity. }
  split.
  { destruct (C78_decode_exact Release main_emb packet_x (firstn 7 packet_b)) as (_ & _ & H);
      [vm_compute; reflexivity|exact (Hby 7%nat)|]. apply H. vm_compute. reflexivity. }
  split.
  { destruct (C78_decode_exact Debug extra_emb big_x [0; 0; 0; 0; 0; 0; 0; 64]) as (_ & _ & H);
      [vm_compute; reflexivity|vm_compute; repeat constructor|]. apply H. vm_compute. reflexivity. }
  destruct (C78_decode_exact Release extra_emb big_x [0; 0; 0; 0; 0; 0; 0; 64]) as (H & _ & _);
    [vm_compute; reflexivity|vm_compute; repeat constructor|].
  destruct (proj1 (H 8 (VMsg [VListing [] (2 ^ 62)]))) as (c & r & Hb & Hn & Hd); [vm_compute; reflexivity|].
  assert (Hlen : length c = 8%nat) by (unfold len in Hn; lia).
  assert (r = []) as ->. { apply (f_equal (@length N)) in Hb. rewrite app_length, Hlen in Hb. destruct r; [reflexivity|cbn in Hb; lia]. }
  rewrite app_nil_r in Hb. rewrite <- Hb in Hd. exact Hd.
Qed.
