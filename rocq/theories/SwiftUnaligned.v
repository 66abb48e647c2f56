(** Proofs for C62: what a write to a window of another size than the type does, and arrays in
    constant buffers. *)

From Coq Require Import Arith NArith ZArith Ascii String List Bool Lia ZifyBool ZifyN ZifyNat.
From Verif Require Import Base Schema Compiler Codec Bits BitsFacts CodecFacts Runtime SpecWire
  Swift SpecSwift SwiftFacts SwiftThms SwiftMore SwiftCodec.
Import ListNotations.
Local Open Scope N_scope.

Lemma write_at_start : forall b before old after x, db_data b = before ++ old ++ after ->
  db_start b = Z.of_nat (length before) -> untouched b ->
  exists b', db_write b x = Ok b' /\ db_data b' = before ++ x ++ skipn (length x) (old ++ after) /\ db_start b' = db_start b /\
    db_end b' = (db_start b + Z.of_nat (length x))%Z /\ db_cursor b' = db_end b'.
Proof.
  intros b before old after x D S C. unfold untouched in C.
  set (b1 := {| db_data := db_data b; db_mut := db_mut b; db_start := db_start b; db_end := db_start b; db_cursor := db_cursor b |}).
  assert (E : db_write b x = db_write b1 x) by reflexivity.
  destruct (write_over b1 before [] (old ++ after) x) as (b' & E' & D' & S' & En' & C').
  { unfold over. cbn [b1 db_data db_start db_end db_cursor app]. repeat split; [exact D|exact S|change (count []) with 0%Z; unfold count; lia|exact C]. }
  exists b'. rewrite E. cbn [app] in *. repeat split; [exact E'|exact D'|..].
  - rewrite S', S. reflexivity.
  - rewrite En', S. unfold count. lia.
  - exact C'.
Qed.

Lemma bit_aligned_writes : forall m o sz bo bs v d, sz = 2%nat \/ sz = 8%nat -> length d = 8%nat -> bytes_ok d -> bits_fit o sz bo bs ->
  exists b', s_bit_write_aligned m o sz bo bs v (db_of_bytes d) = Ok b'.
Proof.
  intros m o sz bo bs v d Hs Hd Hb F.
  assert (Hu : uint_size sz) by (unfold uint_size; lia). pose proof (uint_pos sz Hu) as Hsz.
  pose proof F as (H1 & H2 & H3 & H4). pose proof (shift_small _ _ _ _ F) as Hsh. pose proof (mask_small _ _ _ _ F) as Hmk.
  pose proof (tmod_ge_256 sz ltac:(lia)).
  unfold s_bit_write_aligned. rewrite s_mask_ok by exact H1. cbn [bind].
  rewrite (win_scalar' m o sz (db_of_bytes d) [] d [] (of_bytes_win d ltac:(lia)) Hu ltac:(lia) Hb). cbn [bind].
  rewrite (s_shift_ok _ _ _ _ F). cbv zeta.
  rewrite (from_uint_ok sz (2 ^ bs - 1)) by exact Hmk. cbn [bind].
  rewrite (from_uint_ok sz (shift_of o bo bs)) by lia. cbn [bind].
  assert (Ef : exists r, from_uint sz (tmod 8 - 1 - uint_shl (2 ^ bs - 1) bo) = Ok r).
  { set (u := uint_shl _ _). assert (tmod 8 - 1 - u < tmod 8) by (pose proof (tmod_pos 8); lia).
    destruct Hs as [->| ->]; [eexists; reflexivity|]. unfold from_uint. replace (tmod 8 - 1 - u <? tmod 8) with true by lia. eauto. }
  destruct Ef as (r & ->). cbn [bind]. apply write_copy_ok; [exact Hd|]. rewrite to_bytes_length. lia.
Qed.

Lemma bit_aligned_traps : forall m o sz bo bs v d, sz = 1%nat \/ sz = 4%nat -> length d = 8%nat -> bytes_ok d -> bits_fit o sz bo bs ->
  s_bit_write_aligned m o sz bo bs v (db_of_bytes d) = Panic.
Proof.
  intros m o sz bo bs v d Hs Hd Hb F.
  assert (Hu : uint_size sz) by (unfold uint_size; lia). pose proof (uint_pos sz Hu) as Hsz.
  pose proof F as (H1 & H2 & H3 & H4).
  unfold s_bit_write_aligned. rewrite s_mask_ok by exact H1. cbn [bind]. cbv zeta.
  rewrite (win_scalar' m o sz (db_of_bytes d) [] d [] (of_bytes_win d ltac:(lia)) Hu ltac:(lia) Hb). cbn [bind].
  assert (Hx : uint_shl (2 ^ bs - 1) bo < 2 ^ 40).
  { unfold uint_shl. eapply N.le_lt_trans; [apply N.mod_le; pose proof (tmod_pos 8); lia|].
    rewrite N.shiftl_mul_pow2. assert (0 < 2 ^ bo) by (apply N.neq_0_lt_0, N.pow_nonzero; lia).
    assert (2 ^ bs <> 0) by (apply N.pow_nonzero; lia).
    apply N.lt_le_trans with (2 ^ bs * 2 ^ bo); [nia|]. rewrite <- N.pow_add_r. apply pow2_small. lia. }
  assert (Ef : from_uint sz (tmod 8 - 1 - uint_shl (2 ^ bs - 1) bo) = Panic).
  { set (r := uint_shl _ _) in *. change (tmod 8) with (2 ^ 64).
    assert (Hr : 2 ^ 32 <= 2 ^ 64 - 1 - r) by (change (2 ^ 40) with 1099511627776 in *; change (2 ^ 32) with 4294967296; change (2 ^ 64) with 18446744073709551616; lia).
    destruct Hs as [->| ->]; unfold from_uint.
    - change (tmod 1) with 256. change (2 ^ 32) with 4294967296 in *. replace (2 ^ 64 - 1 - r <? 256) with false by lia. reflexivity.
    - change (tmod 4) with (2 ^ 32). replace (2 ^ 64 - 1 - r <? 2 ^ 32) with false by lia. reflexivity. }
  rewrite Ef. reflexivity.
Qed.

Theorem byte_write_unaligned_exact : forall m o sz v b w x after, uint_size sz -> holds_before b w (x :: after) -> untouched b ->
  length w <> sz -> exists b', s_byte_write m o sz v b = Ok b' /\ copied_over b w x after b'.
Proof.
  intros m o sz v b w x after Hs H C Hne. pose proof (uint_pos sz Hs) as Hsz. destruct (holds_before_win _ _ _ H) as (pre & W).
  destruct H as (before & D & S & E & L).
  unfold s_byte_write. rewrite (win_size _ _ _ _ W). replace (Z.of_nat sz =? count w)%Z with false by (unfold count; lia).
  unfold s_byte_write_unaligned. rewrite (copy_to_ok m b pre w x after W). cbn [bind].
  pose proof (copied_length w x) as Hd. unfold copied_over. fold (copied w x). fold (copied w x) in Hd.
  unfold s_byte_write_aligned. destruct (write_copy_ok (copied w x) (to_bytes o sz v) Hd) as (b1 & ->); [rewrite to_bytes_length; lia|]. cbn [bind].
  destruct (write_at_start b before w (x :: after) (copied w x) D S C) as (b' & E' & D' & S' & En' & C').
  rewrite Hd in D', En'. exists b'. split; [exact E'|]. exists before. repeat split; assumption.
Qed.

Theorem bit_write_unaligned_exact : forall m o sz bo bs v b w x after, uint_size sz -> holds_before b w (x :: after) -> untouched b ->
  bytes_ok (w ++ [x]) -> length w <> sz -> bits_fit o sz bo bs ->
  ((sz = 2%nat \/ sz = 8%nat) /\ exists b', s_bit_write m o sz bo bs v b = Ok b' /\ copied_over b w x after b') \/
  ((sz = 1%nat \/ sz = 4%nat) /\ s_bit_write m o sz bo bs v b = Panic).
Proof.
  intros m o sz bo bs v b w x after Hs H C Hb Hne F. pose proof (uint_pos sz Hs) as Hsz. destruct (holds_before_win _ _ _ H) as (pre & W).
  destruct H as (before & D & S & E & L).
  unfold s_bit_write. rewrite (win_size _ _ _ _ W). replace (Z.of_nat sz =? count w)%Z with false by (unfold count; lia).
  unfold s_bit_write_unaligned. rewrite (copy_to_ok m b pre w x after W). cbn [bind].
  pose proof (copied_length w x) as Hd. fold (copied w x). fold (copied w x) in Hd.
  assert (Hbd : bytes_ok (copied w x)) by (unfold copied; apply bytes_ok_app; split; [apply bytes_ok_firstn, Hb|apply bytes_ok_zeros]).
  assert (K : (sz = 2%nat \/ sz = 8%nat) \/ (sz = 1%nat \/ sz = 4%nat)) by (unfold uint_size in Hs; lia).
  destruct K as [K|K]; [left|right]; (split; [exact K|]).
  - destruct (bit_aligned_writes m o sz bo bs v (copied w x) K Hd Hbd F) as (b1 & ->). cbn [bind].
    destruct (write_at_start b before w (x :: after) (copied w x) D S C) as (b' & E' & D' & S' & En' & C').
    rewrite Hd in D', En'. exists b'. split; [exact E'|]. exists before. repeat split; assumption.
  - rewrite (bit_aligned_traps m o sz bo bs v (copied w x) K Hd Hbd F). reflexivity.
Qed.

Theorem unaligned_write_traps : forall m o sz bo bs v b w, holds_before b w [] -> length w <> sz ->
  s_bit_write m o sz bo bs v b = Panic /\ s_byte_write m o sz v b = Panic.
Proof.
  intros m o sz bo bs v b w H Hne. destruct (holds_before_win _ _ _ H) as (pre & W).
  unfold s_bit_write, s_byte_write, s_bit_write_unaligned, s_byte_write_unaligned. rewrite (win_size _ _ _ _ W).
  replace (Z.of_nat sz =? count w)%Z with false by (unfold count; lia).
  replace (count w) with (db_size b) by (apply (win_size _ _ _ _ W)).
  rewrite (copy_to_trap m b pre w W). split; reflexivity.
Qed.

(** A buffer made of constant data is read as any other, but items set in it are lost. *)
Theorem const_array : forall m o sz d i v, uint_size sz -> (Z.of_nat (length d) < 2 ^ 63)%Z -> N.of_nat sz * (i + 1) <= len d ->
  holds (db_of_const d) d /\ s_array_set m o sz (8 * Z.of_nat sz) (db_of_const d) (Z.of_N i) v = Ok (db_of_const d).
Proof.
  intros m o sz d i v Hs L Hi.
  assert (H : holds (db_of_const d) d).
  { exists [], []. cbn [db_of_const db_data db_start db_end app length]. rewrite app_nil_r. repeat split; exact L. }
  split; [exact H|].
  set (b := {| db_data := d; db_mut := true; db_start := 0; db_end := count d; db_cursor := 0 |}).
  destruct (array_set_same m m o sz b d i v Hs) as (d' & b' & _ & E & _); [exact H|reflexivity|exact Hi|].
  unfold s_array_set in *. destruct (imul _ _) as [p| |]; [|discriminate..]. cbn [bind] in *.
  destruct (iadd _ _) as [q| |]; [|discriminate..]. cbn [bind] in *.
  unfold db_closed in *. change (db_size (db_of_const d)) with (db_size b).
  destruct (_ <? _)%Z; [discriminate|].
  repeat (match goal with |- context [sassert ?a ?c] => destruct (sassert a c); [|discriminate..] end; cbn [bind] in * ).
  unfold db_sub in *. cbn [db_start db_data db_mut db_of_const b] in *.
  match type of E with (bind ?e _ = _) => destruct e as [w'| |] eqn:E1; [|discriminate..] end.
  match goal with |- bind ?e _ = _ => assert (E2 : exists w2, e = Ok w2) end.
  { unfold s_byte_write, s_byte_write_aligned, s_byte_write_unaligned, db_size, db_copy_to, db_write in *. cbn [db_start db_end db_data db_cursor] in *. eauto. }
  destruct E2 as (w2 & ->). reflexivity.
Qed.
