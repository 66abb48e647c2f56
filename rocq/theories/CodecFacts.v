(** Lemmas about the codecs of [Codec]: what the little-endian readers and
    writers do to the bits of their window, and the aligned big-endian ones. *)

From Coq Require Import Arith NArith ZArith List Bool Lia ZifyBool ZifyN ZifyNat.
From Verif Require Import Base Bits BitsFacts Codec.
Import ListNotations.
Local Open Scope N_scope.

Section Facts.
Context {E : Type}.

Lemma testbit_mask : forall n i, N.testbit (2 ^ n - 1) i = (i <? n).
Proof.
  intros. rewrite N.sub_1_r, <- N.ones_equiv.
  destruct (N.ltb_spec i n).
  - apply N.ones_spec_low. assumption.
  - apply N.ones_spec_high. assumption.
Qed.

Lemma testbit_compl : forall n x i, x < 2 ^ n ->
  N.testbit (2 ^ n - 1 - x) i = (i <? n) && negb (N.testbit x i).
Proof.
  intros n x i Hx.
  destruct (N.eq_dec x 0) as [->|Hn].
  - rewrite N.sub_0_r, testbit_mask, N.bits_0. destruct (i <? n); reflexivity.
  - rewrite N.sub_1_r, <- N.ones_equiv.
    rewrite <- N.lnot_sub_low by (apply N.log2_lt_pow2; lia).
    destruct (N.ltb_spec i n).
    + rewrite N.lnot_spec_low by assumption. reflexivity.
    + rewrite N.lnot_spec_high by assumption.
      apply testbit_high with n; assumption.
Qed.

Lemma testbit_mod_pow2 : forall v n i, N.testbit (v mod 2 ^ n) i = (i <? n) && N.testbit v i.
Proof.
  intros. destruct (N.ltb_spec i n).
  - rewrite N.mod_pow2_bits_low by assumption. reflexivity.
  - rewrite N.mod_pow2_bits_high by assumption. reflexivity.
Qed.

Lemma bit_mask_ok : forall m bs, 0 < bs < 64 -> bit_mask (E:=E) m bs = Ok (2 ^ bs - 1).
Proof.
  intros m bs H. unfold bit_mask, ushl1, usub, bind. destruct (N.ltb_spec bs 64); [|lia].
  assert (2 ^ bs <> 0) by (apply N.pow_nonzero; lia).
  destruct (N.leb_spec 1 (2 ^ bs)); [reflexivity|lia].
Qed.

Lemma pow2_small : forall n k, n <= k -> 2 ^ n <= 2 ^ k.
Proof. intros. apply N.pow_le_mono_r; lia. Qed.

Lemma from_usize_small : forall sz v, v < tmod sz -> from_usize sz v = v.
Proof. intros. unfold from_usize. apply N.mod_small. assumption. Qed.

Lemma tmod_ge_256 : forall sz, (0 < sz)%nat -> 256 <= tmod sz.
Proof. intros. unfold tmod. change 256 with (2 ^ 8). apply pow2_small. lia. Qed.

Lemma pad8_ok : forall w, (length w <= 8)%nat ->
  pad8 (E:=E) w = Ok (w ++ repeat 0 (8 - length w)).
Proof.
  intros. unfold pad8. destruct (Nat.ltb_spec 8 (length w)); [lia|reflexivity].
Qed.

Definition padded (w : bytes) := w ++ repeat 0 (8 - length w).

Lemma padded_ok : forall w, bytes_ok w -> bytes_ok (padded w).
Proof. intros. apply bytes_ok_app. split; [assumption|apply bytes_ok_zeros]. Qed.

Lemma padded_length : forall w, (length w <= 8)%nat -> length (padded w) = 8%nat.
Proof. intros. unfold padded. rewrite app_length, repeat_length. lia. Qed.

Lemma bit_at_padded : forall w i, bit_at (padded w) i = bit_at w i.
Proof.
  intros. unfold padded. rewrite bit_at_app, bit_at_zeros.
  destruct (N.ltb_spec i (8 * len w)); [reflexivity|].
  symmetry. apply bit_at_beyond. assumption.
Qed.

(** Reading [sz] bytes of a long enough buffer in little-endian order. *)
Lemma read_bytes_LE : forall sz b, (sz <= length b)%nat -> bytes_ok b ->
  exists v, read_bytes (E:=E) LE sz b = Ok v /\ v < tmod sz /\
    forall j, N.testbit v j = (j <? 8 * N.of_nat sz) && bit_at b j.
Proof.
  intros sz b Hl Hb. unfold read_bytes. destruct (Nat.ltb_spec (length b) sz); [lia|].
  eexists. split; [reflexivity|].
  assert (Hf : bytes_ok (firstn sz b)) by (apply bytes_ok_firstn; assumption).
  split.
  - replace sz with (length (firstn sz b)) at 2 by (rewrite firstn_length; lia).
    apply le_dec_bound. assumption.
  - intro j. rewrite le_dec_testbit by assumption. apply bit_at_firstn.
Qed.

Lemma write_bytes_LE : forall sz b v, (sz <= length b)%nat -> bytes_ok b ->
  exists b', write_bytes (E:=E) LE sz b v = Ok b' /\ length b' = length b /\ bytes_ok b' /\
    forall i, bit_at b' i = if i <? 8 * N.of_nat sz then N.testbit v i else bit_at b i.
Proof.
  intros sz b v Hl Hb. unfold write_bytes. destruct (Nat.ltb_spec (length b) sz); [lia|].
  eexists. split; [reflexivity|]. split; [|split].
  - rewrite app_length, le_enc_length, skipn_length. lia.
  - apply bytes_ok_app. split; [apply le_enc_ok|apply bytes_ok_skipn; assumption].
  - intro i. rewrite bit_at_app, bit_at_le_enc, bit_at_skipn.
    unfold len. rewrite le_enc_length. destruct (N.ltb_spec i (8 * N.of_nat sz)); [reflexivity|].
    f_equal. lia.
Qed.

(** ** Byte codec, little endian *)

Definition byte_read_sel (al : bool) (o : order) (sz : nat) (w : bytes) : outcome E N :=
  if al then byte_read_aligned o sz w else byte_read_unaligned o sz w.
Definition byte_write_sel (al : bool) (o : order) (sz : nat) (w : bytes) (v : N) : outcome E bytes :=
  if al then byte_write_aligned o sz w v else byte_write_unaligned o sz w v.
Definition bit_read_sel (al : bool) m o sz bo bs (w : bytes) : outcome E N :=
  if al then bit_read_aligned m o sz bo bs w else bit_read_unaligned m o sz bo bs w.
Definition bit_write_sel (al : bool) m o sz bo bs (w : bytes) v : outcome E bytes :=
  if al then bit_write_aligned m o sz bo bs w v else bit_write_unaligned m o sz bo bs w v.

Lemma byte_read_LE : forall al sz w,
  bytes_ok w -> (length w <= sz <= 8)%nat -> (al = true -> length w = sz) ->
  exists v, byte_read_sel al LE sz w = Ok v /\
    forall j, N.testbit v j = bit_at w j.
Proof.
  intros al sz w Hw Hl Hal. destruct al; unfold byte_read_sel.
  - specialize (Hal eq_refl). destruct (read_bytes_LE sz w) as (v & H1 & _ & H2); [lia|assumption|].
    exists v. split; [exact H1|]. intro j. rewrite H2.
    destruct (N.ltb_spec j (8 * N.of_nat sz)); [reflexivity|].
    symmetry. apply bit_at_beyond. unfold len. lia.
  - unfold byte_read_unaligned, byte_read_aligned. rewrite pad8_ok by lia. cbn [bind].
    fold (padded w).
    destruct (read_bytes_LE sz (padded w)) as (v & H1 & _ & H2);
      [rewrite padded_length; lia|apply padded_ok; assumption|].
    exists v. split; [exact H1|]. intro j. rewrite H2, bit_at_padded.
    destruct (N.ltb_spec j (8 * N.of_nat sz)); [reflexivity|].
    symmetry. apply bit_at_beyond. unfold len. lia.
Qed.

Lemma byte_write_LE : forall al sz w v,
  bytes_ok w -> (length w <= sz <= 8)%nat -> (al = true -> length w = sz) ->
  exists w', byte_write_sel al LE sz w v = Ok w' /\ length w' = length w /\ bytes_ok w' /\
    forall i, bit_at w' i = (i <? 8 * len w) && N.testbit v i.
Proof.
  intros al sz w v Hw Hl Hal. destruct al; unfold byte_write_sel.
  - specialize (Hal eq_refl). destruct (write_bytes_LE sz w v) as (w' & H1 & H2 & H3 & H4); [lia|assumption|].
    exists w'. repeat split; try assumption. intro i. rewrite H4. unfold len. rewrite Hal.
    destruct (N.ltb_spec i (8 * N.of_nat sz)); [reflexivity|].
    cbn [andb]. apply bit_at_beyond. unfold len. lia.
  - unfold byte_write_unaligned, byte_write_aligned. rewrite pad8_ok by lia. cbn [bind].
    fold (padded w).
    destruct (write_bytes_LE sz (padded w) v) as (w' & H1 & H2 & H3 & H4);
      [rewrite padded_length; lia|apply padded_ok; assumption|].
    rewrite H1. cbn [bind]. eexists. split; [reflexivity|].
    rewrite padded_length in H2 by lia. split; [|split].
    + rewrite firstn_length. lia.
    + apply bytes_ok_firstn. assumption.
    + intro i. rewrite bit_at_firstn, H4. unfold len.
      destruct (N.ltb_spec i (8 * N.of_nat (length w))); [|reflexivity].
      destruct (N.ltb_spec i (8 * N.of_nat sz)); [reflexivity|lia].
Qed.

(** ** Bit codec, little endian *)

Lemma bit_read_aligned_LE : forall m sz bo bs b,
  bytes_ok b -> (sz <= length b)%nat -> (0 < sz)%nat -> bo < 8 ->
  0 < bs < 64 -> bs <= 8 * N.of_nat sz ->
  exists v, bit_read_aligned (E:=E) m LE sz bo bs b = Ok v /\
    forall j, N.testbit v j = (j <? bs) && (bo + j <? 8 * N.of_nat sz) && bit_at b (bo + j).
Proof.
  intros m sz bo bs b Hb Hl Hsz Hbo Hbs Hsz'. unfold bit_read_aligned.
  rewrite bit_mask_ok by assumption. cbn [bind].
  destruct (read_bytes_LE sz b) as (v & H1 & H2 & H3); [assumption..|].
  rewrite H1. cbn [bind]. pose proof (tmod_ge_256 sz Hsz).
  rewrite (from_usize_small sz bo) by lia.
  unfold tshr. destruct (N.ltb_spec bo (8 * N.of_nat sz)); [|lia]. cbn [bind].
  eexists. split; [reflexivity|]. intro j.
  rewrite N.land_spec, N.shiftr_spec by apply N.le_0_l. unfold from_usize, tmod.
  rewrite testbit_mod_pow2, testbit_mask, H3.
  rewrite (N.add_comm j bo).
  destruct (N.ltb_spec j bs), (N.ltb_spec j (8 * N.of_nat sz)),
    (N.ltb_spec (bo + j) (8 * N.of_nat sz)), (bit_at b (bo + j)); try reflexivity; lia.
Qed.

Lemma bit_write_aligned_LE : forall m sz bo bs b v,
  bytes_ok b -> (sz <= length b)%nat -> (0 < sz <= 8)%nat -> bo < 8 ->
  0 < bs < 64 -> bs <= 8 * N.of_nat sz ->
  exists b', bit_write_aligned (E:=E) m LE sz bo bs b v = Ok b' /\
    length b' = length b /\ bytes_ok b' /\
    forall i, bit_at b' i =
      if (bo <=? i) && (i <? bo + bs) && (i <? 8 * N.of_nat sz)
      then N.testbit v (i - bo) else bit_at b i.
Proof.
  intros m sz bo bs b v Hb Hl Hsz Hbo Hbs Hsz'. unfold bit_write_aligned.
  rewrite bit_mask_ok by assumption. cbn [bind].
  unfold reset_mask, tshl at 1. change (8 * N.of_nat 8) with 64.
  destruct (N.ltb_spec bo 64); [|lia]. cbn [bind].
  destruct (read_bytes_LE sz b) as (x & H1 & H2 & H3); [lia|assumption|].
  rewrite H1. cbn [bind]. pose proof (tmod_ge_256 sz ltac:(lia)).
  rewrite (from_usize_small sz bo) by lia.
  unfold tshl. destruct (N.ltb_spec bo (8 * N.of_nat sz)); [|lia]. cbn [bind].
  cbv zeta.
  match goal with |- context [write_bytes LE sz b ?v] => set (nv := v) end.
  destruct (write_bytes_LE sz b nv) as (b' & K4 & K5 & K6 & K7); [lia|assumption|].
  exists b'. rewrite K4. repeat split; try assumption. intro i. rewrite K7.
  destruct (N.ltb_spec i (8 * N.of_nat sz)).
  2:{ rewrite andb_false_r. reflexivity. }
  rewrite andb_true_r. subst nv.
  rewrite N.lor_spec, N.land_spec. unfold from_usize, tmod, usize_mod.
  rewrite !testbit_mod_pow2. change (8 * N.of_nat 8) with 64.
  rewrite testbit_compl by (apply N.mod_lt; apply N.pow_nonzero; lia).
  rewrite testbit_mod_pow2, H3.
  destruct (N.ltb_spec i (8 * N.of_nat sz)); [|lia]. destruct (N.ltb_spec i 64); [|lia].
  rewrite !andb_true_l.
  destruct (N.leb_spec bo i).
  - rewrite !N.shiftl_spec_high' by assumption.
    rewrite N.land_spec, testbit_mod_pow2, testbit_mask.
    destruct (N.ltb_spec (i - bo) bs), (N.ltb_spec i (bo + bs)); try lia.
    + destruct (N.ltb_spec (i - bo) (8 * N.of_nat sz)); [|lia].
      rewrite ?andb_true_l, ?andb_true_r. cbn [negb]. rewrite andb_false_r. reflexivity.
    + rewrite !andb_false_r. cbn [negb andb]. rewrite orb_false_r, andb_true_r. reflexivity.
  - rewrite !N.shiftl_spec_low by assumption. cbn [andb negb orb].
    rewrite andb_true_r, orb_false_r. reflexivity.
Qed.

Lemma bit_read_LE : forall al m sz bo bs w,
  bytes_ok w -> (length w <= sz <= 8)%nat -> (0 < sz)%nat -> (al = true -> length w = sz) ->
  bo < 8 -> 0 < bs < 64 -> bs <= 8 * N.of_nat sz ->
  exists v, bit_read_sel al m LE sz bo bs w = Ok v /\
    forall j, N.testbit v j = (j <? bs) && bit_at w (bo + j).
Proof.
  intros al m sz bo bs w Hw Hl Hsz Hal Hbo Hbs Hsz'. destruct al; unfold bit_read_sel.
  - specialize (Hal eq_refl).
    destruct (bit_read_aligned_LE m sz bo bs w) as (v & H1 & H2); try assumption; [lia|].
    exists v. split; [assumption|]. intro j. rewrite H2.
    destruct (N.ltb_spec (bo + j) (8 * N.of_nat sz)).
    + rewrite andb_true_r. reflexivity.
    + rewrite (bit_at_beyond w (bo + j)) by (unfold len; lia). rewrite !andb_false_r. reflexivity.
  - unfold bit_read_unaligned. rewrite pad8_ok by lia. cbn [bind]. fold (padded w).
    destruct (bit_read_aligned_LE m sz bo bs (padded w)) as (v & H1 & H2); try assumption;
      [apply padded_ok; assumption|rewrite padded_length; lia|].
    exists v. split; [assumption|]. intro j. rewrite H2, bit_at_padded.
    destruct (N.ltb_spec (bo + j) (8 * N.of_nat sz)).
    + rewrite andb_true_r. reflexivity.
    + rewrite (bit_at_beyond w (bo + j)) by (unfold len; lia). rewrite !andb_false_r. reflexivity.
Qed.

Lemma bit_write_LE : forall al m sz bo bs w v,
  bytes_ok w -> (length w <= sz <= 8)%nat -> (0 < sz)%nat -> (al = true -> length w = sz) ->
  bo < 8 -> 0 < bs < 64 -> bs <= 8 * N.of_nat sz ->
  exists w', bit_write_sel al m LE sz bo bs w v = Ok w' /\
    length w' = length w /\ bytes_ok w' /\
    forall i, i < 8 * len w -> bit_at w' i =
      if (bo <=? i) && (i <? bo + bs) then N.testbit v (i - bo) else bit_at w i.
Proof.
  intros al m sz bo bs w v Hw Hl Hsz Hal Hbo Hbs Hsz'. destruct al; unfold bit_write_sel.
  - specialize (Hal eq_refl).
    destruct (bit_write_aligned_LE m sz bo bs w v) as (w' & H1 & H2 & H3 & H4); try assumption; [lia..|].
    exists w'. repeat split; try assumption. intros i Hi. rewrite H4.
    destruct (N.ltb_spec i (8 * N.of_nat sz)); [|unfold len in *; lia].
    rewrite andb_true_r. reflexivity.
  - unfold bit_write_unaligned. rewrite pad8_ok by lia. cbn [bind]. fold (padded w).
    destruct (bit_write_aligned_LE m sz bo bs (padded w) v) as (w' & H1 & H2 & H3 & H4);
      try assumption; [apply padded_ok; assumption|rewrite padded_length; lia|lia|].
    rewrite H1. cbn [bind]. rewrite padded_length in H2 by lia.
    eexists. split; [reflexivity|]. split; [rewrite firstn_length; lia|].
    split; [apply bytes_ok_firstn; assumption|]. intros i Hi.
    rewrite bit_at_firstn, H4, bit_at_padded. unfold len in Hi.
    destruct (N.ltb_spec i (8 * N.of_nat (length w))); [|lia].
    destruct (N.ltb_spec i (8 * N.of_nat sz)); [|lia]. cbn [andb].
    rewrite andb_true_r. reflexivity.
Qed.

End Facts.
