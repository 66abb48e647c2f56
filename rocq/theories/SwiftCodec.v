(** The codecs of the Swift runtime against those of the Rust runtime. *)

From Coq Require Import Arith NArith ZArith List Bool Lia ZifyBool ZifyN ZifyNat.
From Verif Require Import Base Schema Codec CodecFacts Bits BitsFacts Compiler BEThms Access Runtime SpecWire MsgFacts
  StackThms Swift SpecSwift SwiftFacts SwiftThms SwiftMore.
Import ListNotations.
Local Open Scope N_scope.

Lemma to_bytes_eq : forall o sz v, to_bytes o sz v = match o with LE => le_enc sz v | BE => rev (le_enc sz v) end.
Proof.
  intros [] sz v; unfold to_bytes; rewrite to_bytes_le_enc; [reflexivity|]. unfold byte_swapped.
  rewrite <- (le_enc_length sz v) at 1. rewrite <- rev_length. apply le_enc_le_dec. apply bytes_ok_rev, le_enc_ok.
Qed.

Lemma read_bytes_val : forall E o sz w, (sz <= length w)%nat -> read_bytes (E:=E) o sz w = Ok (val o (firstn sz w)).
Proof.
  intros E o sz w H. unfold read_bytes. replace (length w <? sz)%nat with false by lia. destruct o; reflexivity.
Qed.

Lemma write_bytes_all : forall E o sz w v, length w = sz -> write_bytes (E:=E) o sz w v = Ok (to_bytes o sz v).
Proof.
  intros E o sz w v H. unfold write_bytes. replace (length w <? sz)%nat with false by lia.
  rewrite skipn_all2 by lia. rewrite app_nil_r, to_bytes_eq. reflexivity.
Qed.

Lemma win_scalar' : forall m o sz b pre d post, win b pre d post -> uint_size sz -> (sz <= length d)%nat -> bytes_ok d ->
  scalar_from m o sz b = Ok (val o (firstn sz d)).
Proof.
  intros m o sz b pre d post W Hs Hl Hb. apply (win_scalar m o sz b pre (firstn sz d) (skipn sz d) post).
  - rewrite firstn_skipn. exact W.
  - exact Hs.
  - rewrite firstn_length. lia.
  - apply bytes_ok_firstn. exact Hb.
Qed.

Lemma win_stored : forall b pre w post x, win b pre w post -> db_cursor b = db_start b -> length x = length w ->
  exists b', db_write b x = Ok b' /\ stored b x b' /\ win b' pre x post /\ db_mut b' = true.
Proof.
  intros b pre w post x (D & S & E & L) C Hl.
  assert (Hc : count x = count w) by (unfold count; lia).
  pose proof (count_nonneg pre). pose proof (count_nonneg w). pose proof (count_nonneg post).
  assert (R : replace_bytes (pre ++ w ++ post) (count pre) x = Ok (pre ++ x ++ post)).
  { unfold replace_bytes. rewrite !count_app.
    replace ((0 <=? count pre)%Z && (count pre + count x <=? count pre + (count w + count post))%Z) with true by lia.
    f_equal. replace (Z.to_N (count pre)) with (len pre) by (unfold count, len; lia). apply splice_app. exact Hl. }
  unfold db_write. rewrite D, C, S, !count_app.
  destruct (Z.ltb_spec (count pre + count x) (count pre + (count w + count post))).
  - rewrite R. cbn [bind]. eexists. split; [reflexivity|]. split; [|split; [|reflexivity]].
    + exists pre, w, post. cbn. repeat split; try assumption; unfold count in *; lia.
    + unfold win. cbn. rewrite !count_app. repeat split; try lia. rewrite D, !count_app in L. lia.
  - assert (post = []) as -> by (destruct post; [reflexivity|unfold count in *; cbn [length] in *; lia]).
    replace (count pre + (count w + count []) - count pre)%Z with (count x) by (change (count []) with 0%Z; lia).
    replace (Z.to_nat (count x)) with (length x) by (unfold count; lia). rewrite firstn_all, skipn_all.
    replace (0 <? count x - count x)%Z with false by lia.
    assert (R' : (if (0 <? count x)%Z then replace_bytes (pre ++ w ++ []) (count pre) x else Ok (pre ++ w ++ [])) =
      (Ok (pre ++ x ++ []) : sres bytes)).
    { destruct (Z.ltb_spec 0 (count x)); [exact R|].
      assert (x = []) as -> by (destruct x; [reflexivity|unfold count in *; cbn [length] in *; lia]).
      assert (w = []) as -> by (destruct w; [reflexivity|discriminate]). reflexivity. }
    match goal with |- context [bind (bind ?X _) _] => replace X with (Ok (pre ++ x ++ []) : sres bytes) by (symmetry; exact R') end.
    cbn [bind]. eexists. split; [reflexivity|]. split; [|split; [|reflexivity]].
    + exists pre, w, []. cbn. repeat split; try assumption; unfold count in *; lia.
    + unfold win. cbn. rewrite !count_app. repeat split; try lia. rewrite D, !count_app in L. lia.
Qed.

(** ** Bytes *)

Theorem byte_read_same : forall m o sz b w, uint_size sz -> holds b w -> bytes_ok w -> length w = sz ->
  same_read (s_byte_read m o sz b) (byte_read o sz w).
Proof.
  intros m o sz b w Hs H Hb Hl. destruct (holds_win _ _ H) as (pre & post & W).
  unfold s_byte_read. rewrite (win_size _ _ _ _ W). replace (Z.of_nat sz =? count w)%Z with true by (unfold count; lia).
  unfold byte_read. replace (sz =? length w)%nat with true by lia.
  unfold s_byte_read_aligned, byte_read_aligned. exists (val o (firstn sz w)).
  split; [apply (win_scalar' m o sz b pre w post)|apply read_bytes_val]; try assumption; lia.
Qed.

Theorem byte_write_same : forall m o sz v b w, holds b w -> untouched b -> length w = sz ->
  same_write b (s_byte_write m o sz v b) (byte_write o sz w v).
Proof.
  intros m o sz v b w H C Hl. destruct (holds_win _ _ H) as (pre & post & W).
  unfold s_byte_write. rewrite (win_size _ _ _ _ W). replace (Z.of_nat sz =? count w)%Z with true by (unfold count; lia).
  unfold byte_write. replace (sz =? length w)%nat with true by lia. unfold s_byte_write_aligned, byte_write_aligned.
  rewrite write_bytes_all by exact Hl.
  destruct (win_stored b pre w post (to_bytes o sz v) W C) as (b' & E & St & _); [rewrite to_bytes_length; lia|].
  exists (to_bytes o sz v), b'. auto.
Qed.

(** ** Bits *)

Lemma s_mask_ok : forall bs, 0 < bs < 64 -> s_mask bs = Ok (2 ^ bs - 1).
Proof.
  intros bs H. unfold s_mask, uint_shl. rewrite N.shiftl_1_l. rewrite N.mod_small.
  - unfold uint_sub. assert (2 ^ bs <> 0) by (apply N.pow_nonzero; lia). replace (1 <=? 2 ^ bs) with true by lia. reflexivity.
  - unfold tmod. apply N.pow_lt_mono_r; lia.
Qed.

Definition shift_of (o : order) (bo bs : N) : N := match o with LE => bo | BE => 8 - bs mod 8 - bo end.

Lemma s_shift_ok : forall o sz bo bs, bits_fit o sz bo bs -> s_shift o bo bs = Ok (shift_of o bo bs).
Proof.
  intros o sz bo bs (H1 & H2 & H3 & H4). destruct o; [reflexivity|]. unfold s_shift, s_be_shift, uint_sub.
  replace (bs mod 8 <=? 8) with true by lia. cbn [bind]. replace (bo <=? 8 - bs mod 8) with true by lia. reflexivity.
Qed.
Lemma r_shift_ok : forall E m o sz bo bs, bits_fit o sz bo bs ->
  match o with LE => Ok bo | BE => be_shift (E:=E) m bo bs end = Ok (shift_of o bo bs).
Proof. intros E m o sz bo bs (H1 & H2 & H3 & H4). destruct o; [reflexivity|]. apply be_shift_ok. apply H4. Qed.
Lemma shift_small : forall o sz bo bs, bits_fit o sz bo bs -> shift_of o bo bs < 8.
Proof. intros o sz bo bs (H1 & H2 & H3 & H4). destruct o; [exact H2|exact (proj2 H4)]. Qed.

Lemma mask_small : forall o sz bo bs, bits_fit o sz bo bs -> 2 ^ bs - 1 < tmod sz.
Proof.
  intros o sz bo bs (H1 & H2 & H3 & H4). assert (2 ^ bs <> 0) by (apply N.pow_nonzero; lia).
  assert (2 ^ bs <= tmod sz) by (unfold tmod; apply pow2_small; lia). lia.
Qed.

Lemma bit_read_aligned_same : forall m o sz bo bs b w pre post, uint_size sz -> win b pre w post -> bytes_ok w ->
  (sz <= length w)%nat -> bits_fit o sz bo bs ->
  exists n, s_bit_read_aligned m o sz bo bs b = Ok n /\ forall m', bit_read_aligned (E:=rerror) m' o sz bo bs w = Ok n.
Proof.
  intros m o sz bo bs b w pre post Hs W Hb Hl F. pose proof (uint_pos sz Hs) as Hsz.
  pose proof F as (H1 & H2 & H3 & H4). pose proof (shift_small _ _ _ _ F) as Hsh. pose proof (mask_small _ _ _ _ F) as Hmk.
  pose proof (tmod_ge_256 sz ltac:(lia)).
  exists (N.land (N.shiftr (val o (firstn sz w)) (shift_of o bo bs)) (2 ^ bs - 1)).
  split; [|intro m'].
  - unfold s_bit_read_aligned. rewrite s_mask_ok by exact H1. cbn [bind].
    rewrite (win_scalar' m o sz b pre w post W Hs Hl Hb). cbn [bind].
    rewrite (s_shift_ok _ _ _ _ F). cbn [bind]. rewrite from_uint_ok by lia. cbn [bind].
    rewrite from_uint_ok by exact Hmk. reflexivity.
  - unfold bit_read_aligned. rewrite bit_mask_ok by exact H1. cbn [bind].
    rewrite read_bytes_val by exact Hl. cbn [bind]. rewrite (r_shift_ok rerror m' _ _ _ _ F). cbn [bind].
    rewrite (from_usize_small sz (shift_of o bo bs)) by lia. unfold tshr.
    replace (shift_of o bo bs <? 8 * N.of_nat sz) with true by lia. cbn [bind].
    rewrite from_usize_small by exact Hmk. reflexivity.
Qed.

Theorem bit_read_same : forall m m' o sz bo bs b w, uint_size sz -> holds b w -> bytes_ok w -> length w = sz ->
  bits_fit o sz bo bs -> same_read (s_bit_read m o sz bo bs b) (bit_read m' o sz bo bs w).
Proof.
  intros m m' o sz bo bs b w Hs H Hb Hl F. destruct (holds_win _ _ H) as (pre & post & W).
  destruct (bit_read_aligned_same m o sz bo bs b w pre post Hs W Hb ltac:(lia) F) as (n & E1 & E2).
  exists n. unfold s_bit_read, bit_read. rewrite (win_size _ _ _ _ W).
  replace (Z.of_nat sz =? count w)%Z with true by (unfold count; lia). replace (sz =? length w)%nat with true by lia.
  split; [exact E1|apply E2].
Qed.

(** A window of another size than the type: the byte behind it is read as well. *)
Lemma copy_to_ok : forall m b pre w x post, win b pre w (x :: post) ->
  db_copy_to m b (db_size b) = Ok (firstn 8 (w ++ [x]) ++ repeat 0 (8 - length (firstn 8 (w ++ [x])))).
Proof.
  intros m b pre w x post W. unfold db_copy_to. rewrite sassert_true by lia. cbn [bind].
  rewrite (win_size _ _ _ _ W). destruct W as (D & S & E & L). unfold data_range. rewrite D, S, !count_app.
  pose proof (count_nonneg pre). pose proof (count_nonneg w).
  assert (Hx : (1 <= count (x :: post))%Z) by (unfold count; cbn [length]; lia).
  replace ((count pre <=? count pre + count w)%Z && (0 <=? count pre)%Z &&
    (count pre + count w <? count pre + (count w + count (x :: post)))%Z) with true by lia. cbn [bind].
  replace (firstn (Z.to_nat (count pre + count w - count pre + 1)) (skipn (Z.to_nat (count pre)) (pre ++ w ++ x :: post)))
    with (w ++ [x]); [reflexivity|].
  replace (Z.to_nat (count pre)) with (length pre + 0)%nat by (unfold count; lia).
  rewrite skipn_app. replace (length pre + 0 - length pre)%nat with 0%nat by lia.
  rewrite skipn_all2 by lia. cbn [skipn app].
  replace (Z.to_nat (count pre + count w - count pre + 1)) with (length w + 1)%nat by (unfold count; lia).
  rewrite firstn_app_2. reflexivity.
Qed.

Lemma copy_to_trap : forall m b pre w, win b pre w [] -> db_copy_to m b (db_size b) = Panic.
Proof.
  intros m b pre w W. unfold db_copy_to. rewrite sassert_true by lia. cbn [bind].
  rewrite (win_size _ _ _ _ W). destruct W as (D & S & E & L). unfold data_range. rewrite D, S, !count_app.
  change (count []) with 0%Z. replace (count pre + count w <? count pre + (count w + 0))%Z with false by lia.
  rewrite andb_false_r. reflexivity.
Qed.

Lemma of_bytes_win : forall d, (length d <= 8)%nat -> win (db_of_bytes d) [] d [].
Proof.
  intros d H. unfold win, db_of_bytes. cbn [db_data db_start db_end app]. rewrite app_nil_r. change (count []) with 0%Z.
  repeat split. unfold count. lia.
Qed.

Lemma copied_length : forall w x, length (firstn 8 (w ++ [x]) ++ repeat 0 (8 - length (firstn 8 (w ++ [x])))) = 8%nat.
Proof. intros w x. rewrite app_length, repeat_length, firstn_length. lia. Qed.

Theorem bit_read_unaligned_same : forall m m' sz bo bs b w x after, uint_size sz -> holds_before b w (x :: after) ->
  bytes_ok (w ++ [x]) -> length w <> sz -> (length w <= 8)%nat -> bits_fit LE sz bo bs -> bo + bs <= 8 * N.of_nat sz ->
  bo + bs <= 8 * len w ->
  same_read (s_bit_read m LE sz bo bs b) (bit_read m' LE sz bo bs w).
Proof.
  intros m m' sz bo bs b w x after Hs H Hb Hne Hl F Hbo Hw. destruct (holds_before_win _ _ _ H) as (pre & W).
  unfold s_bit_read, bit_read. rewrite (win_size _ _ _ _ W). pose proof (uint_pos sz Hs) as Hsz.
  replace (Z.of_nat sz =? count w)%Z with false by (unfold count; lia). replace (sz =? length w)%nat with false by lia.
  unfold s_bit_read_unaligned, bit_read_unaligned. rewrite pad8_ok by exact Hl. cbn [bind]. fold (padded w).
  replace (count w) with (db_size b) by (apply (win_size _ _ _ _ W)).
  rewrite (copy_to_ok m b pre w x after W). cbn [bind].
  pose proof (copied_length w x) as Hd. set (d := firstn 8 (w ++ [x]) ++ _) in *.
  assert (Hbd : bytes_ok d) by (unfold d; apply bytes_ok_app; split; [apply bytes_ok_firstn, Hb|apply bytes_ok_zeros]).
  destruct (bit_read_aligned_same m LE sz bo bs (db_of_bytes d) d [] []) as (n & E1 & E2);
    [exact Hs|apply of_bytes_win; lia|exact Hbd|lia|exact F|].
  pose proof F as (H1 & H2 & H3 & _). apply bytes_ok_app in Hb.
  destruct (bit_read_aligned_LE (E:=rerror) m' sz bo bs d Hbd ltac:(lia) ltac:(lia) H2 H1 ltac:(lia)) as (n1 & E3 & B1).
  destruct (bit_read_aligned_LE (E:=rerror) m' sz bo bs (padded w) (padded_ok w (proj1 Hb)) ltac:(rewrite padded_length; lia) ltac:(lia) H2 H1 ltac:(lia)) as (n2 & E4 & B2).
  specialize (E2 m'). rewrite E3 in E2. inversion E2; subst n1.
  exists n. split; [exact E1|]. rewrite E4. f_equal. apply N.bits_inj. intro j. rewrite B1, B2.
  destruct (N.ltb_spec j bs) as [C|]; [|reflexivity]. cbn [andb]. f_equal.
  rewrite bit_at_padded. unfold d. rewrite bit_at_app, bit_at_firstn, bit_at_app.
  assert (Hlen : bo + j < 8 * len w) by lia.
  replace (bo + j <? 8 * len w) with true by lia.
  assert (H9 : len w <= len (firstn 8 (w ++ [x]))) by (unfold len; rewrite firstn_length, app_length; cbn [length]; lia).
  replace (bo + j <? 8 * len (firstn 8 (w ++ [x]))) with true by lia.
  replace (bo + j <? 8 * N.of_nat 8) with true by (unfold len in *; lia). reflexivity.
Qed.

Theorem unaligned_read_traps : forall m o sz bo bs b w, holds_before b w [] -> length w <> sz ->
  s_bit_read m o sz bo bs b = Panic /\ s_byte_read m o sz b = Panic.
Proof.
  intros m o sz bo bs b w H Hne. destruct (holds_before_win _ _ _ H) as (pre & W).
  unfold s_bit_read, s_byte_read, s_bit_read_unaligned, s_byte_read_unaligned. rewrite (win_size _ _ _ _ W).
  replace (Z.of_nat sz =? count w)%Z with false by (unfold count; lia).
  replace (count w) with (db_size b) by (apply (win_size _ _ _ _ W)).
  rewrite (copy_to_trap m b pre w W). split; reflexivity.
Qed.

(** Writing bits: 16 and 64 bits as in Rust, 8 and 32 bits trap. *)
Theorem bit_write_same : forall m m' o sz bo bs v b w, sz = 2%nat \/ sz = 8%nat -> holds b w -> untouched b ->
  bytes_ok w -> length w = sz -> bits_fit o sz bo bs ->
  same_write b (s_bit_write m o sz bo bs v b) (bit_write m' o sz bo bs w v).
Proof.
  intros m m' o sz bo bs v b w Hs H C Hb Hl F. destruct (holds_win _ _ H) as (pre & post & W).
  assert (Hu : uint_size sz) by (unfold uint_size; lia). pose proof (uint_pos sz Hu) as Hsz.
  pose proof F as (H1 & H2 & H3 & H4). pose proof (shift_small _ _ _ _ F) as Hsh. pose proof (mask_small _ _ _ _ F) as Hmk.
  pose proof (tmod_ge_256 sz ltac:(lia)).
  unfold s_bit_write, bit_write. rewrite (win_size _ _ _ _ W).
  replace (Z.of_nat sz =? count w)%Z with true by (unfold count; lia). replace (sz =? length w)%nat with true by lia.
  unfold s_bit_write_aligned, bit_write_aligned. rewrite s_mask_ok, bit_mask_ok by exact H1. cbn [bind].
  rewrite (win_scalar' m o sz b pre w post W Hu ltac:(lia) Hb). cbn [bind].
  rewrite read_bytes_val by lia.
  unfold reset_mask, tshl at 1. change (8 * N.of_nat 8) with 64. replace (bo <? 64) with true by lia. cbn [bind].
  rewrite (r_shift_ok rerror m' _ _ _ _ F), (s_shift_ok _ _ _ _ F). cbn [bind].
  rewrite (from_uint_ok sz (2 ^ bs - 1)) by exact Hmk. cbn [bind].
  rewrite (from_uint_ok sz (shift_of o bo bs)) by lia.
  rewrite (from_usize_small sz (shift_of o bo bs)) by lia.
  rewrite (from_usize_small sz (2 ^ bs - 1)) by exact Hmk.
  unfold tshl. replace (shift_of o bo bs <? 8 * N.of_nat sz) with true by lia. cbn [bind]. cbv zeta.
  unfold uint_shl. change usize_mod with (tmod 8).
  assert (Ef : from_uint sz (tmod 8 - 1 - N.shiftl (2 ^ bs - 1) bo mod tmod 8) =
    Ok (from_usize sz (tmod 8 - 1 - N.shiftl (2 ^ bs - 1) bo mod tmod 8))).
  { set (r := tmod 8 - 1 - _). assert (r < tmod 8) by (unfold r; assert (tmod 8 <> 0) by (pose proof (tmod_pos 8); lia); lia).
    destruct Hs as [->| ->]; [reflexivity|]. unfold from_uint, from_usize. replace (r <? tmod 8) with true by lia.
    rewrite N.mod_small by assumption. reflexivity. }
  rewrite Ef. cbn [bind]. rewrite write_bytes_all by exact Hl.
  match goal with |- context [db_write b (to_bytes o sz ?z)] => set (x := z) end.
  destruct (win_stored b pre w post (to_bytes o sz x) W C) as (b' & E & St & _); [rewrite to_bytes_length; lia|].
  exists (to_bytes o sz x), b'. auto.
Qed.

Theorem bit_write_traps : forall m o sz bo bs v b w, sz = 1%nat \/ sz = 4%nat -> holds b w -> bytes_ok w ->
  length w = sz -> bits_fit o sz bo bs -> s_bit_write m o sz bo bs v b = Panic.
Proof.
  intros m o sz bo bs v b w Hs H Hb Hl F. destruct (holds_win _ _ H) as (pre & post & W).
  assert (Hu : uint_size sz) by (unfold uint_size; lia). pose proof (uint_pos sz Hu) as Hsz.
  pose proof F as (H1 & H2 & H3 & H4). pose proof (mask_small _ _ _ _ F) as Hmk.
  unfold s_bit_write. rewrite (win_size _ _ _ _ W).
  replace (Z.of_nat sz =? count w)%Z with true by (unfold count; lia).
  unfold s_bit_write_aligned. rewrite s_mask_ok by exact H1. cbn [bind]. cbv zeta.
  rewrite (win_scalar' m o sz b pre w post W Hu ltac:(lia) Hb). cbn [bind].
  assert (Hx : uint_shl (2 ^ bs - 1) bo < 2 ^ 40).
  { unfold uint_shl. eapply N.le_lt_trans; [apply N.mod_le; pose proof (tmod_pos 8); lia|].
    rewrite N.shiftl_mul_pow2. assert (0 < 2 ^ bo) by (apply N.neq_0_lt_0, N.pow_nonzero; lia).
    assert (2 ^ bs <> 0) by (apply N.pow_nonzero; lia).
    apply N.lt_le_trans with (2 ^ bs * 2 ^ bo); [nia|]. rewrite <- N.pow_add_r. apply pow2_small. lia. }
  assert (Ef : from_uint sz (tmod 8 - 1 - uint_shl (2 ^ bs - 1) bo) = Panic).
  { set (r := uint_shl _ _) in *. change (tmod 8) with (2 ^ 64).
    assert (Hr : 2 ^ 32 <= 2 ^ 64 - 1 - r) by (change (2 ^ 40) with 1099511627776 in *; change (2 ^ 32) with 4294967296; change (2 ^ 64) with 18446744073709551616; lia).
    destruct Hs as [->| ->]; unfold from_uint.
    - change (tmod 1) with 256. change (2 ^ 32) with 4294967296 in *. replace (2 ^ 64 - 1 - r <? 256) with false by lia. reflexivity.
    - change (tmod 4) with (2 ^ 32). replace (2 ^ 64 - 1 - r <? 2 ^ 32) with false by lia. reflexivity. }
  rewrite Ef. reflexivity.
Qed.

(** A window of another size than the type: the value is not stored. *)
Lemma write_copy_ok : forall d x, length d = 8%nat -> (length x <= 8)%nat -> exists b', db_write (db_of_bytes d) x = Ok b'.
Proof.
  intros d x Hd Hx. unfold db_write, db_of_bytes. cbn [db_data db_cursor db_start].
  assert (R : forall y, (length y <= 8)%nat -> exists d', replace_bytes d 0 y = Ok d').
  { intros y Hy. unfold replace_bytes. replace ((0 <=? 0)%Z && (0 + count y <=? count d)%Z) with true by (unfold count; lia). eauto. }
  destruct (0 + count x <? count d)%Z.
  - destruct (R x Hx) as (d' & ->). cbn [bind]. eauto.
  - destruct (0 <? count d - 0)%Z.
    + destruct (R (firstn (Z.to_nat (count d - 0)) x)) as (d' & ->); [rewrite firstn_length; lia|]. cbn [bind].
      destruct (0 <? count x - (count d - 0))%Z; [|cbn [bind]; eauto].
      replace (count d - 0 <? 0)%Z with false by (unfold count; lia). cbn [bind]. eauto.
    + cbn [bind]. destruct (0 <? count x - (count d - 0))%Z; [|cbn [bind]; eauto].
      replace (count d - 0 <? 0)%Z with false by (unfold count; lia). cbn [bind]. eauto.
Qed.

Lemma copy_to_length : forall m b k d, db_copy_to m b k = Ok d -> length d = 8%nat.
Proof.
  intros m b k d E. unfold db_copy_to in E. destruct (sassert m _); try discriminate. cbn [bind] in E.
  destruct (data_range _ _ _) as [x| |]; try discriminate. cbn [bind] in E.
  assert (E' : firstn 8 x ++ repeat 0 (8 - length (firstn 8 x)) = d) by congruence.
  rewrite <- E', app_length, repeat_length. pose proof (firstn_le_length 8 x). lia.
Qed.

Theorem byte_write_ignores : forall m o sz v v' b w, uint_size sz -> holds b w -> length w <> sz ->
  s_byte_write m o sz v b = s_byte_write m o sz v' b.
Proof.
  intros m o sz v v' b w Hs H Hne. destruct (holds_win _ _ H) as (pre & post & W).
  unfold s_byte_write. rewrite (win_size _ _ _ _ W). replace (Z.of_nat sz =? count w)%Z with false by (unfold count; lia).
  unfold s_byte_write_unaligned. destruct (db_copy_to m b (db_size b)) as [d| |] eqn:E; [|reflexivity..]. cbn [bind].
  apply copy_to_length in E. pose proof (uint_pos sz Hs). unfold s_byte_write_aligned.
  destruct (write_copy_ok d (to_bytes o sz v) E) as (b1 & ->); [rewrite to_bytes_length; lia|].
  destruct (write_copy_ok d (to_bytes o sz v') E) as (b2 & ->); [rewrite to_bytes_length; lia|]. reflexivity.
Qed.

Theorem bit_write_ignores : forall m o sz bo bs v v' b w, uint_size sz -> holds b w -> length w <> sz ->
  s_bit_write m o sz bo bs v b = s_bit_write m o sz bo bs v' b.
Proof.
  intros m o sz bo bs v v' b w Hs H Hne. destruct (holds_win _ _ H) as (pre & post & W).
  unfold s_bit_write. rewrite (win_size _ _ _ _ W). replace (Z.of_nat sz =? count w)%Z with false by (unfold count; lia).
  unfold s_bit_write_unaligned. destruct (db_copy_to m b (db_size b)) as [d| |] eqn:E; [|reflexivity..]. cbn [bind].
  apply copy_to_length in E. pose proof (uint_pos sz Hs). unfold s_bit_write_aligned.
  destruct (s_mask bs) as [mask| |]; [|reflexivity..]. cbn [bind]. cbv zeta.
  destruct (scalar_from m o sz (db_of_bytes d)); [|reflexivity..]. cbn [bind].
  destruct (from_uint sz (tmod 8 - 1 - uint_shl mask bo)); [|reflexivity..]. cbn [bind].
  destruct (from_uint sz mask); [|reflexivity..]. cbn [bind].
  destruct (s_shift o bo bs) as [sh| |]; [|reflexivity..]. cbn [bind].
  destruct (from_uint sz sh); [|reflexivity..]. cbn [bind].
  match goal with |- context [db_write (db_of_bytes d) (to_bytes o sz ?x)] => destruct (write_copy_ok d (to_bytes o sz x) E) as (b1 & ->); [rewrite to_bytes_length; lia|] end.
  cbn [bind].
  match goal with |- context [db_write (db_of_bytes d) (to_bytes o sz ?x)] => destruct (write_copy_ok d (to_bytes o sz x) E) as (b2 & ->); [rewrite to_bytes_length; lia|] end.
  reflexivity.
Qed.

(** ** Arrays *)

Lemma window_split : forall (d : bytes) pos n, (pos + n <= length d)%nat ->
  d = firstn pos d ++ firstn n (skipn pos d) ++ skipn (pos + n) d /\
  length (firstn pos d) = pos /\ length (firstn n (skipn pos d)) = n.
Proof.
  intros d pos n H. split; [|split].
  - rewrite <- (firstn_skipn pos d) at 1. f_equal. rewrite <- (firstn_skipn n (skipn pos d)) at 1. f_equal. apply skipn_add.
  - rewrite firstn_length. lia.
  - rewrite firstn_length, skipn_length. lia.
Qed.

Theorem array_get_same : forall m m' o sz b d i, uint_size sz -> holds b d -> bytes_ok d ->
  (N.of_nat sz * (i + 1) <= len d) ->
  same_read (s_array_get m o sz (8 * Z.of_nat sz) b (Z.of_N i)) (array_get_raw m' o sz (8 * N.of_nat sz) d i).
Proof.
  intros m m' o sz b d i Hs H Hb Hi. pose proof (uint_pos sz Hs) as Hsz. destruct (holds_win _ _ H) as (pre & post & W).
  pose proof (win_bound _ _ _ _ W) as L. pose proof (count_nonneg pre). pose proof (count_nonneg post).
  assert (Ez : (8 * Z.of_nat sz / 8 = Z.of_nat sz)%Z) by (rewrite Z.mul_comm, Z.div_mul; lia).
  assert (En : 8 * N.of_nat sz / 8 = N.of_nat sz) by (rewrite N.mul_comm, N.div_mul; lia).
  assert (Hi2 : i * N.of_nat sz + N.of_nat sz <= len d) by lia.
  set (q := i * N.of_nat sz) in *. assert (Eq : q = i * N.of_nat sz) by reflexivity.
  unfold s_array_get, array_get_raw. rewrite Ez, En.
  unfold imul, iadd. replace (Z.of_N i * Z.of_nat sz)%Z with (Z.of_N q) by (rewrite Eq; lia).
  rewrite int_ok' by (unfold len, count in *; lia). cbn [bind]. rewrite int_ok' by (unfold len, count in *; lia). cbn [bind].
  unfold umul. fold q. replace (q <? usize_mod) with true by (unfold usize_mod, len, count in *; lia). cbn [bind].
  unfold uadd. replace (q + N.of_nat sz <? usize_mod) with true by (unfold usize_mod, len, count in *; lia). cbn [bind].
  destruct (window_split d (N.to_nat q) sz) as (Ed & L1 & L2); [unfold len in Hi2; lia|].
  set (d1 := firstn (N.to_nat q) d) in *. set (d2 := firstn sz (skipn (N.to_nat q) d)) in *. set (d3 := skipn (N.to_nat q + sz) d) in *.
  pose proof W as W0. rewrite Ed in W0. destruct (win_closed m b pre d1 d2 d3 post W0) as (w & E & W2).
  replace (count d1) with (Z.of_N q) in E by (unfold count; lia). replace (count d2) with (Z.of_nat sz) in E by (unfold count; lia).
  rewrite E. cbn [bind]. rewrite slice_ok by lia. cbn [bind].
  replace (N.to_nat (q + N.of_nat sz - q)) with sz by lia. fold d2.
  apply byte_read_same; try assumption.
  - exists (pre ++ d1), (d3 ++ post). destruct W2 as (A1 & A2 & A3 & A4). repeat split; try assumption.
    rewrite A3. unfold count. lia.
  - unfold d2. apply bytes_ok_firstn, bytes_ok_skipn, Hb.
Qed.

Theorem array_set_same : forall m m' o sz b d i v, uint_size sz -> holds b d -> db_mut b = true ->
  (N.of_nat sz * (i + 1) <= len d) ->
  exists d' b', array_set_raw (E:=rerror) m' o sz (8 * N.of_nat sz) d i v = Ok d' /\
    s_array_set m o sz (8 * Z.of_nat sz) b (Z.of_N i) v = Ok b' /\ stored b d' b' /\ holds b' d'.
Proof.
  intros m m' o sz b d i v Hs H Hm Hi. pose proof (uint_pos sz Hs) as Hsz. destruct (holds_win _ _ H) as (pre & post & W).
  pose proof (win_bound _ _ _ _ W) as L. pose proof (count_nonneg pre). pose proof (count_nonneg post).
  assert (Ez : (8 * Z.of_nat sz / 8 = Z.of_nat sz)%Z) by (rewrite Z.mul_comm, Z.div_mul; lia).
  assert (En : 8 * N.of_nat sz / 8 = N.of_nat sz) by (rewrite N.mul_comm, N.div_mul; lia).
  assert (Hi2 : i * N.of_nat sz + N.of_nat sz <= len d) by lia.
  set (q := i * N.of_nat sz) in *. assert (Eq : q = i * N.of_nat sz) by reflexivity.
  unfold s_array_set, array_set_raw. rewrite Ez, En.
  unfold imul, iadd. replace (Z.of_N i * Z.of_nat sz)%Z with (Z.of_N q) by (rewrite Eq; lia).
  rewrite int_ok' by (unfold len, count in *; lia). cbn [bind]. rewrite int_ok' by (unfold len, count in *; lia). cbn [bind].
  unfold umul. fold q. replace (q <? usize_mod) with true by (unfold usize_mod, len, count in *; lia). cbn [bind].
  unfold uadd. replace (q + N.of_nat sz <? usize_mod) with true by (unfold usize_mod, len, count in *; lia). cbn [bind].
  destruct (window_split d (N.to_nat q) sz) as (Ed & L1 & L2); [unfold len in Hi2; lia|].
  set (d1 := firstn (N.to_nat q) d) in *. set (d2 := firstn sz (skipn (N.to_nat q) d)) in *. set (d3 := skipn (N.to_nat q + sz) d) in *.
  pose proof W as W0. rewrite Ed in W0. destruct (win_closed m b pre d1 d2 d3 post W0) as (w & E & W2).
  replace (count d1) with (Z.of_N q) in E by (unfold count; lia). replace (count d2) with (Z.of_nat sz) in E by (unfold count; lia).
  rewrite E. cbn [bind]. unfold update_slice. rewrite slice_ok by lia. cbn [bind].
  replace (N.to_nat (q + N.of_nat sz - q)) with sz by lia. fold d2.
  assert (Cw : db_cursor w = db_start w).
  { unfold db_closed in E. destruct (_ <? _)%Z; [discriminate|].
    repeat (match type of E with context [sassert ?a ?b] => destruct (sassert a b); try discriminate end; cbn [bind] in E).
    inversion E. reflexivity. }
  unfold byte_write. replace (sz =? length d2)%nat with true by lia. unfold byte_write_aligned.
  rewrite write_bytes_all by exact L2. cbn [bind].
  unfold s_byte_write. rewrite (win_size _ _ _ _ W2). replace (Z.of_nat sz =? count d2)%Z with true by (unfold count; lia).
  unfold s_byte_write_aligned.
  destruct (win_stored w (pre ++ d1) d2 (d3 ++ post) (to_bytes o sz v) W2 Cw) as (w' & Ew & _ & W3 & _); [rewrite to_bytes_length; lia|].
  rewrite Ew. cbn [bind]. rewrite Hm.
  assert (Es : splice d q (to_bytes o sz v) = d1 ++ to_bytes o sz v ++ d3).
  { rewrite Ed at 1. replace q with (len d1) by (unfold len; lia). apply splice_app. rewrite to_bytes_length. lia. }
  rewrite Es. set (x := to_bytes o sz v) in *. assert (Lx : length x = sz) by apply to_bytes_length.
  exists (d1 ++ x ++ d3). eexists. split; [reflexivity|]. split; [reflexivity|].
  destruct W as (A1 & A2 & A3 & A4). destruct W3 as (B1 & B2 & B3 & B4).
  assert (Hlen : length (d1 ++ x ++ d3) = length d) by (rewrite Ed, !app_length; lia).
  assert (Eb : db_data w' = pre ++ (d1 ++ x ++ d3) ++ post) by (rewrite B1, <- !app_assoc; reflexivity).
  split.
  - exists pre, d, post. cbn [db_data db_start db_end]. repeat split; try assumption. rewrite A3. unfold count. lia.
  - exists pre, post. cbn [db_data db_start db_end]. repeat split; try assumption. rewrite A3. unfold count. lia.
Qed.

Theorem array_set_const : forall m o sz ibs b i v b', db_mut b = false -> s_array_set m o sz ibs b i v = Ok b' -> b' = b.
Proof.
  intros m o sz ibs b i v b' Hm E. unfold s_array_set in E.
  destruct (imul i (ibs / 8)); try discriminate. cbn [bind] in E. destruct (iadd a (ibs / 8)); try discriminate. cbn [bind] in E.
  destruct (db_closed m b a a0); try discriminate. cbn [bind] in E. destruct (s_byte_write m o sz v a1); try discriminate.
  cbn [bind] in E. rewrite Hm in E. inversion E. reflexivity.
Qed.

Theorem array_count_same : forall sz b d, uint_size sz -> holds b d ->
  exists n, s_array_count (8 * Z.of_nat sz) b = Ok (Z.of_N n) /\ array_len (E:=rerror) (8 * N.of_nat sz) d = Ok n.
Proof.
  intros sz b d Hs H. pose proof (uint_pos sz Hs) as Hsz. destruct (holds_win _ _ H) as (pre & post & W).
  assert (Ez : (8 * Z.of_nat sz / 8 = Z.of_nat sz)%Z) by (rewrite Z.mul_comm, Z.div_mul; lia).
  assert (En : 8 * N.of_nat sz / 8 = N.of_nat sz) by (rewrite N.mul_comm, N.div_mul; lia).
  exists (len d / N.of_nat sz). unfold s_array_count, array_len, udiv. rewrite Ez, En, (win_size _ _ _ _ W).
  replace (Z.of_nat sz =? 0)%Z with false by lia. replace (N.of_nat sz =? 0) with false by lia. split; [|reflexivity].
  f_equal. rewrite N2Z.inj_div. unfold count, len. lia.
Qed.
