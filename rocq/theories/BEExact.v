(** Exactly when the big-endian codecs work (C13). *)

From Coq Require Import Arith NArith ZArith List Bool Lia ZifyBool ZifyN ZifyNat.
From Verif Require Import Base Bits BitsFacts Codec CodecFacts BEThms.
Import ListNotations.
Local Open Scope N_scope.

Lemma be_testbit : forall b i, bytes_ok b -> N.testbit (be_value b) i = bit_at (rev b) i.
Proof. intros b i H. rewrite be_value_rev. apply le_dec_testbit, bytes_ok_rev, H. Qed.

Lemma be_bound : forall b, bytes_ok b -> be_value b < 2 ^ (8 * len b).
Proof.
  intros b H. rewrite be_value_rev. pose proof (le_dec_bound (rev b) (bytes_ok_rev b H)) as K.
  rewrite rev_length in K. exact K.
Qed.

Lemma rev_zeros : forall n, rev (repeat 0 n) = repeat (0:N) n.
Proof.
  intro n. induction n; cbn [repeat rev]; [reflexivity|]. rewrite IHn.
  clear. induction n; cbn [repeat app]; [reflexivity|]. rewrite IHn. reflexivity.
Qed.

Lemma be_padded : forall w d i, bytes_ok w ->
  N.testbit (be_value (w ++ repeat 0 d)) (i + 8 * N.of_nat d) = N.testbit (be_value w) i.
Proof.
  intros w d i Hw. rewrite !be_testbit; [|assumption|apply bytes_ok_app; split; [assumption|apply bytes_ok_zeros]].
  rewrite rev_app_distr, rev_zeros, bit_at_app. unfold len. rewrite repeat_length.
  destruct (N.ltb_spec (i + 8 * N.of_nat d) (8 * N.of_nat d)); [lia|]. f_equal. lia.
Qed.

Lemma firstn_rev_enc : forall l sz v, (l <= sz)%nat ->
  firstn l (rev (le_enc sz v)) = rev (skipn (sz - l) (le_enc sz v)).
Proof. intros l sz v H. rewrite firstn_rev, le_enc_length. reflexivity. Qed.

Section Exact.
Context {E : Type}.

(** What the two codecs see of a window of [l <= sz] bytes. *)
Lemma be_seen : forall sz w, (length w < sz <= 8)%nat ->
  read_bytes (E:=E) BE sz (w ++ repeat 0 (8 - length w)) = Ok (be_value (w ++ repeat 0 (sz - length w))).
Proof.
  intros sz w H. unfold read_bytes. rewrite app_length, repeat_length.
  replace (length w + (8 - length w))%nat with 8%nat by lia.
  destruct (Nat.ltb_spec 8 sz); [lia|]. f_equal. rewrite be_value_rev. f_equal. f_equal.
  rewrite firstn_app, firstn_all2 by lia. f_equal.
  replace (8 - length w)%nat with ((sz - length w) + (8 - sz))%nat by lia.
  rewrite repeat_app, firstn_app, repeat_length, Nat.sub_diag, firstn_O, app_nil_r.
  apply firstn_all2. rewrite repeat_length. lia.
Qed.

Lemma be_stored : forall sz w v, (length w < sz <= 8)%nat ->
  exists b, write_bytes (E:=E) BE sz (w ++ repeat 0 (8 - length w)) v = Ok b /\
    firstn (length w) b = rev (skipn (sz - length w) (le_enc sz v)).
Proof.
  intros sz w v H. unfold write_bytes. rewrite app_length, repeat_length.
  destruct (Nat.ltb_spec (length w + (8 - length w)) sz); [lia|].
  eexists. split; [reflexivity|]. rewrite firstn_app, rev_length, le_enc_length.
  replace (length w - sz)%nat with 0%nat by lia. rewrite firstn_O, app_nil_r.
  apply firstn_rev_enc. lia.
Qed.

Lemma be_stored_bits : forall l sz v i, (l <= sz)%nat -> i < 8 * N.of_nat l ->
  N.testbit (be_value (rev (skipn (sz - l) (le_enc sz v)))) i = N.testbit v (i + 8 * N.of_nat (sz - l)).
Proof.
  intros l sz v i H Hi. rewrite be_value_rev, rev_involutive, le_dec_testbit by (apply bytes_ok_skipn, le_enc_ok).
  rewrite bit_at_skipn, bit_at_le_enc.
  destruct (N.ltb_spec (8 * N.of_nat (sz - l) + i) (8 * N.of_nat sz)); [|lia].
  cbn [andb]. f_equal. lia.
Qed.

(** The effective shift. *)
Definition eff (sz : nat) (s : N) : N := (s mod tmod sz) mod (8 * N.of_nat sz).

Lemma tshl_eff : forall m sz x s r, (0 < sz)%nat -> tshl (E:=E) m sz x (from_usize sz s) = Ok r ->
  r = N.shiftl x (eff sz s) mod tmod sz /\ (m = Debug -> s mod tmod sz < 8 * N.of_nat sz).
Proof.
  intros m sz x s r Hsz. unfold tshl, from_usize, eff. destruct (N.ltb_spec (s mod tmod sz) (8 * N.of_nat sz)) as [H|H].
  - intros [= <-]. split; [|auto]. rewrite (N.mod_small _ (8 * N.of_nat sz)) by assumption. reflexivity.
  - destruct m; cbn [overflow]; [discriminate|]. intros [= <-]. split; [reflexivity|discriminate].
Qed.

(** The value the bit codec stores, bit by bit. *)
Lemma new_value_bits : forall sz bo bs x v sh i, (0 < sz <= 8)%nat -> bo < 8 ->
  i < 8 * N.of_nat sz ->
  N.testbit (N.lor (N.land x (from_usize sz (usize_mod - 1 - N.shiftl (2 ^ bs - 1) bo mod tmod 8)))
                   (N.shiftl (N.land v (from_usize sz (2 ^ bs - 1))) sh mod tmod sz)) i =
  (N.testbit x i && negb ((bo <=? i) && (i <? bo + bs)))
   || ((sh <=? i) && (i <? sh + bs) && N.testbit v (i - sh)).
Proof.
  intros sz bo bs x v sh i Hsz Hbo Hi.
  rewrite N.lor_spec, N.land_spec. unfold from_usize, tmod, usize_mod.
  rewrite !testbit_mod_pow2. change (8 * N.of_nat 8) with 64.
  rewrite testbit_compl by (apply N.mod_lt; apply N.pow_nonzero; lia). rewrite testbit_mod_pow2.
  destruct (N.ltb_spec i (8 * N.of_nat sz)); [|lia]. destruct (N.ltb_spec i 64); [|lia]. rewrite !andb_true_l.
  f_equal.
  - f_equal. f_equal. destruct (N.leb_spec bo i).
    + rewrite N.shiftl_spec_high' by assumption. rewrite testbit_mask.
      destruct (N.ltb_spec (i - bo) bs), (N.ltb_spec i (bo + bs)); try lia; reflexivity.
    + rewrite N.shiftl_spec_low by assumption. reflexivity.
  - destruct (N.leb_spec sh i).
    + rewrite N.shiftl_spec_high' by assumption. rewrite N.land_spec, testbit_mod_pow2, testbit_mask.
      destruct (N.ltb_spec (i - sh) (8 * N.of_nat sz)); [|lia]. cbn [andb].
      destruct (N.ltb_spec (i - sh) bs), (N.ltb_spec i (sh + bs)); try lia; cbn [andb];
      rewrite ?andb_true_r, ?andb_false_r; reflexivity.
    + rewrite N.shiftl_spec_low by assumption. reflexivity.
Qed.

Lemma testbit_tmod : forall sz x i, i < 8 * N.of_nat sz -> N.testbit (x mod tmod sz) i = N.testbit x i.
Proof.
  intros sz x i H. unfold tmod. rewrite testbit_mod_pow2.
  destruct (N.ltb_spec i (8 * N.of_nat sz)); [reflexivity|lia].
Qed.

(** Every successful write, on a window of at most the type's size. *)
Lemma be_bit_write_any : forall m sz bo bs w v w',
  (0 < length w <= sz)%nat -> (sz <= 8)%nat -> bytes_ok w -> 0 < bs < 64 -> bo < 8 ->
  bit_write (E:=E) m BE sz bo bs w v = Ok w' ->
  exists s, be_shift (E:=E) m bo bs = Ok s /\ (m = Debug -> s mod tmod sz < 8 * N.of_nat sz) /\
    forall i, i < 8 * len w ->
      N.testbit (be_value w') i =
        (N.testbit (be_value w) i && negb ((bo <=? i + 8 * N.of_nat (sz - length w)) &&
                                           (i + 8 * N.of_nat (sz - length w) <? bo + bs)))
        || ((eff sz s <=? i + 8 * N.of_nat (sz - length w)) && (i + 8 * N.of_nat (sz - length w) <? eff sz s + bs)
             && N.testbit v (i + 8 * N.of_nat (sz - length w) - eff sz s)).
Proof.
  intros m sz bo bs w v w' Hl Hsz Hw Hbs Hbo. unfold bit_write. unfold len.
  destruct (Nat.eqb_spec sz (length w)) as [Heq|Hne].
  - unfold bit_write_aligned. rewrite bit_mask_ok by assumption. cbn [bind].
    unfold reset_mask, tshl at 1. change (8 * N.of_nat 8) with 64.
    destruct (N.ltb_spec bo 64); [|lia]. cbn [bind].
    destruct (be_read (E:=E) sz w (eq_sym Heq) Hw) as (-> & Hv). cbn [bind].
    destruct (be_shift m bo bs) as [s| |]; cbn [bind]; try discriminate.
    destruct (tshl m sz _ _) as [r| |] eqn:Er; cbn [bind]; try discriminate.
    apply tshl_eff in Er; [|lia]. destruct Er as (-> & Hd). cbv zeta. intro Hr.
    match type of Hr with write_bytes BE sz w ?z = _ => destruct (be_write (E:=E) sz w z (eq_sym Heq)) as (b & K1 & K2 & K3 & K4) end.
    rewrite K1 in Hr. injection Hr as ->. exists s. split; [reflexivity|]. split; [assumption|]. intros i Hi.
    rewrite K4, testbit_tmod by lia.
    rewrite new_value_bits by lia. rewrite <- Heq, Nat.sub_diag, N.mul_0_r, N.add_0_r. reflexivity.
  - unfold bit_write_unaligned, pad8. destruct (Nat.ltb_spec 8 (length w)); [lia|]. cbn [bind].
    unfold bit_write_aligned. rewrite bit_mask_ok by assumption. cbn [bind].
    unfold reset_mask, tshl at 1. change (8 * N.of_nat 8) with 64.
    destruct (N.ltb_spec bo 64); [|lia]. cbn [bind].
    rewrite be_seen by lia. cbn [bind].
    destruct (be_shift m bo bs) as [s| |]; cbn [bind]; try discriminate.
    destruct (tshl m sz _ _) as [r| |] eqn:Er; cbn [bind]; try discriminate.
    apply tshl_eff in Er; [|lia]. destruct Er as (-> & Hd). cbv zeta. intro Hr.
    match type of Hr with context [write_bytes BE sz _ ?z] =>
      destruct (be_stored sz w z ltac:(lia)) as (b & K1 & K2) end.
    rewrite K1 in Hr. cbn [bind] in Hr. injection Hr as <-. rewrite K2.
    exists s. split; [reflexivity|]. split; [assumption|]. intros i Hi.
    rewrite be_stored_bits by lia. rewrite new_value_bits by lia. rewrite be_padded by assumption. reflexivity.
Qed.

Lemma be_ones : forall l i, N.testbit (be_value (repeat 255 l)) i = (i <? 8 * N.of_nat l).
Proof.
  intros l i. assert (H : be_value (repeat 255 l) = 2 ^ (8 * N.of_nat l) - 1).
  { rewrite be_value_rev. assert (R : rev (repeat (255:N) l) = repeat 255 l).
    { induction l; cbn [repeat rev]; [reflexivity|]. rewrite IHl. clear.
      induction l; cbn [repeat app]; [reflexivity|]. rewrite IHl. reflexivity. }
    rewrite R. clear. induction l as [|l IH]; [reflexivity|]. cbn [repeat le_dec]. rewrite IH.
    replace (8 * N.of_nat (S l)) with (8 + 8 * N.of_nat l) by lia. rewrite N.pow_add_r. change (2 ^ 8) with 256.
    assert (2 ^ (8 * N.of_nat l) <> 0) by (apply N.pow_nonzero; discriminate). lia. }
  rewrite H. apply testbit_mask.
Qed.

Lemma be_zeros : forall l, be_value (repeat 0 l) = 0.
Proof.
  intro l. rewrite be_value_rev, rev_zeros. induction l as [|l IH]; [reflexivity|]. cbn [repeat le_dec]. rewrite IH. reflexivity.
Qed.

Lemma ones_ok : forall n, bytes_ok (repeat 255 n).
Proof. intro n. apply Forall_forall. intros x H. apply repeat_spec in H. subst. reflexivity. Qed.

(** The shift amount wraps around and never hits the field's own offset. *)
Lemma wrapped_shift : forall m bo bs s sz, In sz [1; 2; 4; 8]%nat -> bo < 8 -> 8 < bo + bs mod 8 ->
  be_shift (E:=E) m bo bs = Ok s -> eff sz s = bo -> bo + bs <= 8 * N.of_nat sz -> False.
Proof.
  intros m bo bs s sz Hsz Hbo Hov. assert (Hm : bs mod 8 < 8) by (apply N.mod_lt; discriminate).
  unfold be_shift, usub at 1. destruct (N.leb_spec (bs mod 8) 8); [|lia]. cbn [bind].
  unfold usub. destruct (N.leb_spec bo (8 - bs mod 8)); [lia|].
  destruct m; cbn [overflow]; [discriminate|]. intros [= <-] He Hb.
  assert (Hd : bs = 8 * (bs / 8) + bs mod 8) by (apply N.div_mod; discriminate).
  set (r := bs mod 8) in *. clearbody r.
  assert (C : In r [0;1;2;3;4;5;6;7]) by (cbn; lia).
  assert (D : In bo [0;1;2;3;4;5;6;7]) by (cbn; lia).
  cbn in C, D, Hsz.
  repeat match goal with H : _ \/ _ |- _ => destruct H as [H|H] | H : False |- _ => destruct H end;
  subst; try lia; vm_compute in He; try discriminate He; lia.
Qed.

Lemma release_whole_byte : forall w v, length w = 1%nat -> bytes_ok w -> v < 2 ^ 8 ->
  exists w', bit_write (E:=E) Release BE 1 0 8 w v = Ok w' /\ length w' = 1%nat /\ bytes_ok w' /\
    bits_replaced (be_value w) 0 8 v (be_value w') /\ bit_read (E:=E) Release BE 1 0 8 w' = Ok v.
Proof.
  intros w v Hl Hw Hv. destruct w as [|x [|? ?]]; try discriminate. exists [v].
  assert (Hr : bit_read (E:=E) Release BE 1 0 8 [v] = Ok v).
  { unfold bit_read. cbn [length Nat.eqb]. unfold bit_read_aligned.
    change (bit_mask (E:=E) Release 8) with (@Ok E N 255). cbn [bind].
    change (read_bytes (E:=E) BE 1 [v]) with (@Ok E N (v + 256 * 0)). cbn [bind].
    change (be_shift (E:=E) Release 0 8) with (@Ok E N 8). cbn [bind].
    change (from_usize 1 8) with 8. unfold tshr. change (8 <? 8 * N.of_nat 1) with false. cbn [overflow bind].
    change (8 mod (8 * N.of_nat 1)) with 0. rewrite N.shiftr_0_r. f_equal.
    change (from_usize 1 255) with (N.ones 8). rewrite N.land_ones, N.mod_small; [lia|]. lia. }
  split; [|split; [reflexivity|split; [repeat constructor; exact Hv|split; [|exact Hr]]]].
  - unfold bit_write. cbn [length Nat.eqb]. unfold bit_write_aligned.
    change (bit_mask (E:=E) Release 8) with (@Ok E N 255). cbn [bind].
    change (reset_mask (E:=E) Release 255 0) with (@Ok E N (usize_mod - 1 - 255)). cbn [bind].
    change (read_bytes (E:=E) BE 1 [x]) with (@Ok E N (x + 256 * 0)). cbn [bind].
    change (be_shift (E:=E) Release 0 8) with (@Ok E N 8). cbn [bind].
    change (from_usize 1 8) with 8. unfold tshl. change (8 <? 8 * N.of_nat 1) with false. cbn [overflow bind].
    change (8 mod (8 * N.of_nat 1)) with 0. rewrite N.shiftl_0_r. cbv zeta.
    change (from_usize 1 (usize_mod - 1 - 255)) with 0. rewrite N.land_0_r, N.lor_0_l.
    change (from_usize 1 255) with (N.ones 8). rewrite N.land_ones.
    change (tmod 1) with (2 ^ 8). rewrite N.mod_mod by discriminate. rewrite N.mod_small by assumption.
    unfold write_bytes. cbn [length Nat.ltb Nat.leb skipn]. rewrite app_nil_r. cbn [le_enc rev app].
    f_equal. f_equal. apply N.mod_small. exact Hv.
  - intro i. unfold be_value. cbn [fold_left]. rewrite N.mul_0_r, !N.add_0_l, N.sub_0_r.
    destruct (N.ltb_spec i 8); cbn [andb N.leb]; [destruct (0 <=? i) eqn:K; [reflexivity|lia]|].
    rewrite andb_false_r. rewrite (testbit_high v 8 i) by assumption.
    symmetry. apply (testbit_high x 8 i); [|assumption]. inversion Hw; assumption.
Qed.

Theorem be_bits_exact : forall m sz l bo bs,
  In sz [1; 2; 4; 8]%nat -> (0 < l <= sz)%nat -> 0 < bs <= 8 * N.of_nat sz -> bo < 8 ->
  ((exists p, forall w v, length w = l -> bytes_ok w -> v < 2 ^ bs ->
      exists w', bit_write (E:=E) m BE sz bo bs w v = Ok w' /\ length w' = l /\ bytes_ok w' /\
        bits_replaced (be_value w) p bs v (be_value w') /\
        bit_read (E:=E) m BE sz bo bs w' = Ok v) <->
   (l = sz /\ bo + bs <= 8 * N.of_nat sz /\
    (2 * bo + bs mod 8 = 8 \/ (m = Release /\ sz = 1%nat /\ bo = 0 /\ bs = 8)))).
Proof.
  intros m sz l bo bs Hsz Hl Hbs Hbo.
  assert (Hs8 : (0 < sz <= 8)%nat) by (cbn in Hsz; lia).
  assert (Hm8 : bs mod 8 < 8) by (apply N.mod_lt; discriminate). split.
  - intros (p & H).
    assert (Hp1 : 1 < 2 ^ bs) by (apply N.pow_gt_1; lia).
    destruct (N.eq_dec bs 64) as [->|H64].
    { exfalso. destruct (H (repeat 0 l) 1) as (w' & K1 & K2 & K3 & K4 & K5);
        [apply repeat_length|apply bytes_ok_zeros|exact Hp1|].
      destruct m.
      - revert K1. unfold bit_write, bit_write_unaligned, pad8, bit_write_aligned.
        change (bit_mask (E:=E) Debug 64) with (@Panic E N).
        destruct (sz =? _)%nat; cbn [bind]; [discriminate|]. destruct (8 <? _)%nat; cbn [bind]; discriminate.
      - revert K5. unfold bit_read, bit_read_unaligned, pad8, bit_read_aligned.
        change (bit_mask (E:=E) Release 64) with (@Ok E N 0). cbn [bind].
        assert (Hz : from_usize sz 0 = 0) by (apply from_usize_small, tmod_pos).
        assert (G : forall b, (value <- read_bytes (E:=E) BE sz b;; sh <- be_shift Release bo 64;;
            v <- tshr Release sz value (from_usize sz sh);; Ok (N.land v (from_usize sz 0))) <> Ok 1).
        { intros b. destruct (read_bytes BE sz b); cbn [bind]; try discriminate.
          destruct (be_shift Release bo 64); cbn [bind]; try discriminate.
          destruct (tshr Release sz a (from_usize sz a0)); cbn [bind]; try discriminate.
          rewrite Hz, N.land_0_r. discriminate. }
        destruct (sz =? _)%nat; [apply G|]. destruct (8 <? _)%nat; cbn [bind]; [discriminate|apply G]. }
    assert (Hbs' : 0 < bs < 64) by lia.
    (* a window of ones set to 0 *)
    destruct (H (repeat 255 l) 0) as (w1 & A1 & A2 & A3 & A4 & A5); [apply repeat_length|apply ones_ok|lia|].
    destruct (H (repeat 0 l) (2 ^ bs - 1)) as (w2 & B1 & B2 & B3 & B4 & B5);
      [apply repeat_length|apply bytes_ok_zeros|lia|].
    assert (Hpl : p + bs <= 8 * N.of_nat l).
    { specialize (B4 (p + bs - 1)). destruct (N.leb_spec p (p + bs - 1)); [|lia].
      destruct (N.ltb_spec (p + bs - 1) (p + bs)); [|lia]. cbn [andb] in B4. rewrite testbit_mask in B4.
      destruct (N.ltb_spec (p + bs - 1 - p) bs); [|lia].
      destruct (N.lt_ge_cases (p + bs - 1) (8 * N.of_nat l)); [lia|].
      rewrite (testbit_high _ (8 * N.of_nat l)) in B4; [discriminate| |assumption].
      pose proof (be_bound w2 B3) as K. unfold len in K. rewrite B2 in K. exact K. }
    apply be_bit_write_any in A1; try assumption; try (rewrite repeat_length; assumption); try lia; [|apply ones_ok].
    apply be_bit_write_any in B1; try assumption; try (rewrite repeat_length; assumption); try lia; [|apply bytes_ok_zeros].
    destruct A1 as (s & Hs & Hd & A1). destruct B1 as (s' & Hs' & _ & B1).
    rewrite Hs in Hs'. injection Hs' as <-. unfold len in *. rewrite !repeat_length in *.
    set (d := N.of_nat (sz - l)) in *.
    assert (F1 : forall i, p <= i < p + bs -> bo <= i + 8 * d < bo + bs).
    { intros i Hi. specialize (A1 i ltac:(lia)). rewrite A4, !be_ones, !N.bits_0, andb_false_r, orb_false_r in A1.
      destruct (N.leb_spec p i); [|lia]. destruct (N.ltb_spec i (p + bs)); [|lia]. cbn [andb] in A1.
      destruct (N.ltb_spec i (8 * N.of_nat l)); [|lia]. cbn [andb] in A1.
      destruct (N.leb_spec bo (i + 8 * d)), (N.ltb_spec (i + 8 * d) (bo + bs)); cbn in A1; try discriminate. lia. }
    pose proof (F1 p ltac:(lia)). pose proof (F1 (p + bs - 1) ltac:(lia)).
    assert (d = 0) by lia. assert (Hlsz : l = sz) by lia. assert (p = bo) by lia. subst p.
    split; [exact Hlsz|]. split; [lia|].
    set (sh := eff sz s) in *.
    assert (F2 : forall i, bo <= i < bo + bs -> sh <= i < sh + bs).
    { intros i Hi. specialize (B1 i ltac:(lia)). rewrite B4, be_zeros, N.bits_0 in B1. cbn [andb orb] in B1.
      destruct (N.leb_spec bo i); [|lia]. destruct (N.ltb_spec i (bo + bs)); [|lia]. cbn [andb] in B1.
      rewrite !testbit_mask in B1. destruct (N.ltb_spec (i - bo) bs); [|lia].
      replace (i + 8 * d) with i in B1 by lia.
      destruct (N.leb_spec sh i), (N.ltb_spec i (sh + bs)); cbn in B1; try discriminate. lia. }
    pose proof (F2 bo ltac:(lia)). pose proof (F2 (bo + bs - 1) ltac:(lia)).
    assert (He : eff sz s = bo) by (fold sh; lia).
    destruct (N.le_gt_cases (bo + bs mod 8) 8) as [Hle|Hgt].
    + rewrite be_shift_ok in Hs by assumption. assert (Es : s = 8 - bs mod 8 - bo) by congruence. rewrite Es in He, Hd.
      pose proof (tmod_ge_256 sz ltac:(lia)) as Ht. unfold eff in He. rewrite (N.mod_small (8 - bs mod 8 - bo) (tmod sz)) in He, Hd by lia.
      destruct (N.lt_ge_cases (8 - bs mod 8 - bo) (8 * N.of_nat sz)) as [Hlt|Hge].
      * rewrite N.mod_small in He by assumption. left. lia.
      * right. destruct m; [specialize (Hd eq_refl); lia|]. split; [reflexivity|].
        assert (Hone : sz = 1%nat) by lia. assert (bo = 0) by lia. split; [exact Hone|].
        split; [assumption|]. assert (bs mod 8 = 0) by lia.
        assert (bs = 8 * (bs / 8) + bs mod 8) by (apply N.div_mod; discriminate). lia.
    + exfalso. eapply (wrapped_shift m bo bs s sz); try eassumption. lia.
  - intros (-> & Hb & [Hsym|(-> & -> & -> & ->)]).
    + exists bo. intros w v Hw Hok Hv.
      destruct (be_bits_symmetric (E:=E) m sz bo bs w v) as (w' & K1 & K2 & K3 & K4 & K5); try assumption; try lia.
      exists w'. repeat split; try assumption. rewrite K5, N.mod_small by assumption. reflexivity.
    + exists 0. apply release_whole_byte.
Qed.

Theorem be_bytes_exact : forall sz l, (0 < l <= sz)%nat -> (sz <= 8)%nat ->
  ((forall w, length w = l -> bytes_ok w -> byte_read (E:=E) BE sz w = Ok (be_value w)) <-> l = sz) /\
  ((forall w v, length w = l -> bytes_ok w -> v < 2 ^ (8 * N.of_nat l) ->
      exists w', byte_write (E:=E) BE sz w v = Ok w' /\ length w' = l /\ bytes_ok w' /\
        be_value w' = v) <-> l = sz) /\
  ((forall w v, length w = l -> bytes_ok w -> v < 2 ^ (8 * N.of_nat l) ->
      exists w', byte_write (E:=E) BE sz w v = Ok w' /\ byte_read (E:=E) BE sz w' = Ok v) <-> l = sz).
Proof.
  intros sz l Hl Hsz.
  assert (Hwr : l <> sz -> exists w', byte_write (E:=E) BE sz (repeat 0 l) 1 = Ok w' /\ w' = repeat 0 l).
  { intro Hne. unfold byte_write, byte_write_unaligned, byte_write_aligned, pad8. rewrite repeat_length.
    destruct (Nat.eqb_spec sz l); [congruence|]. destruct (Nat.ltb_spec 8 l); [lia|]. cbn [bind].
    destruct (be_stored sz (repeat 0 l) 1) as (b & K1 & K2); [rewrite repeat_length; lia|].
    rewrite repeat_length in K1, K2. rewrite K1. cbn [bind]. eexists. split; [reflexivity|].
    rewrite K2. assert (G : forall n, le_enc n 0 = repeat 0 n).
    { clear. induction n; cbn [le_enc repeat]; [reflexivity|]. change (0 mod 256) with 0. change (0 / 256) with 0.
      rewrite IHn. reflexivity. }
    destruct sz as [|sz]; [lia|]. replace (S sz - l)%nat with (S (sz - l)) by lia. cbn [le_enc skipn].
    change (1 / 256) with 0. rewrite G. rewrite <- rev_zeros at 1. rewrite rev_zeros.
    assert (S1 : forall a b, skipn a (repeat (0:N) b) = repeat 0 (b - a)).
    { clear. induction a; intros [|b]; cbn; try reflexivity. apply IHa. }
    rewrite S1, rev_zeros. f_equal. lia. }
  assert (Hrd : l <> sz -> forall w, length w = l -> bytes_ok w ->
     byte_read (E:=E) BE sz w = Ok (be_value (w ++ repeat 0 (sz - l)))).
  { intros Hne w Hw Hok. unfold byte_read, byte_read_unaligned, byte_read_aligned, pad8. rewrite Hw.
    destruct (Nat.eqb_spec sz l); [congruence|]. destruct (Nat.ltb_spec 8 l); [lia|]. cbn [bind].
    rewrite <- Hw. apply be_seen. lia. }
  assert (H1 : 1 < 2 ^ (8 * N.of_nat l)) by (apply N.pow_gt_1; lia).
  repeat split.
  - intro H. destruct (Nat.eq_dec l sz) as [|Hne]; [assumption|exfalso].
    specialize (H (repeat 255 l) (repeat_length _ _) (ones_ok _)).
    rewrite (Hrd Hne) in H by (apply repeat_length || apply ones_ok). injection H as H.
    assert (K : N.testbit (be_value (repeat 255 l ++ repeat 0 (sz - l))) (8 * N.of_nat l - 1 + 8 * N.of_nat (sz - l)) = true).
    { rewrite be_padded by apply ones_ok. rewrite be_ones. destruct (N.ltb_spec (8 * N.of_nat l - 1) (8 * N.of_nat l)); [reflexivity|lia]. }
    rewrite H, be_ones in K. destruct (N.ltb_spec (8 * N.of_nat l - 1 + 8 * N.of_nat (sz - l)) (8 * N.of_nat l)); [lia|discriminate].
  - intros -> w Hw Hok. apply (be_bytes_roundtrip (E:=E) sz w 0 Hw Hok).
  - intro H. destruct (Nat.eq_dec l sz) as [|Hne]; [assumption|exfalso].
    destruct (H (repeat 0 l) 1 (repeat_length _ _) (bytes_ok_zeros _) H1) as (w' & K1 & _ & _ & K2).
    destruct (Hwr Hne) as (w2 & K3 & ->). rewrite K3 in K1. injection K1 as <-. rewrite be_zeros in K2. discriminate.
  - intros -> w v Hw Hok Hv. destruct (be_bytes_roundtrip (E:=E) sz w v Hw Hok) as (_ & w' & K1 & K2 & K3 & K4 & _).
    exists w'. repeat split; try assumption. rewrite K4. apply N.mod_small. exact Hv.
  - intro H. destruct (Nat.eq_dec l sz) as [|Hne]; [assumption|exfalso].
    destruct (H (repeat 0 l) 1 (repeat_length _ _) (bytes_ok_zeros _) H1) as (w' & K1 & K2).
    destruct (Hwr Hne) as (w2 & K3 & ->). rewrite K3 in K1. injection K1 as <-.
    rewrite (Hrd Hne) in K2 by (apply repeat_length || apply bytes_ok_zeros).
    rewrite <- repeat_app, be_zeros in K2. discriminate.
  - intros -> w v Hw Hok Hv. destruct (be_bytes_roundtrip (E:=E) sz w v Hw Hok) as (_ & w' & K1 & K2 & K3 & K4 & K5).
    exists w'. split; [assumption|]. rewrite K5. f_equal. apply N.mod_small. exact Hv.
Qed.

(** Reading or writing stops with a panic exactly when the shift overflows
    with overflow checks on. *)
Theorem be_bits_panic : forall m sz bo bs w,
  In sz [1; 2; 4; 8]%nat -> (0 < length w <= sz)%nat -> bytes_ok w -> 0 < bs < 64 -> bo < 8 ->
  let overflows := m = Debug /\ (8 < bo + bs mod 8 \/ 8 * N.of_nat sz <= 8 - bs mod 8 - bo) in
  (bit_read (E:=E) m BE sz bo bs w = Panic <-> overflows) /\
  (forall v, bit_write (E:=E) m BE sz bo bs w v = Panic <-> overflows).
Proof.
  intros m sz bo bs w Hsz Hl Hw Hbs Hbo overflows.
  assert (Hs8 : (0 < sz <= 8)%nat) by (cbn in Hsz; lia).
  assert (Hm8 : bs mod 8 < 8) by (apply N.mod_lt; discriminate).
  pose proof (tmod_ge_256 sz ltac:(lia)) as Ht.
  assert (Hsh : (be_shift (E:=E) m bo bs = Panic /\ m = Debug /\ 8 < bo + bs mod 8) \/
     exists s, be_shift (E:=E) m bo bs = Ok s /\ (m = Debug -> s = 8 - bs mod 8 - bo /\ bo + bs mod 8 <= 8)).
  { destruct (N.le_gt_cases (bo + bs mod 8) 8) as [Hle|Hgt].
    - right. eexists. split; [apply be_shift_ok; assumption|]. intros _. split; [reflexivity|assumption].
    - unfold be_shift, usub at 1 3. destruct (N.leb_spec (bs mod 8) 8); [|lia]. cbn [bind]. unfold usub.
      destruct (N.leb_spec bo (8 - bs mod 8)); [lia|]. destruct m; cbn [overflow].
      + left. auto.
      + right. eexists. split; [reflexivity|discriminate]. }
  assert (Hrb : forall b, (sz <= length b)%nat -> exists x, read_bytes (E:=E) BE sz b = Ok x).
  { intros b Hb. unfold read_bytes. destruct (Nat.ltb_spec (length b) sz); [lia|]. eexists; reflexivity. }
  assert (Hwb : forall b x, (sz <= length b)%nat -> exists b', write_bytes (E:=E) BE sz b x = Ok b').
  { intros b x Hb. unfold write_bytes. destruct (Nat.ltb_spec (length b) sz); [lia|]. eexists; reflexivity. }
  assert (R : forall b, (sz <= length b)%nat -> (bit_read_aligned (E:=E) m BE sz bo bs b = Panic <-> overflows)).
  { intros b Hb. unfold bit_read_aligned. rewrite bit_mask_ok by assumption. cbn [bind].
    destruct (Hrb b Hb) as (x & ->). cbn [bind]. unfold overflows.
    destruct Hsh as [(-> & -> & Hgt)|(s & -> & Hd)]; cbn [bind]; [tauto|].
    unfold tshr, from_usize. destruct m.
    - destruct (Hd eq_refl) as (-> & Hle). rewrite (N.mod_small (8 - bs mod 8 - bo)) by lia.
      destruct (N.ltb_spec (8 - bs mod 8 - bo) (8 * N.of_nat sz)); cbn [overflow bind]; split; try discriminate;
        try (intros (_ & [K|K]); lia); intros _; split; auto.
    - split; [|intros (K & _); discriminate].
      destruct (_ <? _); cbn [overflow bind]; discriminate. }
  assert (W : forall b v, (sz <= length b)%nat -> (bit_write_aligned (E:=E) m BE sz bo bs b v = Panic <-> overflows)).
  { intros b v Hb. unfold bit_write_aligned. rewrite bit_mask_ok by assumption. cbn [bind].
    unfold reset_mask, tshl at 1. change (8 * N.of_nat 8) with 64. destruct (N.ltb_spec bo 64); [|lia]. cbn [bind].
    destruct (Hrb b Hb) as (x & ->). cbn [bind]. unfold overflows.
    destruct Hsh as [(-> & -> & Hgt)|(s & -> & Hd)]; cbn [bind]; [tauto|].
    unfold tshl. destruct m.
    - destruct (Hd eq_refl) as (-> & Hle). rewrite (from_usize_small sz (8 - bs mod 8 - bo)) by lia.
      destruct (N.ltb_spec (8 - bs mod 8 - bo) (8 * N.of_nat sz)); cbn [overflow bind]; cbv zeta.
      + match goal with |- context [write_bytes BE sz b ?z] => destruct (Hwb b z Hb) as (b' & ->) end.
        split; [discriminate|]. intros (_ & [K|K]); lia.
      + split; auto.
    - split; [|intros (K & _); discriminate]. cbv zeta.
      destruct (from_usize sz s <? _); cbn [overflow bind];
        match goal with |- context [write_bytes BE sz b ?z] => destruct (Hwb b z Hb) as (b' & ->) end; discriminate. }
  split.
  - unfold bit_read, bit_read_unaligned, pad8. destruct (Nat.eqb_spec sz (length w)); [apply R; lia|].
    destruct (Nat.ltb_spec 8 (length w)); [lia|]. cbn [bind]. apply R. rewrite app_length, repeat_length. lia.
  - intro v. unfold bit_write, bit_write_unaligned, pad8. destruct (Nat.eqb_spec sz (length w)); [apply W; lia|].
    destruct (Nat.ltb_spec 8 (length w)); [lia|]. cbn [bind].
    rewrite <- (W (w ++ repeat 0 (8 - length w)) v) by (rewrite app_length, repeat_length; lia).
    destruct (bit_write_aligned _ _ _ _ _ _ _); cbn [bind]; split; try discriminate; auto.
Qed.

(** What a read returns when it does not panic: the shift is taken modulo
    the width of the type. *)
Lemma eff_shift : forall m bo bs s sz, In sz [1; 2; 4; 8]%nat -> bo < 8 ->
  be_shift (E:=E) m bo bs = Ok s ->
  Z.of_N (eff sz s) = ((8 - Z.of_N (bs mod 8) - Z.of_N bo) mod (8 * Z.of_nat sz))%Z.
Proof.
  intros m bo bs s sz Hsz Hbo. assert (Hm : bs mod 8 < 8) by (apply N.mod_lt; discriminate).
  unfold be_shift. set (r := bs mod 8) in *. clearbody r.
  assert (C : In r [0;1;2;3;4;5;6;7]) by (cbn; lia).
  assert (D : In bo [0;1;2;3;4;5;6;7]) by (cbn; lia).
  cbn in C, D, Hsz.
  repeat match goal with H : _ \/ _ |- _ => destruct H as [H|H] | H : False |- _ => destruct H end;
  subst; destruct m; intro H; vm_compute in H; try discriminate H; injection H as <-; vm_compute; reflexivity.
Qed.

Theorem be_bits_read : forall sz bo bs w,
  In sz [1; 2; 4; 8]%nat -> length w = sz -> bytes_ok w -> 0 < bs < 64 -> bs <= 8 * N.of_nat sz -> bo < 8 ->
  let sh := Z.to_N ((8 - Z.of_N (bs mod 8) - Z.of_N bo) mod (8 * Z.of_nat sz)) in
  bit_read (E:=E) Release BE sz bo bs w = Ok (be_value w / 2 ^ sh mod 2 ^ bs) /\
  forall v, v < 2 ^ bs -> exists w', bit_write (E:=E) Release BE sz bo bs w v = Ok w' /\
    length w' = sz /\ bytes_ok w' /\
    forall i, i < 8 * N.of_nat sz ->
      (N.testbit (be_value w') i = true <->
       (N.testbit (be_value w) i = true /\ ~ (bo <= i < bo + bs)) \/
       (sh <= i < sh + bs /\ N.testbit v (i - sh) = true)).
Proof.
  intros sz bo bs w Hsz Hl Hw Hbs Hb8 Hbo sh.
  assert (Hs8 : (0 < sz <= 8)%nat) by (cbn in Hsz; lia).
  assert (Hm8 : bs mod 8 < 8) by (apply N.mod_lt; discriminate).
  assert (Hs : exists s, be_shift (E:=E) Release bo bs = Ok s).
  { unfold be_shift, usub at 1. destruct (bs mod 8 <=? 8); cbn [overflow bind]; unfold usub;
      destruct (bo <=? _); cbn [overflow]; eexists; reflexivity. }
  destruct Hs as (s & Hs). pose proof (eff_shift Release bo bs s sz Hsz Hbo Hs) as He.
  assert (Hsh : eff sz s = sh) by (unfold sh; rewrite <- He, N2Z.id; reflexivity).
  split.
  - unfold bit_read. rewrite Hl, Nat.eqb_refl. unfold bit_read_aligned. rewrite bit_mask_ok by assumption. cbn [bind].
    destruct (be_read (E:=E) sz w Hl Hw) as (-> & Hv). cbn [bind]. rewrite Hs. cbn [bind].
    assert (Ht : tshr (E:=E) Release sz (be_value w) (from_usize sz s) = Ok (N.shiftr (be_value w) sh)).
    { rewrite <- Hsh. unfold tshr, eff, from_usize. destruct (N.ltb_spec (s mod tmod sz) (8 * N.of_nat sz)).
      - rewrite (N.mod_small (s mod tmod sz)) by assumption. reflexivity.
      - reflexivity. }
    rewrite Ht. cbn [bind]. f_equal. rewrite from_usize_small.
    + rewrite N.sub_1_r, <- N.ones_equiv, N.land_ones, N.shiftr_div_pow2. reflexivity.
    + assert (2 ^ bs <> 0) by (apply N.pow_nonzero; lia).
      assert (2 ^ bs <= tmod sz) by (unfold tmod; apply pow2_small; assumption). lia.
  - intros v Hv.
    assert (Hok : exists w', bit_write (E:=E) Release BE sz bo bs w v = Ok w' /\ length w' = sz /\ bytes_ok w').
    { unfold bit_write. rewrite Hl, Nat.eqb_refl. unfold bit_write_aligned. rewrite bit_mask_ok by assumption. cbn [bind].
      unfold reset_mask, tshl at 1. change (8 * N.of_nat 8) with 64.
      destruct (N.ltb_spec bo 64); [|lia]. cbn [bind].
      destruct (be_read (E:=E) sz w Hl Hw) as (-> & _). cbn [bind]. rewrite Hs. cbn [bind]. unfold tshl.
      destruct (from_usize sz s <? _); cbn [overflow bind]; cbv zeta;
      match goal with |- context [write_bytes BE sz w ?z] =>
        destruct (be_write (E:=E) sz w z Hl) as (b & K1 & K2 & K3 & _) end; exists b; auto. }
    destruct Hok as (w' & K1 & K2 & K3). exists w'. split; [assumption|]. split; [assumption|]. split; [assumption|].
    apply be_bit_write_any in K1; try assumption; try lia.
    destruct K1 as (s' & Hs' & _ & K1). rewrite Hs in Hs'. assert (s' = s) by congruence. subst s'.
    intros i Hi. unfold len in K1. rewrite K1 by lia. rewrite Hl, Nat.sub_diag, N.mul_0_r, N.add_0_r, Hsh.
    rewrite orb_true_iff, !andb_true_iff, negb_true_iff, andb_false_iff, !N.leb_le, !N.ltb_lt, N.leb_gt, N.ltb_ge.
    destruct (N.testbit (be_value w) i), (N.testbit v (i - sh)); split; intros; intuition lia.
Qed.

End Exact.
