(** Proofs about the big-endian codecs (C13). *)

From Coq Require Import Arith NArith ZArith List Bool Lia ZifyBool ZifyN ZifyNat.
From Verif Require Import Base Bits BitsFacts Codec CodecFacts.
Import ListNotations.
Local Open Scope N_scope.

Lemma le_dec_app : forall a b, le_dec (a ++ b) = le_dec a + tmod (length a) * le_dec b.
Proof.
  induction a as [|x a IH]; intros b; cbn [app le_dec length].
  - unfold tmod. cbn. destruct (le_dec b); reflexivity.
  - rewrite IH, tmod_S. lia.
Qed.

Lemma be_value_rev : forall b, be_value b = le_dec (rev b).
Proof.
  intros b. unfold be_value. rewrite <- (rev_involutive b) at 1. rewrite <- fold_left_rev_right.
  rewrite rev_involutive.
  induction (rev b) as [|x r IH]; cbn [fold_right le_dec]; [reflexivity|]. rewrite IH. lia.
Qed.

Section BE.
Context {E : Type}.

Lemma be_read : forall sz w, length w = sz -> bytes_ok w ->
  read_bytes (E:=E) BE sz w = Ok (be_value w) /\ be_value w < tmod sz.
Proof.
  intros sz w Hl Hw. unfold read_bytes. subst sz. rewrite Nat.ltb_irrefl, firstn_all, be_value_rev.
  split; [reflexivity|]. rewrite <- (rev_length w). apply le_dec_bound. apply bytes_ok_rev. assumption.
Qed.

Lemma be_write : forall sz w v, length w = sz ->
  exists w', write_bytes (E:=E) BE sz w v = Ok w' /\ length w' = sz /\ bytes_ok w' /\
    be_value w' = v mod tmod sz.
Proof.
  intros sz w v Hl. unfold write_bytes. subst sz. rewrite Nat.ltb_irrefl, skipn_all, app_nil_r.
  eexists. split; [reflexivity|]. rewrite rev_length, le_enc_length. split; [reflexivity|].
  split; [apply bytes_ok_rev, le_enc_ok|]. rewrite be_value_rev, rev_involutive. apply le_dec_le_enc.
Qed.

Lemma be_shift_ok : forall m bo bs, bo + bs mod 8 <= 8 ->
  be_shift (E:=E) m bo bs = Ok (8 - bs mod 8 - bo).
Proof.
  intros m bo bs H. unfold be_shift, usub.
  destruct (N.leb_spec (bs mod 8) 8); [|lia]. cbn [bind].
  destruct (N.leb_spec bo (8 - bs mod 8)); [reflexivity|lia].
Qed.

Lemma be_bit_read : forall m sz bo bs w,
  length w = sz -> bytes_ok w -> (0 < sz <= 8)%nat -> 0 < bs < 64 ->
  bo + bs mod 8 <= 8 -> 8 - bs mod 8 - bo < 8 -> bs <= 8 * N.of_nat sz ->
  bit_read (E:=E) m BE sz bo bs w = Ok (be_value w / 2 ^ (8 - bs mod 8 - bo) mod 2 ^ bs).
Proof.
  intros m sz bo bs w Hl Hw Hsz Hbs Hsh Hlt Hb8. unfold bit_read. rewrite Hl, Nat.eqb_refl.
  unfold bit_read_aligned. rewrite bit_mask_ok by assumption. cbn [bind].
  destruct (be_read sz w Hl Hw) as (-> & Hv). cbn [bind].
  rewrite be_shift_ok by assumption. cbn [bind]. set (sh := 8 - bs mod 8 - bo) in *.
  pose proof (tmod_ge_256 sz ltac:(lia)). rewrite (from_usize_small sz sh) by lia.
  unfold tshr. destruct (N.ltb_spec sh (8 * N.of_nat sz)); [|lia]. cbn [bind]. f_equal.
  rewrite from_usize_small.
  - rewrite N.sub_1_r, <- N.ones_equiv, N.land_ones, N.shiftr_div_pow2. reflexivity.
  - assert (2 ^ bs <> 0) by (apply N.pow_nonzero; lia).
    assert (2 ^ bs <= tmod sz) by (unfold tmod; apply pow2_small; assumption). lia.
Qed.

Lemma be_bit_write : forall m sz bo bs w v,
  length w = sz -> bytes_ok w -> (0 < sz <= 8)%nat -> 0 < bs < 64 ->
  bo + bs mod 8 <= 8 -> 8 - bs mod 8 - bo < 8 -> bo + bs <= 8 * N.of_nat sz ->
  exists w', bit_write (E:=E) m BE sz bo bs w v = Ok w' /\ length w' = sz /\ bytes_ok w' /\
    forall i, N.testbit (be_value w') i =
      (i <? 8 * N.of_nat sz) &&
      ((N.testbit (be_value w) i && negb ((bo <=? i) && (i <? bo + bs)))
       || ((8 - bs mod 8 - bo <=? i) && (i <? 8 - bs mod 8 - bo + bs)
            && N.testbit v (i - (8 - bs mod 8 - bo)))).
Proof.
  intros m sz bo bs w v Hl Hw Hsz Hbs Hsh Hlt Hb8. unfold bit_write. rewrite Hl, Nat.eqb_refl.
  unfold bit_write_aligned. rewrite bit_mask_ok by assumption. cbn [bind].
  unfold reset_mask, tshl at 1. change (8 * N.of_nat 8) with 64.
  destruct (N.ltb_spec bo 64); [|lia]. cbn [bind].
  destruct (be_read sz w Hl Hw) as (-> & Hv). cbn [bind].
  rewrite be_shift_ok by assumption. cbn [bind]. set (sh := 8 - bs mod 8 - bo) in *.
  clearbody sh. pose proof (tmod_ge_256 sz ltac:(lia)). rewrite (from_usize_small sz sh) by lia.
  unfold tshl. destruct (N.ltb_spec sh (8 * N.of_nat sz)); [|lia]. cbn [bind]. cbv zeta.
  match goal with |- context [write_bytes BE sz w ?z] => set (nv := z) end.
  destruct (be_write sz w nv Hl) as (w' & K1 & K2 & K3 & K4).
  exists w'. split; [assumption|]. split; [assumption|]. split; [assumption|]. intro i.
  rewrite K4. unfold tmod at 1. rewrite testbit_mod_pow2.
  destruct (N.ltb_spec i (8 * N.of_nat sz)); [|reflexivity]. cbn [andb].
  subst nv. rewrite N.lor_spec, N.land_spec. unfold from_usize, tmod, usize_mod.
  rewrite !testbit_mod_pow2. change (8 * N.of_nat 8) with 64.
  rewrite testbit_compl by (apply N.mod_lt; apply N.pow_nonzero; lia). rewrite testbit_mod_pow2.
  destruct (N.ltb_spec i (8 * N.of_nat sz)); [|lia]. destruct (N.ltb_spec i 64); [|lia]. rewrite !andb_true_l.
  f_equal.
  - f_equal. f_equal. destruct (N.leb_spec bo i).
    + rewrite N.shiftl_spec_high' by assumption. rewrite testbit_mask.
      destruct (N.ltb_spec (i - bo) bs), (N.ltb_spec i (bo + bs)); try lia; reflexivity.
    + rewrite N.shiftl_spec_low by assumption. reflexivity.
  - destruct (N.leb_spec sh i).
    + rewrite N.shiftl_spec_high' by assumption. rewrite N.land_spec, testbit_mod_pow2, testbit_mask.
      destruct (N.ltb_spec (i - sh) (8 * N.of_nat sz)); [|lia]. cbn [andb].
      destruct (N.ltb_spec (i - sh) bs), (N.ltb_spec i (sh + bs)); try lia; cbn [andb];
      rewrite ?andb_true_r, ?andb_false_r; reflexivity.
    + rewrite N.shiftl_spec_low by assumption. reflexivity.
Qed.

(** ** C13 *)
Lemma be_bytes_roundtrip : forall sz w v, length w = sz -> bytes_ok w ->
  byte_read (E:=E) BE sz w = Ok (be_value w) /\
  exists w', byte_write (E:=E) BE sz w v = Ok w' /\ length w' = sz /\ bytes_ok w' /\
    be_value w' = v mod tmod sz /\ byte_read (E:=E) BE sz w' = Ok (v mod tmod sz).
Proof.
  intros sz w v Hl Hw. unfold byte_read, byte_write. rewrite Hl, Nat.eqb_refl.
  split; [apply (be_read sz w Hl Hw)|].
  destruct (be_write sz w v Hl) as (w' & H1 & H2 & H3 & H4).
  exists w'. rewrite H2, Nat.eqb_refl. repeat split; try assumption.
  destruct (be_read sz w' H2 H3) as (H5 & _). unfold byte_read_aligned. rewrite H5, H4. reflexivity.
Qed.

Lemma be_bits_symmetric : forall m sz bo bs w v,
  length w = sz -> bytes_ok w -> (0 < sz <= 8)%nat -> 0 < bs < 64 ->
  2 * bo + bs mod 8 = 8 -> bo + bs <= 8 * N.of_nat sz ->
  exists w', bit_write (E:=E) m BE sz bo bs w v = Ok w' /\ length w' = sz /\ bytes_ok w' /\
    bits_replaced (be_value w) bo bs v (be_value w') /\
    bit_read (E:=E) m BE sz bo bs w' = Ok (v mod 2 ^ bs).
Proof.
  intros m sz bo bs w v Hl Hw Hsz Hbs Hsym Hb8.
  assert (H8 : bs mod 8 < 8) by (apply N.mod_lt; discriminate).
  assert (Hbo : 8 - bs mod 8 - bo = bo) by lia.
  destruct (be_bit_write m sz bo bs w v) as (w' & H1 & H2 & H3 & H4); try assumption; try lia.
  exists w'. split; [assumption|]. split; [assumption|]. split; [assumption|]. rewrite Hbo in H4.
  assert (Hrep : bits_replaced (be_value w) bo bs v (be_value w')).
  { intro i. rewrite H4. destruct (be_read sz w Hl Hw) as (_ & Hv). unfold tmod in Hv.
    destruct (N.ltb_spec i (8 * N.of_nat sz)).
    - destruct (N.leb_spec bo i), (N.ltb_spec i (bo + bs)); cbn [andb negb orb];
        rewrite ?andb_false_r, ?andb_true_r, ?orb_false_r, ?orb_false_l; reflexivity.
    - destruct (N.leb_spec bo i), (N.ltb_spec i (bo + bs)); cbn [andb]; try lia;
        symmetry; eapply testbit_high; eassumption. }
  split; [assumption|].
  rewrite be_bit_read; try assumption; try lia. f_equal. rewrite Hbo.
  apply N.bits_inj. intro j. rewrite !testbit_mod_pow2, N.div_pow2_bits.
  destruct (N.ltb_spec j bs); [|reflexivity]. cbn [andb]. rewrite Hrep.
  destruct (N.leb_spec bo (j + bo)); [|lia]. destruct (N.ltb_spec (j + bo) (bo + bs)); [|lia].
  cbn [andb]. f_equal. lia.
Qed.

Lemma be_bits_zero : forall m sz bo bs v,
  (0 < sz <= 8)%nat -> 0 < bs < 64 -> 0 < bs mod 8 ->
  bo + bs mod 8 <= 8 -> bo + bs <= 8 * N.of_nat sz -> 8 - bs mod 8 - bo + bs <= 8 * N.of_nat sz ->
  exists w', bit_write (E:=E) m BE sz bo bs (repeat 0 sz) v = Ok w' /\ length w' = sz /\ bytes_ok w' /\
    bit_read (E:=E) m BE sz bo bs w' = Ok (v mod 2 ^ bs).
Proof.
  intros m sz bo bs v Hsz Hbs H8 Hsh Hb8 Hs8.
  destruct (be_bit_write m sz bo bs (repeat 0 sz) v) as (w' & H1 & H2 & H3 & H4); try assumption; try lia.
  { apply repeat_length. } { apply bytes_ok_zeros. }
  exists w'. split; [assumption|]. split; [assumption|]. split; [assumption|].
  rewrite be_bit_read; try assumption; try lia. f_equal.
  set (sh := 8 - bs mod 8 - bo) in *. clearbody sh.
  assert (Hz : be_value (repeat 0 sz) = 0).
  { rewrite be_value_rev. assert (Hall : Forall (fun x => x = 0) (rev (repeat 0 sz))).
    { apply Forall_rev. clear. induction sz; cbn; constructor; auto. }
    clear - Hall. induction (rev (repeat 0 sz)) as [|x l IH]; [reflexivity|].
    inversion Hall; subst. cbn [le_dec]. rewrite IH by assumption. reflexivity. }
  apply N.bits_inj. intro j. rewrite !testbit_mod_pow2, N.div_pow2_bits.
  destruct (N.ltb_spec j bs); [|reflexivity]. cbn [andb]. rewrite H4, Hz, N.bits_0.
  destruct (N.ltb_spec (j + sh) (8 * N.of_nat sz)); [|lia]. cbn [andb orb].
  destruct (N.leb_spec sh (j + sh)); [|lia]. destruct (N.ltb_spec (j + sh) (sh + bs)); [|lia].
  cbn [andb]. f_equal. lia.
Qed.

End BE.
