(** Lemmas about byte strings, their bits and their numeric value. *)

From Coq Require Import NArith ZArith List Bool Lia ZifyBool ZifyN ZifyNat.
From Verif Require Import Base Bits.
Import ListNotations.
Local Open Scope N_scope.

Ltac Zify.zify_post_hook ::= Z.to_euclidean_division_equations.

Lemma testbit_high : forall x n i, x < 2 ^ n -> n <= i -> N.testbit x i = false.
Proof.
  intros x n i H Hi. destruct (N.eq_dec x 0) as [->|Hx]; [apply N.bits_0|].
  apply N.bits_above_log2. apply N.lt_le_trans with n; [|exact Hi].
  apply N.log2_lt_pow2; lia.
Qed.

Lemma testbit_byte_high : forall x i, x < 256 -> 8 <= i -> N.testbit x i = false.
Proof. intros. apply testbit_high with 8; assumption. Qed.

Lemma lt_pow2_testbit : forall x n,
  (forall i, n <= i -> N.testbit x i = false) -> x < 2 ^ n.
Proof.
  intros x n H. destruct (N.lt_ge_cases x (2 ^ n)) as [|Hge]; [assumption|exfalso].
  assert (Hx : x <> 0) by (assert (2 ^ n <> 0) by (apply N.pow_nonzero; lia); lia).
  assert (Hl : n <= N.log2 x) by (apply N.log2_le_pow2; lia).
  specialize (H (N.log2 x) Hl). rewrite N.bit_log2 in H by exact Hx. discriminate.
Qed.

Lemma bit_at_nil : forall i, bit_at [] i = false.
Proof. intros. unfold bit_at. destruct (N.to_nat (i / 8)); apply N.bits_0. Qed.

Lemma bit_at_cons : forall x r i, x < 256 ->
  bit_at (x :: r) i = if i <? 8 then N.testbit x i else bit_at r (i - 8).
Proof.
  intros x r i Hx. unfold bit_at. destruct (N.ltb_spec i 8).
  - rewrite N.div_small, N.mod_small by assumption. reflexivity.
  - assert (Hd : i / 8 = N.succ ((i - 8) / 8)) by lia.
    assert (Hm : i mod 8 = (i - 8) mod 8) by lia.
    rewrite Hd, Hm, N2Nat.inj_succ. reflexivity.
Qed.

Lemma testbit_add_256 : forall x y i, x < 256 ->
  N.testbit (x + 256 * y) i = if i <? 8 then N.testbit x i else N.testbit y (i - 8).
Proof.
  intros x y i Hx. destruct (N.ltb_spec i 8).
  - rewrite <- (N.mod_pow2_bits_low _ 8 i) by assumption.
    replace ((x + 256 * y) mod 2 ^ 8) with x; [reflexivity|].
    change (2 ^ 8) with 256. lia.
  - replace i with ((i - 8) + 8) at 1 by lia.
    rewrite <- N.div_pow2_bits. f_equal. change (2 ^ 8) with 256. lia.
Qed.

Lemma le_dec_testbit : forall b i, bytes_ok b -> N.testbit (le_dec b) i = bit_at b i.
Proof.
  induction b as [|x r IH]; intros i H.
  - rewrite bit_at_nil. apply N.bits_0.
  - inversion H as [|? ? Hx Hr]; subst. cbn [le_dec].
    rewrite testbit_add_256, bit_at_cons, IH by assumption. reflexivity.
Qed.

Lemma bit_at_beyond : forall b i, 8 * len b <= i -> bit_at b i = false.
Proof.
  intros b i H. unfold bit_at, len in *. rewrite nth_overflow; [apply N.bits_0|]. lia.
Qed.

Lemma tmod_pos : forall sz, 0 < tmod sz.
Proof. intros. unfold tmod. apply N.neq_0_lt_0. apply N.pow_nonzero. lia. Qed.

Lemma tmod_S : forall sz, tmod (S sz) = 256 * tmod sz.
Proof.
  intros. unfold tmod. rewrite Nat2N.inj_succ.
  replace (8 * N.succ (N.of_nat sz)) with (8 + 8 * N.of_nat sz) by lia.
  rewrite N.pow_add_r. reflexivity.
Qed.

Lemma le_dec_bound : forall b, bytes_ok b -> le_dec b < tmod (length b).
Proof.
  intros b H. unfold tmod. apply lt_pow2_testbit. intros i Hi.
  rewrite le_dec_testbit by assumption. apply bit_at_beyond. exact Hi.
Qed.

Lemma le_enc_length : forall sz v, length (le_enc sz v) = sz.
Proof. induction sz; intros; cbn; [|rewrite IHsz]; reflexivity. Qed.

Lemma le_enc_ok : forall sz v, bytes_ok (le_enc sz v).
Proof.
  induction sz; intros; cbn; constructor; [|apply IHsz].
  apply N.mod_lt. discriminate.
Qed.

Lemma bit_at_le_enc : forall sz v i,
  bit_at (le_enc sz v) i = (i <? 8 * N.of_nat sz) && N.testbit v i.
Proof.
  induction sz as [|k IH]; intros v i.
  - cbn [le_enc]. rewrite bit_at_nil. destruct (N.ltb_spec i (8 * N.of_nat 0)); [lia|reflexivity].
  - cbn [le_enc]. rewrite bit_at_cons by (apply N.mod_lt; discriminate).
    change 256 with (2 ^ 8). rewrite IH.
    destruct (N.ltb_spec i 8).
    + rewrite N.mod_pow2_bits_low by assumption.
      destruct (N.ltb_spec i (8 * N.of_nat (S k))); [reflexivity|lia].
    + rewrite N.div_pow2_bits. replace (i - 8 + 8) with i by lia. f_equal.
      destruct (N.ltb_spec (i - 8) (8 * N.of_nat k)), (N.ltb_spec i (8 * N.of_nat (S k))); lia.
Qed.

Lemma le_dec_le_enc : forall sz v, le_dec (le_enc sz v) = v mod tmod sz.
Proof.
  intros. apply N.bits_inj. intro i.
  rewrite le_dec_testbit by apply le_enc_ok. rewrite bit_at_le_enc. unfold tmod.
  destruct (N.ltb_spec i (8 * N.of_nat sz)).
  - rewrite N.mod_pow2_bits_low by assumption. reflexivity.
  - rewrite N.mod_pow2_bits_high by assumption. reflexivity.
Qed.

Lemma le_enc_le_dec : forall b, bytes_ok b -> le_enc (length b) (le_dec b) = b.
Proof.
  induction b as [|x r IH]; intros H; [reflexivity|].
  inversion H as [|? ? Hx Hr]; subst. cbn [length le_enc le_dec].
  assert (H1 : (x + 256 * le_dec r) mod 256 = x) by lia.
  assert (H2 : (x + 256 * le_dec r) / 256 = le_dec r) by lia.
  rewrite H1, H2, IH by assumption. reflexivity.
Qed.

Lemma bytes_ok_app : forall a b, bytes_ok (a ++ b) <-> bytes_ok a /\ bytes_ok b.
Proof. intros. apply Forall_app. Qed.

Lemma bytes_ok_firstn : forall n b, bytes_ok b -> bytes_ok (firstn n b).
Proof.
  intros n b H. rewrite <- (firstn_skipn n b) in H. apply bytes_ok_app in H. tauto.
Qed.
Lemma bytes_ok_skipn : forall n b, bytes_ok b -> bytes_ok (skipn n b).
Proof.
  intros n b H. rewrite <- (firstn_skipn n b) in H. apply bytes_ok_app in H. tauto.
Qed.
Lemma bytes_ok_rev : forall b, bytes_ok b -> bytes_ok (rev b).
Proof. intros. apply Forall_rev. assumption. Qed.
Lemma bytes_ok_zeros : forall n, bytes_ok (repeat 0 n).
Proof. induction n; cbn; constructor; [reflexivity|assumption]. Qed.
Lemma bytes_ok_splice : forall b lo d, bytes_ok b -> bytes_ok d -> bytes_ok (splice b lo d).
Proof.
  intros. unfold splice. apply bytes_ok_app; split; [apply bytes_ok_firstn; assumption|].
  apply bytes_ok_app; split; [assumption|apply bytes_ok_skipn; assumption].
Qed.

Lemma bit_at_app : forall a b i,
  bit_at (a ++ b) i = if i <? 8 * len a then bit_at a i else bit_at b (i - 8 * len a).
Proof.
  intros a b i. unfold bit_at, len. destruct (N.ltb_spec i (8 * N.of_nat (length a))).
  - rewrite app_nth1 by lia. reflexivity.
  - rewrite app_nth2 by lia.
    replace (N.to_nat (i / 8) - length a)%nat
      with (N.to_nat ((i - 8 * N.of_nat (length a)) / 8)) by lia.
    replace ((i - 8 * N.of_nat (length a)) mod 8) with (i mod 8) by lia. reflexivity.
Qed.

Lemma nth_firstn_lt : forall {A} (d : A) n l i, (i < n)%nat -> nth i (firstn n l) d = nth i l d.
Proof.
  intros A d n. induction n; intros l i H; [lia|]. destruct l; [reflexivity|].
  destruct i; cbn; [reflexivity|]. apply IHn. lia.
Qed.
Lemma nth_skipn_add : forall {A} (d : A) n l i, nth i (skipn n l) d = nth (n + i) l d.
Proof.
  intros A d n. induction n; intros l i; [reflexivity|]. destruct l; cbn.
  - destruct i; reflexivity.
  - apply IHn.
Qed.

Lemma bit_at_firstn : forall n b i,
  bit_at (firstn n b) i = (i <? 8 * N.of_nat n) && bit_at b i.
Proof.
  intros. destruct (N.ltb_spec i (8 * N.of_nat n)); cbn [andb].
  - unfold bit_at. rewrite nth_firstn_lt by lia. reflexivity.
  - apply bit_at_beyond. unfold len. rewrite firstn_length. lia.
Qed.

Lemma bit_at_skipn : forall n b i, bit_at (skipn n b) i = bit_at b (8 * N.of_nat n + i).
Proof.
  intros. unfold bit_at. rewrite nth_skipn_add.
  replace (n + N.to_nat (i / 8))%nat with (N.to_nat ((8 * N.of_nat n + i) / 8)) by lia.
  replace ((8 * N.of_nat n + i) mod 8) with (i mod 8) by lia. reflexivity.
Qed.

Lemma bit_at_zeros : forall n i, bit_at (repeat 0 n) i = false.
Proof.
  intros. unfold bit_at.
  assert (H : forall k, nth k (repeat 0 n) 0 = 0).
  { induction n; intros [|k]; cbn; auto. }
  rewrite H. apply N.bits_0.
Qed.

Lemma len_app : forall {A} (a b : list A), len (a ++ b) = len a + len b.
Proof. intros. unfold len. rewrite app_length. lia. Qed.

Lemma splice_length : forall {A} (b : list A) lo d,
  lo + len d <= len b -> length (splice b lo d) = length b.
Proof.
  intros. unfold splice, len in *. rewrite !app_length, firstn_length, skipn_length. lia.
Qed.

Lemma bit_at_splice : forall b lo d i, lo + len d <= len b ->
  bit_at (splice b lo d) i =
  if (8 * lo <=? i) && (i <? 8 * (lo + len d)) then bit_at d (i - 8 * lo) else bit_at b i.
Proof.
  intros b lo d i H. unfold splice. rewrite bit_at_app, bit_at_app, bit_at_firstn, bit_at_skipn.
  assert (Hl : len (firstn (N.to_nat lo) b) = lo).
  { unfold len in *. rewrite firstn_length. lia. }
  rewrite Hl. rewrite N2Nat.id.
  destruct (N.ltb_spec i (8 * lo)); cbn [andb].
  - destruct (N.leb_spec (8 * lo) i); [lia|]. reflexivity.
  - destruct (N.leb_spec (8 * lo) i); [|lia]. cbn [andb].
    destruct (N.ltb_spec (i - 8 * lo) (8 * len d)), (N.ltb_spec i (8 * (lo + len d))); try lia.
    + reflexivity.
    + f_equal. unfold len in *. lia.
Qed.

Lemma byte_ext : forall x y, x < 256 -> y < 256 ->
  (forall i, i < 8 -> N.testbit x i = N.testbit y i) -> x = y.
Proof.
  intros x y Hx Hy H. apply N.bits_inj. intro i. destruct (N.lt_ge_cases i 8).
  - apply H. assumption.
  - rewrite !testbit_byte_high by assumption. reflexivity.
Qed.

Lemma bits_ext : forall a b, bytes_ok a -> bytes_ok b -> length a = length b ->
  (forall i, bit_at a i = bit_at b i) -> a = b.
Proof.
  induction a as [|x a IH]; intros [|y b] Ha Hb Hl H; try discriminate; [reflexivity|].
  inversion Ha; inversion Hb; subst. f_equal.
  - apply byte_ext; try assumption. intros i Hi. specialize (H i).
    rewrite !bit_at_cons in H by assumption. destruct (N.ltb_spec i 8); [assumption|lia].
  - apply IH; try assumption. { cbn in Hl; lia. } intro i. specialize (H (i + 8)).
    rewrite !bit_at_cons in H by assumption. destruct (N.ltb_spec (i + 8) 8); [lia|].
    replace (i + 8 - 8) with i in H by lia. assumption.
Qed.

Lemma slice_ok : forall {E A} (b : list A) lo hi, lo <= hi -> hi <= len b ->
  slice (E:=E) b lo hi = Ok (firstn (N.to_nat (hi - lo)) (skipn (N.to_nat lo) b)).
Proof.
  intros. unfold slice. destruct (N.leb_spec lo hi); [|lia].
  destruct (N.leb_spec hi (len b)); [reflexivity|lia].
Qed.

Lemma slice_length : forall {A} (b : list A) lo hi, lo <= hi -> hi <= len b ->
  length (firstn (N.to_nat (hi - lo)) (skipn (N.to_nat lo) b)) = N.to_nat (hi - lo).
Proof. intros. unfold len in *. rewrite firstn_length, skipn_length. lia. Qed.

Lemma bit_at_window : forall b lo hi i, lo <= hi -> hi <= len b ->
  bit_at (firstn (N.to_nat (hi - lo)) (skipn (N.to_nat lo) b)) i =
  (i <? 8 * (hi - lo)) && bit_at b (8 * lo + i).
Proof. intros. rewrite bit_at_firstn, bit_at_skipn, !N2Nat.id. reflexivity. Qed.

Lemma is_field_value_bound : forall b o w v, is_field_value b o w v -> v < 2 ^ w.
Proof.
  intros b o w v H. apply lt_pow2_testbit. intros i Hi. rewrite H.
  destruct (N.ltb_spec i w); [lia|reflexivity].
Qed.

Lemma is_field_value_unique : forall b o w v v',
  is_field_value b o w v -> is_field_value b o w v' -> v = v'.
Proof. intros. apply N.bits_inj. intro i. rewrite H, H0. reflexivity. Qed.
