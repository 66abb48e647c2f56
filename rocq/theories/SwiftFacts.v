(** Facts about the Swift model: buffers and numbers. *)

From Coq Require Import Arith NArith ZArith List Bool Lia ZifyBool ZifyN ZifyNat.
From Verif Require Import Base Schema Codec Bits BitsFacts Compiler Utf8 SpecUtf8 BEThms Access Runtime SpecWire MsgFacts
  StackThms Swift SpecSwift.
Import ListNotations.
Local Open Scope Z_scope.

Definition win (b : dbuf) (pre d post : bytes) : Prop :=
  db_data b = pre ++ d ++ post /\ db_start b = count pre /\ db_end b = count pre + count d /\
  count (db_data b) < 2 ^ 63.

Lemma holds_win : forall b d, holds b d -> exists pre post, win b pre d post.
Proof.
  intros b d (pre & post & H1 & H2 & H3 & H4). exists pre, post. unfold win, count.
  repeat split; try assumption. rewrite H3. lia.
Qed.
Lemma holds_before_win : forall b d after, holds_before b d after -> exists pre, win b pre d after.
Proof.
  intros b d after (pre & H1 & H2 & H3 & H4). exists pre. unfold win, count.
  repeat split; try assumption. rewrite H3. lia.
Qed.

Lemma count_app : forall a b, count (a ++ b) = count a + count b.
Proof. intros. unfold count. rewrite app_length. lia. Qed.
Lemma count_nonneg : forall d, 0 <= count d.
Proof. intros. unfold count. lia. Qed.

Lemma win_bound : forall b pre d post, win b pre d post -> count pre + count d + count post < 2 ^ 63.
Proof. intros b pre d post (H & _ & _ & L). rewrite H, !count_app in L. lia. Qed.

Lemma win_size : forall b pre d post, win b pre d post -> db_size b = count d.
Proof. intros b pre d post (_ & H1 & H2 & _). unfold db_size. lia. Qed.

Lemma sassert_true : forall m c, c = true -> sassert m c = Ok tt.
Proof. intros [] c ->; reflexivity. Qed.

Lemma nth_win : forall (pre d post : bytes) i, (i < length d)%nat ->
  nth (length pre + i) (pre ++ d ++ post) 0%N = nth i d 0%N.
Proof. intros pre d post i H. rewrite app_nth2_plus, app_nth1 by exact H. reflexivity. Qed.

Lemma win_at : forall m b pre d post i, win b pre d post -> 0 <= i < count d ->
  db_at m b i = Ok (nth (Z.to_nat i) d 0%N).
Proof.
  intros m b pre d post i W H. unfold db_at. rewrite (win_size _ _ _ _ W).
  rewrite sassert_true by lia. cbn [bind]. destruct W as (D & S & _ & _). unfold data_at.
  rewrite D, S, !count_app. pose proof (count_nonneg pre). pose proof (count_nonneg post).
  replace ((0 <=? count pre + i) && (count pre + i <? count pre + (count d + count post))) with true by lia.
  f_equal. replace (Z.to_nat (count pre + i)) with (length pre + Z.to_nat i)%nat by (unfold count; lia).
  apply nth_win. unfold count in H. lia.
Qed.

Lemma win_sub : forall b pre d1 d2 d3 post, win b pre (d1 ++ d2 ++ d3) post ->
  win (db_sub b (db_start b + count d1) (db_start b + count d1 + count d2)) (pre ++ d1) d2 (d3 ++ post).
Proof.
  intros b pre d1 d2 d3 post (D & S & E & L). unfold win, db_sub. cbn.
  rewrite D in *. rewrite !count_app in *. repeat rewrite <- app_assoc. repeat split; try lia.
Qed.

Lemma win_from : forall m b pre d1 d2 post, win b pre (d1 ++ d2) post -> d1 <> [] ->
  db_from m b (count d1) = Ok (db_sub b (db_start b + count d1) (db_end b)) /\
  win (db_sub b (db_start b + count d1) (db_end b)) (pre ++ d1) d2 post.
Proof.
  intros m b pre d1 d2 post W N. unfold db_from. pose proof (win_size _ _ _ _ W) as S.
  rewrite count_app in S. pose proof (count_nonneg d2).
  assert (P : 0 < count d1) by (destruct d1; [congruence|unfold count; cbn [length]; lia]).
  rewrite !sassert_true by lia. cbn [bind]. split; [reflexivity|].
  pose proof (win_sub b pre d1 d2 [] post) as Q. rewrite app_nil_r in Q. specialize (Q W).
  replace (db_end b) with (db_start b + count d1 + count d2) by (unfold db_size in S; lia). exact Q.
Qed.

Lemma win_closed : forall m b pre d1 d2 d3 post, win b pre (d1 ++ d2 ++ d3) post ->
  exists w, db_closed m b (count d1) (count d1 + count d2) = Ok w /\ win w (pre ++ d1) d2 (d3 ++ post).
Proof.
  intros m b pre d1 d2 d3 post W. unfold db_closed. pose proof (win_size _ _ _ _ W) as S.
  rewrite !count_app in S. pose proof (count_nonneg d1). pose proof (count_nonneg d2). pose proof (count_nonneg d3).
  replace (count d1 + count d2 <? count d1) with false by lia.
  rewrite !sassert_true by lia. cbn [bind]. eexists. split; [reflexivity|].
  rewrite Z.add_assoc. apply win_sub. exact W.
Qed.

Lemma win_to_data : forall b pre d post, win b pre d post -> d <> [] -> db_to_data b = Ok d.
Proof.
  intros b pre d post (D & S & E & L) N. unfold db_to_data, data_range. rewrite D, S, E, !count_app.
  assert (P : 0 < count d) by (destruct d; [congruence|unfold count; cbn [length]; lia]).
  pose proof (count_nonneg pre). pose proof (count_nonneg post).
  replace ((count pre <=? count pre + count d - 1) && (0 <=? count pre) &&
    (count pre + count d - 1 <? count pre + (count d + count post))) with true by lia.
  f_equal. replace (Z.to_nat (count pre)) with (length pre + 0)%nat by (unfold count; lia).
  rewrite skipn_app. replace (length pre + 0 - length pre)%nat with 0%nat by lia.
  rewrite skipn_all2 by lia. cbn [skipn app].
  replace (Z.to_nat (count pre + count d - 1 - count pre + 1)) with (length d + 0)%nat by (unfold count; lia).
  rewrite firstn_app_2. cbn [firstn]. apply app_nil_r.
Qed.

Lemma empty_to_data : forall b pre post, win b pre [] post -> db_to_data b = Panic.
Proof.
  intros b pre post (D & S & E & L). unfold db_to_data, data_range. rewrite S, E. cbn [count length Z.of_nat].
  change (count []) with 0. replace (count pre <=? count pre + 0 - 1) with false by lia. reflexivity.
Qed.

(** ** Numbers *)
Local Open Scope N_scope.

Lemma lor_shiftl : forall x k y, y < 2 ^ k -> N.lor (N.shiftl x k) y = x * 2 ^ k + y.
Proof.
  intros x k y H. rewrite <- N.shiftl_mul_pow2. symmetry. rewrite <- N.lxor_lor.
  - apply N.add_nocarry_lxor. apply N.bits_inj_0. intro i. rewrite N.land_spec.
    destruct (N.lt_ge_cases i k) as [C|C].
    + rewrite N.shiftl_spec_low by exact C. reflexivity.
    + rewrite (testbit_high y k i H C). apply andb_false_r.
  - apply N.bits_inj_0. intro i. rewrite N.land_spec.
    destruct (N.lt_ge_cases i k) as [C|C].
    + rewrite N.shiftl_spec_low by exact C. reflexivity.
    + rewrite (testbit_high y k i H C). apply andb_false_r.
Qed.

Lemma u32_value : forall x0 x1 x2 x3, x1 < 256 -> x2 < 256 -> x3 < 256 ->
  N.lor (N.lor (N.lor (N.shiftl x0 24) (N.shiftl x1 16)) (N.shiftl x2 8)) x3 =
  ((x0 * 256 + x1) * 256 + x2) * 256 + x3.
Proof.
  intros x0 x1 x2 x3 H1 H2 H3.
  change 24 with (8 + 8 + 8). change 16 with (8 + 8).
  rewrite <- !N.shiftl_shiftl. rewrite <- !N.shiftl_lor.
  rewrite (lor_shiftl x0 8 x1) by exact H1.
  rewrite (lor_shiftl _ 8 x2) by exact H2.
  rewrite (lor_shiftl _ 8 x3) by exact H3. reflexivity.
Qed.

(** The value of [o]-ordered bytes. *)
Definition val (o : order) (p : bytes) : N := match o with LE => le_dec p | BE => le_dec (rev p) end.

Lemma win_scalar : forall m o sz b pre p d post, win b pre (p ++ d) post -> uint_size sz -> length p = sz ->
  bytes_ok p -> scalar_from m o sz b = Ok (val o p).
Proof.
  intros m o sz b pre p d post W Hs Hl Hb.
  assert (A : forall i, (Z.of_nat i < count p)%Z -> db_at m b (Z.of_nat i) = Ok (nth i p 0)).
  { intros i Hi. rewrite (win_at m b pre (p ++ d) post) by (try exact W; rewrite count_app; unfold count in *; lia).
    rewrite Nat2Z.id. f_equal. apply app_nth1. unfold count in Hi. lia. }
  assert (B : forall b' pre' x0 x1 x2 x3 d', win b' pre' (x0 :: x1 :: x2 :: x3 :: d') post ->
    x1 < 256 -> x2 < 256 -> x3 < 256 ->
    u32_from_be m b' = Ok (((x0 * 256 + x1) * 256 + x2) * 256 + x3)).
  { intros b' pre' x0 x1 x2 x3 d' W' H1 H2 H3. unfold u32_from_be.
    assert (C : (4 <= count (x0 :: x1 :: x2 :: x3 :: d'))%Z) by (unfold count; cbn [length]; lia).
    rewrite !(win_at m b' pre' _ post _ W') by lia. cbn [bind Z.to_nat Pos.to_nat Pos.iter_op nth Nat.add].
    rewrite u32_value by assumption. reflexivity. }
  destruct Hs as [->|[->|[->| ->]]].
  - destruct p as [|x [|]]; try discriminate. unfold scalar_from.
    assert (E : u8_from m b = Ok x) by (apply (A 0%nat); unfold count; cbn; lia).
    rewrite E. destruct o; cbn; f_equal; lia.
  - destruct p as [|x [|y [|]]]; try discriminate.
    assert (E0 : db_at m b 0 = Ok x) by (apply (A 0%nat); unfold count; cbn; lia).
    assert (E1 : db_at m b 1 = Ok y) by (apply (A 1%nat); unfold count; cbn; lia).
    inversion Hb as [|? ? Hx Hb']; subst. inversion Hb' as [|? ? Hy _]; subst. cbn beta in Hx, Hy.
    destruct o; cbn [scalar_from]; [unfold u16_from_le|unfold u16_from_be]; rewrite E0, E1; cbn [bind];
      unfold shl_or; rewrite lor_shiftl by assumption; cbn [val rev app le_dec]; f_equal; change (2 ^ 8) with 256; lia.
  - destruct p as [|x0 [|x1 [|x2 [|x3 [|]]]]]; try discriminate.
    repeat match goal with H : bytes_ok (_ :: _) |- _ => inversion H; subst; clear H
      | H : Forall _ (_ :: _) |- _ => inversion H; subst; clear H end.
    destruct o; cbn [scalar_from].
    + assert (E0 : db_at m b 0 = Ok x0) by (apply (A 0%nat); unfold count; cbn; lia).
      assert (E1 : db_at m b 1 = Ok x1) by (apply (A 1%nat); unfold count; cbn; lia).
      assert (E2 : db_at m b 2 = Ok x2) by (apply (A 2%nat); unfold count; cbn; lia).
      assert (E3 : db_at m b 3 = Ok x3) by (apply (A 3%nat); unfold count; cbn; lia).
      unfold u32_from_le. rewrite E0, E1, E2, E3. cbn [bind]. rewrite u32_value by assumption.
      cbn [val rev app le_dec]. f_equal. lia.
    + rewrite (B b pre x0 x1 x2 x3 d) by assumption. cbn [val rev app le_dec]. f_equal. lia.
  - destruct p as [|x0 [|x1 [|x2 [|x3 q]]]]; try discriminate.
    destruct q as [|x4 [|x5 [|x6 [|x7 [|]]]]]; try discriminate.
    assert (Hb2 : id (bytes_ok [x0; x1; x2; x3; x4; x5; x6; x7])) by exact Hb.
    repeat match goal with H : bytes_ok (_ :: _) |- _ => inversion H; subst; clear H
      | H : Forall _ (_ :: _) |- _ => inversion H; subst; clear H end.
    assert (E : u64_from_be m b = Ok (val BE [x0; x1; x2; x3; x4; x5; x6; x7])).
    { unfold u64_from_be.
      rewrite (B b pre x0 x1 x2 x3 ([x4; x5; x6; x7] ++ d)) by assumption. cbn [bind].
      destruct (win_from m b pre [x0; x1; x2; x3] ([x4; x5; x6; x7] ++ d) post W ltac:(discriminate)) as (F & W2).
      change (count [x0; x1; x2; x3]) with 4%Z in F, W2. rewrite F. cbn [bind].
      rewrite (B _ _ x4 x5 x6 x7 d W2) by assumption. cbn [bind]. unfold shl_or.
      rewrite lor_shiftl by (change (2 ^ 32) with (256 * 256 * 256 * 256); lia).
      cbn [val rev app le_dec]. f_equal. change (2 ^ 32) with (256 * 256 * 256 * 256). lia. }
    destruct o; cbn [scalar_from]; [|exact E].
    unfold u64_from_le. rewrite E. cbn [bind]. unfold byte_swapped. f_equal. unfold val.
    change 8%nat with (length (rev [x0; x1; x2; x3; x4; x5; x6; x7])).
    rewrite le_enc_le_dec by (apply bytes_ok_rev; exact Hb2). rewrite rev_involutive. reflexivity.
Qed.

Lemma number_val : forall o sz n p, number (endian o) sz n p -> val o p = n.
Proof.
  intros o sz n p (_ & _ & ->). destruct o; cbn [endian val].
  - rewrite be_value_rev, rev_involutive. reflexivity.
  - rewrite be_value_rev. reflexivity.
Qed.

Lemma uint_pos : forall sz, uint_size sz -> (0 < sz <= 8)%nat.
Proof. intros sz H. unfold uint_size in H. lia. Qed.

Lemma number_of_val : forall o sz p, length p = sz -> bytes_ok p -> number (endian o) sz (val o p) p.
Proof.
  intros o sz p Hl Hb. split; [exact Hl|]. split; [exact Hb|]. destruct o; cbn [endian val];
    rewrite be_value_rev, ?rev_involutive; reflexivity.
Qed.

Lemma s_value_ok : forall m o sz n p b pre d post, uint_size sz -> number (endian o) sz n p ->
  win b pre (p ++ d) post -> s_value_from m o sz b = Ok (Z.of_nat sz, n).
Proof.
  intros m o sz n p b pre d post Hs Hn W. unfold s_value_from.
  pose proof (number_length _ _ _ _ Hn) as Hl.
  rewrite (win_size _ _ _ _ W), count_app. pose proof (count_nonneg d).
  replace (count p + count d <? Z.of_nat sz)%Z with false by (unfold count in *; lia).
  rewrite (win_scalar m o sz b pre p d post W Hs Hl (number_ok _ _ _ _ Hn)). cbn [bind].
  rewrite (number_val _ _ _ _ Hn). reflexivity.
Qed.

Lemma to_bytes_le_enc : forall sz v, to_bytes_le sz v = le_enc sz v.
Proof.
  intros sz. induction sz as [|sz IH]; intro v; [reflexivity|].
  unfold to_bytes_le in *. cbn [seq map le_enc]. f_equal.
  rewrite <- IH, <- seq_shift, map_map. apply map_ext. intro i.
  rewrite <- (N.shiftr_div_pow2 v 8 : _ = v / 256), N.shiftr_shiftr. do 2 f_equal. lia.
Qed.

Lemma to_bytes_number : forall o sz n, n < tmod sz -> number (endian o) sz n (to_bytes o sz n).
Proof.
  intros o sz n H. apply number_iff. split; [exact H|]. unfold to_bytes, num_bytes. destruct o; cbn [endian order_of].
  - apply to_bytes_le_enc.
  - rewrite to_bytes_le_enc. unfold byte_swapped.
    rewrite <- (le_enc_length sz n) at 1. rewrite <- rev_length. apply le_enc_le_dec.
    apply bytes_ok_rev, le_enc_ok.
Qed.
Lemma to_bytes_iff : forall o sz n p, number (endian o) sz n p -> to_bytes o sz n = p.
Proof.
  intros o sz n p H. pose proof (to_bytes_number o sz n) as Q. apply number_iff in H. destruct H as (Hn & ->).
  specialize (Q Hn). apply number_iff in Q. apply Q.
Qed.
Lemma to_bytes_length : forall o sz n, length (to_bytes o sz n) = sz.
Proof.
  intros [] sz n; unfold to_bytes; rewrite to_bytes_le_enc; apply le_enc_length.
Qed.
