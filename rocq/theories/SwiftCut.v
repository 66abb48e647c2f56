(** C61: lengths that say more than there is, and lengths that are no Int. *)

From Coq Require Import Arith NArith ZArith List Bool Lia ZifyBool ZifyN ZifyNat.
From Verif Require Import Base Schema Codec CodecFacts Bits BitsFacts Compiler Access Utf8 SpecUtf8 Runtime SpecWire MsgFacts
  Swift SpecSwift SwiftFacts SwiftThms SwiftMore SwiftCodec SwiftRefute.
Import ListNotations.
Local Open Scope N_scope.

Lemma int_too_large : forall x, (2 ^ 63 <= x)%Z -> int_check x = Panic.
Proof. intros x H. unfold int_check, int_max. replace (x <=? 2 ^ 63 - 1)%Z with false by lia. rewrite andb_false_r. reflexivity. Qed.

(** What follows the length. *)
Lemma behind_length : forall m o sz p n d b, uint_size sz -> number (endian o) sz n p -> holds b (p ++ d) ->
  s_value_from m o sz b = Ok (Z.of_nat sz, n) /\
  db_from m b (Z.of_nat sz) = Ok (db_sub b (db_start b + Z.of_nat sz) (db_end b)) /\
  exists pre post, win (db_sub b (db_start b + Z.of_nat sz) (db_end b)) pre d post.
Proof.
  intros m o sz p n d b Hs Hn H. destruct (holds_win _ _ H) as (pre & post & W).
  pose proof (number_length _ _ _ _ Hn) as Hl.
  assert (Hp : p <> []) by (intros ->; cbn in Hl; destruct Hs as [?|[?|[?|?]]]; lia).
  assert (Ep : Z.of_nat sz = count p) by (unfold count; lia).
  split; [apply (s_value_ok m o sz _ p b pre _ post Hs Hn W)|].
  rewrite Ep. destruct (win_from m b pre p d post W Hp) as (E & W2). split; [exact E|]. eauto.
Qed.

(** A length of 2^63 or more is no Int: the program traps, in all builds. *)
Theorem huge_length_traps : forall dec m o sz p n d b t k, uint_size sz -> number (endian o) sz n p ->
  holds b (p ++ d) -> 2 ^ 63 <= n ->
  s_from dec m (SVarchar o sz) b = Panic /\ s_from dec m (SList o sz t) b = Panic /\
  s_from dec m (SArray o sz k t) b = Panic.
Proof.
  intros dec m o sz p n d b t k Hs Hn H Hl.
  destruct (behind_length m o sz p n d b Hs Hn H) as (E1 & E2 & _).
  assert (Hi : int_of_uint n = Panic) by (apply int_too_large; change (2 ^ 63)%Z with (Z.of_N (2 ^ 63)); lia).
  cbn [s_from]. unfold s_varchar_from, s_list_from, s_array_from.
  rewrite !E1. cbn [bind]. rewrite !E2. cbn [bind]. rewrite !Hi. auto.
Qed.

(** An array of items of [k] bytes that is cut short is reported, unless its size in
    bytes is no Int. *)
Theorem array_cut : forall dec m o sz p n d b t k, uint_size sz -> number (endian o) sz n p -> holds b (p ++ d) ->
  (0 < k)%Z -> (Z.of_nat (length d) < Z.of_N n * k)%Z ->
  s_from dec m (SArray o sz k t) b =
  if (Z.of_nat sz + Z.of_N n * k <? 2 ^ 63)%Z then Err STruncated else Panic.
Proof.
  intros dec m o sz p n d b t k Hs Hn H Hk Hl.
  destruct (behind_length m o sz p n d b Hs Hn H) as (E1 & E2 & _).
  destruct (holds_win _ _ H) as (pre & post & W).
  assert (Hnk : (Z.of_N n <= Z.of_N n * k)%Z) by nia.
  cbn [s_from]. unfold s_array_from. rewrite E1. cbn [bind]. rewrite E2. cbn [bind]. unfold int_of_uint, imul, iadd.
  destruct (Z.ltb_spec (Z.of_nat sz + Z.of_N n * k) (2 ^ 63)) as [Hlt|Hge].
  - rewrite !int_ok' by lia. cbn [bind]. rewrite int_ok' by lia. cbn [bind]. rewrite int_ok' by lia. cbn [bind].
    rewrite (win_size _ _ _ _ W), count_app. pose proof (number_length _ _ _ _ Hn) as Hlp.
    replace (count p + count d <? Z.of_nat sz + Z.of_N n * k)%Z with true by (unfold count; lia). reflexivity.
  - destruct (Z_lt_le_dec (Z.of_N n) (2 ^ 63)) as [H1|H1]; [|rewrite int_too_large by exact H1; reflexivity].
    rewrite int_ok' by lia. cbn [bind].
    destruct (Z_lt_le_dec (Z.of_N n * k) (2 ^ 63)) as [H2|H2]; [|rewrite int_too_large by exact H2; reflexivity].
    rewrite int_ok' by lia. cbn [bind]. rewrite int_too_large by lia. reflexivity.
Qed.

(** A list of numbers that is cut short is reported. *)
Lemma s_value_short : forall m o sz b pre d post, win b pre d post -> (length d < sz)%nat ->
  s_value_from m o sz b = Err STruncated.
Proof.
  intros m o sz b pre d post W Hl. unfold s_value_from. rewrite (win_size _ _ _ _ W).
  replace (count d <? Z.of_nat sz)%Z with true by (unfold count; lia). reflexivity.
Qed.
Lemma items_cut : forall m o sz n b pre d post, uint_size sz -> bytes_ok d -> win b pre d post ->
  (length d < n * sz)%nat ->
  s_items m (fun b => '(k, v) <- s_value_from m o sz b ;; Ok (k, SN v)) n b = Err STruncated.
Proof.
  intros m o sz n. induction n as [|n IH]; intros b pre d post Hs Hb W Hl; [lia|].
  cbn [s_items].
  destruct (Nat.lt_ge_cases (length d) sz) as [Hlt|Hge].
  - rewrite (s_value_short m o sz b pre d post W Hlt). reflexivity.
  - pose proof (firstn_skipn sz d) as Ed. set (p := firstn sz d) in *. set (r := skipn sz d) in *.
    assert (Hlp : length p = sz) by (apply firstn_length_le; lia).
    assert (Hbp : bytes_ok p) by (apply bytes_ok_firstn, Hb).
    rewrite <- Ed in W.
    assert (Hn : number (endian o) sz (be_value (match endian o with Little => rev p | Big => p end)) p) by (split; auto).
    assert (Hp : p <> []) by (intros E; rewrite E in Hlp; cbn in Hlp; destruct Hs as [?|[?|[?|?]]]; lia).
    rewrite (s_value_ok m o sz _ p b pre r post Hs Hn W). cbn [bind].
    assert (Ep : Z.of_nat sz = count p) by (unfold count; lia). rewrite Ep.
    destruct (win_from m b pre p r post W Hp) as (E & W2). rewrite E. cbn [bind].
    rewrite (IH _ _ _ _ Hs (bytes_ok_skipn _ _ Hb) W2); [reflexivity|].
    unfold r. rewrite skipn_length. lia.
Qed.

Theorem list_cut : forall dec m o sz p n d b o' sz', uint_size sz -> uint_size sz' -> number (endian o) sz n p ->
  holds b (p ++ d) -> bytes_ok d -> len d < n * N.of_nat sz' -> n < 2 ^ 63 ->
  s_from dec m (SList o sz (SVal o' sz')) b = Err STruncated.
Proof.
  intros dec m o sz p n d b o' sz' Hs Hs' Hn H Hb Hl Hlt.
  destruct (behind_length m o sz p n d b Hs Hn H) as (E1 & E2 & pre & post & W).
  cbn [s_from]. unfold s_list_from. rewrite E1. cbn [bind]. rewrite E2. cbn [bind].
  unfold int_of_uint. rewrite int_ok' by (change (2 ^ 63)%Z with (Z.of_N (2 ^ 63)); lia). cbn [bind].
  assert (0 < n) by (destruct n; lia).
  unfold uint_sub. replace (1 <=? n) with true by lia. cbn [bind].
  rewrite (items_cut m o' sz' _ _ pre d post Hs' Hb W); [reflexivity|].
  unfold len in Hl. replace (S (N.to_nat (n - 1))) with (N.to_nat n) by lia. lia.
Qed.

(** ** Items outside of an array (C62) *)

(** A debug build traps. *)
Theorem array_outside_debug : forall o sz b d i, uint_size sz -> holds b d ->
  (i < 0 \/ Z.of_nat (length d) < Z.of_nat sz * (i + 1))%Z ->
  s_array_get Debug o sz (8 * Z.of_nat sz) b i = Panic.
Proof.
  intros o sz b d i Hs H Hi. destruct (holds_win _ _ H) as (pre & post & W).
  assert (Hsz : (0 < sz)%nat) by (destruct Hs as [?|[?|[?|?]]]; lia).
  assert (Ez : (8 * Z.of_nat sz / 8 = Z.of_nat sz)%Z) by (rewrite Z.mul_comm, Z.div_mul; lia).
  unfold s_array_get. rewrite Ez. unfold imul, iadd, int_check.
  destruct (_ && _); [|reflexivity]. cbn [bind]. destruct (_ && _); [|reflexivity]. cbn [bind].
  unfold db_closed. rewrite (win_size _ _ _ _ W).
  replace (i * Z.of_nat sz + Z.of_nat sz <? i * Z.of_nat sz)%Z with false by lia.
  unfold sassert at 1. replace (0 <=? _)%Z with true by lia. cbn [bind].
  destruct (Z_lt_le_dec i 0) as [Hneg|Hpos].
  - assert (i * Z.of_nat sz < 0)%Z by nia. unfold sassert.
    destruct (_ <=? count d)%Z; [|reflexivity]. cbn [bind]. destruct (_ <=? count d)%Z; [|reflexivity]. cbn [bind].
    replace (0 <=? i * Z.of_nat sz)%Z with false by lia. reflexivity.
  - assert (count d < i * Z.of_nat sz + Z.of_nat sz)%Z by (unfold count; nia). unfold sassert.
    destruct (i * Z.of_nat sz <=? count d)%Z; [|reflexivity]. cbn [bind].
    replace (i * Z.of_nat sz + Z.of_nat sz <=? count d)%Z with false by lia. reflexivity.
Qed.

(** Any other build reads the bytes that lie there in the storage, in front of the
    array or behind it. *)
Theorem array_outside_release : forall o sz b i x y z n, uint_size sz ->
  db_data b = x ++ y ++ z -> (Z.of_nat (length (db_data b)) < 2 ^ 63)%Z -> (0 <= db_start b < 2 ^ 63)%Z ->
  Z.of_nat (length x) = (db_start b + Z.of_nat sz * i)%Z -> number (endian o) sz n y ->
  s_array_get Release o sz (8 * Z.of_nat sz) b i = Ok n.
Proof.
  intros o sz b i x y z n Hs Ed Hl Hst Hx Hn.
  assert (Hsz : (0 < sz)%nat) by (destruct Hs as [?|[?|[?|?]]]; lia).
  assert (Ez : (8 * Z.of_nat sz / 8 = Z.of_nat sz)%Z) by (rewrite Z.mul_comm, Z.div_mul; lia).
  pose proof (number_length _ _ _ _ Hn) as Hly.
  pose proof Hl as Hl'. rewrite Ed, !app_length in Hl'.
  assert (Hlo : (int_min <= i * Z.of_nat sz <= int_max)%Z) by (unfold int_min, int_max; lia).
  assert (Hhi : (int_min <= i * Z.of_nat sz + Z.of_nat sz <= int_max)%Z) by (unfold int_min, int_max; lia).
  unfold s_array_get. rewrite Ez. unfold imul, iadd. rewrite (int_ok _ Hlo). cbn [bind]. rewrite (int_ok _ Hhi). cbn [bind].
  unfold db_closed. replace (i * Z.of_nat sz + Z.of_nat sz <? i * Z.of_nat sz)%Z with false by lia.
  cbn [sassert bind].
  set (w := db_sub _ _ _).
  assert (W : win w x y z).
  { unfold win, w, db_sub, count. cbn [db_data db_start db_end]. repeat split; [exact Ed|lia|lia|exact Hl]. }
  unfold s_byte_read. rewrite (win_size _ _ _ _ W). replace (Z.of_nat sz =? count y)%Z with true by (unfold count; lia).
  unfold s_byte_read_aligned. rewrite (win_scalar' Release o sz w x y z W Hs ltac:(lia) (proj1 (proj2 Hn))).
  rewrite firstn_all2 by lia. f_equal. apply (number_val o sz n y Hn).
Qed.

(** Setting an item outside of the array overwrites the bytes that lie there. *)
Theorem array_set_outside_debug : forall o sz b d i v, uint_size sz -> holds b d ->
  (i < 0 \/ Z.of_nat (length d) < Z.of_nat sz * (i + 1))%Z ->
  s_array_set Debug o sz (8 * Z.of_nat sz) b i v = Panic.
Proof.
  intros o sz b d i v Hs H Hi. pose proof (array_outside_debug o sz b d i Hs H Hi) as G.
  unfold s_array_get in G. unfold s_array_set.
  destruct (imul i (8 * Z.of_nat sz / 8)) as [pos| |] eqn:E1; cbn [bind] in *; [|discriminate|reflexivity].
  destruct (iadd pos (8 * Z.of_nat sz / 8)) as [end_| |] eqn:E2; cbn [bind] in *; [|discriminate|reflexivity].
  destruct (db_closed Debug b pos end_) as [w| |] eqn:E3; cbn [bind] in *; [|discriminate|reflexivity].
  exfalso. destruct (holds_win _ _ H) as (pre & post & W).
  assert (Hsz : (0 < sz)%nat) by (destruct Hs as [?|[?|[?|?]]]; lia).
  assert (Ez : (8 * Z.of_nat sz / 8 = Z.of_nat sz)%Z) by (rewrite Z.mul_comm, Z.div_mul; lia).
  rewrite Ez in E1, E2. unfold imul, iadd, int_check in E1, E2.
  destruct (_ && _) in E1; [|discriminate]. injection E1 as <-. destruct (_ && _) in E2; [|discriminate]. injection E2 as <-.
  unfold db_closed in E3. rewrite (win_size _ _ _ _ W) in E3. unfold sassert in E3.
  destruct (_ <? _)%Z in E3; [discriminate|]. destruct (0 <=? _)%Z in E3; [|discriminate]. cbn [bind] in E3.
  destruct (i * Z.of_nat sz <=? count d)%Z in E3; [|discriminate]. cbn [bind] in E3.
  destruct (Z.leb_spec (i * Z.of_nat sz + Z.of_nat sz) (count d)) as [X1|] in E3; [|discriminate]. cbn [bind] in E3.
  destruct (Z.leb_spec 0 (i * Z.of_nat sz)) as [X2|] in E3; [|discriminate]. unfold count in X1. nia.
Qed.

Theorem array_set_outside_release : forall o sz b i x y z v, uint_size sz -> db_mut b = true ->
  db_data b = x ++ y ++ z -> (Z.of_nat (length (db_data b)) < 2 ^ 63)%Z -> (0 <= db_start b < 2 ^ 63)%Z ->
  Z.of_nat (length x) = (db_start b + Z.of_nat sz * i)%Z -> length y = sz -> v < tmod sz ->
  exists b' y', s_array_set Release o sz (8 * Z.of_nat sz) b i v = Ok b' /\
    db_data b' = x ++ y' ++ z /\ number (endian o) sz v y' /\ db_start b' = db_start b /\ db_end b' = db_end b.
Proof.
  intros o sz b i x y z v Hs Hm Ed Hl Hst Hx Hly Hv.
  assert (Hsz : (0 < sz)%nat) by (destruct Hs as [?|[?|[?|?]]]; lia).
  assert (Ez : (8 * Z.of_nat sz / 8 = Z.of_nat sz)%Z) by (rewrite Z.mul_comm, Z.div_mul; lia).
  pose proof Hl as Hl'. rewrite Ed, !app_length in Hl'.
  assert (Hlo : (int_min <= i * Z.of_nat sz <= int_max)%Z) by (unfold int_min, int_max; lia).
  assert (Hhi : (int_min <= i * Z.of_nat sz + Z.of_nat sz <= int_max)%Z) by (unfold int_min, int_max; lia).
  unfold s_array_set. rewrite Ez. unfold imul, iadd. rewrite (int_ok _ Hlo). cbn [bind]. rewrite (int_ok _ Hhi). cbn [bind].
  unfold db_closed. replace (i * Z.of_nat sz + Z.of_nat sz <? i * Z.of_nat sz)%Z with false by lia.
  cbn [sassert bind].
  set (w := db_sub _ _ _).
  assert (W : win w x y z).
  { unfold win, w, db_sub, count. cbn [db_data db_start db_end]. repeat split; [exact Ed|lia|lia|exact Hl]. }
  unfold s_byte_write. rewrite (win_size _ _ _ _ W). replace (Z.of_nat sz =? count y)%Z with true by (unfold count; lia).
  unfold s_byte_write_aligned.
  destruct (win_stored w x y z (to_bytes o sz v) W eq_refl) as (w' & Ew & _ & W3 & _); [rewrite to_bytes_length; lia|].
  rewrite Ew. cbn [bind]. rewrite Hm. destruct W3 as (B1 & _).
  eexists _, (to_bytes o sz v). split; [reflexivity|]. cbn [db_data db_start db_end].
  split; [exact B1|]. split; [|auto]. apply to_bytes_number; assumption.
Qed.
