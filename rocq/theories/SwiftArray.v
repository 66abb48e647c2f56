(** The array accessors of the Swift code, for C101. *)

From Coq Require Import Arith NArith ZArith Ascii String List Bool Lia ZifyBool ZifyN ZifyNat.
From Verif Require Import Base Schema Codec CodecFacts BEThms BitsFacts Compiler Access SpecStruct StructFacts StructThms ViewThms ArrayThms ArrayExact Runtime GenText SpecGen GenAllThms
  Swift SpecSwift SwiftFacts SwiftThms SwiftMore SwiftCodec SpecSwiftGen SwiftGenThms SwiftGetThms SwiftView SpecSwiftView.
Import ListNotations.
Local Open Scope N_scope.
Ltac Zify.zify_post_hook ::= idtac.

(** A number of [length x] bytes, shorter than its storage, with the byte [y] behind it. *)
Lemma byte_read_behind : forall m sz b pre x y post, uint_size sz -> win b pre x (y :: post) -> bytes_ok x -> y < 256 ->
  (length x < sz)%nat ->
  exists v, byte_read (E:=rerror) LE sz x = Ok v /\ s_byte_read m LE sz b = Ok (v + 2 ^ (8 * len x) * y).
Proof.
  intros m sz b pre x y post Hs W Hbx Hy Hl. unfold byte_read, s_byte_read. rewrite (win_size _ _ _ _ W).
  replace (sz =? length x)%nat with false by lia. replace (Z.of_nat sz =? count x)%Z with false by (unfold count; lia).
  assert (Hs8 : (sz <= 8)%nat) by (unfold uint_size in Hs; lia).
  unfold s_byte_read_unaligned, byte_read_unaligned. rewrite pad8_ok by lia. cbn [bind].
  rewrite (copy_to_ok m b pre x y post W). cbn [bind].
  rewrite (firstn_all2 (n:=8) (x ++ [y])) by (rewrite app_length; cbn [length]; lia).
  set (d8 := ((x ++ [y]) ++ repeat 0 (8 - length (x ++ [y])))%list).
  assert (L8 : length d8 = 8%nat) by (unfold d8; rewrite app_length, repeat_length, app_length; cbn [length]; lia).
  assert (Hb8 : bytes_ok d8).
  { unfold d8. apply bytes_ok_app. split; [|apply bytes_ok_zeros]. apply bytes_ok_app. split; [exact Hbx|]. repeat constructor. exact Hy. }
  unfold byte_read_aligned, s_byte_read_aligned. rewrite read_bytes_val by (rewrite app_length, repeat_length; lia).
  eexists. split; [reflexivity|].
  rewrite (win_scalar' m LE sz (db_of_bytes d8) [] d8 [] (of_bytes_win d8 ltac:(lia)) Hs ltac:(lia) Hb8).
  f_equal. unfold val.
  assert (Z : forall k, le_dec (repeat 0 k) = 0) by (induction k as [|k IH]; [reflexivity|cbn [repeat le_dec]; rewrite IH; reflexivity]).
  rewrite !(firstn_app sz), !(firstn_all2 x) by lia.
  unfold d8. rewrite (firstn_app sz), (firstn_all2 (x ++ [y])) by (rewrite app_length; cbn [length]; lia).
  rewrite !firstn_repeat', !le_dec_app, !Z. cbn [le_dec]. rewrite !N.mul_0_r, !N.add_0_r. f_equal.
Qed.

Lemma skipn_head : forall (l : bytes) q y t, skipn q l = y :: t -> y = nth q l 0.
Proof.
  intros l q. revert l. induction q as [|q IH]; intros [|a l] y t E; cbn in *; try discriminate; [congruence|].
  apply (IH _ _ _ E).
Qed.

Lemma unsigned_bytes : forall w ty, fixed_from_model (STUnsigned w) = Ok ty -> get_byte_size ty = storage_bytes w.
Proof.
  intros b ty H. unfold fixed_from_model in H. cbn in H. unfold storage_bytes.
  destruct (N.ltb_spec 32 b), (N.leb_spec b 64), (N.ltb_spec 16 b), (N.leb_spec b 32),
    (N.ltb_spec 8 b), (N.leb_spec b 16), (N.ltb_spec 0 b), (N.leb_spec b 8); try lia;
    cbn [andb] in H; try discriminate; inversion H; reflexivity.
Qed.

Lemma app_eq_len : forall (a a' t t' : bytes), length a = length a' -> (a' ++ t' = a ++ t)%list -> a = a' /\ t = t'.
Proof.
  induction a as [|x a IH]; intros [|y a'] t t' L E; cbn in *; try discriminate; [auto|].
  injection E as -> E. destruct (IH a' t t' ltac:(lia) E) as (-> & ->). auto.
Qed.

Section Field.
Variables (m : mode) (enums : smap enum_) (structs : smap structure) (id : N) (d : sstruct) (s : structure)
  (i : nat) (df : sfield) (f : array_field) (c k o : N).
Hypothesis H : structure_from_model m Little enums structs id d = Ok s.
Hypothesis Hno : no_overflow m structs d.
Hypothesis Hd : nth_error (ss_fields d) i = Some df.
Hypothesis Hi : sf_info df = STUnsigned (8 * c).
Hypothesis Hk : sf_array_len df = Some k.
Hypothesis Hf : nth_error (s_fields s) i = Some (FArray f).
Hypothesis Hat : declared_at structs d i o (8 * c * k).

Lemma array_place : 1 < k /\ 1 <= c <= 8 /\ fa_loc f = location_from_model (8 * c * k) o /\
  l_byte_offset (fa_loc f) = o / 8 /\ l_byte_size (fa_loc f) = c * k /\ o / 8 + c * k <= s_byte_size s /\
  item_bits f = 8 * c /\ item_bit_size (E:=rerror) f = Ok (8 * c) /\ uint_size (get_byte_size (fa_ty f)) /\
  c <= N.of_nat (get_byte_size (fa_ty f)) /\ fa_endianness f = Little /\ get_byte_size (fa_ty f) = storage_bytes (8 * c).
Proof.
  assert (Hb : get_bit_size (sf_info df) = Some (8 * c)) by (rewrite Hi; reflexivity).
  assert (Hnb : get_simple_type (sf_info df) <> Boolean) by (rewrite Hi; discriminate).
  destruct (structure_nth _ _ _ _ _ _ _ _ _ H Hf) as (df' & o1 & o2 & Hd' & Hfm).
  assert (df' = df) by congruence. subst df'.
  apply array_shape in Hfm. destruct Hfm as (b' & k' & Hb' & Hk' & Hk1' & Hfk' & Hty & _).
  assert (Hk1 : 1 < k) by (replace k with k' by congruence; assumption).
  assert (Hfk : fa_array_len f = k) by congruence. clear b' Hb' k' Hk' Hk1' Hfk'.
  pose proof (fixed_ok_bits _ _ _ Hty Hb Hnb) as Hb64.
  destruct (fixed_size_ok _ _ _ Hty Hb Hnb) as (Hsz & Hbsz).
  destruct (fixed_in_structure _ _ _ _ _ _ _ _ _ _ H Hno Hf Hat) as (Hloc & Hle & Hwin).
  cbn [field_loc] in Hloc.
  pose proof (array_little _ _ _ _ _ _ _ _ H Hf) as Hend.
  assert (Hceil : ceil8 (8 * c * k) = c * k).
  { unfold ceil8. clear. replace (8 * c * k + 7) with (7 + (c * k) * 8) by lia.
    rewrite N.div_add by discriminate. reflexivity. }
  rewrite Hceil in Hwin.
  assert (Hk0 : k <> 0) by lia.
  split; [exact Hk1|]. split; [lia|]. split; [exact Hloc|].
  split; [rewrite Hloc, loc_byte_offset; reflexivity|].
  split; [rewrite Hloc, loc_byte_size, Hceil; reflexivity|].
  split; [lia|].
  split; [unfold item_bits; rewrite Hfk, Hloc; cbn [l_bit_size location_from_model]; apply N.div_mul; exact Hk0|].
  split.
  { unfold item_bit_size, udiv. rewrite Hfk, Hloc. cbn [l_bit_size location_from_model].
    destruct (N.eqb_spec k 0); [lia|]. rewrite N.div_mul by assumption. reflexivity. }
  split; [exact Hsz|]. split; [lia|]. split; [exact Hend|]. rewrite Hi in Hty. exact (unsigned_bytes _ _ Hty).
Qed.

Theorem swift_array_same : forall mr mg b data n, holds b data -> s_byte_size s <= len data -> bytes_ok data ->
  N.of_nat (storage_bytes (8 * c)) = c -> n < k ->
  same_read (swift_array_item mr f b (Z.of_N n)) (arr_get mg f data n).
Proof.
  intros mr mg b data n Hh Hs Hbd Hc Hn.
  destruct array_place as (Hk1 & Hc8 & Hloc & Ho & Hsz & Hin & Hib & Hibs & Hu & Hle & He & Hst). rewrite <- Hst in Hc.
  destruct (part_window mr (fa_loc f) b data Hh) as (w & Ew & Hw); [rewrite Ho, Hsz; lia|].
  unfold swift_array_item, arr_get. rewrite Ew, Hibs. cbn [bind]. unfold arr_window.
  rewrite slice_ok by (rewrite ?Ho, ?Hsz; lia). cbn [bind].
  replace (N.to_nat (l_byte_offset (fa_loc f) + l_byte_size (fa_loc f) - l_byte_offset (fa_loc f)))
    with (N.to_nat (l_byte_size (fa_loc f))) by lia.
  rewrite Hib. replace (Z.of_N (8 * c)) with (8 * Z.of_nat (get_byte_size (fa_ty f)))%Z by lia.
  rewrite <- Hc. apply array_get_same; [exact Hu|exact Hw|apply bytes_ok_firstn, bytes_ok_skipn, Hbd|].
  rewrite Hc. unfold len. rewrite firstn_length, skipn_length, Ho, Hsz.
  assert (c * (n + 1) <= c * k) by (apply N.mul_le_mono_l; lia). unfold len in *. lia.
Qed.

(** Items of 3, 5, 6 or 7 bytes are read together with the byte behind them. *)
Theorem swift_array_behind : forall mr mg b data after n, holds_before b data after -> s_byte_size s <= len data ->
  bytes_ok (data ++ after) -> N.of_nat (storage_bytes (8 * c)) <> c -> n < k ->
  (o / 8 + c * (n + 1) < len (data ++ after) ->
   exists v, arr_get (E:=rerror) mg f data n = Ok v /\
     swift_array_item mr f b (Z.of_N n) =
       Ok (v + 2 ^ (8 * c) * nth (N.to_nat (o / 8 + c * (n + 1))) (data ++ after) 0)) /\
  (o / 8 + c * (n + 1) = len (data ++ after) ->
   (exists v, arr_get (E:=rerror) mg f data n = Ok v) /\ swift_array_item mr f b (Z.of_N n) = Panic).
Proof.
  intros mr mg b data after n Hh Hs Hb0 Hc Hn.
  destruct array_place as (Hk1 & Hc8 & Hloc & Ho & Hsz & Hin & Hib & Hibs & Hu & Hle & He & Hst). rewrite <- Hst in Hc.
  destruct (holds_before_win _ _ _ Hh) as (pre & W). pose proof (win_bound _ _ _ _ W) as L.
  pose proof (count_nonneg pre). pose proof (count_nonneg after).
  assert (Hnk : n * c + c <= c * k) by nia.
  apply bytes_ok_app in Hb0. destruct Hb0 as (Hbd & Hba).
  unfold swift_array_item, arr_get. rewrite Hibs, Hib, He. cbn [bind order_of]. unfold arr_window, swift_part.
  rewrite Ho, Hsz. set (q := o / 8) in *. set (wl := c * k) in *. set (p := n * c) in *.
  assert (Ez : (Z.of_N (8 * c) / 8 = Z.of_N c)%Z) by (rewrite N2Z.inj_mul, Z.mul_comm, Z.div_mul; lia).
  assert (En : 8 * c / 8 = c) by (rewrite N.mul_comm, N.div_mul; lia).
  (* the window of the array *)
  destruct (window_split data (N.to_nat q) (N.to_nat wl)) as (Ed & L1 & L2); [unfold len in Hs; lia|].
  set (d1 := firstn (N.to_nat q) data) in *. set (w := firstn (N.to_nat wl) (skipn (N.to_nat q) data)) in *.
  set (d3 := skipn (N.to_nat q + N.to_nat wl) data) in *.
  pose proof W as W0. rewrite Ed in W0. destruct (win_closed mr b pre d1 w d3 after W0) as (bw & Ew & Ww).
  replace (count d1) with (Z.of_N q) in Ew by (unfold count; lia).
  replace (Z.of_N q + count w)%Z with (Z.of_N (q + wl)) in Ew by (unfold count; lia).
  rewrite Ew. cbn [bind]. rewrite slice_ok by lia. cbn [bind].
  replace (N.to_nat (q + wl - q)) with (N.to_nat wl) by lia. fold w.
  (* the window of the item *)
  unfold s_array_get, array_get_raw. rewrite Ez, En. unfold imul, iadd.
  replace (Z.of_N n * Z.of_N c)%Z with (Z.of_N p) by (unfold p; lia).
  assert (Hdl : (count data < 2 ^ 63)%Z) by lia.
  rewrite int_ok' by (unfold len, count in *; lia). cbn [bind]. rewrite int_ok' by (unfold len, count in *; lia). cbn [bind].
  unfold umul. fold p. replace (p <? usize_mod) with true by (unfold usize_mod, len, count in *; lia). cbn [bind].
  unfold uadd. replace (p + c <? usize_mod) with true by (unfold usize_mod, len, count in *; lia). cbn [bind].
  destruct (window_split w (N.to_nat p) (N.to_nat c)) as (Ed' & L1' & L2'); [lia|].
  set (e1 := firstn (N.to_nat p) w) in *. set (x := firstn (N.to_nat c) (skipn (N.to_nat p) w)) in *.
  set (e3 := skipn (N.to_nat p + N.to_nat c) w) in *.
  pose proof Ww as W1. rewrite Ed' in W1. destruct (win_closed mr bw (pre ++ d1) e1 x e3 (d3 ++ after) W1) as (bx & Ex & Wx).
  replace (count e1) with (Z.of_N p) in Ex by (unfold count; lia).
  replace (count x) with (Z.of_N c) in Ex by (unfold count; lia).
  rewrite Ex. cbn [bind]. rewrite slice_ok by (unfold len; lia). cbn [bind].
  replace (N.to_nat (p + c - p)) with (N.to_nat c) by lia. fold x.
  assert (Hbx : bytes_ok x) by (unfold x, w; apply bytes_ok_firstn, bytes_ok_skipn, bytes_ok_firstn, bytes_ok_skipn, Hbd).
  assert (Eat : N.to_nat (q + c * (n + 1)) = length (d1 ++ e1 ++ x)) by (rewrite !app_length; unfold p in *; lia).
  assert (Esplit : (data ++ after = (d1 ++ e1 ++ x) ++ (e3 ++ d3 ++ after))%list).
  { rewrite Ed at 1. rewrite Ed' at 1. rewrite <- !app_assoc. reflexivity. }
  assert (Erest : skipn (N.to_nat (q + c * (n + 1))) (data ++ after) = (e3 ++ d3 ++ after)%list).
  { rewrite Esplit, Eat. rewrite skipn_app, skipn_all, Nat.sub_diag. reflexivity. }
  split; intro Hl.
  - destruct (e3 ++ d3 ++ after)%list as [|y post] eqn:Er.
    { rewrite app_nil_r in Esplit. unfold len in Hl. rewrite Esplit in Hl. lia. }
    rewrite <- (skipn_head _ _ _ _ Erest).
    assert (Hy : y < 256).
    { assert (Hbr : bytes_ok (y :: post)) by (rewrite <- Erest; apply bytes_ok_skipn, bytes_ok_app; split; assumption).
      inversion Hbr; assumption. }
    destruct (byte_read_behind mr (get_byte_size (fa_ty f)) bx _ x y post Hu Wx Hbx Hy) as (v & E1 & E2); [lia|].
    exists v. split; [exact E1|]. rewrite E2. replace (len x) with c by (unfold len; lia). reflexivity.
  - assert (Er : (e3 ++ d3 ++ after)%list = []).
    { apply length_zero_iff_nil. unfold len in Hl. rewrite Esplit, app_length in Hl. lia. }
    rewrite Er in Wx. split.
    + unfold byte_read. replace (get_byte_size (fa_ty f) =? length x)%nat with false by lia.
      unfold byte_read_unaligned. rewrite pad8_ok by lia. cbn [bind]. unfold byte_read_aligned.
      rewrite read_bytes_val by (rewrite app_length, repeat_length; unfold uint_size in Hu; lia). eexists. reflexivity.
    + unfold s_byte_read. rewrite (win_size _ _ _ _ Wx).
      replace (Z.of_nat (get_byte_size (fa_ty f)) =? count x)%Z with false by (unfold count; lia).
      unfold s_byte_read_unaligned. rewrite (copy_to_trap mr bx _ x Wx). reflexivity.
Qed.

(** Items of 1, 2, 4 or 8 bytes are written alike. *)
Theorem swift_array_assign_same : forall mr mg b data n v, holds b data -> db_mut b = true -> s_byte_size s <= len data ->
  N.of_nat (storage_bytes (8 * c)) = c -> n < k ->
  exists data' b', arr_set (E:=rerror) mg f data n v = Ok data' /\
    swift_array_assign mr f b (Z.of_N n) v = Ok b' /\ stored b data' b'.
Proof.
  intros mr mg b data n v Hh Hm Hs Hc Hn.
  destruct array_place as (Hk1 & Hc8 & Hloc & Ho & Hsz & Hin & Hib & Hibs & Hu & Hle & He & Hst). rewrite <- Hst in Hc.
  destruct (holds_win _ _ Hh) as (pre & post & W).
  unfold swift_array_assign, arr_set, swift_part, update_slice. rewrite Hibs, Hib, Ho, Hsz. cbn [bind].
  set (q := o / 8) in *. set (wl := c * k) in *.
  destruct (window_split data (N.to_nat q) (N.to_nat wl)) as (Ed & L1 & L2); [unfold len in Hs; lia|].
  set (d1 := firstn (N.to_nat q) data) in *. set (w := firstn (N.to_nat wl) (skipn (N.to_nat q) data)) in *.
  set (d3 := skipn (N.to_nat q + N.to_nat wl) data) in *.
  pose proof W as W0. rewrite Ed in W0. destruct (win_closed mr b pre d1 w d3 post W0) as (bw & Ew & Ww).
  replace (count d1) with (Z.of_N q) in Ew by (unfold count; lia).
  replace (Z.of_N q + count w)%Z with (Z.of_N (q + wl)) in Ew by (unfold count; lia).
  assert (Hmw : db_mut bw = true).
  { unfold db_closed in Ew. destruct (_ <? _)%Z; [discriminate|].
    repeat (match type of Ew with context [sassert ?a ?b] => destruct (sassert a b); try discriminate end; cbn [bind] in Ew).
    inversion Ew. exact Hm. }
  rewrite Ew. cbn [bind]. rewrite slice_ok by lia. cbn [bind].
  replace (N.to_nat (q + wl - q)) with (N.to_nat wl) by lia. fold w.
  assert (Hhw : holds bw w).
  { exists (pre ++ d1)%list, (d3 ++ post)%list. destruct Ww as (A1 & A2 & A3 & A4). repeat split; try assumption.
    rewrite A3. unfold count. lia. }
  destruct (array_set_same mr mg (order_of (fa_endianness f)) (get_byte_size (fa_ty f)) bw w n v Hu Hhw Hmw)
    as (w' & b' & E1 & E2 & St & Hh').
  { rewrite Hc. assert (c * (n + 1) <= c * k) by (apply N.mul_le_mono_l; lia). unfold len. fold wl in H0. lia. }
  rewrite Hc in E1. replace (8 * Z.of_nat (get_byte_size (fa_ty f)))%Z with (Z.of_N (8 * c)) in E2 by lia.
  rewrite E1, E2. cbn [bind]. rewrite Hm.
  destruct St as (p1 & old & p3 & S1 & S2 & S3 & S4 & S5 & S6 & S7).
  destruct Ww as (A1 & A2 & A3 & A4).
  assert (P : p1 = (pre ++ d1)%list /\ old = w /\ p3 = (d3 ++ post)%list).
  { rewrite A1 in S1. assert (Lp : length p1 = length (pre ++ d1)) by (unfold count in *; lia).
    assert (Lo : length old = length w) by (unfold count in *; lia).
    destruct (app_eq_len _ _ _ _ Lp S1) as (-> & S1'). destruct (app_eq_len _ _ _ _ Lo (eq_sym S1')) as (-> & ->). auto. }
  destruct P as (-> & -> & ->).
  assert (Es : splice data q w' = (d1 ++ w' ++ d3)%list).
  { rewrite Ed at 1. replace q with (len d1) by (unfold len; lia). apply splice_app. exact S4. }
  rewrite Es. eexists. eexists. split; [reflexivity|]. split; [reflexivity|].
  destruct W as (B1 & B2 & B3 & B4).
  exists pre, data, post. cbn [db_data db_start db_end]. split; [exact B1|]. split; [unfold count in B2; lia|].
  split; [unfold count in B3; lia|]. split; [rewrite Ed, !app_length; lia|].
  split; [rewrite S5, <- !app_assoc; reflexivity|]. split; reflexivity.
Qed.

(** Items of 3, 5, 6 or 7 bytes cannot be written: the value is lost. *)
Theorem swift_array_assign_lost : forall mr mg b data n v v', holds b data -> s_byte_size s <= len data -> bytes_ok data ->
  N.of_nat (storage_bytes (8 * c)) <> c -> n < k -> v < 2 ^ (8 * c) -> v' < 2 ^ (8 * c) -> v <> v' ->
  swift_array_assign mr f b (Z.of_N n) v = swift_array_assign mr f b (Z.of_N n) v' /\
  exists data1 data2, arr_set (E:=rerror) mg f data n v = Ok data1 /\ arr_set (E:=rerror) mg f data n v' = Ok data2 /\
    data1 <> data2.
Proof.
  intros mr mg b data n v v' Hh Hs Hbd Hc Hn Hv Hv' Hne.
  destruct array_place as (Hk1 & Hc8 & Hloc & Ho & Hsz & Hin & Hib & Hibs & Hu & Hle & He & Hst). rewrite <- Hst in Hc.
  split.
  - destruct (part_window mr (fa_loc f) b data Hh) as (w & Ew & Hw); [rewrite Ho, Hsz; lia|].
    set (x := firstn (N.to_nat (l_byte_size (fa_loc f))) (skipn (N.to_nat (l_byte_offset (fa_loc f))) data)) in *.
    assert (Lx : len x = c * k) by (unfold x, len in *; rewrite firstn_length, skipn_length, Ho, Hsz; lia).
    unfold swift_array_assign. rewrite Ew. cbn [bind].
    assert (E : s_array_set mr (order_of (fa_endianness f)) (get_byte_size (fa_ty f)) (Z.of_N (item_bits f)) w (Z.of_N n) v =
                s_array_set mr (order_of (fa_endianness f)) (get_byte_size (fa_ty f)) (Z.of_N (item_bits f)) w (Z.of_N n) v');
      [|rewrite E; reflexivity].
    assert (Hnk : n * c + c <= c * k) by nia. rewrite Hib.
    assert (Ez : (Z.of_N (8 * c) / 8 = Z.of_N c)%Z) by (rewrite N2Z.inj_mul, Z.mul_comm, Z.div_mul; lia).
    unfold s_array_set. rewrite Ez. set (p := n * c) in *. unfold imul, iadd.
    replace (Z.of_N n * Z.of_N c)%Z with (Z.of_N p) by (unfold p; lia).
    destruct (holds_win _ _ Hw) as (pre & post & W). pose proof (win_bound _ _ _ _ W) as L.
    pose proof (count_nonneg pre). pose proof (count_nonneg post).
    rewrite int_ok' by (unfold len, count in *; lia). cbn [bind]. rewrite int_ok' by (unfold len, count in *; lia). cbn [bind].
    destruct (window_split x (N.to_nat p) (N.to_nat c)) as (Ed' & L1' & L2'); [unfold len in *; lia|].
    set (e1 := firstn (N.to_nat p) x) in *. set (y := firstn (N.to_nat c) (skipn (N.to_nat p) x)) in *.
    set (e3 := skipn (N.to_nat p + N.to_nat c) x) in *.
    pose proof W as W1. rewrite Ed' in W1. destruct (win_closed mr w pre e1 y e3 post W1) as (bx & Ex & Wx).
    replace (count e1) with (Z.of_N p) in Ex by (unfold count; lia).
    replace (count y) with (Z.of_N c) in Ex by (unfold count; lia).
    rewrite Ex. cbn [bind].
    rewrite (byte_write_ignores mr (order_of (fa_endianness f)) (get_byte_size (fa_ty f)) v v' bx y Hu); [reflexivity| |lia].
    exists (pre ++ e1)%list, (e3 ++ post)%list. destruct Wx as (A1 & A2 & A3 & A4). repeat split; try assumption.
    rewrite A3. unfold count. lia.
  - destruct (array_reach (E:=rerror) m mg _ _ _ _ _ _ _ f (8 * c) k o H Hno Hd) as (_ & _ & _ & _ & R);
      [rewrite Hi; reflexivity|rewrite Hi; discriminate|exact Hk|exact Hf|exact Hat|].
    destruct (R data Hs Hbd) as (_ & _ & R2).
    destruct (R2 n v Hn) as (d1 & E1 & _ & _ & U1). destruct (R2 n v' Hn) as (d2 & E2 & _ & _ & U2).
    exists d1, d2. split; [exact E1|]. split; [exact E2|]. intro E. subst d2. apply Hne.
    assert (En : 8 * c / 8 = c) by (rewrite N.mul_comm, N.div_mul; lia). rewrite En in U1, U2.
    apply N.bits_inj. intro j. destruct (N.ltb_spec j (8 * c)) as [Hj|Hj].
    + specialize (U1 (8 * (o / 8 + c * n) + j)). specialize (U2 (8 * (o / 8 + c * n) + j)). rewrite U1 in U2.
      set (z := 8 * (o / 8 + c * n)) in *.
      replace (z <=? z + j) with true in U2 by lia. replace (z + j <? z + 8 * c) with true in U2 by lia.
      cbn [andb] in U2. replace (z + j - z) with j in U2 by lia. exact U2.
    + assert (T : forall u, u < 2 ^ (8 * c) -> N.testbit u j = false).
      { intros u Hu'. destruct (N.eq_dec u 0) as [->|Hz]; [apply N.bits_0|]. apply N.bits_above_log2.
        apply N.lt_le_trans with (8 * c); [|exact Hj]. apply N.log2_lt_pow2; lia. }
      rewrite !T by assumption. reflexivity.
Qed.
End Field.
