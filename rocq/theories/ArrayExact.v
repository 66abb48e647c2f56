(** Array fields in general, aligned or not, for C10: which bits their accessors reach. *)

From Coq Require Import Arith NArith ZArith String List Bool Lia ZifyBool ZifyN ZifyNat.
From Verif Require Import Base Schema Bits BitsFacts Codec CodecFacts Compiler Access SpecStruct
  StructFacts StructThms ViewThms ArrayThms NestedThms.
Import ListNotations.
Local Open Scope N_scope.
Ltac Zify.zify_post_hook ::= idtac.

Section Array.
Context {E : Type}.

(** The codec on a window that holds [k] pieces of [b / 8] bytes. *)
Lemma codec_get : forall mr sz b k w i,
  bytes_ok w -> b / 8 * k <= len w -> len w < usize_mod -> b / 8 <= N.of_nat sz -> (sz <= 8)%nat -> i < k ->
  exists v, array_get_raw (E:=E) mr LE sz b w i = Ok v /\
    is_field_value w (8 * (b / 8) * i) (8 * (b / 8)) v.
Proof.
  intros mr sz b k w i Hw Hl Hck Hc Hsz Hi. unfold array_get_raw. set (c := b / 8) in *.
  assert (Hic : i * c + c <= c * k) by nia.
  rewrite umul_ok by lia. cbn [bind]. rewrite uadd_ok by lia. cbn [bind].
  destruct (slice_window (E:=E) w (i * c) (i * c + c)) as (x & Hx & Hxl & Hxo & Hxb); [lia|lia|assumption|].
  rewrite Hx. cbn [bind]. rewrite byte_read_eq.
  destruct (byte_read_LE (E:=E) (sz =? length x)%nat sz x) as (v & Hv & Hvb).
  { assumption. } { lia. } { intro Heq. apply Nat.eqb_eq in Heq. congruence. }
  exists v. split; [assumption|]. intro j. rewrite Hvb, Hxb.
  replace (i * c + c - i * c) with c by lia. replace (8 * (i * c)) with (8 * c * i) by lia. reflexivity.
Qed.

Lemma codec_set : forall mr sz b k w i v,
  bytes_ok w -> b / 8 * k <= len w -> len w < usize_mod -> b / 8 <= N.of_nat sz -> (sz <= 8)%nat -> i < k ->
  exists w', array_set_raw (E:=E) mr LE sz b w i v = Ok w' /\
    is_field_update w (8 * (b / 8) * i) (8 * (b / 8)) v w'.
Proof.
  intros mr sz b k w i v Hw Hl Hck Hc Hsz Hi. unfold array_set_raw. set (c := b / 8) in *.
  assert (Hic : i * c + c <= c * k) by nia.
  rewrite umul_ok by lia. cbn [bind]. rewrite uadd_ok by lia. cbn [bind]. unfold update_slice.
  destruct (slice_window (E:=E) w (i * c) (i * c + c)) as (x & Hx & Hxl & Hxo & Hxb); [lia|lia|assumption|].
  rewrite Hx. cbn [bind]. rewrite byte_write_eq.
  destruct (byte_write_LE (E:=E) (sz =? length x)%nat sz x v) as (x' & Hv & Hlx' & Hox' & Hvb).
  { assumption. } { lia. } { intro Heq. apply Nat.eqb_eq in Heq. congruence. }
  rewrite Hv. cbn [bind]. eexists. split; [reflexivity|].
  assert (Hlen' : len x' = c) by (unfold len; lia).
  assert (Hlenx : len x = c) by (unfold len; lia).
  split; [apply splice_length; rewrite Hlen'; lia|]. split; [apply bytes_ok_splice; assumption|].
  intro t. rewrite bit_at_splice by (rewrite Hlen'; lia). rewrite Hlen', Hvb, Hlenx.
  destruct (N.leb_spec (8 * (i * c)) t), (N.ltb_spec t (8 * (i * c + c))),
    (N.leb_spec (8 * c * i) t), (N.ltb_spec t (8 * c * i + 8 * c)); try lia; cbn [andb]; try reflexivity.
  destruct (N.ltb_spec (t - 8 * (i * c)) (8 * c)); [|lia]. cbn [andb]. f_equal. lia.
Qed.

(** Item [n] is taken to be the [b / 8] whole bytes that start [n * (b / 8)] bytes after the byte
    the array starts in. *)
Lemma array_reach : forall m mr enums structs id d s i df f b k o,
  structure_from_model m Little enums structs id d = Ok s ->
  no_overflow m structs d ->
  nth_error (ss_fields d) i = Some df ->
  get_bit_size (sf_info df) = Some b -> get_simple_type (sf_info df) <> Boolean ->
  sf_array_len df = Some k ->
  nth_error (s_fields s) i = Some (FArray f) -> declared_at structs d i o (b * k) ->
  1 < k /\ 1 <= b <= 64 /\ o + b * k <= s_bit_size s /\ s_byte_size s = ceil8 (s_bit_size s) /\
  forall buf, s_byte_size s <= len buf -> bytes_ok buf ->
    arr_len (E:=E) f buf = (if b <? 8 then Panic else Ok (b * k / 8 / (b / 8))) /\
    (forall n, n < k -> exists v, arr_get (E:=E) mr f buf n = Ok v /\
       is_field_value buf (8 * (o / 8 + b / 8 * n)) (8 * (b / 8)) v) /\
    (forall n v, n < k -> exists buf', arr_set (E:=E) mr f buf n v = Ok buf' /\
       is_field_update buf (8 * (o / 8 + b / 8 * n)) (8 * (b / 8)) v buf').
Proof.
  intros m mr enums structs id d s i df f b k o H Hno Hd Hb Hnb Hk Hf Hat.
  destruct (structure_nth _ _ _ _ _ _ _ _ _ H Hf) as (df' & o1 & o2 & Hd' & Hfm).
  assert (df' = df) by congruence. subst df'.
  apply array_shape in Hfm. destruct Hfm as (b' & k' & Hb' & Hk' & Hk1' & Hfk' & Hty & Hmod).
  assert (Hk1 : 1 < k) by (replace k with k' by congruence; assumption).
  assert (Hfk : fa_array_len f = k) by congruence.
  pose proof (fixed_ok_bits _ _ _ Hty Hb Hnb) as Hb64.
  destruct (fixed_size_ok _ _ _ Hty Hb Hnb) as (Hsz & Hbsz).
  destruct (fixed_in_structure _ _ _ _ _ _ _ _ _ _ H Hno Hf Hat) as (Hloc & Hle & Hwin).
  cbn [field_loc] in Hloc. pose proof (structure_bound _ _ _ _ _ _ _ H) as Hbd.
  pose proof (array_little _ _ _ _ _ _ _ _ H Hf) as Hend.
  assert (Hbyte : s_byte_size s = ceil8 (s_bit_size s)).
  { unfold structure_from_model in H. apply bind_ok in H. destruct H as ((fs & off) & _ & H).
    inversion H; subst. cbn [s_byte_size s_bit_size]. apply ceil8_eq. }
  assert (Hm8 : (b * k) mod 8 = 0).
  { replace b with b' by congruence. replace k with k' by congruence. apply Hmod. right.
    replace b' with b by congruence. replace k' with k by congruence. change (2 ^ 64) with usize_mod. lia. }
  set (c := b / 8) in *. set (q := o / 8) in *.
  assert (Hceil : ceil8 (b * k) = b * k / 8).
  { unfold ceil8. clear - Hm8. Ltac Zify.zify_post_hook ::= Z.to_euclidean_division_equations. lia. }
  Ltac Zify.zify_post_hook ::= idtac.
  assert (Hck : c * k <= b * k / 8).
  { unfold c. pose proof (N.div_mod b 8 ltac:(discriminate)). apply N.div_le_lower_bound; [discriminate|]. nia. }
  rewrite Hceil in Hwin. set (wl := b * k / 8) in *.
  assert (Hwl : 8 * wl = b * k). { unfold wl. pose proof (N.div_mod (b * k) 8 ltac:(discriminate)). lia. }
  assert (Hb0 : 8 * c <= b /\ b < 8 * c + 8).
  { unfold c. pose proof (N.div_mod b 8 ltac:(discriminate)). pose proof (N.mod_lt b 8 ltac:(discriminate)). lia. }
  split; [assumption|]. split; [lia|]. split; [assumption|]. split; [assumption|]. intros buf Hlen Hbuf.
  assert (Hibs : item_bit_size (E:=E) f = Ok b).
  { unfold item_bit_size, udiv. rewrite Hfk, Hloc. cbn [l_bit_size location_from_model].
    destruct (N.eqb_spec k 0); [lia|]. rewrite N.div_mul by assumption. reflexivity. }
  destruct (slice_window (E:=E) buf q (q + wl)) as (w & Hw & Hwlen0 & Hwo & Hwb); [lia|lia|assumption|].
  assert (Hwlen : len w = wl) by (unfold len; lia).
  assert (Hwindow : arr_window (E:=E) f buf = Ok w).
  { unfold arr_window. rewrite Hloc, loc_byte_size, loc_byte_offset, Hceil. exact Hw. }
  assert (Hc : c <= N.of_nat (get_byte_size (fa_ty f))) by lia.
  assert (Hsz8 : (get_byte_size (fa_ty f) <= 8)%nat) by lia.
  assert (Hnk : forall n, n < k -> c * n + c <= wl) by (intros n Hn; assert (c * n + c <= c * k) by nia; lia).
  split; [|split].
  - unfold arr_len. rewrite Hibs. cbn [bind]. rewrite Hwindow. cbn [bind]. unfold array_len, udiv.
    fold c. rewrite Hwlen. destruct (N.ltb_spec b 8), (N.eqb_spec c 0); try lia; reflexivity.
  - intros n Hn. destruct (codec_get mr (get_byte_size (fa_ty f)) b k w n) as (v & Hv & Hvf);
      [assumption|fold c; lia|lia|assumption|assumption|assumption|].
    exists v. unfold arr_get. rewrite Hibs. cbn [bind]. rewrite Hwindow. cbn [bind].
    rewrite Hend. cbn [order_of]. split; [assumption|]. fold c in Hvf.
    intro j. rewrite Hvf, Hwb. destruct (N.ltb_spec j (8 * c)); [|reflexivity]. cbn [andb].
    pose proof (Hnk n Hn). destruct (N.ltb_spec (8 * c * n + j) (8 * (q + wl - q))); [|lia]. cbn [andb]. f_equal. lia.
  - intros n v Hn. unfold arr_set. rewrite Hibs. cbn [bind]. unfold update_slice.
    rewrite Hloc, loc_byte_size, loc_byte_offset, Hceil. fold wl. change (o / 8) with q. rewrite Hw. cbn [bind].
    rewrite Hend. cbn [order_of].
    destruct (codec_set mr (get_byte_size (fa_ty f)) b k w n v) as (w' & Hs & U1 & U2 & U3);
      [assumption|fold c; lia|lia|assumption|assumption|assumption|].
    fold c in U3. rewrite Hs. cbn [bind]. eexists. split; [reflexivity|].
    assert (Hlw' : len w' = wl) by (unfold len in *; lia).
    pose proof (Hnk n Hn) as Hnk1.
    split; [apply splice_length; rewrite Hlw'; lia|]. split; [apply bytes_ok_splice; assumption|].
    intro t. rewrite bit_at_splice by (rewrite Hlw'; lia). rewrite Hlw', U3.
    destruct (N.leb_spec (8 * q) t), (N.ltb_spec t (8 * (q + wl))); cbn [andb].
    + destruct (N.leb_spec (8 * c * n) (t - 8 * q)), (N.ltb_spec (t - 8 * q) (8 * c * n + 8 * c)),
        (N.leb_spec (8 * (q + c * n)) t), (N.ltb_spec t (8 * (q + c * n) + 8 * c)); try lia; cbn [andb].
      * f_equal. lia.
      * rewrite Hwb. destruct (N.ltb_spec (t - 8 * q) (8 * (q + wl - q))); [|lia]. cbn [andb]. f_equal. lia.
      * rewrite Hwb. destruct (N.ltb_spec (t - 8 * q) (8 * (q + wl - q))); [|lia]. cbn [andb]. f_equal. lia.
    + destruct (N.leb_spec (8 * (q + c * n)) t), (N.ltb_spec t (8 * (q + c * n) + 8 * c)); try reflexivity. lia.
    + destruct (N.leb_spec (8 * (q + c * n)) t), (N.ltb_spec t (8 * (q + c * n) + 8 * c)); try reflexivity. lia.
    + destruct (N.leb_spec (8 * (q + c * n)) t), (N.ltb_spec t (8 * (q + c * n) + 8 * c)); try reflexivity. lia.
Qed.

(** ** C10: the guard is necessary *)
Theorem array_exact : forall m mr enums structs id d s i df f b k o,
  structure_from_model m Little enums structs id d = Ok s ->
  no_overflow m structs d ->
  nth_error (ss_fields d) i = Some df ->
  get_bit_size (sf_info df) = Some b -> get_simple_type (sf_info df) <> Boolean ->
  sf_array_len df = Some k ->
  nth_error (s_fields s) i = Some (FArray f) -> declared_at structs d i o (b * k) ->
  ((forall buf n, s_byte_size s <= len buf -> bytes_ok buf -> n < k ->
      exists v, arr_get (E:=E) mr f buf n = Ok v /\ is_field_value buf (o + b * n) b v) <->
     b mod 8 = 0 /\ o mod 8 = 0) /\
  ((forall buf n v, s_byte_size s <= len buf -> bytes_ok buf -> n < k ->
      exists buf', arr_set (E:=E) mr f buf n v = Ok buf' /\ is_field_update buf (o + b * n) b v buf') <->
     b mod 8 = 0 /\ o mod 8 = 0).
Proof.
  intros m mr enums structs id d s i df f b k o H Hno Hd Hb Hnb Hk Hf Hat.
  destruct (array_reach m mr enums structs id d s i df f b k o H Hno Hd Hb Hnb Hk Hf Hat)
    as (Hk1 & Hb1 & Hle & Hby & Hacc).
  pose proof (N.div_mod b 8 ltac:(discriminate)) as Hbd. pose proof (N.mod_lt b 8 ltac:(discriminate)) as Hbl.
  pose proof (N.div_mod o 8 ltac:(discriminate)) as Hod. pose proof (N.mod_lt o 8 ltac:(discriminate)) as Hol.
  assert (Hcase : b mod 8 = 0 /\ o mod 8 = 0 \/ 8 * (o / 8 + b / 8 * 0) + 8 * (b / 8) < o + b) by lia.
  set (p := 8 * (o / 8 + b / 8 * 0)) in *. set (n := 8 * (b / 8)) in *.
  assert (Hin : o + b <= 8 * s_byte_size s).
  { rewrite Hby. pose proof (ceil8_cover (s_bit_size s)). nia. }
  assert (Hk0 : 0 < k) by lia.
  split; split.
  - intro Hall. destruct Hcase as [Hc|Hshort]; [exact Hc|exfalso].
    set (buf := one_bit (N.to_nat (s_byte_size s)) (o + b - 1)).
    assert (Hkk : o + b - 1 < 8 * N.of_nat (N.to_nat (s_byte_size s))) by (rewrite N2Nat.id; lia).
    assert (Hlen : s_byte_size s <= len buf) by (unfold buf, one_bit, len; rewrite le_enc_length; lia).
    assert (Hbuf : bytes_ok buf) by apply le_enc_ok.
    destruct (Hall buf 0 Hlen Hbuf Hk0) as (v & Hv & Hfv).
    destruct (Hacc buf Hlen Hbuf) as (_ & Hg & _). destruct (Hg 0 Hk0) as (v' & Hv' & Hf').
    fold p in Hf'. fold n in Hf'.
    assert (v' = v) by congruence. subst v'. specialize (Hfv (b - 1)). rewrite Hf' in Hfv.
    unfold buf in Hfv. rewrite !one_bit_spec in Hfv by exact Hkk.
    destruct (N.ltb_spec (b - 1) n), (N.ltb_spec (b - 1) b), (N.eqb_spec (p + (b - 1)) (o + b - 1)),
      (N.eqb_spec (o + b * 0 + (b - 1)) (o + b - 1)); cbn [andb] in Hfv; try lia; discriminate.
  - intros (Hb8 & Ho8) buf j Hlen Hbuf Hj.
    destruct (array_field_correct (E:=E) m mr enums structs id d s i df f b k o) as (_ & _ & HH); try assumption.
    destruct (HH buf Hlen Hbuf) as (_ & Hg & _). apply Hg. assumption.
  - intro Hall. destruct Hcase as [Hc|Hshort]; [exact Hc|exfalso].
    set (buf := repeat 0 (N.to_nat (s_byte_size s))).
    assert (Hlen : s_byte_size s <= len buf) by (unfold buf, len; rewrite repeat_length; lia).
    assert (Hbuf : bytes_ok buf) by apply bytes_ok_zeros.
    destruct (Hall buf 0 (2 ^ b - 1) Hlen Hbuf Hk0) as (u & Hv & _ & _ & Hfv).
    destruct (Hacc buf Hlen Hbuf) as (_ & _ & Hst). destruct (Hst 0 (2 ^ b - 1) Hk0) as (u' & Hv' & _ & _ & Hf').
    fold p in Hf'. fold n in Hf'.
    assert (u' = u) by congruence. subst u'. specialize (Hfv (o + b - 1)). rewrite Hf' in Hfv.
    rewrite !testbit_mask in Hfv. unfold buf in Hfv. rewrite !bit_at_zeros in Hfv.
    destruct (N.leb_spec p (o + b - 1)), (N.ltb_spec (o + b - 1) (p + n)), (N.leb_spec (o + b * 0) (o + b - 1)),
      (N.ltb_spec (o + b - 1) (o + b * 0 + b)), (N.ltb_spec (o + b - 1 - (o + b * 0)) b); cbn [andb] in Hfv; try lia; discriminate.
  - intros (Hb8 & Ho8) buf j v Hlen Hbuf Hj.
    destruct (array_field_correct (E:=E) m mr enums structs id d s i df f b k o) as (_ & _ & HH); try assumption.
    destruct (HH buf Hlen Hbuf) as (_ & _ & Hg & _). apply Hg. assumption.
Qed.

(** ** C11: when the length is right *)
Theorem array_len_exact : forall m enums structs id d s i df f b k o,
  structure_from_model m Little enums structs id d = Ok s ->
  no_overflow m structs d ->
  nth_error (ss_fields d) i = Some df ->
  get_bit_size (sf_info df) = Some b -> get_simple_type (sf_info df) <> Boolean ->
  sf_array_len df = Some k ->
  nth_error (s_fields s) i = Some (FArray f) -> declared_at structs d i o (b * k) ->
  forall buf, s_byte_size s <= len buf -> bytes_ok buf ->
    (arr_len (E:=E) f buf = Panic <-> b < 8) /\
    (arr_len (E:=E) f buf = Ok k <-> 8 <= b /\ k * (b mod 8) < 8 * (b / 8)).
Proof.
  intros m enums structs id d s i df f b k o H Hno Hd Hb Hnb Hk Hf Hat buf Hlen Hbuf.
  destruct (array_reach m Debug enums structs id d s i df f b k o H Hno Hd Hb Hnb Hk Hf Hat)
    as (Hk1 & Hb1 & Hle & Hby & Hacc).
  destruct (structure_nth _ _ _ _ _ _ _ _ _ H Hf) as (df' & o1 & o2 & Hd' & Hfm).
  assert (df' = df) by congruence. subst df'.
  apply array_shape in Hfm. destruct Hfm as (b' & k' & Hb' & Hk' & Hk1' & Hfk' & Hty & Hmod).
  pose proof (structure_bound _ _ _ _ _ _ _ H) as Hbd.
  assert (Hm8 : (b * k) mod 8 = 0).
  { replace b with b' by congruence. replace k with k' by congruence. apply Hmod. right.
    replace b' with b by congruence. replace k' with k by congruence. change (2 ^ 64) with usize_mod. lia. }
  destruct (Hacc buf Hlen Hbuf) as (-> & _).
  pose proof (N.div_mod b 8 ltac:(discriminate)) as Hbd8. pose proof (N.mod_lt b 8 ltac:(discriminate)) as Hbl.
  pose proof (N.div_mod (b * k) 8 ltac:(discriminate)) as Hw. rewrite Hm8, N.add_0_r in Hw.
  set (c := b / 8) in *. set (q := b mod 8) in *. set (wl := b * k / 8) in *.
  destruct (N.ltb_spec b 8) as [Hlt|Hge].
  - split; split; intro X; try reflexivity; try assumption; [discriminate|lia].
  - split; split; intro X; try discriminate; try lia.
    + injection X as X. split; [assumption|].
      pose proof (N.mul_succ_div_gt wl c ltac:(lia)) as Hg. rewrite X in Hg. nia.
    + f_equal. symmetry. apply (N.div_unique wl c k (wl - c * k)); nia.
Qed.

End Array.
