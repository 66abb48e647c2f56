(** Lemmas about structure layout and the generated accessors. *)

From Coq Require Import Arith NArith ZArith String List Bool Lia ZifyBool ZifyN ZifyNat.
From Verif Require Import Base Schema Bits BitsFacts Codec CodecFacts Compiler Access SpecStruct.
Import ListNotations.
Local Open Scope N_scope.
Ltac Zify.zify_post_hook ::= Z.to_euclidean_division_equations.

Lemma bind_ok : forall {E A B} (x : outcome E A) (k : A -> outcome E B) b,
  bind x k = Ok b -> exists a, x = Ok a /\ k a = Ok b.
Proof. intros E A B [a|e|] k b H; cbn in H; try discriminate. exists a. auto. Qed.

Ltac inv_bind H :=
  let a := fresh "a" in let H1 := fresh H in
  apply bind_ok in H; destruct H as (a & H1 & H).

Lemma ok_or_ok : forall {E A} (o : option A) (e : E) a, ok_or o e = Ok a -> o = Some a.
Proof. intros E A [x|] e a H; inversion H. reflexivity. Qed.

(** ** Layout *)

Definition bit_start (l : location) : N := 8 * l_byte_offset l + l_bit_offset l.

Lemma ceil8_eq : forall n, bytes_of_bits n = ceil8 n.
Proof. intro n. unfold bytes_of_bits, ceil8. destruct (N.eqb_spec (n mod 8) 0); lia. Qed.

Lemma loc_start : forall w o, bit_start (location_from_model w o) = o.
Proof. intros. unfold bit_start, location_from_model. cbn [l_byte_offset l_bit_offset]. lia. Qed.
Lemma loc_bit_offset : forall w o, l_bit_offset (location_from_model w o) = o mod 8.
Proof. intros. unfold location_from_model. cbn [l_bit_offset]. lia. Qed.
Lemma loc_byte_offset : forall w o, l_byte_offset (location_from_model w o) = o / 8.
Proof. reflexivity. Qed.
Lemma loc_byte_size : forall w o, l_byte_size (location_from_model w o) = ceil8 w.
Proof. intros. apply ceil8_eq. Qed.

Definition no_wrap (m : mode) (n : N) : Prop := m = Debug \/ n < usize_mod.

Lemma uadd_no_wrap : forall {E} m a b r, uadd (E:=E) m a b = Ok r -> no_wrap m (a + b) ->
  r = a + b.
Proof.
  intros E m a b r H Hn. unfold uadd in H. destruct (N.ltb_spec (a + b) usize_mod).
  - inversion H. reflexivity.
  - destruct Hn as [->|]; [discriminate H|lia].
Qed.
Lemma umul_no_wrap : forall {E} m a b r, umul (E:=E) m a b = Ok r -> no_wrap m (a * b) ->
  r = a * b.
Proof.
  intros E m a b r H Hn. unfold umul in H. destruct (N.ltb_spec (a * b) usize_mod).
  - inversion H. reflexivity.
  - destruct Hn as [->|]; [discriminate H|lia].
Qed.

Lemma no_wrap_le : forall m a b, no_wrap m b -> a <= b -> no_wrap m a.
Proof. unfold no_wrap. intros m a b [H|H] Hab; [left; assumption|right; lia]. Qed.

(** What [field_from_model] returns, when nothing wraps. *)
Lemma field_from_model_layout : forall m endi enums structs off d f off',
  field_from_model m endi enums structs off d = Ok (f, off') ->
  exists w, declared_bits structs d = Some w /\
    field_name f = sf_name d /\
    (no_wrap m (off + w) ->
       off' = off + w /\ field_loc f = location_from_model w off).
Proof.
  intros m endi enums structs off d f off' H. unfold field_from_model in H.
  unfold declared_bits. destruct (sf_info d) as [b|b|b|b|n] eqn:Hi.
  1-4: cbn [get_bit_size ok_or bind] in H;
    inv_bind H; inv_bind H; inv_bind H;
    set (al := match sf_array_len d with Some n => n | None => 1 end) in *;
    exists (b * al); split; [reflexivity|];
    destruct (N.ltb_spec 1 al);
    [destruct (negb (a0 mod 8 =? 0)); [discriminate|]|];
    inv_bind H; inversion H; subst; cbn;
    (split; [reflexivity|]); intro Hn;
    apply umul_no_wrap in H1; try (apply no_wrap_le with (1 := Hn); lia); subst a0;
    apply uadd_no_wrap in H4; auto.
  inv_bind H. apply ok_or_ok in H0. rewrite H0. exists (s_bit_size a). split; [reflexivity|].
  inv_bind H. inversion H; subst; cbn. split; [reflexivity|]. intro Hn.
  apply uadd_no_wrap in H1; auto.
Qed.

Lemma fields_from_model_layout : forall m endi enums structs l off fs off',
  fields_from_model m endi enums structs off l = Ok (fs, off') ->
  length fs = length l /\
  exists t, declared_total structs l = Some t /\
    (no_wrap m (off + t) ->
      off' = off + t /\
      forall i f d, nth_error fs i = Some f -> nth_error l i = Some d ->
        field_name f = sf_name d /\
        exists o w, declared_total structs (firstn i l) = Some o /\
          declared_bits structs d = Some w /\ off + o + w <= off' /\
          field_loc f = location_from_model w (off + o)).
Proof.
  intros m endi enums structs. induction l as [|d l IH]; intros off fs off' H; cbn in H.
  - inversion H; subst. split; [reflexivity|]. exists 0. split; [reflexivity|].
    intros _. split; [lia|]. intros [|i] f d H1; discriminate.
  - apply bind_ok in H. destruct H as ((f & off1) & H0 & H). 
    apply bind_ok in H. destruct H as ((fs1 & off2) & H1 & H). inversion H; subst; clear H.
    apply field_from_model_layout in H0. destruct H0 as (w & Hw & Hname & Hl).
    apply IH in H1. destruct H1 as (Hlen & t & Ht & H1).
    split; [cbn; congruence|]. exists (w + t). cbn [declared_total]. rewrite Hw, Ht.
    split; [reflexivity|]. intro Hn.
    destruct Hl as (-> & Hloc); [apply no_wrap_le with (1 := Hn); lia|].
    destruct H1 as (-> & H1); [apply no_wrap_le with (1 := Hn); lia|].
    split; [lia|]. intros [|i] f' d' Hf Hd; cbn in Hf, Hd.
    + inversion Hf; inversion Hd; subst. split; [assumption|]. exists 0, w.
      cbn. repeat split; try assumption; try lia. rewrite N.add_0_r. assumption.
    + specialize (H1 i f' d' Hf Hd). destruct H1 as (Hn' & o & w' & Ho & Hw' & Hle & Hloc').
      split; [assumption|]. exists (w + o), w'. cbn [firstn declared_total]. rewrite Hw, Ho.
      repeat split; try assumption; try lia. rewrite Hloc'. f_equal. lia.
Qed.

Lemma structure_layout : forall m endi enums structs id d s,
  structure_from_model m endi enums structs id d = Ok s ->
  s_id s = id /\ s_name s = ss_name d /\ length (s_fields s) = length (ss_fields d) /\
  s_byte_size s = ceil8 (s_bit_size s) /\
  exists t, declared_total structs (ss_fields d) = Some t /\
    (no_wrap m t -> s_bit_size s = t /\
      forall i f, nth_error (s_fields s) i = Some f ->
        exists df o w, nth_error (ss_fields d) i = Some df /\ field_name f = sf_name df /\
          declared_at structs d i o w /\ o + w <= t /\
          field_loc f = location_from_model w o).
Proof.
  intros m endi enums structs id d s H. unfold structure_from_model in H.
  apply bind_ok in H. destruct H as ((fs & off) & H0 & H). inversion H; subst; clear H. cbn.
  apply fields_from_model_layout in H0. destruct H0 as (Hlen & t & Ht & H1).
  repeat split; try assumption. { apply ceil8_eq. }
  exists t. split; [assumption|]. intro Hn. destruct H1 as (Hoff & H1); [assumption|].
  split; [lia|]. intros i f Hf.
  assert (Hi : (i < length (ss_fields d))%nat).
  { rewrite <- Hlen. apply nth_error_Some. congruence. }
  destruct (nth_error (ss_fields d) i) as [df|] eqn:Hd; [|apply nth_error_None in Hd; lia].
  destruct (H1 i f df Hf Hd) as (Hn' & o & w & Ho & Hw & Hle & Hloc).
  exists df, o, w. split; [reflexivity|]. split; [assumption|].
  split; [split; [assumption|exists df; auto]|]. split; [lia|assumption].
Qed.

(** ** Generated accessors *)

Lemma gen_fixed_ok : forall {E} f, 0 < l_bit_size (ff_loc f) <= 64 ->
  exists a, gen_fixed (E:=E) f = Ok a /\
    ac_start a = l_byte_offset (ff_loc f) /\
    ac_end a = l_byte_offset (ff_loc f) + l_byte_size (ff_loc f) /\
    (ac_raw a = 1 \/ ac_raw a = 2 \/ ac_raw a = 4 \/ ac_raw a = 8)%nat /\
    l_bit_size (ff_loc f) <= 8 * N.of_nat (ac_raw a) /\
    ac_bit a = (if l_bit_size (ff_loc f) mod 8 =? 0 then None
                else Some (l_bit_offset (ff_loc f), l_bit_size (ff_loc f))) /\
    ac_aligned a = (N.of_nat (ac_raw a) =? l_byte_size (ff_loc f)) /\
    ac_order a = order_of (ff_endianness f).
Proof.
  intros E f H. unfold gen_fixed, get_unsigned_integer_type, fixed_from_model.
  set (n := l_bit_size (ff_loc f)) in *. cbn [get_bit_size get_simple_type ok_or bind simple_eqb andb map_numeric].
  destruct (N.ltb_spec 32 n), (N.leb_spec n 64), (N.ltb_spec 16 n), (N.leb_spec n 32),
    (N.ltb_spec 8 n), (N.leb_spec n 16), (N.ltb_spec 0 n), (N.leb_spec n 8); try lia;
  cbn; eexists; (split; [reflexivity|]); cbn; repeat split; auto; lia.
Qed.

Lemma gen_fixed_bad : forall {E} f, ~ (0 < l_bit_size (ff_loc f) <= 64) ->
  gen_fixed (E:=E) f = Panic.
Proof.
  intros E f H. unfold gen_fixed, get_unsigned_integer_type, fixed_from_model.
  set (n := l_bit_size (ff_loc f)) in *. cbn [get_bit_size get_simple_type ok_or bind simple_eqb andb map_numeric].
  destruct (N.ltb_spec 32 n), (N.leb_spec n 64), (N.ltb_spec 16 n), (N.leb_spec n 32),
    (N.ltb_spec 8 n), (N.leb_spec n 16), (N.ltb_spec 0 n), (N.leb_spec n 8); try lia; reflexivity.
Qed.

(** Bits a little-endian accessor really reads and writes: when the width is a
    multiple of 8 the bit offset is ignored, otherwise bits beyond the
    [byte_size] window are not seen. *)
Definition acc_start (o w : N) : N := if w mod 8 =? 0 then 8 * (o / 8) else o.
Definition acc_width (o w : N) : N :=
  if w mod 8 =? 0 then w else N.min w (8 * ceil8 w - o mod 8).

Lemma slice_window : forall {E} (b : bytes) lo hi, lo <= hi -> hi <= len b -> bytes_ok b ->
  exists w, slice (E:=E) b lo hi = Ok w /\ length w = N.to_nat (hi - lo) /\ bytes_ok w /\
    forall i, bit_at w i = (i <? 8 * (hi - lo)) && bit_at b (8 * lo + i).
Proof.
  intros E b lo hi H1 H2 Hb. eexists. split; [apply slice_ok; assumption|].
  split; [apply slice_length; assumption|]. split.
  - apply bytes_ok_firstn, bytes_ok_skipn, Hb.
  - intro i. apply bit_at_window; assumption.
Qed.

Section Get.
Context {E : Type}.

Lemma ac_get_LE : forall m f o w buf,
  ff_loc f = location_from_model w o -> ff_endianness f = Little -> 0 < w <= 64 ->
  o / 8 + ceil8 w <= len buf -> bytes_ok buf ->
  exists v, get_raw (E:=E) m f buf = Ok v /\
    forall j, N.testbit v j = (j <? acc_width o w) && bit_at buf (acc_start o w + j).
Proof.
  intros m f o w buf Hloc Hend Hw Hlen Hbuf. unfold get_raw.
  destruct (gen_fixed_ok (E:=E) f) as (a & Ha & Hs & He & Hr & Hrb & Hbit & Hal & Hord);
    [rewrite Hloc; exact Hw|].
  rewrite Ha. cbn [bind]. unfold ac_get. rewrite Hs, He, Hord, Hend, Hbit.
  rewrite Hloc in *. rewrite loc_byte_size, loc_byte_offset, loc_bit_offset in *.
  cbn [l_bit_size location_from_model order_of] in *.
  assert (Hc : ceil8 w <= N.of_nat (ac_raw a)) by (unfold ceil8; lia).
  destruct (slice_window (E:=E) buf (o / 8) (o / 8 + ceil8 w)) as (win & Hsl & Hwl & Hwok & Hwb);
    [lia|assumption|assumption|].
  rewrite Hsl. cbn [bind]. replace (o / 8 + ceil8 w - o / 8) with (ceil8 w) in * by lia.
  assert (Hall : ac_aligned a = true -> length win = ac_raw a).
  { rewrite Hal. intro Heq. apply N.eqb_eq in Heq. lia. }
  unfold acc_start, acc_width. destruct (N.eqb_spec (w mod 8) 0).
  - destruct (byte_read_LE (E:=E) (ac_aligned a) (ac_raw a) win) as (v & Hv & Hvb);
      [assumption|lia|assumption|].
    unfold byte_read_sel in Hv. exists v. split; [exact Hv|]. intro j. rewrite Hvb, Hwb.
    f_equal. unfold ceil8. lia.
  - destruct (bit_read_LE (E:=E) (ac_aligned a) m (ac_raw a) (o mod 8) w win) as (v & Hv & Hvb);
      [assumption|lia|lia|assumption|lia|lia|lia|].
    unfold bit_read_sel in Hv. exists v. split; [exact Hv|]. intro j. rewrite Hvb, Hwb.
    rewrite andb_assoc.
    replace (8 * (o / 8) + (o mod 8 + j)) with (o + j) by lia. f_equal. lia.
Qed.

Lemma ac_set_LE : forall m f o w buf v,
  ff_loc f = location_from_model w o -> ff_endianness f = Little -> 0 < w <= 64 ->
  o / 8 + ceil8 w <= len buf -> bytes_ok buf ->
  exists b', set_raw (E:=E) m f buf v = Ok b' /\
    is_field_update buf (acc_start o w) (acc_width o w) v b'.
Proof.
  intros m f o w buf v Hloc Hend Hw Hlen Hbuf. unfold set_raw.
  destruct (gen_fixed_ok (E:=E) f) as (a & Ha & Hs & He & Hr & Hrb & Hbit & Hal & Hord);
    [rewrite Hloc; exact Hw|].
  rewrite Ha. cbn [bind]. unfold ac_set, update_slice. rewrite Hs, He, Hord, Hend, Hbit.
  rewrite Hloc in *. rewrite loc_byte_size, loc_byte_offset, loc_bit_offset in *.
  cbn [l_bit_size location_from_model order_of] in *.
  assert (Hc : ceil8 w <= N.of_nat (ac_raw a)) by (unfold ceil8; lia).
  destruct (slice_window (E:=E) buf (o / 8) (o / 8 + ceil8 w)) as (win & Hsl & Hwl & Hwok & Hwb);
    [lia|assumption|assumption|].
  rewrite Hsl. cbn [bind]. replace (o / 8 + ceil8 w - o / 8) with (ceil8 w) in * by lia.
  assert (Hall : ac_aligned a = true -> length win = ac_raw a).
  { rewrite Hal. intro Heq. apply N.eqb_eq in Heq. lia. }
  assert (Hlw : len win = ceil8 w) by (unfold len; lia).
  unfold acc_start, acc_width. destruct (N.eqb_spec (w mod 8) 0).
  - destruct (byte_write_LE (E:=E) (ac_aligned a) (ac_raw a) win v) as (w' & Hv & Hl & Hok & Hvb);
      [assumption|lia|assumption|].
    unfold byte_write_sel in Hv. rewrite Hv. cbn [bind]. eexists. split; [reflexivity|].
    assert (Hlw' : len w' = ceil8 w) by (unfold len in *; lia).
    split; [apply splice_length; lia|]. split; [apply bytes_ok_splice; assumption|].
    intro i. rewrite bit_at_splice by lia. rewrite Hlw', Hvb, Hlw.
    assert (Hcw : 8 * ceil8 w = w) by (unfold ceil8; lia).
    replace (8 * (o / 8 + ceil8 w)) with (8 * (o / 8) + w) by lia. rewrite Hcw.
    destruct (N.leb_spec (8 * (o / 8)) i), (N.ltb_spec i (8 * (o / 8) + w)); cbn [andb]; try reflexivity.
    destruct (N.ltb_spec (i - 8 * (o / 8)) w); [reflexivity|lia].
  - destruct (bit_write_LE (E:=E) (ac_aligned a) m (ac_raw a) (o mod 8) w win v) as (w' & Hv & Hl & Hok & Hvb);
      [assumption|lia|lia|assumption|lia|lia|lia|].
    unfold bit_write_sel in Hv. rewrite Hv. cbn [bind]. eexists. split; [reflexivity|].
    assert (Hlw' : len w' = ceil8 w) by (unfold len in *; lia).
    split; [apply splice_length; lia|]. split; [apply bytes_ok_splice; assumption|].
    intro i. rewrite bit_at_splice by lia. rewrite Hlw'.
    destruct (N.leb_spec (8 * (o / 8)) i), (N.ltb_spec i (8 * (o / 8 + ceil8 w))); cbn [andb].
    + rewrite Hvb by lia. rewrite Hwb.
      destruct (N.leb_spec (o mod 8) (i - 8 * (o / 8))), (N.ltb_spec (i - 8 * (o / 8)) (o mod 8 + w)),
        (N.leb_spec o i), (N.ltb_spec i (o + N.min w (8 * ceil8 w - o mod 8))); try lia; cbn [andb].
      * f_equal. lia.
      * destruct (N.ltb_spec (i - 8 * (o / 8)) (8 * ceil8 w)); [|lia]. cbn [andb]. f_equal. lia.
      * destruct (N.ltb_spec (i - 8 * (o / 8)) (8 * ceil8 w)); [|lia]. cbn [andb]. f_equal. lia.
    + destruct (N.leb_spec o i), (N.ltb_spec i (o + N.min w (8 * ceil8 w - o mod 8))); try lia; reflexivity.
    + destruct (N.leb_spec o i), (N.ltb_spec i (o + N.min w (8 * ceil8 w - o mod 8))); try lia; reflexivity.
    + destruct (N.leb_spec o i), (N.ltb_spec i (o + N.min w (8 * ceil8 w - o mod 8))); try lia; reflexivity.
Qed.

End Get.

Lemma addressable_acc : forall o w, addressable o w -> acc_start o w = o /\ acc_width o w = w.
Proof.
  intros o w H. unfold addressable, acc_start, acc_width in *.
  destruct (N.eqb_spec (w mod 8) 0); lia.
Qed.
