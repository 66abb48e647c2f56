(** Chains of structure fields in the Swift code, for C101. *)

From Coq Require Import Arith NArith ZArith Ascii String List Bool Lia ZifyBool ZifyN ZifyNat.
From Verif Require Import Base Schema Codec CodecFacts BEThms BitsFacts Compiler Access SpecStruct StructFacts StructThms NestedThms Runtime GenText SpecGen GenAllThms
  Swift SpecSwift SwiftFacts SwiftThms SwiftMore SwiftCodec SpecSwiftGen SwiftGenThms SwiftGetThms SwiftView SpecSwiftView.
Import ListNotations.
Local Open Scope N_scope.
Ltac Zify.zify_post_hook ::= idtac.

Lemma placed_at : forall E f o w, ff_loc f = location_from_model w o -> ff_endianness f = Little -> 0 < w <= 64 ->
  gen_fixed (E:=E) f = Ok (placed o w).
Proof.
  intros E f o w Hloc He Hw.
  destruct (gen_fixed_ok (E := E) f) as (b & Hb & Hs & Hen & Hr & Hrb & Hbit & Hal & Hord);
    [rewrite Hloc; exact Hw|].
  rewrite Hb. f_equal.
  assert (Hraw : ac_raw b = storage_bytes w).
  { unfold gen_fixed in Hb. rewrite Hloc in Hb.
    unfold get_unsigned_integer_type, fixed_from_model in Hb.
    change (l_bit_size (location_from_model w o)) with w in Hb.
    cbn [get_bit_size get_simple_type ok_or bind simple_eqb andb map_numeric] in Hb. unfold storage_bytes.
    destruct (N.ltb_spec 32 w), (N.leb_spec w 64), (N.ltb_spec 16 w), (N.leb_spec w 32),
      (N.ltb_spec 8 w), (N.leb_spec w 16), (N.ltb_spec 0 w), (N.leb_spec w 8); try lia;
      cbn [bind get_byte_size] in Hb; injection Hb as <-; reflexivity. }
  destruct b as [st en raw bit al ord]. cbn [ac_start ac_end ac_raw ac_bit ac_aligned ac_order] in *.
  rewrite Hloc in *. rewrite loc_byte_size, loc_byte_offset, loc_bit_offset in *.
  change (l_bit_size (location_from_model w o)) with w in *.
  unfold placed. subst. rewrite He. reflexivity.
Qed.

Lemma raw_same : forall mr mg f o w b data, ff_loc f = location_from_model w o -> ff_endianness f = Little -> 0 < w <= 64 ->
  N.of_nat (storage_bytes w) = ceil8 w -> holds b data -> o / 8 + ceil8 w <= len data -> bytes_ok data ->
  same_read (a <- gen_fixed f ;; swift_get mr a b) (get_raw mg f data).
Proof.
  intros mr mg f o w b data Hloc He Hw Ha Hh Hl Hb. unfold get_raw.
  rewrite !(placed_at _ f o w Hloc He Hw). cbn [bind].
  destruct (part_window mr (ff_loc f) b data Hh) as (w' & E & Hwin); [rewrite Hloc, loc_byte_size, loc_byte_offset; exact Hl|].
  unfold swift_part in E. rewrite Hloc, loc_byte_size, loc_byte_offset in E, Hwin.
  set (x := firstn (N.to_nat (ceil8 w)) (skipn (N.to_nat (o / 8)) data)) in *.
  assert (Lx : len x = ceil8 w) by (unfold x, len in *; rewrite firstn_length, skipn_length; lia).
  assert (Hbx : bytes_ok x) by (apply bytes_ok_firstn, bytes_ok_skipn, Hb).
  destruct (holds_win _ _ Hwin) as (pre & post & W).
  unfold swift_get, ac_get, placed. cbn [ac_start ac_end ac_bit ac_aligned ac_order ac_raw].
  rewrite E. rewrite slice_ok by lia. cbn [bind].
  replace (N.to_nat (o / 8 + ceil8 w - o / 8)) with (N.to_nat (ceil8 w)) by lia. fold x.
  replace (N.of_nat (storage_bytes w) =? ceil8 w) with true by lia.
  assert (Lsz : length x = storage_bytes w) by (unfold len in Lx; lia). pose proof (storage_width w) as Hsw.
  destruct (N.eqb_spec (w mod 8) 0) as [Hm|Hm].
  - unfold s_byte_read_aligned, byte_read_aligned. exists (val LE (firstn (storage_bytes w) x)).
    split; [apply (win_scalar' mr LE (storage_bytes w) w' pre x post W (storage_uint w) ltac:(lia) Hbx)|apply read_bytes_val; lia].
  - destruct (bit_read_aligned_same mr LE (storage_bytes w) (o mod 8) w w' x pre post (storage_uint w) W Hbx ltac:(lia)) as (n & E1 & E2).
    { assert (o mod 8 < 8) by (apply N.mod_lt; discriminate).
      unfold bits_fit. assert (w <> 64) by (intro; subst w; apply Hm; reflexivity). repeat split; lia. }
    exists n. split; [exact E1|apply E2].
Qed.

Lemma chain_ok : forall mr mg path s o w b data, struct_ok s -> path_at s path o w -> 0 < w <= 64 ->
  N.of_nat (storage_bytes w) = ceil8 w -> holds b data -> s_byte_size s <= len data -> bytes_ok data ->
  same_read (swift_path_get mr s path b) (path_get mg s path data).
Proof.
  intros mr mg. induction path as [|i path IH]; intros s o w b data Hok Hp Hw Ha Hh Hlen Hb; [inversion Hp|].
  inversion Hp as [s0 i0 f Hf|s0 i0 n r loc rest o' w' Hf Hr]; subst; cbn [swift_path_get path_get]; rewrite Hf;
    destruct (struct_nth s Hok i _ Hf) as (Hloc & Hle & Hx); cbn [field_bits field_loc] in *;
    rewrite (struct_bytes _ Hok) in Hlen; pose proof (window_fits _ _ _ Hle) as Hfit.
  - apply (raw_same mr mg f _ _ b data Hloc Hx Hw Ha Hh); [lia|exact Hb].
  - set (o0 := total_bits (firstn i (s_fields s))) in *.
    assert (E1 : l_byte_offset loc = o0 / 8) by (rewrite Hloc; apply loc_byte_offset).
    assert (E2 : l_byte_size loc = ceil8 (s_bit_size r)) by (rewrite Hloc; apply loc_byte_size).
    destruct (part_window mr loc b data Hh) as (bw & E & Hwin); [rewrite E1, E2; lia|].
    rewrite E. rewrite slice_ok by (rewrite ?E1, ?E2; lia). cbn [bind].
    replace (N.to_nat (l_byte_offset loc + l_byte_size loc - l_byte_offset loc)) with (N.to_nat (l_byte_size loc)) by lia.
    apply (IH r o' w); try assumption.
    + rewrite (struct_bytes _ Hx). unfold len in *. rewrite firstn_length, skipn_length, E1, E2. lia.
    + apply bytes_ok_firstn, bytes_ok_skipn, Hb.
Qed.

Theorem chain_same : forall m mr mg structs name s path o w b data,
  built m structs -> sget name structs = Some s -> path_at s path o w -> 0 < w <= 64 ->
  N.of_nat (storage_bytes w) = ceil8 w -> holds b data -> s_byte_size s <= len data -> bytes_ok data ->
  same_read (swift_path_get mr s path b) (path_get mg s path data).
Proof.
  intros m mr mg structs name s path o w b data Hb Hs. intros. eapply chain_ok; try eassumption. exact (built_ok _ _ Hb _ _ Hs).
Qed.

Lemma part_ok : forall mr path s r b data, struct_ok s -> leads_to s path r ->
  holds b data -> s_byte_size s <= len data -> bytes_ok data ->
  exists w x, swift_path_part mr s path b = Ok (r, w) /\ rust_path_part (E:=rerror) s path data = Ok (r, x) /\
    holds w x /\ s_byte_size r <= len x /\ bytes_ok x.
Proof.
  intros mr. induction path as [|i path IH]; intros s r b data Hok Hl Hh Hlen Hb; inversion Hl; subst.
  - exists b, data. cbn. auto.
  - match goal with Hf : nth_error _ _ = Some _ |- _ => rename Hf into Hf0; cbn [swift_path_part rust_path_part]; rewrite Hf0;
      destruct (struct_nth s Hok i _ Hf0) as (Hloc & Hle & Hx) end.
    cbn [field_bits field_loc] in *. rewrite (struct_bytes _ Hok) in Hlen. pose proof (window_fits _ _ _ Hle) as Hfit.
    set (o0 := total_bits (firstn i (s_fields s))) in *.
    assert (E1 : l_byte_offset loc = o0 / 8) by (rewrite Hloc; apply loc_byte_offset).
    assert (E2 : l_byte_size loc = ceil8 (s_bit_size x)) by (rewrite Hloc; apply loc_byte_size).
    destruct (part_window mr loc b data Hh) as (bw & E & Hwin); [rewrite E1, E2; lia|].
    rewrite E. rewrite slice_ok by (rewrite ?E1, ?E2; lia). cbn [bind].
    replace (N.to_nat (l_byte_offset loc + l_byte_size loc - l_byte_offset loc)) with (N.to_nat (l_byte_size loc)) by lia.
    apply (IH x r); try assumption.
    + rewrite (struct_bytes _ Hx). unfold len in *. rewrite firstn_length, skipn_length, E1, E2. lia.
    + apply bytes_ok_firstn, bytes_ok_skipn, Hb.
Qed.

Theorem chain_part : forall m mr structs name s path r b data,
  built m structs -> sget name structs = Some s -> leads_to s path r ->
  holds b data -> s_byte_size s <= len data -> bytes_ok data ->
  exists w x, swift_path_part mr s path b = Ok (r, w) /\ rust_path_part (E:=rerror) s path data = Ok (r, x) /\
    holds w x /\ s_byte_size r <= len x /\ bytes_ok x.
Proof.
  intros m mr structs name s path r b data Hb Hs. intros. eapply part_ok; try eassumption. exact (built_ok _ _ Hb _ _ Hs).
Qed.
