(** Proofs for C101. *)

From Coq Require Import Arith NArith ZArith Ascii String List Bool Lia ZifyBool ZifyN ZifyNat.
From Coq Require Import Permutation.
From Verif Require Import Base Schema Codec CodecFacts BitsFacts Compiler Access SpecStruct StructFacts StructThms ViewThms EnumThms Runtime GenText SpecGen GenAllThms
  Swift SpecSwift SpecSwiftGen SwiftGenThms SwiftGetThms SwiftView SpecSwiftView.
Import ListNotations.
Local Open Scope N_scope.
Ltac Zify.zify_post_hook ::= idtac.

Lemma swift_signed_ok : forall sz x, (- Z.of_N (tmod sz / 2) <= x < Z.of_N (tmod sz / 2))%Z -> swift_signed sz x = Ok x.
Proof.
  intros sz x Hx. unfold swift_signed. replace (_ && _) with true; [reflexivity|]. symmetry. apply andb_true_iff. lia.
Qed.

(** The signed view of any raw value: the bits above the sign are ignored. *)
Lemma swift_signed_value : forall sz n raw, 0 < n -> n < 8 * N.of_nat sz -> raw < tmod sz ->
  swift_signed_view sz (2 ^ (n - 1) - 1) raw =
  Ok (if raw <? 2 ^ (n - 1) then Z.of_N raw else (Z.of_N (raw mod 2 ^ (n - 1)) - Z.of_N (2 ^ (n - 1)))%Z).
Proof.
  intros sz n raw Hn Hsz Hraw. unfold swift_signed_view.
  pose proof (pow2_pos (n - 1)) as Hp. pose proof (pow2_half n Hn) as H2.
  assert (Hle : 2 ^ n <= tmod sz / 2) by (rewrite tmod_half by lia; apply pow2_small; lia).
  assert (Ht : tmod sz = 2 * (tmod sz / 2)) by (rewrite tmod_half by lia; unfold tmod; apply pow2_half; lia).
  rewrite !land_mask.
  destruct (N.ltb_spec (2 ^ (n - 1) - 1) raw) as [Hhi|Hlo]; destruct (N.ltb_spec raw (2 ^ (n - 1))); try lia.
  - assert (Hx : (tmod sz - 1 - raw) mod 2 ^ (n - 1) = 2 ^ (n - 1) - 1 - raw mod 2 ^ (n - 1)).
    { assert (Hk : tmod sz = 2 ^ (8 * N.of_nat sz - (n - 1)) * 2 ^ (n - 1))
        by (rewrite <- N.pow_add_r; unfold tmod; f_equal; lia).
      set (q := 2 ^ (8 * N.of_nat sz - (n - 1))) in *.
      pose proof (N.div_mod raw (2 ^ (n - 1)) ltac:(lia)) as Hdm.
      pose proof (N.mod_lt raw (2 ^ (n - 1)) ltac:(lia)) as Hm.
      set (r := raw mod 2 ^ (n - 1)) in *. set (k := raw / 2 ^ (n - 1)) in *.
      assert (Hkq : k < q).
      { apply N.div_lt_upper_bound; [lia|]. rewrite Hk in Hraw. lia. }
      symmetry. apply N.mod_unique with (q - 1 - k); [lia|]. rewrite Hk.
      assert (2 ^ (n - 1) * (q - 1 - k) + 2 ^ (n - 1) * k + 2 ^ (n - 1) = q * 2 ^ (n - 1)) by nia.
      lia. }
    pose proof (N.mod_lt raw (2 ^ (n - 1)) ltac:(lia)) as Hm.
    rewrite Hx. cbn zeta.
    destruct (N.ltb_spec (2 ^ (n - 1) - 1 - raw mod 2 ^ (n - 1) + 1) (tmod sz)); [|lia]. cbn [bind].
    rewrite swift_signed_ok by lia. cbn [bind]. rewrite swift_signed_ok by lia. f_equal. lia.
  - rewrite N.mod_small by assumption. rewrite swift_signed_ok by lia. reflexivity.
Qed.

Lemma swift_signed_correct : forall sz n raw, 0 < n -> n < 8 * N.of_nat sz -> raw < 2 ^ n ->
  swift_signed_view sz (2 ^ (n - 1) - 1) raw = Ok (twos_complement n raw).
Proof.
  intros sz n raw Hn Hsz Hraw. pose proof (pow2_half n Hn) as H2.
  assert (raw < tmod sz).
  { apply N.lt_le_trans with (2 ^ n); [assumption|]. unfold tmod. apply pow2_small. lia. }
  rewrite swift_signed_value by assumption. unfold twos_complement.
  destruct (N.ltb_spec raw (2 ^ (n - 1))); [reflexivity|]. f_equal.
  assert (Hz : (2 ^ Z.of_N n)%Z = Z.of_N (2 ^ n)) by (rewrite N2Z.inj_pow; reflexivity).
  assert (Hm : raw mod 2 ^ (n - 1) = raw - 2 ^ (n - 1)).
  { symmetry. apply N.mod_unique with 1; lia. }
  rewrite Hz, Hm. lia.
Qed.

Lemma swift_enum_declared : forall e n, In n (map snd (e_variants e)) -> swift_enum e n = Some n.
Proof.
  intros e n H. unfold swift_enum. replace (existsb _ _) with true; [reflexivity|].
  symmetry. apply existsb_exists. exists n. split; [exact H|apply N.eqb_refl].
Qed.
Lemma swift_enum_other : forall e n, ~ In n (map snd (e_variants e)) -> swift_enum e n = None.
Proof.
  intros e n H. unfold swift_enum. destruct (existsb _ _) eqn:X; [|reflexivity].
  apply existsb_exists in X. destruct X as (k & Hk & He). apply N.eqb_eq in He. subst k. contradiction.
Qed.

Section Structure.
Variables (m mr mg : mode) (enums : smap enum_) (structs : smap structure) (id : N) (d : sstruct) (s : structure)
  (i : nat) (f : fixed_field) (o w : N).
Hypotheses (H : structure_from_model m Little enums structs id d = Ok s) (Hno : no_overflow m structs d)
  (Hf : nth_error (s_fields s) i = Some (FFixed f)) (Hd : declared_at structs d i o w) (Hw : 0 < w <= 64).

(** The parameter of a signed view. *)
Lemma signed_parameter : forall mp, ff_view f = VSignedCast mp -> mp = 2 ^ (w - 1) - 1 /\ w < 8 * N.of_nat (storage_bytes w).
Proof.
  intros mp Hv.
  destruct (structure_nth _ _ _ _ _ _ _ _ _ H Hf) as (df & o1 & o2 & Hdf & Hfm).
  apply scalar_shape in Hfm. destruct Hfm as (b & Hb & Hty & Hview & Hal).
  assert (Hwb : w = b).
  { destruct Hd as (_ & df' & Hd' & Hw'). assert (df' = df) by congruence. subst df'.
    assert (Hk : declared_bits structs df = Some (b * match sf_array_len df with Some n => n | None => 1 end)).
    { unfold declared_bits. destruct (sf_info df); cbn in Hb; inversion Hb; reflexivity. }
    rewrite Hk in Hw'. inversion Hw' as [Hwk]. clear - Hal Hwk Hw.
    destruct (sf_array_len df) as [k|]; [|lia].
    assert (Hk01 : k = 0 \/ k = 1) by lia. destruct Hk01; subst k; lia. }
  subst b. rewrite Hv in Hview. unfold view_from_model in Hview.
  destruct (sf_view df) as [[nm|mn mx|ml]|].
  { destruct (negb _); [discriminate|]. inv_bind Hview. discriminate. }
  { destruct (negb _); [discriminate|]. inv_bind Hview. inv_bind Hview. discriminate. }
  { destruct (negb _); [discriminate|]. discriminate. }
  destruct (_ && negb (w =? 32) && negb (w =? 64)); [discriminate|].
  destruct (simple_eqb (get_simple_type (sf_info df)) Signed && negb (w =? 8) && negb (w =? 16)
              && negb (w =? 32) && negb (w =? 64)) eqn:Hc;
    [|destruct (simple_eqb _ Unsigned); discriminate].
  unfold usub at 1 in Hview. destruct (N.leb_spec 1 w); [|lia]. cbn [bind] in Hview.
  unfold ushl1 in Hview. destruct (N.ltb_spec (w - 1) 64); [|lia]. cbn [bind] in Hview.
  unfold usub in Hview. pose proof (pow2_pos (w - 1)).
  destruct (N.leb_spec 1 (2 ^ (w - 1))); [|lia]. cbn [bind] in Hview. inversion Hview; subst mp.
  split; [reflexivity|].
  apply andb_true_iff in Hc. destruct Hc as (Hc & H64). apply andb_true_iff in Hc. destruct Hc as (Hc & H32).
  apply andb_true_iff in Hc. destruct Hc as (Hc & H16). apply andb_true_iff in Hc. destruct Hc as (_ & H8).
  unfold storage_bytes. destruct (N.leb_spec w 8), (N.leb_spec w 16), (N.leb_spec w 32); lia.
Qed.

Lemma rust_view : forall data n, get_raw (E:=rerror) mg f data = Ok n ->
  get_view (E:=rerror) mg f data = view_get mg f (storage_bytes w) n.
Proof.
  intros data n Hr. unfold get_raw in Hr. unfold get_view.
  rewrite (gen_fixed_placed rerror _ _ _ _ _ _ _ _ _ _ H Hno Hf Hd Hw) in *. cbn [bind] in *.
  rewrite Hr. reflexivity.
Qed.

Lemma raw_below : forall data n, s_byte_size s <= len data -> bytes_ok data ->
  get_raw (E:=rerror) mg f data = Ok n -> n < 2 ^ w.
Proof.
  intros data n Hs Hb Hr.
  destruct (raw_accessors_total (E:=rerror) m mg _ _ _ _ _ _ _ _ _ data 0 H Hno Hf Hd Hw Hs Hb) as ((raw & Hr' & Hraw) & _).
  rewrite Hr' in Hr. injection Hr as <-. exact Hraw.
Qed.

(** Views of the same number. *)
Lemma views_agree : forall n, from_description f -> n < 2 ^ w ->
  (same_view (swift_view f (storage_bytes w) n) (view_get mg f (storage_bytes w) n) <-> without_gap f n).
Proof.
  intros n He Hn. unfold same_view, swift_view, view_get, without_gap.
  destruct (ff_view f) as [a0 b0 c0 d0|e| |mp|] eqn:Hv.
  - split; [trivial|]. intros _. eexists. split; reflexivity.
  - split.
    + intros (x & E1 & E2). injection E1 as <-. injection E2 as E2.
      destruct (in_dec N.eq_dec n (map snd (e_variants e))) as [Hin|Hin]; [left; exact Hin|].
      rewrite (swift_enum_other e n Hin) in E2. destruct (N.ltb_spec (e_largest e) n); [right; assumption|discriminate].
    + destruct (He e Hv) as (de & Hde). destruct (enum_sorted de e Hde) as (_ & Hp & _ & _ & Hmax).
      assert (Hle : forall k, In k (map snd (e_variants e)) -> k <= e_largest e).
      { intros k Hk. apply Hmax. apply (Permutation_in _ (Permutation_map snd Hp)), Hk. }
      intros [Hin|Hl]; eexists; (split; [reflexivity|]); f_equal; f_equal.
      * rewrite (swift_enum_declared e n Hin). apply Hle in Hin. destruct (N.ltb_spec (e_largest e) n); [lia|reflexivity].
      * rewrite swift_enum_other by (intro Hin; apply Hle in Hin; lia).
        destruct (N.ltb_spec (e_largest e) n); [reflexivity|lia].
  - split; [trivial|]. intros _. eexists. split; reflexivity.
  - split; [trivial|]. intros _. destruct (signed_parameter mp Hv) as (-> & Hlt).
    rewrite swift_signed_correct, signed_get_correct by (try assumption; lia). eexists. split; reflexivity.
  - split; [trivial|]. intros _. eexists. split; reflexivity.
Qed.

(** Fields whose window has the size of an integer. *)
Theorem view_exact : forall b data n, from_description f ->
  holds b data -> s_byte_size s <= len data -> bytes_ok data -> N.of_nat (storage_bytes w) = ceil8 w ->
  get_raw (E:=rerror) mg f data = Ok n ->
  (same_view (swift_get_view mr f (placed o w) b) (get_view mg f data) <-> without_gap f n).
Proof.
  intros b data n He Hh Hs Hb Ha Hr.
  destruct (swift_get_aligned m mr _ _ _ _ _ _ _ _ _ H Hno Hf Hd Hw mg b data Hh Hs Hb Ha) as (k & E1 & E2).
  rewrite Hr in E2. injection E2 as <-. unfold swift_get_view. rewrite E1. cbn [bind].
  rewrite (rust_view data n Hr). apply views_agree; [exact He|]. apply (raw_below data n Hs Hb Hr).
Qed.

(** Bits in 3, 5, 6 or 7 bytes. *)
Theorem view_bits : forall b data after n, from_description f ->
  holds_before b data after -> s_byte_size s <= len data -> bytes_ok (data ++ after) ->
  w mod 8 <> 0 -> N.of_nat (storage_bytes w) <> ceil8 w ->
  o mod 8 + w <= 8 * ceil8 w -> o / 8 + ceil8 w < len (data ++ after) ->
  get_raw (E:=rerror) mg f data = Ok n ->
  (same_view (swift_get_view mr f (placed o w) b) (get_view mg f data) <-> without_gap f n).
Proof.
  intros b data after n He Hh Hs Hb Hm Ha Ho Hl Hr.
  destruct (swift_get_bits m mr _ _ _ _ _ _ _ _ _ H Hno Hf Hd Hw mg b data after Hh Hs Hb Hm Ha Ho Hl) as (k & E1 & E2).
  rewrite Hr in E2. injection E2 as <-. unfold swift_get_view. rewrite E1. cbn [bind].
  apply bytes_ok_app in Hb. destruct Hb as (Hbd & _).
  rewrite (rust_view data n Hr). apply views_agree; [exact He|]. apply (raw_below data n Hs Hbd Hr).
Qed.

(** Numbers of 3, 5, 6 or 7 bytes with a byte behind them that is not zero. *)
Theorem view_behind : forall b data after,
  holds_before b data after -> s_byte_size s <= len data -> bytes_ok (data ++ after) ->
  w mod 8 = 0 -> N.of_nat (storage_bytes w) <> ceil8 w -> o / 8 + ceil8 w < len (data ++ after) ->
  nth (N.to_nat (o / 8 + ceil8 w)) (data ++ after) 0 <> 0 ->
  (ff_view f = VNone -> exists n k, n < 2 ^ w /\ k <> 0 /\
     get_view (E:=rerror) mg f data = Ok (XInt (Z.of_N n)) /\
     swift_get_view mr f (placed o w) b = Ok (XInt (Z.of_N (n + 2 ^ w * k)))) /\
  (forall mp, ff_view f = VSignedCast mp -> exists z, (- 2 ^ (Z.of_N w - 1) <= z < 2 ^ (Z.of_N w - 1))%Z /\
     get_view (E:=rerror) mg f data = Ok (XInt z) /\
     swift_get_view mr f (placed o w) b = Ok (XInt (if (z <? 0)%Z then z else (z - 2 ^ (Z.of_N w - 1))%Z))).
Proof.
  intros b data after Hh Hs Hb Hm Ha Hl Hy.
  destruct (swift_get_behind m mr _ _ _ _ _ _ _ _ _ H Hno Hf Hd Hw mg b data after Hh Hs Hb Hm Ha Hl) as (n & E1 & E2).
  assert (Hy256 : nth (N.to_nat (o / 8 + ceil8 w)) (data ++ after) 0 < 256).
  { apply (proj1 (Forall_forall _ _) Hb), nth_In. unfold len in Hl. lia. }
  set (y := nth (N.to_nat (o / 8 + ceil8 w)) (data ++ after) 0) in *.
  apply bytes_ok_app in Hb. destruct Hb as (Hbd & _).
  pose proof (raw_below data n Hs Hbd E1) as Hn. rewrite (rust_view data n E1).
  unfold swift_get_view. rewrite E2. cbn [bind]. unfold swift_view, view_get. split.
  - intros ->. exists n, y. auto.
  - intros mp Hv. rewrite Hv. destruct (signed_parameter mp Hv) as (-> & Hlt).
    rewrite signed_get_correct by (try assumption; lia). cbn [bind].
    pose proof (pow2_half w ltac:(lia)) as H2. pose proof (pow2_pos (w - 1)) as Hp.
    assert (Hbig : n + 2 ^ w * y < tmod (storage_bytes w)).
    { apply N.lt_le_trans with (2 ^ (w + 8)).
      - rewrite N.pow_add_r. change (2 ^ 8) with 256. nia.
      - unfold tmod. apply pow2_small. clear - Hm Ha Hlt Hw.
        assert (Hc : ceil8 w = w / 8).
        { unfold ceil8. pose proof (N.div_mod w 8 ltac:(lia)). symmetry. apply N.div_unique with 7; lia. }
        rewrite Hc in Ha. clear Hc. unfold storage_bytes in *. destruct (N.leb_spec w 8), (N.leb_spec w 16), (N.leb_spec w 32);
          pose proof (N.div_mod w 8 ltac:(lia)); rewrite Hm in *; try lia. }
    rewrite swift_signed_value by (try assumption; lia). cbn [bind].
    exists (twos_complement w n).
    assert (Hz : (2 ^ (Z.of_N w - 1))%Z = Z.of_N (2 ^ (w - 1))).
    { rewrite N2Z.inj_pow, N2Z.inj_sub by lia. reflexivity. }
    assert (Hz' : (2 ^ Z.of_N w)%Z = Z.of_N (2 ^ w)) by (rewrite N2Z.inj_pow; reflexivity).
    rewrite Hz. unfold twos_complement. rewrite Hz'.
    replace (n + 2 ^ w * y <? 2 ^ (w - 1)) with false by (symmetry; apply N.ltb_ge; nia).
    replace ((n + 2 ^ w * y) mod 2 ^ (w - 1)) with (n mod 2 ^ (w - 1)).
    2: { rewrite H2. replace (n + 2 * 2 ^ (w - 1) * y) with (n + (2 * y) * 2 ^ (w - 1)) by lia. symmetry. apply N.mod_add. lia. }
    destruct (N.ltb_spec n (2 ^ (w - 1))) as [Hlo|Hhi].
    + rewrite N.mod_small by assumption. split; [lia|]. split; [reflexivity|]. f_equal. f_equal.
      destruct (Z.ltb_spec (Z.of_N n) 0); lia.
    + replace (n mod 2 ^ (w - 1)) with (n - 2 ^ (w - 1)) by (apply N.mod_unique with 1; lia).
      split; [lia|]. split; [reflexivity|]. f_equal. f_equal.
      destruct (Z.ltb_spec (Z.of_N n - Z.of_N (2 ^ w)) 0); lia.
Qed.

(** At the end of the storage the view traps, as the getter does. *)
Theorem view_traps : forall b data, holds_before b data [] -> len data = s_byte_size s ->
  N.of_nat (storage_bytes w) <> ceil8 w -> o / 8 + ceil8 w = s_byte_size s ->
  bytes_ok data -> swift_get_view mr f (placed o w) b = Panic /\ exists x, get_view (E:=rerror) mg f data = Ok x.
Proof.
  intros b data Hh Hs Ha Ho Hb. split.
  - unfold swift_get_view. rewrite (swift_get_traps m mr _ _ _ _ _ _ _ _ _ H Hno Hf Hd Hw b data Hh Hs Ha Ho). reflexivity.
  - apply (get_view_total m mg enums structs id d s i f o w data H Hno Hf Hd Hw); [lia|exact Hb].
Qed.
End Structure.
