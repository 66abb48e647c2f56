(** The view accessors of fields that are not addressable, for C06, C07 and C08. *)

From Coq Require Import Arith NArith ZArith String List Bool Lia ZifyBool ZifyN ZifyNat.
From Verif Require Import Base Schema Bits BitsFacts Codec CodecFacts Compiler Access SpecStruct
  StructFacts StructThms ViewThms EnumThms NestedThms NestedExact.
Import ListNotations.
Local Open Scope N_scope.
Ltac Zify.zify_post_hook ::= idtac.

Section View.
Context {E : Type}.

(** The highest bit of such a field is not read ... *)
Lemma view_misread : forall m mr enums structs id d s i f o w,
  structure_from_model m Little enums structs id d = Ok s ->
  no_overflow m structs d ->
  nth_error (s_fields s) i = Some (FFixed f) -> declared_at structs d i o w ->
  0 < w <= 64 -> ~ addressable o w ->
  exists buf a, len buf = s_byte_size s /\ bytes_ok buf /\ is_field_value buf o w (2 ^ (w - 1)) /\
    gen_fixed (E:=E) f = Ok a /\ (0 < ac_raw a)%nat /\ w <= 8 * N.of_nat (ac_raw a) /\
    get_view (E:=E) mr f buf = view_get mr f (ac_raw a) 0.
Proof.
  intros m mr enums structs id d s i f o w H Hno Hf Hat Hw Ha.
  pose proof (fixed_little _ _ _ _ _ _ _ _ H Hf) as Hl.
  destruct (fixed_in_structure _ _ _ _ _ _ _ _ _ _ H Hno Hf Hat) as (Hloc & Hle & Hwin). cbn [field_loc] in Hloc.
  apply structure_layout in H. destruct H as (_ & _ & _ & Hbs & _).
  pose proof (ceil8_cover (s_bit_size s)) as Hcov.
  destruct (acc_short o w) as [Hc|Hshort]; [lia|contradiction|].
  set (buf := one_bit (N.to_nat (s_byte_size s)) (o + w - 1)).
  assert (Hlen : len buf = s_byte_size s) by (unfold buf, one_bit, len; rewrite le_enc_length; lia).
  assert (Hok : bytes_ok buf) by apply le_enc_ok.
  assert (Hk : o + w - 1 < 8 * N.of_nat (N.to_nat (s_byte_size s))) by (rewrite N2Nat.id, Hbs; lia).
  destruct (ac_get_LE (E:=E) mr f o w buf) as (v & Hv & Hb); try assumption; [lia|].
  destruct (gen_fixed_ok (E:=E) f) as (a & Hg & _ & _ & Hr & Hrb & _); [rewrite Hloc; exact Hw|].
  exists buf, a. split; [assumption|]. split; [assumption|]. split.
  { intro j. unfold buf. rewrite one_bit_spec by assumption. rewrite N.pow2_bits_eqb.
    destruct (N.eqb_spec (w - 1) j), (N.ltb_spec j w), (N.eqb_spec (o + j) (o + w - 1)); cbn [andb]; try lia; reflexivity. }
  split; [assumption|]. split; [lia|]. split; [rewrite Hloc in Hrb; exact Hrb|].
  assert (v = 0).
  { apply N.bits_inj. intro j. rewrite Hb, N.bits_0. unfold buf. rewrite one_bit_spec by assumption.
    destruct (N.ltb_spec j (acc_width o w)); [|reflexivity]. cbn [andb]. apply N.eqb_neq. lia. }
  subst v. unfold get_raw in Hv. rewrite Hg in Hv. cbn [bind] in Hv.
  unfold get_view. rewrite Hg. cbn [bind]. rewrite Hv. reflexivity.
Qed.

(** ... and not written. *)
Lemma view_kept : forall m mr enums structs id d s i f o w t v,
  structure_from_model m Little enums structs id d = Ok s ->
  no_overflow m structs d ->
  nth_error (s_fields s) i = Some (FFixed f) -> declared_at structs d i o w ->
  0 < w <= 64 -> ~ addressable o w ->
  exists buf, len buf = s_byte_size s /\ bytes_ok buf /\
    forall b', set_view (E:=E) mr f buf v = Ok b' -> bit_at b' (o + w - 1) = t.
Proof.
  intros m mr enums structs id d s i f o w t v H Hno Hf Hat Hw Ha.
  pose proof (fixed_little _ _ _ _ _ _ _ _ H Hf) as Hl.
  destruct (fixed_in_structure _ _ _ _ _ _ _ _ _ _ H Hno Hf Hat) as (Hloc & Hle & Hwin). cbn [field_loc] in Hloc.
  apply structure_layout in H. destruct H as (_ & _ & _ & Hbs & _).
  pose proof (ceil8_cover (s_bit_size s)) as Hcov.
  destruct (acc_short o w) as [Hc|Hshort]; [lia|contradiction|].
  assert (Hk : o + w - 1 < 8 * N.of_nat (N.to_nat (s_byte_size s))) by (rewrite N2Nat.id, Hbs; lia).
  assert (Hb : exists buf, len buf = s_byte_size s /\ bytes_ok buf /\ bit_at buf (o + w - 1) = t).
  { destruct t.
    - exists (one_bit (N.to_nat (s_byte_size s)) (o + w - 1)). split; [unfold one_bit, len; rewrite le_enc_length; lia|].
      split; [apply le_enc_ok|]. rewrite one_bit_spec by assumption. apply N.eqb_refl.
    - exists (repeat 0 (N.to_nat (s_byte_size s))). split; [unfold len; rewrite repeat_length; lia|].
      split; [apply bytes_ok_zeros|apply bit_at_zeros]. }
  destruct Hb as (buf & Hlen & Hok & Hbit). exists buf. split; [assumption|]. split; [assumption|].
  intros b' Hset. unfold set_view in Hset. apply bind_ok in Hset. destruct Hset as (a & Hg & Hset).
  apply bind_ok in Hset. destruct Hset as (raw & _ & Hset).
  destruct (ac_set_LE (E:=E) mr f o w buf raw) as (b'' & Hs & _ & _ & Hu); try assumption; [lia|].
  unfold set_raw in Hs. rewrite Hg in Hs. cbn [bind] in Hs. assert (b'' = b') by congruence. subst b''.
  rewrite Hu. destruct (N.leb_spec (acc_start o w) (o + w - 1)), (N.ltb_spec (o + w - 1) (acc_start o w + acc_width o w));
    cbn [andb]; try assumption; lia.
Qed.

Lemma scalar_view : forall m endi enums structs id d s i df f,
  structure_from_model m endi enums structs id d = Ok s ->
  nth_error (ss_fields d) i = Some df -> nth_error (s_fields s) i = Some (FFixed f) ->
  exists b, get_bit_size (sf_info df) = Some b /\ fixed_from_model (sf_info df) = Ok (ff_ty f) /\
    view_from_model m enums (get_simple_type (sf_info df)) b (sf_view df) = Ok (ff_view f).
Proof.
  intros m endi enums structs id d s i df f H Hd Hf.
  destruct (structure_nth _ _ _ _ _ _ _ _ _ H Hf) as (df' & o1 & o2 & Hd' & Hfm).
  assert (df' = df) by congruence. subst df'. apply scalar_shape in Hfm.
  destruct Hfm as (b & Hb & Hty & Hview & Hal). exists b. auto.
Qed.

Lemma as_signed_0 : forall sz, (0 < sz)%nat -> as_signed sz 0 = 0%Z.
Proof.
  intros sz Hs. rewrite as_signed_twos by (try assumption; unfold tmod; apply pow2_pos).
  unfold twos_complement. destruct (N.ltb_spec 0 (2 ^ (8 * N.of_nat sz - 1))) as [_|Hc]; [reflexivity|].
  pose proof (pow2_pos (8 * N.of_nat sz - 1)). lia.
Qed.

Lemma twos_top : forall n, 0 < n -> (twos_complement n (2 ^ (n - 1)) < 0)%Z.
Proof.
  intros n Hn. unfold twos_complement. destruct (N.ltb_spec (2 ^ (n - 1)) (2 ^ (n - 1))) as [Hc|_]; [lia|].
  pose proof (pow2_half n Hn). pose proof (pow2_pos (n - 1)).
  rewrite N2Z.inj_pow. change (Z.of_N 2) with 2%Z. replace (Z.of_N n) with (1 + Z.of_N (n - 1))%Z by lia.
  rewrite Z.pow_add_r by lia. assert (0 < 2 ^ Z.of_N (n - 1))%Z by (apply Z.pow_pos_nonneg; lia). lia.
Qed.

(** ** C06 *)
Theorem signed_exact : forall m mr enums structs id d s i df f n o,
  structure_from_model m Little enums structs id d = Ok s ->
  no_overflow m structs d ->
  nth_error (ss_fields d) i = Some df ->
  sf_info df = STSigned n -> sf_view df = None ->
  nth_error (s_fields s) i = Some (FFixed f) -> declared_at structs d i o n ->
  ((forall buf, s_byte_size s <= len buf -> bytes_ok buf ->
      exists raw, is_field_value buf o n raw /\
        get_view (E:=E) mr f buf = Ok (XInt (twos_complement n raw))) <-> addressable o n) /\
  ((forall buf z, s_byte_size s <= len buf -> bytes_ok buf ->
      (- 2 ^ (Z.of_N n - 1) <= z < 2 ^ (Z.of_N n - 1))%Z ->
      exists buf', set_view (E:=E) mr f buf (XInt z) = Ok buf' /\
        is_field_update buf o n (Z.to_N (z mod 2 ^ Z.of_N n)) buf') <-> addressable o n).
Proof.
  intros m mr enums structs id d s i df f n o H Hno Hd Hi Hv Hf Hat.
  destruct (scalar_view _ _ _ _ _ _ _ _ _ _ H Hd Hf) as (b & Hb & Hty & Hview).
  rewrite Hi in *. rewrite Hv in Hview. cbn in Hb. inversion Hb; subst b. clear Hb.
  assert (Hn : 0 < n <= 64) by (eapply fixed_ok_bits; [eassumption|reflexivity|discriminate]).
  split; split.
  - intro Hall. destruct (addressable_dec o n) as [Ha|Ha]; [assumption|exfalso].
    destruct (view_misread m mr _ _ _ _ _ _ _ _ _ H Hno Hf Hat Hn Ha) as (buf & a & Hl & Hok & Hval & Hg & Hsz & Hnb & Hgv).
    destruct (Hall buf) as (raw & Hraw & Hget); [lia|assumption|].
    rewrite (is_field_value_unique _ _ _ _ _ Hraw Hval), Hgv in Hget.
    assert (Hz : view_get (E:=E) mr f (ac_raw a) 0 = Ok (XInt 0)).
    { unfold view_get. cbn [view_from_model get_simple_type simple_eqb andb] in Hview.
      assert (Hv2 : ff_view f = VTransmute \/ exists k, ff_view f = VSignedCast k).
      { destruct (negb (n =? 8) && negb (n =? 16) && negb (n =? 32) && negb (n =? 64)).
        - right. inv_bind Hview. inv_bind Hview. inv_bind Hview. inversion Hview. eexists. reflexivity.
        - left. inversion Hview. reflexivity. }
      assert (Ht2 : ff_ty f = I8 \/ ff_ty f = I16 \/ ff_ty f = I32 \/ ff_ty f = I64).
      { unfold fixed_from_model in Hty. cbn [get_bit_size get_simple_type ok_or bind simple_eqb andb map_numeric] in Hty.
        destruct ((32 <? n) && (n <=? 64)), ((16 <? n) && (n <=? 32)), ((8 <? n) && (n <=? 16)),
          ((0 <? n) && (n <=? 8)); inversion Hty; auto. }
      destruct Hv2 as [-> | (k & ->)].
      - rewrite as_signed_0 by assumption. destruct Ht2 as [-> | [-> | [-> | ->]]]; reflexivity.
      - unfold signed_get. destruct (N.ltb_spec k 0); [lia|]. rewrite N.land_0_l, as_signed_0 by assumption. reflexivity. }
    rewrite Hz in Hget. pose proof (twos_top n (proj1 Hn)). injection Hget as Hget. lia.
  - intros Ha buf Hl Hb.
    destruct (signed_view (E:=E) m mr _ _ _ _ _ _ _ _ _ _ _ H Hno Hd Hi Hv Hf Hat eq_refl Ha) as (_ & Hall).
    exact (proj1 (Hall buf Hl Hb)).
  - intro Hall. destruct (addressable_dec o n) as [Ha|Ha]; [assumption|exfalso].
    destruct (view_kept m mr _ _ _ _ _ _ _ _ _ true (XInt 0) H Hno Hf Hat Hn Ha) as (buf & Hl & Hok & Hkept).
    destruct (Hall buf 0%Z) as (b' & Hs & _ & _ & Hu); [lia|assumption| |].
    { assert (0 < 2 ^ (Z.of_N n - 1))%Z by (apply Z.pow_pos_nonneg; lia). lia. }
    specialize (Hkept _ Hs). rewrite Hu, Zmod_0_l in Hkept. cbn [Z.to_N] in Hkept. rewrite N.bits_0 in Hkept.
    destruct (N.leb_spec o (o + n - 1)), (N.ltb_spec (o + n - 1) (o + n)); cbn [andb] in Hkept; try lia; discriminate.
  - intros Ha buf z Hl Hb Hz.
    destruct (signed_view (E:=E) m mr _ _ _ _ _ _ _ _ _ _ _ H Hno Hd Hi Hv Hf Hat eq_refl Ha) as (_ & Hall).
    destruct (proj2 (Hall buf Hl Hb) z Hz) as (b' & H1 & H2 & _). exists b'. auto.
Qed.

Ltac kept Hkept Hu Hs := specialize (Hkept _ Hs); rewrite Hu, N.bits_0 in Hkept;
  match type of Hkept with (if (?o <=? ?x) && (?x <? ?y) then _ else _) = _ =>
    destruct (N.leb_spec o x), (N.ltb_spec x y) end; cbn [andb] in Hkept; try lia; discriminate.

(** ** C07 *)
Theorem unsigned_exact : forall m mr enums structs id d s i df f n o,
  structure_from_model m Little enums structs id d = Ok s ->
  no_overflow m structs d ->
  nth_error (ss_fields d) i = Some df ->
  sf_info df = STUnsigned n -> sf_view df = None ->
  nth_error (s_fields s) i = Some (FFixed f) -> declared_at structs d i o n ->
  ((forall buf, s_byte_size s <= len buf -> bytes_ok buf ->
      exists raw, is_field_value buf o n raw /\ get_view (E:=E) mr f buf = Ok (XInt (Z.of_N raw))) <->
     addressable o n) /\
  ((forall buf x, s_byte_size s <= len buf -> bytes_ok buf -> x < 2 ^ n ->
      exists buf', set_view (E:=E) mr f buf (XInt (Z.of_N x)) = Ok buf' /\ is_field_update buf o n x buf') <->
     addressable o n).
Proof.
  intros m mr enums structs id d s i df f n o H Hno Hd Hi Hv Hf Hat.
  destruct (scalar_view _ _ _ _ _ _ _ _ _ _ H Hd Hf) as (b & Hb & Hty & Hview).
  rewrite Hi in *. rewrite Hv in Hview. cbn in Hb. inversion Hb; subst b. clear Hb.
  assert (Hn : 0 < n <= 64) by (eapply fixed_ok_bits; [eassumption|reflexivity|discriminate]).
  pose proof (pow2_pos (n - 1)) as Hp. pose proof (pow2_pos n) as Hpn.
  split; split.
  - intro Hall. destruct (addressable_dec o n) as [Ha|Ha]; [assumption|exfalso].
    destruct (view_misread m mr _ _ _ _ _ _ _ _ _ H Hno Hf Hat Hn Ha) as (buf & a & Hl & Hok & Hval & Hg & Hsz & Hnb & Hgv).
    destruct (Hall buf) as (raw & Hraw & Hget); [lia|assumption|].
    rewrite (is_field_value_unique _ _ _ _ _ Hraw Hval), Hgv in Hget.
    cbn in Hview. inversion Hview as [Hvv]. unfold view_get in Hget. rewrite <- Hvv in Hget. injection Hget as Hget. lia.
  - intros Ha buf Hl Hb.
    destruct (unsigned_view (E:=E) m mr _ _ _ _ _ _ _ _ _ _ _ H Hno Hd Hi Hv Hf Hat eq_refl Ha) as (_ & Hall).
    exact (proj1 (Hall buf Hl Hb)).
  - intro Hall. destruct (addressable_dec o n) as [Ha|Ha]; [assumption|exfalso].
    destruct (view_kept m mr _ _ _ _ _ _ _ _ _ true (XInt 0) H Hno Hf Hat Hn Ha) as (buf & Hl & Hok & Hkept).
    destruct (Hall buf 0) as (b' & Hs & _ & _ & Hu); [lia|assumption|assumption|]. kept Hkept Hu Hs.
  - intros Ha buf x Hl Hb Hx.
    destruct (unsigned_view (E:=E) m mr _ _ _ _ _ _ _ _ _ _ _ H Hno Hd Hi Hv Hf Hat eq_refl Ha) as (_ & Hall).
    destruct (proj2 (Hall buf Hl Hb) x Hx) as (b' & H1 & H2 & _). exists b'. auto.
Qed.

Theorem bool_exact : forall m mr enums structs id d s i df f n o,
  structure_from_model m Little enums structs id d = Ok s ->
  no_overflow m structs d ->
  nth_error (ss_fields d) i = Some df ->
  sf_info df = STBoolean n -> sf_view df = None ->
  nth_error (s_fields s) i = Some (FFixed f) -> declared_at structs d i o n -> 1 <= n <= 64 ->
  ((forall buf, s_byte_size s <= len buf -> bytes_ok buf ->
      exists raw, is_field_value buf o n raw /\ get_view (E:=E) mr f buf = Ok (XBool (negb (raw =? 0)))) <->
     addressable o n) /\
  ((forall buf x, s_byte_size s <= len buf -> bytes_ok buf ->
      exists buf', set_view (E:=E) mr f buf (XBool x) = Ok buf' /\
        is_field_update buf o n (if x then 1 else 0) buf') <->
     addressable o n).
Proof.
  intros m mr enums structs id d s i df f n o H Hno Hd Hi Hv Hf Hat Hn1. assert (Hn : 0 < n <= 64) by lia.
  destruct (scalar_view _ _ _ _ _ _ _ _ _ _ H Hd Hf) as (b & Hb & Hty & Hview).
  rewrite Hi in *. rewrite Hv in Hview. cbn in Hb. inversion Hb; subst b. clear Hb.
  pose proof (pow2_pos (n - 1)) as Hp.
  split; split.
  - intro Hall. destruct (addressable_dec o n) as [Ha|Ha]; [assumption|exfalso].
    destruct (view_misread m mr _ _ _ _ _ _ _ _ _ H Hno Hf Hat Hn Ha) as (buf & a & Hl & Hok & Hval & Hg & Hsz & Hnb & Hgv).
    destruct (Hall buf) as (raw & Hraw & Hget); [lia|assumption|].
    rewrite (is_field_value_unique _ _ _ _ _ Hraw Hval), Hgv in Hget.
    cbn in Hview. inversion Hview as [Hvv]. cbn in Hty. inversion Hty as [Htt].
    unfold view_get in Hget. rewrite <- Hvv, <- Htt in Hget. injection Hget as Hget.
    destruct (N.eqb_spec (2 ^ (n - 1)) 0); [lia|discriminate].
  - intros Ha buf Hl Hb.
    exact (proj1 (bool_view (E:=E) m mr _ _ _ _ _ _ _ _ _ _ _ H Hno Hd Hi Hv Hf Hat eq_refl Ha Hn1 buf Hl Hb)).
  - intro Hall. destruct (addressable_dec o n) as [Ha|Ha]; [assumption|exfalso].
    destruct (view_kept m mr _ _ _ _ _ _ _ _ _ true (XBool false) H Hno Hf Hat Hn Ha) as (buf & Hl & Hok & Hkept).
    destruct (Hall buf false) as (b' & Hs & _ & _ & Hu); [lia|assumption|]. kept Hkept Hu Hs.
  - intros Ha buf x Hl Hb.
    destruct (proj2 (bool_view (E:=E) m mr _ _ _ _ _ _ _ _ _ _ _ H Hno Hd Hi Hv Hf Hat eq_refl Ha Hn1 buf Hl Hb) x)
      as (b' & H1 & H2 & _). exists b'. auto.
Qed.

Theorem float_bits_exact : forall m mr enums structs id d s i df f n o,
  structure_from_model m Little enums structs id d = Ok s ->
  no_overflow m structs d ->
  nth_error (ss_fields d) i = Some df ->
  sf_info df = STFloat n -> sf_view df = None ->
  nth_error (s_fields s) i = Some (FFixed f) -> declared_at structs d i o n ->
  ((forall buf, s_byte_size s <= len buf -> bytes_ok buf ->
      exists raw, is_field_value buf o n raw /\ get_view (E:=E) mr f buf = Ok (XFloatBits raw)) <->
     addressable o n) /\
  ((forall buf x, s_byte_size s <= len buf -> bytes_ok buf -> x < 2 ^ n ->
      exists buf', set_view (E:=E) mr f buf (XFloatBits x) = Ok buf' /\ is_field_update buf o n x buf') <->
     addressable o n).
Proof.
  intros m mr enums structs id d s i df f n o H Hno Hd Hi Hv Hf Hat.
  destruct (scalar_view _ _ _ _ _ _ _ _ _ _ H Hd Hf) as (b & Hb & Hty & Hview).
  rewrite Hi in *. rewrite Hv in Hview. cbn in Hb. inversion Hb; subst b. clear Hb.
  assert (Hn : 0 < n <= 64) by (eapply fixed_ok_bits; [eassumption|reflexivity|discriminate]).
  pose proof (pow2_pos (n - 1)) as Hp. pose proof (pow2_pos n) as Hpn.
  assert (Hn2 : n = 32 \/ n = 64).
  { cbn [view_from_model get_simple_type simple_eqb andb] in Hview.
    destruct (N.eqb_spec n 32); [auto|]. destruct (N.eqb_spec n 64); [auto|]. discriminate. }
  split; split.
  - intro Hall. destruct (addressable_dec o n) as [Ha|Ha]; [assumption|exfalso].
    destruct (view_misread m mr _ _ _ _ _ _ _ _ _ H Hno Hf Hat Hn Ha) as (buf & a & Hl & Hok & Hval & Hg & Hsz & Hnb & Hgv).
    destruct (Hall buf) as (raw & Hraw & Hget); [lia|assumption|].
    rewrite (is_field_value_unique _ _ _ _ _ Hraw Hval), Hgv in Hget.
    assert (Hvv : ff_view f = VTransmute) by (destruct Hn2; subst n; inversion Hview; reflexivity).
    assert (Htt : ff_ty f = F32 \/ ff_ty f = F64) by (destruct Hn2; subst n; cbn in Hty; inversion Hty; auto).
    unfold view_get in Hget. rewrite Hvv in Hget. destruct Htt as [Htt | Htt]; rewrite Htt in Hget; injection Hget as Hget; lia.
  - intros Ha buf Hl Hb.
    destruct (float_bits_view (E:=E) m mr _ _ _ _ _ _ _ _ _ _ _ H Hno Hd Hi Hv Hf Hat eq_refl Ha) as (_ & Hall).
    exact (proj1 (Hall buf Hl Hb)).
  - intro Hall. destruct (addressable_dec o n) as [Ha|Ha]; [assumption|exfalso].
    destruct (view_kept m mr _ _ _ _ _ _ _ _ _ true (XFloatBits 0) H Hno Hf Hat Hn Ha) as (buf & Hl & Hok & Hkept).
    destruct (Hall buf 0) as (b' & Hs & _ & _ & Hu); [lia|assumption|assumption|]. kept Hkept Hu Hs.
  - intros Ha buf x Hl Hb Hx.
    destruct (float_bits_view (E:=E) m mr _ _ _ _ _ _ _ _ _ _ _ H Hno Hd Hi Hv Hf Hat eq_refl Ha) as (_ & Hall).
    destruct (proj2 (Hall buf Hl Hb) x Hx) as (b' & H1 & H2 & _). exists b'. auto.
Qed.

(** ** C08 *)
Theorem enum_exact : forall m mr enums structs id d s i df f n name de e o,
  structure_from_model m Little enums structs id d = Ok s ->
  no_overflow m structs d ->
  nth_error (ss_fields d) i = Some df ->
  sf_info df = STUnsigned n -> sf_view df = Some (SVEnum name) ->
  sget name enums = Some e -> enum_from_model de = Ok e ->
  nth_error (s_fields s) i = Some (FFixed f) -> declared_at structs d i o n ->
  ((forall buf, s_byte_size s <= len buf -> bytes_ok buf ->
      exists raw r, is_field_value buf o n raw /\ get_view (E:=E) mr f buf = Ok (XEnum r) /\
        (declared_value de raw -> r = Some raw) /\ (~ declared_value de raw -> r = None)) <->
     addressable o n /\
     forall x y, declared_value de y -> x <= y -> x < 2 ^ n -> declared_value de x) /\
  ((forall buf x, s_byte_size s <= len buf -> bytes_ok buf -> declared_value de x ->
      exists buf', set_view (E:=E) mr f buf (XEnum (Some x)) = Ok buf' /\ is_field_update buf o n x buf' /\
        get_view (E:=E) mr f buf' = Ok (XEnum (Some x))) <->
     addressable o n /\ forall x, declared_value de x -> x < 2 ^ n).
Proof.
  intros m mr enums structs id d s i df f n name de e o H Hno Hd Hi Hv He Hde Hf Hat.
  destruct (scalar_view _ _ _ _ _ _ _ _ _ _ H Hd Hf) as (b & Hb & Hty & Hview).
  rewrite Hi in *. rewrite Hv in Hview. cbn in Hb. inversion Hb; subst b. clear Hb.
  assert (Hn : 0 < n <= 64) by (eapply fixed_ok_bits; [eassumption|reflexivity|discriminate]).
  cbn [view_from_model get_simple_type simple_eqb negb] in Hview. rewrite He in Hview.
  cbn in Hview. inversion Hview as [Hvv].
  pose proof (pow2_pos (n - 1)) as Hp. pose proof (pow2_pos n) as Hpn.
  destruct (enum_sorted _ _ Hde) as (_ & _ & _ & Hin & Hmax).
  assert (Hgood : addressable o n -> forall buf, s_byte_size s <= len buf -> bytes_ok buf ->
    (exists raw, is_field_value buf o n raw /\
       get_view (E:=E) mr f buf = Ok (XEnum (if e_largest e <? raw then None else Some raw))) /\
    (forall x, x < 2 ^ n -> x <= e_largest e ->
       exists buf', set_view (E:=E) mr f buf (XEnum (Some x)) = Ok buf' /\
         is_field_update buf o n x buf' /\
         get_view (E:=E) mr f buf' = Ok (XEnum (Some x)))).
  { intros Ha. exact (proj2 (enum_view (E:=E) m mr _ _ _ _ _ _ _ _ _ _ _ _ _ H Hno Hd Hi Hv He Hf Hat eq_refl Ha)). }
  set (buf0 := repeat 0 (N.to_nat (s_byte_size s))).
  assert (Hlen0 : s_byte_size s <= len buf0) by (unfold buf0, len; rewrite repeat_length; lia).
  assert (Hbuf0 : bytes_ok buf0) by apply bytes_ok_zeros.
  split; split.
  - intro Hall. assert (Ha : addressable o n).
    { destruct (addressable_dec o n) as [Ha|Ha]; [assumption|exfalso].
      destruct (view_misread m mr _ _ _ _ _ _ _ _ _ H Hno Hf Hat Hn Ha) as (buf & a & Hl & Hok & Hval & Hg & Hsz & Hnb & Hgv).
      destruct (Hall buf) as (raw & r & Hraw & Hget & Hr1 & Hr2); [lia|assumption|].
      pose proof (is_field_value_unique _ _ _ _ _ Hraw Hval) as Hrw. subst raw. rewrite Hgv in Hget.
      unfold view_get in Hget. rewrite <- Hvv in Hget. destruct (N.ltb_spec (e_largest e) 0); [lia|].
      injection Hget as Hget. subst r.
      destruct (in_dec N.eq_dec (2 ^ (n - 1)) (map snd (se_variants de))) as [Hi1|Hi1].
      - specialize (Hr1 Hi1). injection Hr1 as Hr1. lia.
      - specialize (Hr2 Hi1). discriminate. }
    split; [exact Ha|]. intros x y Hy Hxy Hx.
    destruct (in_dec N.eq_dec x (map snd (se_variants de))) as [Hi1|Hi1]; [exact Hi1|exfalso].
    destruct (proj2 (Hgood Ha buf0 Hlen0 Hbuf0) x Hx) as (b' & _ & Hu & Hg); [pose proof (Hmax y Hy); lia|].
    assert (Hlen' : s_byte_size s <= len b') by (destruct Hu as (U1 & _); unfold len in *; lia).
    destruct (Hall b' Hlen') as (raw & r & Hraw & Hget & _ & Hr2); [destruct Hu as (_ & U2 & _); assumption|].
    assert (raw = x).
    { eapply is_field_value_unique; [eassumption|].
      rewrite <- (N.mod_small x (2 ^ n)) by assumption. eapply field_value_update_same; eassumption. }
    subst raw. specialize (Hr2 Hi1). subst r. congruence.
  - intros (Ha & Hhole) buf Hl Hb. destruct (Hgood Ha buf Hl Hb) as ((raw & Hraw & Hget) & _).
    exists raw, (if e_largest e <? raw then None else Some raw).
    split; [assumption|]. split; [assumption|].
    destruct (N.ltb_spec (e_largest e) raw); (split; [intro Hdv; try reflexivity|intro Hdv; try reflexivity]).
    + specialize (Hmax _ Hdv). lia.
    + exfalso. apply Hdv. eapply Hhole; [exact Hin|assumption|]. eapply is_field_value_bound; eassumption.
  - intro Hall. assert (Ha : addressable o n).
    { destruct (addressable_dec o n) as [Ha|Ha]; [assumption|exfalso].
      destruct (view_kept m mr _ _ _ _ _ _ _ _ _ (negb (N.testbit (e_largest e) (n - 1))) (XEnum (Some (e_largest e)))
        H Hno Hf Hat Hn Ha) as (buf & Hl & Hok & Hkept).
      destruct (Hall buf (e_largest e)) as (b' & Hs & (_ & _ & Hu) & _); [lia|assumption|exact Hin|].
      specialize (Hkept _ Hs). rewrite Hu in Hkept.
      destruct (N.leb_spec o (o + n - 1)), (N.ltb_spec (o + n - 1) (o + n)); cbn [andb] in Hkept; try lia.
      replace (o + n - 1 - o) with (n - 1) in Hkept by lia. destruct (N.testbit (e_largest e) (n - 1)); discriminate. }
    split; [exact Ha|]. intros x Hx. destruct (Hall buf0 x Hlen0 Hbuf0 Hx) as (b' & _ & Hu & Hg).
    assert (Hlen' : s_byte_size s <= len b') by (destruct Hu as (U1 & _); unfold len in *; lia).
    destruct (Hgood Ha b' Hlen') as ((raw & Hraw & Hget) & _); [destruct Hu as (_ & U2 & _); assumption|].
    rewrite Hget in Hg. destruct (e_largest e <? raw); [discriminate|]. injection Hg as Hg. subst raw.
    eapply is_field_value_bound; eassumption.
  - intros (Ha & Hfit) buf x Hl Hb Hx. exact (proj2 (Hgood Ha buf Hl Hb) x (Hfit x Hx) (Hmax x Hx)).
Qed.

End View.
