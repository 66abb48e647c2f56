(** Proofs about the view accessors (C06-C08) and their shapes. *)

From Coq Require Import Arith NArith ZArith String List Bool Lia ZifyBool ZifyN ZifyNat.
From Verif Require Import Base Schema Bits BitsFacts Codec CodecFacts Compiler Access SpecStruct
  StructFacts StructThms.
Import ListNotations.
Local Open Scope N_scope.
Ltac Zify.zify_post_hook ::= idtac.

(** Every compiled field comes from the description of the same index. *)
Lemma fields_from_model_nth : forall m endi enums structs l off fs off' i f,
  fields_from_model m endi enums structs off l = Ok (fs, off') ->
  nth_error fs i = Some f ->
  exists df o1 o2, nth_error l i = Some df /\
    field_from_model m endi enums structs o1 df = Ok (f, o2).
Proof.
  intros m endi enums structs. induction l as [|d l IH]; intros off fs off' i f H Hf; cbn in H.
  - inversion H; subst. destruct i; discriminate.
  - apply bind_ok in H. destruct H as ((f0 & off1) & H0 & H).
    apply bind_ok in H. destruct H as ((fs1 & off2) & H1 & H). inversion H; subst.
    destruct i as [|i]; cbn in Hf.
    + inversion Hf; subst. exists d, off, off1. auto.
    + destruct (IH _ _ _ _ _ H1 Hf) as (df & o1 & o2 & Hd & Hm). exists df, o1, o2. auto.
Qed.

Lemma structure_nth : forall m endi enums structs id d s i f,
  structure_from_model m endi enums structs id d = Ok s ->
  nth_error (s_fields s) i = Some f ->
  exists df o1 o2, nth_error (ss_fields d) i = Some df /\
    field_from_model m endi enums structs o1 df = Ok (f, o2).
Proof.
  intros m endi enums structs id d s i f H Hf. unfold structure_from_model in H.
  apply bind_ok in H. destruct H as ((fs & off) & H0 & H). inversion H; subst. cbn in Hf.
  eapply fields_from_model_nth; eassumption.
Qed.

Lemma scalar_shape : forall m endi enums structs o1 df f o2,
  field_from_model m endi enums structs o1 df = Ok (FFixed f, o2) ->
  exists b, get_bit_size (sf_info df) = Some b /\
    fixed_from_model (sf_info df) = Ok (ff_ty f) /\
    view_from_model m enums (get_simple_type (sf_info df)) b (sf_view df) = Ok (ff_view f) /\
    match sf_array_len df with Some n => n <= 1 | None => True end.
Proof.
  intros m endi enums structs o1 df f o2 H. unfold field_from_model in H.
  destruct (sf_info df) as [b|b|b|b|n] eqn:Hi.
  1-4: exists b; (split; [reflexivity|]); cbn [get_bit_size ok_or bind] in H;
    inv_bind H; inv_bind H; inv_bind H;
    destruct (N.ltb_spec 1 (match sf_array_len df with Some n => n | None => 1 end));
    [destruct (negb _); [discriminate|]; inv_bind H; discriminate|];
    inv_bind H; inversion H; subst; cbn; repeat split; try assumption;
    destruct (sf_array_len df); [assumption|exact I].
  inv_bind H. inv_bind H. discriminate.
Qed.

Lemma fixed_ok_bits : forall info ty b, fixed_from_model info = Ok ty -> get_bit_size info = Some b ->
  get_simple_type info <> Boolean -> 0 < b <= 64.
Proof.
  intros info ty b H Hb Hn. unfold fixed_from_model in H. rewrite Hb in H. cbn [ok_or bind] in H.
  destruct (simple_eqb (get_simple_type info) Boolean) eqn:He.
  { destruct (get_simple_type info); try discriminate. congruence. }
  destruct (N.eqb_spec b 32); [lia|]. destruct (N.eqb_spec b 64); [lia|].
  rewrite !andb_false_r in H.
  destruct (N.ltb_spec 32 b), (N.leb_spec b 64), (N.ltb_spec 16 b), (N.leb_spec b 32),
    (N.ltb_spec 8 b), (N.leb_spec b 16), (N.ltb_spec 0 b), (N.leb_spec b 8); try lia;
    cbn in H; discriminate.
Qed.

(** ** Two's complement arithmetic *)

Lemma pow2_pos : forall n, 0 < 2 ^ n.
Proof. intros. apply N.neq_0_lt_0, N.pow_nonzero. discriminate. Qed.

Lemma land_mask : forall x n, N.land x (2 ^ n - 1) = x mod 2 ^ n.
Proof. intros. rewrite N.sub_1_r, <- N.ones_equiv. apply N.land_ones. Qed.

Lemma pow2_half : forall n, 0 < n -> 2 ^ n = 2 * 2 ^ (n - 1).
Proof. intros. rewrite <- N.pow_succ_r'. f_equal. lia. Qed.

Lemma tmod_half : forall sz, (0 < sz)%nat -> tmod sz / 2 = 2 ^ (8 * N.of_nat sz - 1).
Proof.
  intros. unfold tmod. rewrite (pow2_half (8 * N.of_nat sz)) by lia.
  rewrite N.mul_comm, N.div_mul by discriminate. reflexivity.
Qed.

Section View.
Context {E : Type}.

Lemma signed_get_correct : forall m sz n raw,
  0 < n -> n < 8 * N.of_nat sz -> raw < 2 ^ n ->
  signed_get (E:=E) m sz (2 ^ (n - 1) - 1) raw = Ok (twos_complement n raw).
Proof.
  intros m sz n raw Hn Hsz Hraw. unfold signed_get, twos_complement.
  pose proof (pow2_pos (n - 1)) as Hp. pose proof (pow2_half n Hn) as H2.
  assert (Hle : 2 ^ n <= tmod sz / 2).
  { rewrite tmod_half by lia. apply pow2_small. lia. }
  assert (Ht : tmod sz = 2 * (tmod sz / 2)).
  { rewrite tmod_half by lia. unfold tmod. apply pow2_half. lia. }
  destruct (N.ltb_spec (2 ^ (n - 1) - 1) raw) as [Hhi|Hlo].
  - destruct (N.ltb_spec raw (2 ^ (n - 1))); [lia|].
    rewrite land_mask.
    assert (Hx : (tmod sz - 1 - raw) mod 2 ^ (n - 1) = 2 ^ n - 1 - raw).
    { assert (Hk : tmod sz = 2 ^ (8 * N.of_nat sz - (n - 1)) * 2 ^ (n - 1)).
      { rewrite <- N.pow_add_r. unfold tmod. f_equal. lia. }
      set (q := 2 ^ (8 * N.of_nat sz - (n - 1))) in *.
      assert (Hq : 2 <= q).
      { unfold q. change 2 with (2 ^ 1) at 1. apply pow2_small. lia. }
      symmetry. apply N.mod_unique with (q - 2); [lia|]. rewrite Hk.
      assert (2 ^ (n - 1) * q = 2 ^ (n - 1) * (q - 2) + 2 * 2 ^ (n - 1)) by nia.
      lia. }
    rewrite Hx. cbn zeta.
    destruct (N.ltb_spec (2 ^ n - 1 - raw + 1) (tmod sz)); [|lia]. cbn [bind].
    unfold neg_signed, as_signed.
    destruct (N.ltb_spec (2 ^ n - 1 - raw + 1) (tmod sz / 2)); [|lia].
    match goal with |- context [(?a =? ?b)%Z] => destruct (Z.eqb_spec a b); [lia|] end.
    f_equal. assert (Hz : (2 ^ Z.of_N n)%Z = Z.of_N (2 ^ n)) by (rewrite N2Z.inj_pow; reflexivity).
    rewrite Hz. lia.
  - destruct (N.ltb_spec raw (2 ^ (n - 1))); [|lia].
    rewrite land_mask, N.mod_small by assumption.
    unfold as_signed. destruct (N.ltb_spec raw (tmod sz / 2)); [reflexivity|lia].
Qed.

Lemma as_signed_twos : forall sz raw, (0 < sz)%nat -> raw < tmod sz ->
  as_signed sz raw = twos_complement (8 * N.of_nat sz) raw.
Proof.
  intros. unfold as_signed, twos_complement. rewrite tmod_half by assumption.
  destruct (raw <? _); [reflexivity|]. f_equal. unfold tmod.
  rewrite N2Z.inj_pow. reflexivity.
Qed.

Lemma twos_roundtrip : forall n z, 0 < n ->
  (- 2 ^ (Z.of_N n - 1) <= z < 2 ^ (Z.of_N n - 1))%Z ->
  twos_complement n (Z.to_N (z mod 2 ^ Z.of_N n)) = z.
Proof.
  intros n z Hn Hz. unfold twos_complement.
  assert (H2 : (2 ^ Z.of_N n = 2 * 2 ^ (Z.of_N n - 1))%Z).
  { rewrite <- Z.pow_succ_r by lia. f_equal. lia. }
  assert (Hp : (0 < 2 ^ (Z.of_N n - 1))%Z) by (apply Z.pow_pos_nonneg; lia).
  assert (Hpn : (Z.of_N (2 ^ (n - 1)) = 2 ^ (Z.of_N n - 1))%Z).
  { rewrite N2Z.inj_pow. f_equal. lia. }
  destruct (Z.lt_ge_cases z 0) as [Hneg|Hpos].
  - assert (Hm : (z mod 2 ^ Z.of_N n = z + 2 ^ Z.of_N n)%Z).
    { symmetry. apply Z.mod_unique with (-1)%Z; lia. }
    rewrite Hm. destruct (N.ltb_spec (Z.to_N (z + 2 ^ Z.of_N n)) (2 ^ (n - 1))); lia.
  - rewrite Z.mod_small by lia. destruct (N.ltb_spec (Z.to_N z) (2 ^ (n - 1))); lia.
Qed.

Lemma as_unsigned_mod : forall sz n z, n <= 8 * N.of_nat sz ->
  as_unsigned sz z mod 2 ^ n = Z.to_N (z mod 2 ^ Z.of_N n).
Proof.
  intros sz n z Hn. unfold as_unsigned, tmod.
  assert (Hp : (0 < 2 ^ Z.of_N n)%Z) by (apply Z.pow_pos_nonneg; lia).
  assert (Hp' : (0 < 2 ^ Z.of_N (8 * N.of_nat sz))%Z) by (apply Z.pow_pos_nonneg; lia).
  rewrite N2Z.inj_pow. change (Z.of_N 2) with 2%Z.
  apply N2Z.inj. rewrite N2Z.inj_mod, N2Z.inj_pow, !Z2N.id by (apply Z.mod_pos_bound; assumption).
  change (Z.of_N 2) with 2%Z.
  replace (Z.of_N (8 * N.of_nat sz)) with (Z.of_N n + Z.of_N (8 * N.of_nat sz - n))%Z by lia.
  rewrite Z.pow_add_r by lia.
  rewrite Z.rem_mul_r by lia.
  rewrite (Z.mul_comm (2 ^ Z.of_N n)), Z_mod_plus_full. apply Z.mod_mod. lia.
Qed.

(** What the accessor pair of a good field does. *)
Lemma good_accessor : forall m mr enums structs id d s i f o w,
  structure_from_model m Little enums structs id d = Ok s ->
  no_overflow m structs d ->
  nth_error (s_fields s) i = Some (FFixed f) -> declared_at structs d i o w ->
  0 < w <= 64 -> addressable o w ->
  exists a, gen_fixed (E:=E) f = Ok a /\
    (ac_raw a = 1 \/ ac_raw a = 2 \/ ac_raw a = 4 \/ ac_raw a = 8)%nat /\
    w <= 8 * N.of_nat (ac_raw a) /\
    (forall buf, s_byte_size s <= len buf -> bytes_ok buf ->
      exists raw, ac_get (E:=E) mr a buf = Ok raw /\ is_field_value buf o w raw) /\
    (forall buf v, s_byte_size s <= len buf -> bytes_ok buf ->
      exists buf', ac_set (E:=E) mr a buf v = Ok buf' /\ is_field_update buf o w v buf').
Proof.
  intros m mr enums structs id d s i f o w H Hno Hf Hat Hw Ha.
  destruct (fixed_in_structure _ _ _ _ _ _ _ _ _ _ H Hno Hf Hat) as (Hloc & Hle & Hwin).
  cbn [field_loc] in Hloc.
  destruct (gen_fixed_ok (E:=E) f) as (a & Hg & Hs & He & Hr & Hrb & Hbit & Hal & Hord);
    [rewrite Hloc; exact Hw|].
  exists a. split; [assumption|]. split; [assumption|].
  split; [rewrite Hloc in Hrb; exact Hrb|]. split.
  - intros buf Hl Hb.
    destruct (get_raw_exact (E:=E) m mr _ _ _ _ _ _ _ _ _ buf H Hno Hf Hat Hw Ha Hl Hb) as (v & Hv & Hv').
    unfold get_raw in Hv. rewrite Hg in Hv. exists v. split; assumption.
  - intros buf v Hl Hb.
    destruct (set_raw_exact (E:=E) m mr _ _ _ _ _ _ _ _ _ buf v H Hno Hf Hat Hw Ha Hl Hb) as (b' & Hv & Hv').
    unfold set_raw in Hv. rewrite Hg in Hv. exists b'. split; assumption.
Qed.

(** ** C06 *)
Lemma signed_view : forall m mr enums structs id d s i df f n o w,
  structure_from_model m Little enums structs id d = Ok s ->
  no_overflow m structs d ->
  nth_error (ss_fields d) i = Some df ->
  sf_info df = STSigned n -> sf_view df = None ->
  nth_error (s_fields s) i = Some (FFixed f) -> declared_at structs d i o w ->
  w = n -> addressable o n ->
  1 <= n <= 64 /\
  forall buf, s_byte_size s <= len buf -> bytes_ok buf ->
    (exists raw, is_field_value buf o n raw /\
       get_view (E:=E) mr f buf = Ok (XInt (twos_complement n raw))) /\
    (forall z, (- 2 ^ (Z.of_N n - 1) <= z < 2 ^ (Z.of_N n - 1))%Z ->
       exists buf', set_view (E:=E) mr f buf (XInt z) = Ok buf' /\
         is_field_update buf o n (Z.to_N (z mod 2 ^ Z.of_N n)) buf' /\
         get_view (E:=E) mr f buf' = Ok (XInt z)).
Proof.
  intros m mr enums structs id d s i df f n o w H Hno Hd Hi Hv Hf Hat Hwn Ha. subst w.
  destruct (structure_nth _ _ _ _ _ _ _ _ _ H Hf) as (df' & o1 & o2 & Hd' & Hfm).
  assert (df' = df) by congruence. subst df'.
  apply scalar_shape in Hfm. rewrite Hi, Hv in Hfm.
  destruct Hfm as (b & Hb & Hty & Hview & Hal). cbn in Hb. inversion Hb; subst b. clear Hb.
  assert (Hn : 0 < n <= 64).
  { eapply fixed_ok_bits; [eassumption|reflexivity|discriminate]. }
  split; [lia|]. intros buf Hlen Hbuf.
  destruct (good_accessor m mr _ _ _ _ _ _ _ _ _ H Hno Hf Hat Hn Ha)
    as (a & Hg & Hsz & Hnsz & Hget & Hset).
  cbn [view_from_model get_simple_type simple_eqb andb] in Hview.
  (* the view at this width reads two's complement *)
  assert (Hvg : forall raw, raw < 2 ^ n ->
    view_get (E:=E) mr f (ac_raw a) raw = Ok (XInt (twos_complement n raw))).
  { intros raw Hraw. unfold view_get. clear Hget Hset.
    unfold fixed_from_model in Hty. cbn [get_bit_size get_simple_type ok_or bind simple_eqb andb map_numeric] in Hty.
    assert (Hgs : gen_fixed (E:=E) f = Ok a) by assumption. clear Hg.
    destruct (negb (n =? 8) && negb (n =? 16) && negb (n =? 32) && negb (n =? 64)) eqn:Hw4.
    - unfold usub at 1 in Hview. destruct (N.leb_spec 1 n); [|lia]. cbn [bind] in Hview.
      unfold ushl1 in Hview. destruct (N.ltb_spec (n - 1) 64); [|lia]. cbn [bind] in Hview.
      unfold usub in Hview. pose proof (pow2_pos (n - 1)).
      destruct (N.leb_spec 1 (2 ^ (n - 1))); [|lia]. cbn [bind] in Hview.
      inversion Hview as [Hvv]. rewrite signed_get_correct; [reflexivity|lia| |assumption].
      destruct (N.eqb_spec n 8), (N.eqb_spec n 16), (N.eqb_spec n 32), (N.eqb_spec n 64);
        try discriminate. lia.
    - inversion Hview as [Hvv].
      destruct (N.ltb_spec 32 n), (N.leb_spec n 64), (N.ltb_spec 16 n), (N.leb_spec n 32),
        (N.ltb_spec 8 n), (N.leb_spec n 16), (N.ltb_spec 0 n), (N.leb_spec n 8); try lia;
      cbn in Hty; inversion Hty as [Hty']; (* one type each *)
      (assert (Hn8 : 8 * N.of_nat (ac_raw a) = n);
       [unfold gen_fixed, get_unsigned_integer_type in Hgs;
        destruct (fixed_in_structure _ _ _ _ _ _ _ _ _ _ H Hno Hf Hat) as (Hloc & _ & _);
        cbn [field_loc] in Hloc; rewrite Hloc in Hgs; cbn [l_bit_size location_from_model] in Hgs;
        destruct (N.eqb_spec n 8), (N.eqb_spec n 16), (N.eqb_spec n 32), (N.eqb_spec n 64);
        try discriminate; try lia; subst n;
        vm_compute in Hgs; inversion Hgs; reflexivity
       |rewrite as_signed_twos; [rewrite Hn8; reflexivity|lia|unfold tmod; rewrite Hn8; assumption]]). }
  assert (Hvs : forall z, view_set (E:=E) f (ac_raw a) (XInt z) = Ok (as_unsigned (ac_raw a) z)).
  { intro z. unfold view_set.
    assert (Hv2 : ff_view f = VTransmute \/ exists k, ff_view f = VSignedCast k).
    { destruct (negb (n =? 8) && negb (n =? 16) && negb (n =? 32) && negb (n =? 64)).
      - right. inv_bind Hview. inv_bind Hview. inv_bind Hview. inversion Hview. eexists. reflexivity.
      - left. inversion Hview. reflexivity. }
    assert (Ht2 : ff_ty f = I8 \/ ff_ty f = I16 \/ ff_ty f = I32 \/ ff_ty f = I64).
    { unfold fixed_from_model in Hty. cbn [get_bit_size get_simple_type ok_or bind simple_eqb andb map_numeric] in Hty.
      destruct ((32 <? n) && (n <=? 64)), ((16 <? n) && (n <=? 32)), ((8 <? n) && (n <=? 16)),
        ((0 <? n) && (n <=? 8)); inversion Hty; auto. }
    destruct Hv2 as [-> | (k & ->)], Ht2 as [-> | [-> | [-> | ->]]]; reflexivity. }
  split.
  - destruct (Hget buf Hlen Hbuf) as (raw & Hr & Hrv). exists raw. split; [assumption|].
    unfold get_view. rewrite Hg. cbn [bind]. rewrite Hr. cbn [bind].
    apply Hvg. eapply is_field_value_bound; eassumption.
  - intros z Hz. destruct (Hset buf (as_unsigned (ac_raw a) z) Hlen Hbuf) as (b' & Hs & Hu).
    exists b'. unfold set_view. rewrite Hg. cbn [bind]. rewrite Hvs. cbn [bind].
    split; [assumption|]. 
    assert (Hbits : forall j, j < n ->
       N.testbit (as_unsigned (ac_raw a) z) j = N.testbit (Z.to_N (z mod 2 ^ Z.of_N n)) j).
    { intros j Hj. rewrite <- (as_unsigned_mod (ac_raw a) n z) by assumption.
      rewrite testbit_mod_pow2. destruct (N.ltb_spec j n); [reflexivity|lia]. }
    split.
    { destruct Hu as (U1 & U2 & U3). split; [assumption|]. split; [assumption|]. intro k.
      rewrite U3. destruct (N.leb_spec o k), (N.ltb_spec k (o + n)); try reflexivity. cbn [andb].
      apply Hbits. lia. }
    assert (Hlen' : s_byte_size s <= len b') by (destruct Hu as (U1 & _); unfold len in *; lia).
    destruct (Hget b' Hlen') as (raw & Hr & Hrv). { destruct Hu as (_ & U2 & _); assumption. }
    unfold get_view. rewrite Hg. cbn [bind]. rewrite Hr. cbn [bind].
    assert (Hraw : raw = Z.to_N (z mod 2 ^ Z.of_N n)).
    { eapply is_field_value_unique; [eassumption|].
      rewrite <- (as_unsigned_mod (ac_raw a) n z) by assumption.
      eapply field_value_update_same; eassumption. }
    rewrite Hvg by (eapply is_field_value_bound; eassumption).
    rewrite Hraw, twos_roundtrip by (try assumption; lia). reflexivity.
Qed.

(** ** C07 *)
Lemma unsigned_view : forall m mr enums structs id d s i df f n o w,
  structure_from_model m Little enums structs id d = Ok s ->
  no_overflow m structs d ->
  nth_error (ss_fields d) i = Some df ->
  sf_info df = STUnsigned n -> sf_view df = None ->
  nth_error (s_fields s) i = Some (FFixed f) -> declared_at structs d i o w ->
  w = n -> addressable o n ->
  1 <= n <= 64 /\
  forall buf, s_byte_size s <= len buf -> bytes_ok buf ->
    (exists raw, is_field_value buf o n raw /\
       get_view (E:=E) mr f buf = Ok (XInt (Z.of_N raw))) /\
    (forall x, x < 2 ^ n ->
       exists buf', set_view (E:=E) mr f buf (XInt (Z.of_N x)) = Ok buf' /\
         is_field_update buf o n x buf' /\
         get_view (E:=E) mr f buf' = Ok (XInt (Z.of_N x))).
Proof.
  intros m mr enums structs id d s i df f n o w H Hno Hd Hi Hv Hf Hat Hwn Ha. subst w.
  destruct (structure_nth _ _ _ _ _ _ _ _ _ H Hf) as (df' & o1 & o2 & Hd' & Hfm).
  assert (df' = df) by congruence. subst df'.
  apply scalar_shape in Hfm. rewrite Hi, Hv in Hfm.
  destruct Hfm as (b & Hb & Hty & Hview & Hal). cbn in Hb. inversion Hb; subst b. clear Hb.
  assert (Hn : 0 < n <= 64).
  { eapply fixed_ok_bits; [eassumption|reflexivity|discriminate]. }
  split; [lia|]. intros buf Hlen Hbuf.
  destruct (good_accessor m mr _ _ _ _ _ _ _ _ _ H Hno Hf Hat Hn Ha)
    as (a & Hg & Hsz & Hnsz & Hget & Hset).
  cbn [view_from_model get_simple_type simple_eqb andb] in Hview. inversion Hview as [Hvv].
  split.
  - destruct (Hget buf Hlen Hbuf) as (raw & Hr & Hrv). exists raw. split; [assumption|].
    unfold get_view. rewrite Hg. cbn [bind]. rewrite Hr. cbn [bind]. unfold view_get.
    rewrite <- Hvv. reflexivity.
  - intros x Hx. destruct (Hset buf x Hlen Hbuf) as (b' & Hs & Hu).
    exists b'. unfold set_view. rewrite Hg. cbn [bind]. unfold view_set. rewrite <- Hvv. cbn [bind].
    rewrite N2Z.id. split; [assumption|]. split; [assumption|].
    assert (Hlen' : s_byte_size s <= len b') by (destruct Hu as (U1 & _); unfold len in *; lia).
    destruct (Hget b' Hlen') as (raw & Hr & Hrv). { destruct Hu as (_ & U2 & _); assumption. }
    unfold get_view. rewrite Hg. cbn [bind]. rewrite Hr. cbn [bind]. unfold view_get. rewrite <- Hvv.
    repeat f_equal. eapply is_field_value_unique; [eassumption|].
    rewrite <- (N.mod_small x (2 ^ n)) by assumption. eapply field_value_update_same; eassumption.
Qed.

Lemma bool_view : forall m mr enums structs id d s i df f n o w,
  structure_from_model m Little enums structs id d = Ok s ->
  no_overflow m structs d ->
  nth_error (ss_fields d) i = Some df ->
  sf_info df = STBoolean n -> sf_view df = None ->
  nth_error (s_fields s) i = Some (FFixed f) -> declared_at structs d i o w ->
  w = n -> addressable o n -> 1 <= n <= 64 ->
  forall buf, s_byte_size s <= len buf -> bytes_ok buf ->
    (exists raw, is_field_value buf o n raw /\
       get_view (E:=E) mr f buf = Ok (XBool (negb (raw =? 0)))) /\
    (forall x, exists buf', set_view (E:=E) mr f buf (XBool x) = Ok buf' /\
         is_field_update buf o n (if x then 1 else 0) buf' /\
         get_view (E:=E) mr f buf' = Ok (XBool x)).
Proof.
  intros m mr enums structs id d s i df f n o w H Hno Hd Hi Hv Hf Hat Hwn Ha Hn buf Hlen Hbuf. subst w.
  destruct (structure_nth _ _ _ _ _ _ _ _ _ H Hf) as (df' & o1 & o2 & Hd' & Hfm).
  assert (df' = df) by congruence. subst df'.
  apply scalar_shape in Hfm. rewrite Hi, Hv in Hfm.
  destruct Hfm as (b & Hb & Hty & Hview & Hal). cbn in Hb. inversion Hb; subst b. clear Hb.
  assert (Hn' : 0 < n <= 64) by lia.
  destruct (good_accessor m mr _ _ _ _ _ _ _ _ _ H Hno Hf Hat Hn' Ha)
    as (a & Hg & Hsz & Hnsz & Hget & Hset).
  cbn [view_from_model get_simple_type simple_eqb andb] in Hview. inversion Hview as [Hvv].
  cbn in Hty. inversion Hty as [Htt].
  split.
  - destruct (Hget buf Hlen Hbuf) as (raw & Hr & Hrv). exists raw. split; [assumption|].
    unfold get_view. rewrite Hg. cbn [bind]. rewrite Hr. cbn [bind]. unfold view_get.
    rewrite <- Hvv, <- Htt. reflexivity.
  - intros x. destruct (Hset buf (if x then 1 else 0) Hlen Hbuf) as (b' & Hs & Hu).
    exists b'. unfold set_view. rewrite Hg. cbn [bind]. unfold view_set. rewrite <- Hvv, <- Htt. cbn [bind].
    split; [assumption|]. split; [assumption|].
    assert (Hlen' : s_byte_size s <= len b') by (destruct Hu as (U1 & _); unfold len in *; lia).
    destruct (Hget b' Hlen') as (raw & Hr & Hrv). { destruct Hu as (_ & U2 & _); assumption. }
    unfold get_view. rewrite Hg. cbn [bind]. rewrite Hr. cbn [bind]. unfold view_get. rewrite <- Hvv, <- Htt.
    assert (Hraw : raw = (if x then 1 else 0)).
    { eapply is_field_value_unique; [eassumption|].
      rewrite <- (N.mod_small (if x then 1 else 0) (2 ^ n)).
      - eapply field_value_update_same; eassumption.
      - pose proof (pow2_half n ltac:(lia)). pose proof (pow2_pos (n - 1)). destruct x; lia. }
    rewrite Hraw. destruct x; reflexivity.
Qed.

Lemma float_bits_view : forall m mr enums structs id d s i df f n o w,
  structure_from_model m Little enums structs id d = Ok s ->
  no_overflow m structs d ->
  nth_error (ss_fields d) i = Some df ->
  sf_info df = STFloat n -> sf_view df = None ->
  nth_error (s_fields s) i = Some (FFixed f) -> declared_at structs d i o w ->
  w = n -> addressable o n ->
  (n = 32 \/ n = 64) /\
  forall buf, s_byte_size s <= len buf -> bytes_ok buf ->
    (exists raw, is_field_value buf o n raw /\
       get_view (E:=E) mr f buf = Ok (XFloatBits raw)) /\
    (forall x, x < 2 ^ n ->
       exists buf', set_view (E:=E) mr f buf (XFloatBits x) = Ok buf' /\
         is_field_update buf o n x buf' /\
         get_view (E:=E) mr f buf' = Ok (XFloatBits x)).
Proof.
  intros m mr enums structs id d s i df f n o w H Hno Hd Hi Hv Hf Hat Hwn Ha. subst w.
  destruct (structure_nth _ _ _ _ _ _ _ _ _ H Hf) as (df' & o1 & o2 & Hd' & Hfm).
  assert (df' = df) by congruence. subst df'.
  apply scalar_shape in Hfm. rewrite Hi, Hv in Hfm.
  destruct Hfm as (b & Hb & Hty & Hview & Hal). cbn in Hb. inversion Hb; subst b. clear Hb.
  assert (Hn : 0 < n <= 64).
  { eapply fixed_ok_bits; [eassumption|reflexivity|discriminate]. }
  cbn [view_from_model get_simple_type simple_eqb andb] in Hview.
  assert (Hn2 : n = 32 \/ n = 64).
  { destruct (N.eqb_spec n 32); [auto|]. destruct (N.eqb_spec n 64); [auto|]. discriminate. }
  split; [assumption|]. intros buf Hlen Hbuf.
  destruct (good_accessor m mr _ _ _ _ _ _ _ _ _ H Hno Hf Hat Hn Ha)
    as (a & Hg & Hsz & Hnsz & Hget & Hset).
  assert (Hvv : ff_view f = VTransmute).
  { destruct Hn2; subst n; inversion Hview; reflexivity. }
  assert (Htt : ff_ty f = F32 \/ ff_ty f = F64).
  { destruct Hn2; subst n; cbn in Hty; inversion Hty; auto. }
  assert (Hvg : forall raw, view_get (E:=E) mr f (ac_raw a) raw = Ok (XFloatBits raw)).
  { intro raw. unfold view_get. rewrite Hvv. destruct Htt as [-> | ->]; reflexivity. }
  split.
  - destruct (Hget buf Hlen Hbuf) as (raw & Hr & Hrv). exists raw. split; [assumption|].
    unfold get_view. rewrite Hg. cbn [bind]. rewrite Hr. cbn [bind]. apply Hvg.
  - intros x Hx. destruct (Hset buf x Hlen Hbuf) as (b' & Hs & Hu).
    exists b'. unfold set_view. rewrite Hg. cbn [bind]. unfold view_set. rewrite Hvv.
    replace (match ff_ty f with
      | FBool => match XFloatBits x with XBool b => Ok (if b then 1 else 0) | _ => Panic end
      | F32 | F64 => match XFloatBits x with XFloatBits n => Ok n | _ => Panic end
      | I8 | I16 | I32 | I64 => match XFloatBits x with XInt z => Ok (as_unsigned (ac_raw a) z) | _ => Panic end
      | _ => Panic end) with (@Ok E N x) by (destruct Htt as [-> | ->]; reflexivity).
    cbn [bind]. split; [assumption|]. split; [assumption|].
    assert (Hlen' : s_byte_size s <= len b') by (destruct Hu as (U1 & _); unfold len in *; lia).
    destruct (Hget b' Hlen') as (raw & Hr & Hrv). { destruct Hu as (_ & U2 & _); assumption. }
    unfold get_view. rewrite Hg. cbn [bind]. rewrite Hr. cbn [bind]. rewrite Hvg.
    repeat f_equal. eapply is_field_value_unique; [eassumption|].
    rewrite <- (N.mod_small x (2 ^ n)) by assumption. eapply field_value_update_same; eassumption.
Qed.

(** ** C08 *)
Lemma enum_view : forall m mr enums structs id d s i df f n name e o w,
  structure_from_model m Little enums structs id d = Ok s ->
  no_overflow m structs d ->
  nth_error (ss_fields d) i = Some df ->
  sf_info df = STUnsigned n -> sf_view df = Some (SVEnum name) ->
  sget name enums = Some e ->
  nth_error (s_fields s) i = Some (FFixed f) -> declared_at structs d i o w ->
  w = n -> addressable o n ->
  1 <= n <= 64 /\
  forall buf, s_byte_size s <= len buf -> bytes_ok buf ->
    (exists raw, is_field_value buf o n raw /\
       get_view (E:=E) mr f buf = Ok (XEnum (if e_largest e <? raw then None else Some raw))) /\
    (forall x, x < 2 ^ n -> x <= e_largest e ->
       exists buf', set_view (E:=E) mr f buf (XEnum (Some x)) = Ok buf' /\
         is_field_update buf o n x buf' /\
         get_view (E:=E) mr f buf' = Ok (XEnum (Some x))).
Proof.
  intros m mr enums structs id d s i df f n name e o w H Hno Hd Hi Hv He Hf Hat Hwn Ha. subst w.
  destruct (structure_nth _ _ _ _ _ _ _ _ _ H Hf) as (df' & o1 & o2 & Hd' & Hfm).
  assert (df' = df) by congruence. subst df'.
  apply scalar_shape in Hfm. rewrite Hi, Hv in Hfm.
  destruct Hfm as (b & Hb & Hty & Hview & Hal). cbn in Hb. inversion Hb; subst b. clear Hb.
  assert (Hn : 0 < n <= 64).
  { eapply fixed_ok_bits; [eassumption|reflexivity|discriminate]. }
  split; [lia|]. intros buf Hlen Hbuf.
  destruct (good_accessor m mr _ _ _ _ _ _ _ _ _ H Hno Hf Hat Hn Ha)
    as (a & Hg & Hsz & Hnsz & Hget & Hset).
  cbn [view_from_model get_simple_type simple_eqb negb] in Hview. rewrite He in Hview.
  cbn in Hview. inversion Hview as [Hvv].
  split.
  - destruct (Hget buf Hlen Hbuf) as (raw & Hr & Hrv). exists raw. split; [assumption|].
    unfold get_view. rewrite Hg. cbn [bind]. rewrite Hr. cbn [bind]. unfold view_get.
    rewrite <- Hvv. reflexivity.
  - intros x Hx Hxl. destruct (Hset buf x Hlen Hbuf) as (b' & Hs & Hu).
    exists b'. unfold set_view. rewrite Hg. cbn [bind]. unfold view_set. rewrite <- Hvv. cbn [bind].
    assert (Hxt : x < tmod (ac_raw a)).
    { apply N.lt_le_trans with (2 ^ n); [assumption|]. unfold tmod. apply pow2_small. assumption. }
    rewrite N.mod_small by assumption.
    split; [assumption|]. split; [assumption|].
    assert (Hlen' : s_byte_size s <= len b') by (destruct Hu as (U1 & _); unfold len in *; lia).
    destruct (Hget b' Hlen') as (raw & Hr & Hrv). { destruct Hu as (_ & U2 & _); assumption. }
    unfold get_view. rewrite Hg. cbn [bind]. rewrite Hr. cbn [bind]. unfold view_get. rewrite <- Hvv.
    assert (Hraw : raw = x).
    { eapply is_field_value_unique; [eassumption|].
      rewrite <- (N.mod_small x (2 ^ n)) by assumption. eapply field_value_update_same; eassumption. }
    subst raw. destruct (N.ltb_spec (e_largest e) x); [lia|]. reflexivity.
Qed.

(** ** C02: the view accessors do not panic either *)
Lemma get_view_total : forall m mr enums structs id d s i f o w buf,
  structure_from_model m Little enums structs id d = Ok s ->
  no_overflow m structs d ->
  nth_error (s_fields s) i = Some (FFixed f) -> declared_at structs d i o w ->
  0 < w <= 64 -> s_byte_size s <= len buf -> bytes_ok buf ->
  exists x, get_view (E:=E) mr f buf = Ok x.
Proof.
  intros m mr enums structs id d s i f o w buf H Hno Hf Hat Hw Hlen Hbuf.
  destruct (raw_accessors_total (E:=E) m mr _ _ _ _ _ _ _ _ _ buf 0 H Hno Hf Hat Hw Hlen Hbuf)
    as ((raw & Hr & Hraw) & _).
  unfold get_raw in Hr. apply bind_ok in Hr. destruct Hr as (a & Hg & Hr).
  unfold get_view. rewrite Hg. cbn [bind]. rewrite Hr. cbn [bind]. unfold view_get.
  destruct (ff_view f) as [a0 b0 c0 d0|e| |mp|] eqn:Hv; try (eexists; reflexivity).
  destruct (structure_nth _ _ _ _ _ _ _ _ _ H Hf) as (df & o1 & o2 & Hd & Hfm).
  apply scalar_shape in Hfm. destruct Hfm as (b & Hb & Hty & Hview & Hal).
  destruct (fixed_in_structure _ _ _ _ _ _ _ _ _ _ H Hno Hf Hat) as (Hloc & _ & _).
  cbn [field_loc] in Hloc.
  assert (Hwb : w = b).
  { destruct Hat as (_ & df' & Hd' & Hw'). assert (df' = df) by congruence. subst df'.
    assert (Hk : declared_bits structs df = Some (b * match sf_array_len df with Some n => n | None => 1 end)).
    { unfold declared_bits. destruct (sf_info df); cbn in Hb; inversion Hb; reflexivity. }
    rewrite Hk in Hw'. inversion Hw' as [Hwk]. clear - Hal Hwk Hw.
    destruct (sf_array_len df) as [k|]; [|lia].
    assert (Hk01 : k = 0 \/ k = 1) by lia. destruct Hk01; subst k; lia. }
  subst b. rewrite Hv in Hview. unfold view_from_model in Hview.
  destruct (sf_view df) as [[nm|mn mx|ml]|].
  { destruct (negb _); [discriminate|]. inv_bind Hview. discriminate. }
  { destruct (negb _); [discriminate|]. inv_bind Hview. inv_bind Hview. discriminate. }
  { destruct (negb _); [discriminate|]. discriminate. }
  destruct (_ && negb (w =? 32) && negb (w =? 64)); [discriminate|].
  destruct (simple_eqb (get_simple_type (sf_info df)) Signed && negb (w =? 8) && negb (w =? 16)
              && negb (w =? 32) && negb (w =? 64)) eqn:Hc;
    [|destruct (simple_eqb _ Unsigned); discriminate].
  unfold usub at 1 in Hview. destruct (N.leb_spec 1 w); [|lia]. cbn [bind] in Hview.
  unfold ushl1 in Hview. destruct (N.ltb_spec (w - 1) 64); [|lia]. cbn [bind] in Hview.
  unfold usub in Hview. pose proof (pow2_pos (w - 1)).
  destruct (N.leb_spec 1 (2 ^ (w - 1))); [|lia]. cbn [bind] in Hview. inversion Hview; subst mp.
  destruct (gen_fixed_ok (E:=E) f) as (a' & Hg' & _ & _ & Hsz & Hbits & _); [rewrite Hloc; exact Hw|].
  assert (a' = a) by congruence. subst a'. rewrite Hloc in Hbits. cbn [l_bit_size location_from_model] in Hbits.
  rewrite signed_get_correct; [eexists; reflexivity|lia| |assumption].
  apply andb_true_iff in Hc. destruct Hc as (Hc & H64). apply andb_true_iff in Hc. destruct Hc as (Hc & H32).
  apply andb_true_iff in Hc. destruct Hc as (Hc & H16). apply andb_true_iff in Hc. destruct Hc as (_ & H8).
  lia.
Qed.

Lemma set_view_total : forall m mr enums structs id d s i f o w buf x,
  structure_from_model m Little enums structs id d = Ok s ->
  no_overflow m structs d ->
  nth_error (s_fields s) i = Some (FFixed f) -> declared_at structs d i o w ->
  0 < w <= 64 -> s_byte_size s <= len buf -> bytes_ok buf -> view_value f x ->
  exists buf', set_view (E:=E) mr f buf x = Ok buf'.
Proof.
  intros m mr enums structs id d s i f o w buf x H Hno Hf Hat Hw Hlen Hbuf Hx.
  destruct (fixed_in_structure _ _ _ _ _ _ _ _ _ _ H Hno Hf Hat) as (Hloc & _ & _).
  cbn [field_loc] in Hloc.
  destruct (gen_fixed_ok (E:=E) f) as (a & Hg & _); [rewrite Hloc; exact Hw|].
  assert (Hr : exists r, view_set (E:=E) f (ac_raw a) x = Ok r).
  { unfold view_set, view_value in *. destruct (ff_view f), x; try contradiction; try (eexists; reflexivity);
      try (destruct (ff_ty f); try contradiction; eexists; reflexivity).
    destruct n; try contradiction; eexists; reflexivity. }
  destruct Hr as (r & Hr).
  destruct (raw_accessors_total (E:=E) m mr _ _ _ _ _ _ _ _ _ buf r H Hno Hf Hat Hw Hlen Hbuf)
    as (_ & (b' & Hb & _)).
  unfold set_raw in Hb. rewrite Hg in Hb. exists b'. unfold set_view. rewrite Hg. cbn [bind].
  rewrite Hr. exact Hb.
Qed.

End View.
