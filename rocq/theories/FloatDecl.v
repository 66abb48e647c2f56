(** Proofs about float views (C09, C58): declarations. *)

From Coq Require Import ZArith NArith Reals Psatz SpecFloat List Bool Lia ZifyBool ZifyN ZifyNat.
From Flocq Require Import Core Relative BinarySingleNaN.
From Verif Require Import Base Schema Bits BitsFacts Codec Compiler Access SpecStruct StructFacts StructThms ViewThms
  FloatFacts SpecFloats FloatThms FloatView FloatExact.
Local Open Scope R_scope.
Local Notation val := (SF2R radix2).
Local Notation pw := (bpow radix2).

(** ** The views the compiler produces *)
Section Shape.
Variables (m : mode) (enums : smap enum_) (structs : smap structure) (id : N) (d : sstruct) (s : structure) (i : nat)
  (df : sfield) (f : fixed_field) (n : N).
Hypotheses (H : structure_from_model m Little enums structs id d = Ok s)
  (Hd : nth_error (ss_fields d) i = Some df) (Hi : sf_info df = STFloat n)
  (Hf : nth_error (s_fields s) i = Some (FFixed f)).

Lemma float_shape : fixed_from_model (STFloat n) = Ok (ff_ty f) /\ view_from_model m enums Float n (sf_view df) = Ok (ff_view f).
Proof.
  destruct (structure_nth _ _ _ _ _ _ _ _ _ H Hf) as (df' & o1 & o2 & Hd' & Hfm).
  assert (df' = df) by congruence. subst df'.
  apply scalar_shape in Hfm. rewrite Hi in Hfm. destruct Hfm as (b0 & Hb0 & Hty & Hv & _). cbn in Hb0. inversion Hb0; subst b0.
  split; [exact Hty|exact Hv].
Qed.
Lemma multiplier_shape : forall mult, sf_view df = Some (SVFloatMultiplier mult) ->
  ff_view f = VFloat mult f64_zero (f64_div f64_one mult) f64_zero.
Proof.
  intros mult Hv. destruct float_shape as (_ & Hs). rewrite Hv in Hs. cbn in Hs. inversion Hs. reflexivity.
Qed.
Lemma range_shape : forall lo hi, sf_view df = Some (SVFloatRange lo hi) -> (n < 64)%N ->
  ff_view f = VFloat (f64_div hi (f64_of_N (2 ^ n - 1))) lo (f64_div f64_one (f64_div hi (f64_of_N (2 ^ n - 1)))) (SFopp lo).
Proof.
  intros lo hi Hv Hn. destruct float_shape as (_ & Hs). rewrite Hv in Hs. cbn [view_from_model simple_eqb negb] in Hs.
  pose proof (pow2_pos n) as Hpos. unfold ushl1, usub in Hs.
  destruct (N.ltb_spec n 64) as [_|Hc]; [|lia]. cbn [bind] in Hs.
  destruct (N.leb_spec 1 (2 ^ n)) as [_|Hc]; [|lia]. cbn [bind] in Hs. inversion Hs. reflexivity.
Qed.

Section Access.
Context {E : Type}.
Variables (mr : mode) (o : N).
Hypotheses (Hno : no_overflow m structs d) (Hat : declared_at structs d i o n) (Ha : addressable o n).

Lemma full_width : forall ac, gen_fixed (E:=E) f = Ok ac -> (n = 8 \/ n = 16 \/ n = 32 \/ n = 64)%N -> (8 * N.of_nat (ac_raw ac))%N = n.
Proof.
  intros ac Hg Hn. destruct (fixed_in_structure _ _ _ _ _ _ _ _ _ _ H Hno Hf Hat) as (Hloc & _). cbn [field_loc] in Hloc.
  unfold gen_fixed, get_unsigned_integer_type in Hg. rewrite Hloc in Hg. cbn [l_bit_size location_from_model] in Hg.
  destruct Hn as [Hn|[Hn|[Hn|Hn]]]; rewrite Hn in Hg |- *; vm_compute in Hg; inversion Hg; reflexivity.
Qed.
(** What the accessors do with the raw bits. *)
Lemma float_accessors_full : forall a b ai bi, ff_view f = VFloat a b ai bi ->
  (0 < n <= 64)%N /\ fprec (ff_ty f) = (view_digits n, view_top n) /\
  exists sz, (n <= 8 * N.of_nat sz)%N /\ ((n = 8 \/ n = 16 \/ n = 32 \/ n = 64)%N -> (8 * N.of_nat sz)%N = n) /\
  forall buf, (s_byte_size s <= len buf)%N -> bytes_ok buf ->
    (exists raw, is_field_value buf o n raw /\ (raw < 2 ^ n)%N /\
       get_view (E:=E) mr f buf = Ok (XFloat (float_get (ff_ty f) a b raw))) /\
    (forall v, exists buf', set_view (E:=E) mr f buf (XFloat v) = Ok buf' /\
       is_field_update buf o n (float_set (ff_ty f) sz ai bi v) buf').
Proof.
  intros a b ai bi Hview. destruct float_shape as (Hty & _).
  assert (Hn : (0 < n <= 64)%N) by (eapply fixed_ok_bits; [eassumption|reflexivity|discriminate]).
  split; [exact Hn|]. split; [apply fprec_single; exact Hty|].
  destruct (good_accessor (E:=E) m mr _ _ _ _ _ _ _ _ _ H Hno Hf Hat Hn Ha) as (ac & Hg & Hsz & Hnsz & Hget & Hset).
  exists (ac_raw ac). split; [exact Hnsz|]. split; [exact (full_width ac Hg)|]. intros buf Hlen Hbuf. split.
  - destruct (Hget buf Hlen Hbuf) as (raw & Hr & Hrv). exists raw. split; [exact Hrv|].
    split; [eapply is_field_value_bound; eassumption|].
    unfold get_view. rewrite Hg. cbn [bind]. rewrite Hr. cbn [bind]. unfold view_get. rewrite Hview. reflexivity.
  - intros v. destruct (Hset buf (float_set (ff_ty f) (ac_raw ac) ai bi v) Hlen Hbuf) as (b' & Hs & Hu). exists b'.
    split; [unfold set_view; rewrite Hg; cbn [bind]; unfold view_set; rewrite Hview; cbn [bind]; exact Hs|exact Hu].
Qed.
Lemma float_accessors : forall a b ai bi, ff_view f = VFloat a b ai bi ->
  (0 < n <= 64)%N /\ fprec (ff_ty f) = (view_digits n, view_top n) /\
  exists sz, (n <= 8 * N.of_nat sz)%N /\
  forall buf, (s_byte_size s <= len buf)%N -> bytes_ok buf ->
    (exists raw, is_field_value buf o n raw /\ (raw < 2 ^ n)%N /\
       get_view (E:=E) mr f buf = Ok (XFloat (float_get (ff_ty f) a b raw))) /\
    (forall v, exists buf', set_view (E:=E) mr f buf (XFloat v) = Ok buf' /\
       is_field_update buf o n (float_set (ff_ty f) sz ai bi v) buf').
Proof.
  intros a b ai bi Hview. destruct (float_accessors_full a b ai bi Hview) as (H1 & H2 & sz & H3 & _ & H4).
  split; [exact H1|]. split; [exact H2|]. exists sz. split; [exact H3|exact H4].
Qed.
End Access.
End Shape.

(** Reading after a write. *)
Lemma update_kept : forall s buf o n raw buf', (s_byte_size s <= len buf)%N -> is_field_update buf o n raw buf' ->
  (s_byte_size s <= len buf')%N /\ bytes_ok buf'.
Proof. intros s buf o n raw buf' Hl (U1 & U2 & _). split; [unfold len in *; lia|exact U2]. Qed.
Lemma update_value : forall buf o n raw buf' x, is_field_update buf o n raw buf' -> is_field_value buf' o n x -> (raw < 2 ^ n)%N -> x = raw.
Proof.
  intros buf o n raw buf' x Hu Hx Hr. eapply is_field_value_unique; [eassumption|].
  rewrite <- (N.mod_small raw (2 ^ n)) by assumption. eapply field_value_update_same; eassumption.
Qed.
(** Writing the bits that are there. *)
Lemma update_nothing : forall buf o n raw buf', bytes_ok buf -> is_field_update buf o n raw buf' -> is_field_value buf o n raw -> buf' = buf.
Proof.
  intros buf o n raw buf' Hb (U1 & U2 & U3) Hv. apply bits_ext; [exact U2|exact Hb|exact U1|].
  intros j. rewrite U3. destruct ((o <=? j) && (j <? o + n))%N eqn:Ej; [|reflexivity].
  rewrite Hv. replace (j - o <? n)%N with true by lia. cbn [andb]. f_equal. lia.
Qed.

(** ** Multiplier and range views *)
Lemma zero_of : forall x, is_f64 x -> real_of x = 0 -> zero x.
Proof.
  intros [s|s| |s p e] (_ & N) H; try contradiction; [exists s; reflexivity|]. exfalso.
  cbn [real_of] in H. pose proof (powerRZ_lt 2 e ltac:(lra)) as Hz. pose proof (IZR_lt 0 (Zpos p) eq_refl) as Hi.
  assert (0 < IZR (Zpos p) * powerRZ 2 e) by (apply Rmult_lt_0_compat; assumption). destruct s; nra.
Qed.
Lemma opp_zero : forall x, zero x -> zero (SFopp x).
Proof. intros x (s & ->). exists (negb s). reflexivity. Qed.
Lemma near_self : forall x, exists e, Rabs e <= pw (-53) /\ val x = real_of x * (1 + e).
Proof. intros x. exists 0. split; [rewrite Rabs_R0; apply bpow_ge_0|rewrite real_val; ring]. Qed.
Lemma pw_range : forall x, powerRZ 2 (-100) <= x <= powerRZ 2 100 -> pw (-100) <= x <= pw 100.
Proof. intros x. rewrite !pw_powerRZ. auto. Qed.

(** The compiled multiplier of a range starting at zero. *)
Lemma range_param : forall hi n, is_f64 hi -> (1 <= Z.of_N n <= 50)%Z ->
  powerRZ 2 (-100) <= real_of hi / (raws n - 1) <= powerRZ 2 100 ->
  is_f64 (f64_div hi (f64_of_N (2 ^ n - 1))) /\
  exists e, Rabs e <= pw (-53) /\ val (f64_div hi (f64_of_N (2 ^ n - 1))) = real_of hi / (raws n - 1) * (1 + e).
Proof.
  intros hi n (Vh & Nh) Hn Hr. apply pw_range in Hr.
  assert (Hlt : (2 ^ n - 1 < 2 ^ 53)%N).
  { apply N.le_lt_trans with (2 ^ n)%N; [lia|]. apply N.pow_lt_mono_r; lia. }
  destruct (f64_of_N_val _ Hlt) as (Q1 & Q2 & Q3).
  assert (Er : IZR (Z.of_N (2 ^ n - 1)) = raws n - 1).
  { pose proof (pow2_pos n) as Hpos. rewrite N2Z.inj_sub by lia. rewrite minus_IZR. f_equal. rewrite N2Z.inj_pow.
    change (Z.of_N 2) with (radix_val radix2). rewrite IZR_Zpower by lia. apply pw_powerRZ. }
  assert (Hp : 0 < raws n - 1).
  { assert (2 <= raws n); [|lra]. unfold raws. rewrite <- pw_powerRZ. change 2 with (pw 1). apply bpow_le. lia. }
  destruct (div_rel hi (f64_of_N (2 ^ n - 1)) (real_of hi / (raws n - 1)) Vh (number_fin _ Nh) Q3 Q2) as ((e & He & Ev) & Fv & Vv).
  - rewrite Q1, Er. lra.
  - rewrite real_val, Q1, Er. reflexivity.
  - split; [apply Rle_trans with (pw (-100)); [apply bpow_le; lia|apply Hr]|apply Rle_trans with (pw 100); [apply Hr|apply bpow_le; lia]].
  - split; [split; [exact Vv|apply fin_number; exact Fv]|]. exists e. split; [exact He|exact Ev].
Qed.

(** The compiled view of a scaling. *)
Lemma scaled_shape : forall m enums structs id d s i df f n view step,
  structure_from_model m Little enums structs id d = Ok s ->
  nth_error (ss_fields d) i = Some df -> sf_info df = STFloat n -> sf_view df = Some view ->
  nth_error (s_fields s) i = Some (FFixed f) -> (Z.of_N n + 3 <= view_digits n)%Z ->
  scaled_by n view step -> moderate step ->
  exists a b bi, ff_view f = VFloat a b (f64_div f64_one a) bi /\ zero b /\ zero bi /\ is_f64 a /\
    exists e, Rabs e <= pw (-53) /\ val a = step * (1 + e).
Proof.
  intros m enums structs id d s i df f n view step H Hd Hi Hv Hf Hn Hs Hmod.
  destruct view as [name|lo hi|mult]; [contradiction| |].
  - destruct Hs as (Hlo & Hlo0 & Hhi & ->).
    assert (Hn64 : (0 < n <= 64)%N).
    { destruct (float_shape m enums structs id d s i df f n H Hd Hi Hf) as (Hty & _). eapply fixed_ok_bits; [eassumption|reflexivity|discriminate]. }
    assert (Hdig : (view_digits n <= 53)%Z) by apply format_facts.
    destruct (range_param hi n Hhi) as (Hp1 & Hp2); [lia|exact Hmod|].
    assert (Hz : zero lo) by (apply zero_of; assumption).
    exists (f64_div hi (f64_of_N (2 ^ n - 1))), lo, (SFopp lo). split; [|split; [exact Hz|split; [apply opp_zero, Hz|auto]]].
    apply (range_shape m enums structs id d s i df f n H Hd Hi Hf lo hi Hv). lia.
  - destruct Hs as (Hm & ->). exists mult, f64_zero, f64_zero.
    split; [exact (multiplier_shape m enums structs id d s i df f n H Hd Hi Hf mult Hv)|].
    split; [exists false; reflexivity|]. split; [exists false; reflexivity|]. split; [exact Hm|apply near_self].
Qed.

Section Views.
Context {E : Type}.

Lemma scaled_view : forall m mr enums structs id d s i df f n o w view step,
  structure_from_model m Little enums structs id d = Ok s ->
  no_overflow m structs d ->
  nth_error (ss_fields d) i = Some df ->
  sf_info df = STFloat n -> sf_view df = Some view ->
  nth_error (s_fields s) i = Some (FFixed f) -> declared_at structs d i o w ->
  w = n -> addressable o n -> (Z.of_N n + 3 <= view_digits n)%Z ->
  scaled_by n view step -> moderate step ->
  forall buf, (s_byte_size s <= len buf)%N -> bytes_ok buf ->
    (exists raw y, is_field_value buf o n raw /\ get_view (E:=E) mr f buf = Ok (XFloat y) /\ is_view n y /\
       Rabs (real_of y - step * INR (N.to_nat raw)) <= 5 * view_eps n * (step * INR (N.to_nat raw))) /\
    (forall v, is_view n v -> 0 <= real_of v <= step * (raws n - 1) ->
       exists buf' raw y, set_view (E:=E) mr f buf (XFloat v) = Ok buf' /\
         is_field_update buf o n raw buf' /\ get_view (E:=E) mr f buf' = Ok (XFloat y) /\ is_view n y /\
         Rabs (real_of y - real_of v) <= step * (1 + 11 * raws n * view_eps n)).
Proof.
  intros m mr enums structs id d s i df f n o w view step H Hno Hd Hi Hv Hf Hat Hw Ha Hn Hs Hr.
  destruct (scaled_shape _ _ _ _ _ _ _ _ _ _ _ _ H Hd Hi Hv Hf Hn Hs Hr) as (a & b & bi & Hsh & Hb & Hbi & Ia & Ea).
  eapply scaling_view; try eassumption. apply pw_range. exact Hr.
Qed.

(** A power of two as multiplier: reading is exact and writing truncates. *)
Lemma power_of_two_view : forall m mr enums structs id d s i df f n o w mult k,
  structure_from_model m Little enums structs id d = Ok s ->
  no_overflow m structs d ->
  nth_error (ss_fields d) i = Some df ->
  sf_info df = STFloat n -> sf_view df = Some (SVFloatMultiplier mult) ->
  nth_error (s_fields s) i = Some (FFixed f) -> declared_at structs d i o w ->
  w = n -> addressable o n -> (Z.of_N n <= view_digits n)%Z ->
  is_f64 mult -> real_of mult = powerRZ 2 k -> (-100 <= k <= 100)%Z ->
  forall buf, (s_byte_size s <= len buf)%N -> bytes_ok buf ->
    (exists raw y, is_field_value buf o n raw /\ get_view (E:=E) mr f buf = Ok (XFloat y) /\ is_view n y /\
       real_of y = real_of mult * INR (N.to_nat raw) /\ set_view (E:=E) mr f buf (XFloat y) = Ok buf) /\
    (forall v, is_view n v -> 0 <= real_of v < real_of mult * raws n ->
       exists buf' raw y, set_view (E:=E) mr f buf (XFloat v) = Ok buf' /\
         is_field_update buf o n raw buf' /\ get_view (E:=E) mr f buf' = Ok (XFloat y) /\ is_view n y /\
         real_of y = real_of mult * INR (N.to_nat raw) /\ real_of y <= real_of v < real_of y + real_of mult).
Proof.
  intros m mr enums structs id d s i df f n o w mult k H Hno Hd Hi Hv Hf Hat Hw Ha Hn (Vm & Nm) Ek Hk. subst w.
  pose proof (multiplier_shape m enums structs id d s i df f n H Hd Hi Hf mult Hv) as Hshape.
  destruct (float_accessors (E:=E) m enums structs id d s i df f n H Hd Hi Hf mr o Hno Hat Ha _ _ _ _ Hshape)
    as (Hn64 & Hft & sz & Hsz & Hacc).
  destruct (format_facts n) as (Hp & Hm & Hp24 & Hp53 & He).
  assert (Hnn : (1 <= Z.of_N n <= view_digits n)%Z) by lia.
  assert (Ea : val mult = pw k) by (rewrite <- real_val, Ek, pw_powerRZ; reflexivity).
  assert (Hz : zero f64_zero) by (exists false; reflexivity).
  assert (Hg := get_exact (ff_ty f) _ _ Hft Hp Hm Hp24 He mult f64_zero k n (number_fin _ Nm) Ea Hk Hz Hnn).
  assert (Hs := set_exact (ff_ty f) _ _ Hft Hp Hm Hp24 He mult f64_zero k n Vm (number_fin _ Nm) Ea Hk Hz Hnn sz).
  assert (Hr2 : forall raw, IZR (Z.of_N raw) = INR (N.to_nat raw)).
  { intros raw. rewrite INR_IZR_INZ. f_equal. lia. }
  assert (HP : pw (Z.of_N n) = raws n) by apply pw_powerRZ.
  assert (Hmk : real_of mult = pw k) by (rewrite real_val; exact Ea).
  pose proof (bpow_gt_0 radix2 k) as Hkpos.
  assert (Hkk : pw k * pw (-k) = 1) by (rewrite <- bpow_plus, Z.add_opp_diag_r; reflexivity).
  intros buf Hlen Hbuf. split.
  - destruct (Hacc buf Hlen Hbuf) as ((raw & Hrv & Hlt & Hget) & Hset).
    destruct (Hg raw Hlt) as (Y1 & Y2 & Y3). set (y := float_get (ff_ty f) mult f64_zero raw) in *.
    exists raw, y. split; [exact Hrv|]. split; [exact Hget|].
    split; [split; [exact Y2|apply fin_number; exact Y1]|].
    split; [rewrite real_val, Y3, Hr2, Hmk; ring|].
    destruct (Hset y) as (buf' & Hs1 & Hu). rewrite Hs1. f_equal.
    destruct (Hs y) as (Hlt' & Hraw); [lia|exact Y2|exact Y1| |].
    + rewrite Y3. split.
      * apply Rmult_le_pos; [apply IZR_le; lia|lra].
      * rewrite Rmult_comm. apply Rmult_lt_compat_l; [exact Hkpos|]. rewrite <- IZR_Zpower by lia. apply IZR_lt.
        change (radix_val radix2) with (Z.of_N 2). rewrite <- N2Z.inj_pow. lia.
    + rewrite Y3, Rmult_assoc, Hkk, Rmult_1_r, Zfloor_IZR in Hraw. apply N2Z.inj in Hraw. rewrite Hraw in Hu.
      eapply update_nothing; eassumption.
  - intros v (Vv & Nv) Hv'. rewrite real_val, Hmk, <- HP in Hv'.
    destruct (Hs v) as (Hlt & Hraw); [lia|exact Vv|apply number_fin; exact Nv|exact Hv'|].
    destruct (Hacc buf Hlen Hbuf) as (_ & Hset). destruct (Hset v) as (buf' & Hs1 & Hu).
    set (raw := float_set _ _ _ _ _) in *.
    destruct (update_kept s _ _ _ _ _ Hlen Hu) as (Hlen' & Hbuf').
    destruct (Hacc buf' Hlen' Hbuf') as ((raw' & Hrv & _ & Hget) & _).
    assert (raw' = raw) by (eapply update_value; eassumption). subst raw'.
    destruct (Hg raw Hlt) as (Y1 & Y2 & Y3).
    exists buf', raw, (float_get (ff_ty f) mult f64_zero raw).
    split; [exact Hs1|]. split; [exact Hu|]. split; [exact Hget|]. split; [split; [exact Y2|apply fin_number; exact Y1]|].
    rewrite !real_val, Y3, Ea. split; [rewrite Hr2; ring|].
    set (x := val v * pw (-k)) in *. pose proof (Zfloor_lb x) as Hl. pose proof (Zfloor_ub x) as Hub. rewrite <- Hraw in Hl, Hub.
    assert (Ev : val v = x * pw k) by (unfold x; rewrite Rmult_assoc, (Rmult_comm (pw (-k))), Hkk; ring).
    rewrite Ev. split; [apply Rmult_le_compat_r; lra|]. replace (IZR (Z.of_N raw) * pw k + pw k) with ((IZR (Z.of_N raw) + 1) * pw k) by ring.
    apply Rmult_lt_compat_r; lra.
Qed.
End Views.
