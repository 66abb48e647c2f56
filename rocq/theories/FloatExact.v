(** Proofs about float views whose multiplier is a power of two: no rounding happens (C09, C58). *)

From Coq Require Import ZArith NArith Reals Psatz SpecFloat List Bool Lia ZifyBool ZifyN ZifyNat.
From Flocq Require Import Core Relative BinarySingleNaN Mult_error.
From Verif Require Import Base Schema Bits BitsFacts Codec Compiler Access SpecStruct StructFacts StructThms ViewThms FloatFacts SpecFloats FloatThms FloatView.
Local Open Scope R_scope.
Local Notation val := (SF2R radix2).
Local Notation pw := (bpow radix2).

Section Exact.
Variables prec emax : Z.
Context (Hp : Prec_gt_0 prec) (Hm : Prec_lt_emax prec emax).
Context (Hp24 : (24 <= prec)%Z) (Hp53 : (prec <= 53)%Z) (He : (prec + 104 <= emax)%Z).
Local Notation valid := (SpecFloat.valid_binary prec emax).
Local Notation rnd := (FloatFacts.rnd prec emax).
Local Notation fmt := (generic_format radix2 (SpecFloat.fexp prec emax)).

Lemma rnd_fmt : forall x, fmt x -> rnd x = x.
Proof. intros x H. apply round_generic; [typeclasses eauto|exact H]. Qed.
Lemma fmt_scaled : forall z k, (0 <= z < 2 ^ prec)%Z -> (-104 <= k)%Z -> fmt (IZR z * pw k).
Proof.
  intros z k Hz Hk. apply generic_format_FLT. exists (Defs.Float radix2 z k).
  - reflexivity.
  - cbn [Fnum]. rewrite Z.abs_eq by lia. change (radix2 ^ prec)%Z with (2 ^ prec)%Z. lia.
  - cbn [Fexp]. unfold SpecFloat.emin. lia.
Qed.
Lemma fmt_pw : forall k, (-104 <= k)%Z -> fmt (pw k).
Proof.
  intros k Hk. replace (pw k) with (IZR 1 * pw k) by ring. apply fmt_scaled; [|exact Hk].
  split; [lia|]. apply Z.lt_le_trans with (2 ^ 24)%Z; [lia|]. apply Z.pow_le_mono_r; lia.
Qed.
Lemma lit_pw : forall a k, is_finite_SF a = true -> val a = pw k -> (-100 <= k <= 100)%Z ->
  val (lit prec emax a) = pw k /\ is_finite_SF (lit prec emax a) = true /\ valid (lit prec emax a) = true.
Proof.
  intros a k Fa Ea Hk. pose proof (bpow_gt_0 radix2 k) as Hz.
  assert (Er : rnd (val a) = pw k) by (rewrite Ea; apply rnd_fmt, fmt_pw; lia).
  destruct (lit_val prec emax Hp Hm a Fa) as (L1 & L2 & L3); [lra| |rewrite L1; auto].
  fold (rnd (val a)). rewrite Er, Rabs_pos_eq by lra. apply bpow_lt. lia.
Qed.

Lemma mul_exact : forall q A z k, valid q = true -> is_finite_SF q = true -> val q = IZR z -> (0 <= z < 2 ^ prec)%Z ->
  valid A = true -> is_finite_SF A = true -> val A = pw k -> (-100 <= k <= 100)%Z ->
  val (SFmul prec emax q A) = IZR z * pw k /\ is_finite_SF (SFmul prec emax q A) = true /\ valid (SFmul prec emax q A) = true.
Proof.
  intros q A z k Vq Fq Eq Hz VA FA EA Hk.
  assert (Er : rnd (val q * val A) = IZR z * pw k) by (rewrite Eq, EA; apply rnd_fmt, fmt_scaled; lia).
  assert (Hpos : 0 <= IZR z * pw k) by (apply Rmult_le_pos; [apply IZR_le; lia|apply bpow_ge_0]).
  destruct (mul_val prec emax Hp Hm q A Vq VA Fq FA) as (M1 & M2 & M3); [|rewrite M1; auto].
  fold (rnd (val q * val A)). rewrite Er, Rabs_pos_eq by exact Hpos.
  apply Rle_lt_trans with (pw (prec + k)); [|apply bpow_lt; lia].
  rewrite bpow_plus. apply Rmult_le_compat_r; [apply bpow_ge_0|].
  rewrite <- IZR_Zpower by lia. apply IZR_le. change (radix2 ^ prec)%Z with (2 ^ prec)%Z. lia.
Qed.

(** Dividing by a power of two loses nothing above the binary point. *)
Lemma floor_scaled : forall v I k n, valid v = true -> is_finite_SF v = true -> 0 <= val v ->
  valid I = true -> is_finite_SF I = true -> val I = pw (-k) -> (-100 <= k <= 100)%Z -> (0 <= n <= prec)%Z ->
  val v < pw k * pw n ->
  let r := SFmul prec emax v I in
  is_finite_SF r = true /\ valid r = true /\ 0 <= val r < pw n /\ Zfloor (val r) = Zfloor (val v * pw (-k)).
Proof.
  intros v I k n Vv Fv Hv VI FI EI Hk Hn Hlt r. set (x := val v * pw (-k)).
  assert (Hx : 0 <= x) by (apply Rmult_le_pos; [exact Hv|apply bpow_ge_0]).
  assert (Hxn : x < pw n).
  { apply Rmult_lt_reg_r with (pw k); [apply bpow_gt_0|]. unfold x. rewrite Rmult_assoc, <- bpow_plus, Z.add_opp_diag_l.
    change (pw 0) with 1. lra. }
  assert (Hfv : fmt (val v)).
  { rewrite <- (B2R_SF2B prec emax v Vv). apply generic_format_B2R. }
  assert (Hdec : rnd x = x \/ (x < / 2 /\ 0 <= rnd x <= / 2)).
  { destruct (Rlt_or_le x (/ 2)) as [Hs|Hb].
    - right. split; [exact Hs|]. split; [apply rnd_nonneg; assumption|].
      assert (Eh : rnd (/ 2) = / 2) by (change (/ 2) with (pw (-1)); apply rnd_fmt, fmt_pw; lia).
      rewrite <- Eh. apply round_le; [typeclasses eauto|typeclasses eauto|lra].
    - left. apply rnd_fmt. unfold x. apply mult_bpow_exact_FLT; [exact Hfv|].
      assert (Hmag : (0 <= mag radix2 (val v * pw (-k)))%Z).
      { apply mag_ge_bpow. rewrite Rabs_pos_eq by exact Hx. change (pw (0 - 1)) with (/ 2). exact Hb. }
      rewrite mag_mult_bpow in Hmag.
      + unfold SpecFloat.emin. lia.
      + intros E0. unfold x in Hb. rewrite E0 in Hb. lra. }
  assert (Hrx : 0 <= rnd x < pw n \/ (0 <= rnd x <= / 2 /\ x < / 2)) by (destruct Hdec as [-> |?]; [left|right]; tauto).
  assert (Hvi : val v * val I = x) by (rewrite EI; reflexivity).
  destruct (mul_val prec emax Hp Hm v I Vv VI Fv FI) as (M1 & M2 & M3).
  - fold (rnd (val v * val I)). rewrite Hvi. rewrite Rabs_pos_eq by (destruct Hrx; lra).
    destruct Hrx as [Hrx|Hrx]; [apply Rlt_le_trans with (pw n); [lra|apply bpow_le; lia]|].
    apply Rle_lt_trans with (pw (-1)); [change (pw (-1)) with (/ 2); lra|apply bpow_lt; lia].
  - fold (rnd (val v * val I)) in M1. rewrite Hvi in M1. fold r in M1, M2, M3. rewrite M1.
    split; [exact M2|]. split; [exact M3|].
    destruct Hdec as [E|(Hs & H0 & H1)].
    + rewrite E. split; [lra|reflexivity].
    + assert (F1 : Zfloor (rnd x) = 0%Z) by (apply Zfloor_imp; simpl; lra).
      assert (F2 : Zfloor x = 0%Z) by (apply Zfloor_imp; simpl; lra).
      split; [|congruence]. split; [exact H0|]. apply Rle_lt_trans with (/ 2); [exact H1|].
      apply Rlt_le_trans with (pw 0); [simpl; lra|apply bpow_le; lia].
Qed.
End Exact.

Lemma inv_pw : forall a k, SpecFloat.valid_binary 53 1024 a = true -> is_finite_SF a = true -> val a = pw k -> (-100 <= k <= 100)%Z ->
  val (f64_div f64_one a) = pw (-k) /\ is_finite_SF (f64_div f64_one a) = true /\
  SpecFloat.valid_binary 53 1024 (f64_div f64_one a) = true.
Proof.
  intros a k Va Fa Ea Hk. destruct one_val as (O1 & O2 & O3). pose proof (bpow_gt_0 radix2 k) as Hz.
  assert (Eq : val f64_one / val a = pw (-k)) by (rewrite O1, Ea, bpow_opp; unfold Rdiv; ring).
  assert (Er : FloatFacts.rnd 53 1024 (val f64_one / val a) = pw (-k)).
  { rewrite Eq. apply rnd_fmt. apply fmt_pw; lia || reflexivity. }
  unfold f64_div. destruct (div_val 53 1024 prec53 max53 f64_one a O3 Va O2) as (D1 & D2 & D3).
  - lra.
  - rewrite Er, Rabs_pos_eq by apply bpow_ge_0. apply bpow_lt. lia.
  - rewrite D1, Er. auto.
Qed.

Section Core.
Variables (ft : fixed_type) (prec emax : Z).
Hypothesis Hft : fprec ft = (prec, emax).
Context (Hp : Prec_gt_0 prec) (Hm : Prec_lt_emax prec emax).
Context (Hp24 : (24 <= prec)%Z) (Hp53 : (prec <= 53)%Z) (He : (prec + 104 <= emax)%Z).
Variables (a b bi : spec_float) (k : Z) (n : N).
Hypotheses (Va : SpecFloat.valid_binary 53 1024 a = true) (Fa : is_finite_SF a = true).
Hypothesis Ea : val a = pw k.
Hypothesis Hk : (-100 <= k <= 100)%Z.
Hypotheses (Hb : zero b) (Hbi : zero bi).
Hypothesis Hn : (1 <= Z.of_N n <= prec)%Z.

Lemma raw_small : forall raw, (raw < 2 ^ n)%N -> (0 <= Z.of_N raw < 2 ^ prec)%Z.
Proof.
  intros raw Hr. split; [lia|]. apply Z.lt_le_trans with (2 ^ Z.of_N n)%Z; [|apply Z.pow_le_mono_r; lia].
  change 2%Z with (Z.of_N 2). rewrite <- N2Z.inj_pow. lia.
Qed.
Lemma of_raw_exact : forall raw, (raw < 2 ^ n)%N -> val (f_of_N ft raw) = IZR (Z.of_N raw) /\
  SpecFloat.valid_binary prec emax (f_of_N ft raw) = true /\ is_finite_SF (f_of_N ft raw) = true.
Proof.
  intros raw Hr. pose proof (raw_small raw Hr) as Hs. unfold f_of_N. rewrite Hft. destruct raw as [|p]; [cbn; auto|].
  destruct (of_N_val prec emax Hp Hm Hp24 He (Zpos p)) as (H1 & H2 & H3); auto.
Qed.

Lemma get_exact : forall raw, (raw < 2 ^ n)%N -> let y := float_get ft a b raw in
  is_finite_SF y = true /\ SpecFloat.valid_binary prec emax y = true /\ val y = IZR (Z.of_N raw) * pw k.
Proof.
  intros raw Hr y. destruct (lit_pw prec emax Hp Hm Hp24 He a k Fa Ea Hk) as (A1 & A2 & A3).
  destruct (of_raw_exact raw Hr) as (Q1 & Q2 & Q3).
  destruct (mul_exact prec emax Hp Hm Hp24 He (f_of_N ft raw) (lit prec emax a) (Z.of_N raw) k Q2 Q3 Q1 (raw_small raw Hr) A3 A2 A1 Hk) as (M1 & M2 & M3).
  unfold y, float_get. rewrite !(lit_is ft prec emax Hft). unfold f_add, f_mul. rewrite Hft.
  destruct (lit_zero prec emax b Hb) as (s & ->).
  destruct (add_zero prec emax _ s M2 M3) as (Z1 & Z2 & Z3).
  split; [exact Z2|]. split; [exact Z3|]. rewrite Z1. exact M1.
Qed.

Lemma set_exact : forall sz v, (Z.of_N n <= 8 * Z.of_nat sz)%Z ->
  SpecFloat.valid_binary prec emax v = true -> is_finite_SF v = true -> 0 <= val v < pw k * pw (Z.of_N n) ->
  let raw := float_set ft sz (f64_div f64_one a) bi v in (raw < 2 ^ n)%N /\ Z.of_N raw = Zfloor (val v * pw (-k)).
Proof.
  intros sz v Hsz Vv Fv Hv raw. destruct (inv_pw a k Va Fa Ea Hk) as (I1 & I2 & I3).
  destruct (lit_pw prec emax Hp Hm Hp24 He (f64_div f64_one a) (-k) I2 I1) as (L1 & L2 & L3); [lia|].
  destruct (floor_scaled prec emax Hp Hm Hp24 He v (lit prec emax (f64_div f64_one a)) k (Z.of_N n) Vv Fv (proj1 Hv) L3 L2 L1 Hk)
    as (R1 & R2 & (R3 & R4) & R5); [lia|lra|].
  assert (Er : Z.of_N raw = Zfloor (val v * pw (-k))).
  { rewrite <- R5. unfold raw, float_set. rewrite !(lit_is ft prec emax Hft). unfold f_add, f_mul. rewrite Hft.
    destruct (lit_zero prec emax bi Hbi) as (s & ->).
    destruct (add_zero prec emax _ s R1 R2) as (Z1 & Z2 & Z3).
    rewrite as_unsigned_floor; [|exact Z2|rewrite Z1; exact R3]. rewrite Z1. apply Z.min_l.
    apply Z.lt_le_pred. apply lt_IZR. eapply Rle_lt_trans; [apply Zfloor_lb|].
    eapply Rlt_le_trans; [exact R4|]. change 2%Z with (radix_val radix2). rewrite IZR_Zpower by lia. apply bpow_le. exact Hsz. }
  split; [|exact Er].
  apply N2Z.inj_lt. rewrite Er, <- R5, N2Z.inj_pow. apply lt_IZR. eapply Rle_lt_trans; [apply Zfloor_lb|].
  change (Z.of_N 2) with (radix_val radix2). rewrite IZR_Zpower by lia. exact R4.
Qed.
End Core.
