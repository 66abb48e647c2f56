(** Proofs about float views (C09). *)

From Coq Require Import ZArith NArith Reals Psatz SpecFloat.
From Flocq Require Import Core Relative BinarySingleNaN.
From Verif Require Import Base Schema Codec Compiler Access FloatFacts SpecFloats.
Local Open Scope R_scope.
Local Notation val := (SF2R radix2).
Local Notation pw := (bpow radix2).

Lemma pw_powerRZ : forall e, pw e = powerRZ 2 e.
Proof. intros e. rewrite bpow_powerRZ. reflexivity. Qed.
Lemma real_val : forall x, real_of x = val x.
Proof.
  intros [s|s| |s m e]; try reflexivity. cbn [real_of SF2R]. unfold F2R. cbn [Fnum Fexp]. rewrite pw_powerRZ.
  destruct s; cbn [cond_Zopp]; [rewrite opp_IZR|]; ring.
Qed.
Lemma number_finite : forall x, is_number x <-> is_finite_SF x = true.
Proof. intros [s|s| |s m e]; cbn; intuition congruence. Qed.

(** ** One format *)
Section Format.
Variables prec emax : Z.
Context (Hp : Prec_gt_0 prec) (Hm : Prec_lt_emax prec emax).
Context (Hp24 : (24 <= prec)%Z) (He : (prec + 104 <= emax)%Z).
Notation rnd := (rnd prec emax).
Notation valid := (SpecFloat.valid_binary prec emax).
Let u : R := pw (- prec).

Lemma u_pos : 0 < u.
Proof. apply bpow_gt_0. Qed.
Lemma u_small : u <= /1000000.
Proof.
  apply Rle_trans with (pw (-24)); [apply bpow_le; lia|]. rewrite pw_powerRZ. simpl. lra.
Qed.

Lemma add_zero : forall x s, is_finite_SF x = true -> valid x = true ->
  val (SFadd prec emax x (S754_zero s)) = val x /\ is_finite_SF (SFadd prec emax x (S754_zero s)) = true /\
  valid (SFadd prec emax x (S754_zero s)) = true.
Proof.
  intros [sx|sx| |sx m e] s F V; try discriminate.
  - cbn [SFadd]. destruct (Bool.eqb sx s); cbn; auto.
  - cbn [SFadd]. auto.
Qed.

Lemma rnd_nonneg : forall x, 0 <= x -> 0 <= rnd x.
Proof.
  intros x Hx. unfold FloatFacts.rnd. rewrite <- (round_0 radix2 (SpecFloat.fexp prec emax) ZnearestE).
  apply round_le; [typeclasses eauto|typeclasses eauto|exact Hx].
Qed.

(** An integer below 2^prec is a number of the format. *)
Lemma rnd_int : forall z, (0 <= z < 2 ^ prec)%Z -> rnd (IZR z) = IZR z.
Proof.
  intros z Hz. unfold FloatFacts.rnd. apply round_generic; [typeclasses eauto|].
  apply generic_format_FLT. exists (Defs.Float radix2 z 0).
  - unfold F2R. cbn. ring.
  - cbn [Fnum]. rewrite Z.abs_eq by lia. change (radix2 ^ prec)%Z with (2 ^ prec)%Z. lia.
  - cbn [Fexp]. unfold SpecFloat.emin. lia.
Qed.

Lemma of_N_val : forall z, (0 <= z < 2 ^ prec)%Z ->
  let x := SpecFloat.binary_normalize prec emax z 0 false in val x = IZR z /\ is_finite_SF x = true /\ valid x = true.
Proof.
  intros z Hz. cbv zeta.
  assert (E : F2R (Defs.Float radix2 z 0) = IZR z) by (unfold F2R; cbn; ring).
  destruct (normalize_val prec emax Hp Hm z 0 false) as (H1 & H2 & H3).
  - rewrite E. fold (rnd (IZR z)). rewrite rnd_int by exact Hz. rewrite Rabs_pos_eq by (apply IZR_le; lia).
    apply Rlt_le_trans with (pw prec); [|apply bpow_le; red in Hm; lia].
    rewrite <- (IZR_Zpower radix2) by lia. apply IZR_lt. change (radix2 ^ prec)%Z with (2 ^ prec)%Z. lia.
  - rewrite E in H1. fold (rnd (IZR z)) in H1. rewrite rnd_int in H1 by exact Hz. auto.
Qed.

Lemma eta_small : forall eta, Rabs eta <= pw (2 - emax - prec) -> Rabs eta <= u * /1000.
Proof.
  intros eta H. eapply Rle_trans; [exact H|]. replace (2 - emax - prec)%Z with (- prec + (2 - emax))%Z by ring.
  rewrite bpow_plus. fold u. apply Rmult_le_compat_l; [apply Rlt_le, u_pos|].
  apply Rle_trans with (pw (-10)); [apply bpow_le; lia|]. rewrite pw_powerRZ. simpl. lra.
Qed.

Lemma rel_small : forall x y e, Rabs (x - y) <= e * y -> exists t, Rabs t <= e /\ x = y * (1 + t) \/ y <= 0.
Proof.
  intros x y e H. exists ((x - y) / y). destruct (Rle_or_lt y 0) as [Hy|Hy]; [right; exact Hy|left]. split.
  - unfold Rdiv. rewrite Rabs_mult, (Rabs_pos_eq (/ y)) by (apply Rlt_le, Rinv_0_lt_compat, Hy).
    apply Rmult_le_reg_r with y; [exact Hy|]. rewrite Rmult_assoc, Rinv_l, Rmult_1_r by lra. exact H.
  - field. lra.
Qed.

(** ** Scaling *)
Section Scale.
Variables (alpha : R) (A I : spec_float) (n : Z).
Context (Ha : pw (-101) <= alpha <= pw 100)
  (VA : valid A = true) (FA : is_finite_SF A = true) (VI : valid I = true) (FI : is_finite_SF I = true)
  (EA : Rabs (val A - alpha) <= 3 * u * alpha) (EI : Rabs (val I - / alpha) <= 4 * u * / alpha)
  (Hn : (1 <= n <= prec - 3)%Z).
Let P : R := pw n.

Lemma alpha_pos : 0 < alpha.
Proof. pose proof (bpow_gt_0 radix2 (-101)). lra. Qed.
Lemma P_big : 2 <= P.
Proof. change 2 with (pw 1). apply bpow_le. lia. Qed.
Lemma Pu : 8 * (P * u) <= 1.
Proof.
  unfold P, u. change 8 with (pw 3). rewrite <- !bpow_plus. change 1 with (pw 0). apply bpow_le. lia.
Qed.

(** What [set_x] computes before truncating. *)
Lemma scaled_near : forall v, valid v = true -> is_finite_SF v = true -> 0 <= val v <= alpha * P ->
  let r := SFmul prec emax v I in
  is_finite_SF r = true /\ valid r = true /\ 0 <= val r /\ Rabs (val r - val v / alpha) <= 6 * (P * u).
Proof.
  intros v Vv Fv Hv r. pose proof alpha_pos as Hal. pose proof u_pos as Hu. pose proof u_small as Hu2. pose proof P_big as HP. pose proof Pu as HPu.
  set (x := val v / alpha).
  assert (Hx : 0 <= x <= P).
  { unfold x. split.
    - apply Rmult_le_pos; [lra|]. apply Rlt_le, Rinv_0_lt_compat, Hal.
    - apply Rmult_le_reg_r with alpha; [exact Hal|]. unfold Rdiv. rewrite Rmult_assoc, Rinv_l, Rmult_1_r by lra. lra. }
  destruct (rel_small _ _ _ EI) as (t & [[Ht HI]|Hneg]); [|pose proof (Rinv_0_lt_compat _ Hal); lra].
  assert (Hprod : val v * val I = x * (1 + t)) by (rewrite HI; unfold x; field; lra).
  destruct (rnd_error prec emax Hp (val v * val I)) as (eps & eta & Heps & Heta & Hr). fold u in Heps.
  apply eta_small in Heta. rewrite Hprod in Hr.
  assert (Hdiff : Rabs (rnd (x * (1 + t)) - x) <= 6 * (P * u)).
  { rewrite Hr. replace (x * (1 + t) * (1 + eps) + eta - x) with (x * (t + eps + t * eps) + eta) by ring.
    apply Rle_trans with (x * (4 * u + u + 4 * u * u) + u * / 1000).
    - eapply Rle_trans; [apply Rabs_triang|]. apply Rplus_le_compat; [|exact Heta].
      rewrite Rabs_mult, (Rabs_pos_eq x) by lra. apply Rmult_le_compat_l; [lra|].
      eapply Rle_trans; [apply Rabs_triang|]. apply Rplus_le_compat.
      + eapply Rle_trans; [apply Rabs_triang|]. apply Rplus_le_compat; assumption.
      + rewrite Rabs_mult. apply Rmult_le_compat; try apply Rabs_pos; assumption.
    - assert (x * (4 * u + u + 4 * u * u) <= P * (4 * u + u + 4 * u * u)) by (apply Rmult_le_compat_r; nra).
      assert (P * u * u <= P * u * / 1000000) by (apply Rmult_le_compat_l; [nra|exact Hu2]). nra. }
  assert (Hpos : 0 <= rnd (x * (1 + t))).
  { apply rnd_nonneg. apply Rmult_le_pos; [lra|]. apply Rabs_le_inv in Ht. lra. }
  assert (Hlt : rnd (x * (1 + t)) < pw (n + 1)).
  { rewrite bpow_plus. change (pw 1) with 2. fold P. apply Rabs_le_inv in Hdiff. lra. }
  destruct (mul_val prec emax Hp Hm v I Vv VI Fv FI) as (M1 & M2 & M3).
  - fold (rnd (val v * val I)). rewrite Hprod, Rabs_pos_eq by exact Hpos. eapply Rlt_le_trans; [exact Hlt|]. apply bpow_le. lia.
  - fold (rnd (val v * val I)) in M1. rewrite Hprod in M1. fold r in M1, M2, M3. split; [exact M2|]. split; [exact M3|].
    rewrite M1. split; [assumption|exact Hdiff].
Qed.

Lemma scaled : forall v, valid v = true -> is_finite_SF v = true -> 0 <= val v <= alpha * (P - 1) ->
  let r := SFmul prec emax v I in
  is_finite_SF r = true /\ valid r = true /\ 0 <= val r < P /\ Rabs (val r - val v / alpha) <= 6 * (P * u).
Proof.
  intros v Vv Fv Hv r. pose proof alpha_pos as Hal. pose proof Pu as HPu. pose proof P_big as HP.
  destruct (scaled_near v Vv Fv) as (R1 & R2 & R3 & R4); [split; [lra|nra]|].
  split; [exact R1|]. split; [exact R2|]. split; [|exact R4]. split; [exact R3|].
  assert (val v / alpha <= P - 1).
  { apply Rmult_le_reg_r with alpha; [exact Hal|]. unfold Rdiv. rewrite Rmult_assoc, Rinv_l, Rmult_1_r by lra. lra. }
  apply Rabs_le_inv in R4. fold r in R4. lra.
Qed.

(** What [get_x] returns. *)
Lemma unscaled : forall z, (0 <= z < 2 ^ n)%Z -> forall q, val q = IZR z -> valid q = true -> is_finite_SF q = true ->
  let y := SFmul prec emax q A in
  is_finite_SF y = true /\ valid y = true /\ Rabs (val y - IZR z * alpha) <= 5 * u * (IZR z * alpha).
Proof.
  intros z Hz q Eq Vq Fq y. pose proof alpha_pos as Hal. pose proof u_pos as Hu. pose proof u_small as Hu2. pose proof P_big as HP.
  destruct (rel_small _ _ _ EA) as (t & [[Ht HA]|Hneg]); [|lra].
  assert (HzP : IZR z <= P).
  { unfold P. rewrite <- (IZR_Zpower radix2) by lia. apply IZR_le. change (radix2 ^ n)%Z with (2 ^ n)%Z. lia. }
  assert (Hz0 : 0 <= IZR z) by (apply IZR_le; lia).
  assert (Hrel : exists eps, Rabs eps <= u /\ rnd (val q * val A) = val q * val A * (1 + eps)).
  { destruct (Z.eq_dec z 0) as [->|Hnz].
    - exists 0. rewrite Rabs_R0, Eq, Rmult_0_l, Rmult_0_l. split; [lra|]. unfold FloatFacts.rnd. apply round_0. typeclasses eauto.
    - apply rnd_relative; [exact Hp|]. rewrite Eq. rewrite Rabs_mult, (Rabs_pos_eq (IZR z)) by exact Hz0.
      assert (1 <= IZR z) by (apply IZR_le; lia). rewrite HA.
      assert (Ht2 := Rabs_le_inv _ _ Ht). rewrite Rabs_pos_eq by (apply Rmult_le_pos; lra).
      apply Rle_trans with (pw (-102)); [apply bpow_le; lia|].
      apply Rle_trans with (1 * (alpha * (1 + t))); [|apply Rmult_le_compat_r; [apply Rmult_le_pos; lra|lra]].
      change (-102)%Z with (-101 + -1)%Z. rewrite bpow_plus. change (pw (-1)) with (/ 2).
      rewrite Rmult_1_l. apply Rmult_le_compat; try lra. apply bpow_ge_0. }
  destruct Hrel as (eps & Heps & Hr).
  assert (Hdiff : Rabs (rnd (val q * val A) - IZR z * alpha) <= 5 * u * (IZR z * alpha)).
  { rewrite Hr, Eq, HA. replace (IZR z * (alpha * (1 + t)) * (1 + eps) - IZR z * alpha) with ((t + eps + t * eps) * (IZR z * alpha)) by ring.
    rewrite Rabs_mult, (Rabs_pos_eq (IZR z * alpha)) by (apply Rmult_le_pos; lra).
    apply Rmult_le_compat_r; [apply Rmult_le_pos; lra|].
    apply Rle_trans with (3 * u + u + 3 * u * u).
    - eapply Rle_trans; [apply Rabs_triang|]. apply Rplus_le_compat.
      + eapply Rle_trans; [apply Rabs_triang|]. apply Rplus_le_compat; assumption.
      + rewrite Rabs_mult. apply Rmult_le_compat; try apply Rabs_pos; assumption.
    - nra. }
  destruct (mul_val prec emax Hp Hm q A Vq VA Fq FA) as (M1 & M2 & M3).
  - fold (rnd (val q * val A)). 
    assert (Hb : IZR z * alpha <= P * pw 100) by (apply Rmult_le_compat; lra).
    assert (Hb0 : 0 <= IZR z * alpha) by (apply Rmult_le_pos; lra).
    assert (Hb1 : Rabs (rnd (val q * val A)) <= 2 * (P * pw 100)).
    { replace (rnd (val q * val A)) with (rnd (val q * val A) - IZR z * alpha + IZR z * alpha) by ring.
      eapply Rle_trans; [apply Rabs_triang|]. rewrite (Rabs_pos_eq (IZR z * alpha)) by exact Hb0.
      assert (5 * u * (IZR z * alpha) <= 1 * (IZR z * alpha)) by (apply Rmult_le_compat_r; lra). lra. }
    eapply Rle_lt_trans; [exact Hb1|]. change 2 with (pw 1). unfold P. rewrite <- !bpow_plus. apply bpow_lt. lia.
  - fold (rnd (val q * val A)) in M1. fold y in M1, M2, M3. rewrite M1. auto.
Qed.

Lemma within : forall v z y, 0 <= v <= alpha * (P - 1) -> Rabs (IZR z - v / alpha) <= 1 + 6 * (P * u) ->
  (0 <= z < 2 ^ n)%Z -> Rabs (y - IZR z * alpha) <= 5 * u * (IZR z * alpha) ->
  Rabs (y - v) <= alpha * (1 + 11 * P * u).
Proof.
  intros v z y Hv Hz Hzn Hy. pose proof alpha_pos as Hal. pose proof u_pos as Hu.
  assert (HzP : IZR z <= P).
  { unfold P. rewrite <- (IZR_Zpower radix2) by lia. apply IZR_le. change (radix2 ^ n)%Z with (2 ^ n)%Z. lia. }
  replace (y - v) with ((y - IZR z * alpha) + (IZR z - v / alpha) * alpha) by (field; lra).
  eapply Rle_trans; [apply Rabs_triang|]. rewrite (Rabs_mult _ alpha), (Rabs_pos_eq alpha) by lra.
  assert (H1 : Rabs (IZR z - v / alpha) * alpha <= (1 + 6 * (P * u)) * alpha) by (apply Rmult_le_compat_r; lra).
  assert (H2 : 5 * u * (IZR z * alpha) <= 5 * u * (P * alpha)).
  { apply Rmult_le_compat_l; [lra|]. apply Rmult_le_compat_r; lra. }
  lra.
Qed.
End Scale.

(** ** Parameters *)
Definition lit (x : spec_float) : spec_float :=
  match x with
  | S754_finite s p e => SpecFloat.binary_normalize prec emax (if s then Zneg p else Zpos p) e s
  | _ => x
  end.
Lemma lit_val : forall a, is_finite_SF a = true -> 0 < val a -> Rabs (rnd (val a)) < pw emax ->
  val (lit a) = rnd (val a) /\ is_finite_SF (lit a) = true /\ valid (lit a) = true.
Proof.
  intros [s|s| |s m e] Fa Pa Hb; try discriminate; [cbn in Pa; lra|]. cbn [lit].
  assert (E : F2R (Defs.Float radix2 (if s then Zneg m else Zpos m) e) = val (S754_finite s m e)) by (cbn [SF2R]; destruct s; reflexivity).
  rewrite <- E in Hb |- *. apply normalize_val; assumption.
Qed.
Lemma lit_rel : forall a, is_finite_SF a = true -> pw (-102) <= val a <= pw 103 ->
  (exists e, Rabs e <= u /\ val (lit a) = val a * (1 + e)) /\ is_finite_SF (lit a) = true /\ valid (lit a) = true.
Proof.
  intros a Fa Ha. pose proof (bpow_gt_0 radix2 (-102)) as Hz. pose proof u_pos as Hu. pose proof u_small as Hu2.
  destruct (rnd_relative prec emax Hp (val a)) as (e & He1 & He2); change (- (53))%Z with (-53)%Z in *.
  { rewrite Rabs_pos_eq by lra. apply Rle_trans with (pw (-102)); [apply bpow_le; lia|lra]. }
  fold u in He1.
  destruct (lit_val a Fa) as (L1 & L2 & L3); [lra| |].
  - fold (rnd (val a)). rewrite He2, Rabs_mult, (Rabs_pos_eq (val a)) by lra.
    apply Rle_lt_trans with (pw 103 * 2).
    + apply Rmult_le_compat; [lra|apply Rabs_pos|lra|]. apply Rabs_le_inv in He1. apply Rabs_le. lra.
    + change 2 with (pw 1). rewrite <- bpow_plus. apply bpow_lt. lia.
  - split; [|auto]. exists e. split; [exact He1|]. rewrite L1. exact He2.
Qed.
End Format.

(** Truncation to an unsigned integer. *)
Lemma as_unsigned_floor : forall sz x, is_finite_SF x = true -> 0 <= val x ->
  Z.of_N (f_as_unsigned sz x) = Z.min (Zfloor (val x)) (2 ^ (8 * Z.of_nat sz) - 1).
Proof.
  intros sz x Fx Hx.
  assert (Ht : Z.of_N (tmod sz) = (2 ^ (8 * Z.of_nat sz))%Z).
  { unfold tmod. rewrite N2Z.inj_pow. f_equal. lia. }
  assert (Hpos : (0 < 2 ^ (8 * Z.of_nat sz))%Z) by (apply Z.pow_pos_nonneg; lia).
  destruct x as [s|s| |s m e]; try discriminate.
  - cbn [f_as_unsigned SF2R]. rewrite (Zfloor_IZR 0). change (Z.of_N 0) with 0%Z. clear - Hpos. lia.
  - cbn [f_as_unsigned]. destruct s.
    + exfalso. cbn [SF2R cond_Zopp] in Hx. unfold F2R in Hx. cbn [Fnum Fexp] in Hx.
      pose proof (bpow_gt_0 radix2 e). assert (IZR (- Zpos m) < 0) by (apply IZR_lt; lia). nra.
    + rewrite N2Z.inj_min, N2Z.inj_sub, Ht by (clear - Ht Hpos; lia). change (Z.of_N 1) with 1%Z. f_equal.
      cbn [SF2R cond_Zopp]. unfold F2R. cbn [Fnum Fexp]. destruct e as [|k|k].
      * cbn [bpow]. rewrite Rmult_1_r, Zfloor_IZR. reflexivity.
      * change (bpow radix2 (Zpos k)) with (IZR (2 ^ Zpos k)). rewrite <- mult_IZR, Zfloor_IZR.
        rewrite N.shiftl_mul_pow2, N2Z.inj_mul, N2Z.inj_pow. reflexivity.
      * rewrite N.shiftr_div_pow2, N2Z.inj_div, N2Z.inj_pow. change (Z.of_N (Npos m)) with (Zpos m). change (Z.of_N 2) with 2%Z.
        change (Z.of_N (Npos k)) with (Zpos k). change (bpow radix2 (Zneg k)) with (/ IZR (2 ^ Zpos k)).
        symmetry. rewrite <- (Zfloor_div (Zpos m) (2 ^ Zpos k)) by lia. reflexivity.
Qed.

(** ** The compiled parameters *)
Global Instance prec53 : Prec_gt_0 53 := eq_refl.
Global Instance prec24 : Prec_gt_0 24 := eq_refl.
Global Instance max53 : Prec_lt_emax 53 1024 := eq_refl.
Global Instance max24 : Prec_lt_emax 24 128 := eq_refl.

Lemma f64_of_N_val : forall n, (n < 2 ^ 53)%N -> val (f64_of_N n) = IZR (Z.of_N n) /\ is_finite_SF (f64_of_N n) = true /\
  SpecFloat.valid_binary 53 1024 (f64_of_N n) = true.
Proof.
  intros n Hn. destruct n as [|p]; [cbn; auto|]. unfold f64_of_N.
  apply (of_N_val 53 1024 prec53 max53); [lia|lia|]. change (2 ^ 53)%Z with (Z.of_N (2 ^ 53)). lia.
Qed.
Lemma one_val : val f64_one = 1 /\ is_finite_SF f64_one = true /\ SpecFloat.valid_binary 53 1024 f64_one = true.
Proof. apply (f64_of_N_val 1). reflexivity. Qed.

(** Dividing numbers of moderate size. *)
Lemma div_rel : forall x y q, SpecFloat.valid_binary 53 1024 x = true -> is_finite_SF x = true ->
  SpecFloat.valid_binary 53 1024 y = true -> is_finite_SF y = true -> val y <> 0 -> q = val x / val y -> pw (-200) <= q <= pw 200 ->
  (exists e, Rabs e <= pw (-53) /\ val (SFdiv 53 1024 x y) = q * (1 + e)) /\
  is_finite_SF (SFdiv 53 1024 x y) = true /\ SpecFloat.valid_binary 53 1024 (SFdiv 53 1024 x y) = true.
Proof.
  intros x y q Vx Fx Vy Fy Ny -> Hq. pose proof (bpow_gt_0 radix2 (-200)) as Hz.
  destruct (rnd_relative 53 1024 prec53 (val x / val y)) as (e & He1 & He2); change (- (53))%Z with (-53)%Z in *.
  { rewrite Rabs_pos_eq by lra. apply Rle_trans with (pw (-200)); [apply bpow_le; lia|lra]. }
  destruct (div_val 53 1024 prec53 max53 x y Vx Vy Fx Ny) as (D1 & D2 & D3).
  - rewrite He2, Rabs_mult, (Rabs_pos_eq (val x / val y)) by lra.
    apply Rle_lt_trans with (pw 200 * 2).
    + apply Rmult_le_compat; [apply Rle_trans with (pw (-200)); [apply Rlt_le, Hz|apply Hq]|apply Rabs_pos|apply Hq|].
      assert (pw (-53) <= 1) by (change 1 with (pw 0); apply bpow_le; lia).
      apply Rabs_le_inv in He1. apply Rabs_le. lra.
    + change 2 with (pw 1). rewrite <- bpow_plus. apply bpow_lt. lia.
  - split; [|auto]. exists e. split; [exact He1|]. rewrite D1. exact He2.
Qed.

Section Params.
Variables prec emax : Z.
Context (Hp : Prec_gt_0 prec) (Hm : Prec_lt_emax prec emax).
Context (Hp24 : (24 <= prec)%Z) (Hp53 : (prec <= 53)%Z) (He : (prec + 104 <= emax)%Z).
Let u : R := pw (- prec).
Lemma params : forall a alpha, SpecFloat.valid_binary 53 1024 a = true -> is_finite_SF a = true ->
  (exists d, Rabs d <= pw (-53) /\ val a = alpha * (1 + d)) -> pw (-100) <= alpha <= pw 100 ->
  let A := lit prec emax a in let I := lit prec emax (f64_div f64_one a) in
  SpecFloat.valid_binary prec emax A = true /\ is_finite_SF A = true /\
  SpecFloat.valid_binary prec emax I = true /\ is_finite_SF I = true /\
  Rabs (val A - alpha) <= 3 * u * alpha /\ Rabs (val I - / alpha) <= 4 * u * / alpha.
Proof.
  intros a alpha Va Fa (d & Hd & Ea) Hal A I.
  pose proof (bpow_gt_0 radix2 (-100)) as Hz. pose proof (u_pos prec) as Hu. pose proof (u_small prec Hp24) as Hu2. fold u in Hu, Hu2.
  assert (Hd2 : Rabs d <= u) by (eapply Rle_trans; [exact Hd|apply bpow_le; lia]). assert (Hd3 := Rabs_le_inv _ _ Hd2).
  assert (Ha : pw (-101) <= val a <= pw 101).
  { rewrite Ea. change (-101)%Z with (-100 + -1)%Z. change 101%Z with (100 + 1)%Z. rewrite !bpow_plus.
    change (pw (-1)) with (/ 2). change (pw 1) with 2. split.
    - apply Rmult_le_compat; lra.
    - apply Rmult_le_compat; lra. }
  pose proof (bpow_gt_0 radix2 (-101)) as Hz1.
  destruct (lit_rel prec emax Hp Hm Hp24 He a Fa) as ((e1 & He1 & EA) & FA & VA).
  { split; [apply Rle_trans with (pw (-101)); [apply bpow_le; lia|lra]|apply Rle_trans with (pw 101); [lra|apply bpow_le; lia]]. }
  destruct one_val as (O1 & O2 & O3).
  assert (Hinv : pw (-101) <= / val a <= pw 101).
  { change (pw (-101)) with (/ pw 101). replace (pw 101) with (/ pw (-101)) at 2 by (rewrite <- bpow_opp; reflexivity).
    split; apply Rinv_le; lra. }
  destruct (div_rel f64_one a (/ val a) O3 O2 Va Fa) as ((e2 & He2 & ED) & FD & VD).
  { lra. } { rewrite O1. unfold Rdiv. ring. }
  { split; [apply Rle_trans with (pw (-101)); [apply bpow_le; lia|lra]|apply Rle_trans with (pw 101); [lra|apply bpow_le; lia]]. }
  assert (He2' : Rabs e2 <= u) by (eapply Rle_trans; [exact He2|apply bpow_le; lia]).
  assert (He2b := Rabs_le_inv _ _ He2').
  destruct (lit_rel prec emax Hp Hm Hp24 He (f64_div f64_one a) FD) as ((e3 & He3 & EI) & FI & VI).
  { unfold f64_div. rewrite ED. change (-102)%Z with (-101 + -1)%Z. change 103%Z with (101 + 2)%Z. rewrite !bpow_plus.
    change (pw (-1)) with (/ 2). change (pw 2) with 4. split; apply Rmult_le_compat; lra. }
  fold u in He1, He3. assert (He1b := Rabs_le_inv _ _ He1). assert (He3b := Rabs_le_inv _ _ He3).
  split; [exact VA|]. split; [exact FA|]. split; [exact VI|]. split; [exact FI|]. split.
  - unfold A. rewrite EA, Ea. replace (alpha * (1 + d) * (1 + e1) - alpha) with ((d + e1 + d * e1) * alpha) by ring.
    rewrite Rabs_mult, (Rabs_pos_eq alpha) by lra. apply Rmult_le_compat_r; [lra|]. apply Rabs_le. nra.
  - unfold I. rewrite EI. unfold f64_div. rewrite ED, Ea.
    replace (/ (alpha * (1 + d)) * (1 + e2) * (1 + e3) - / alpha) with ((e2 + e3 + e2 * e3 - d) * / (1 + d) * / alpha) by (field; lra).
    rewrite Rabs_mult, (Rabs_pos_eq (/ alpha)) by (apply Rlt_le, Rinv_0_lt_compat; lra).
    apply Rmult_le_compat_r; [apply Rlt_le, Rinv_0_lt_compat; lra|].
    rewrite Rabs_mult, (Rabs_pos_eq (/ (1 + d))) by (apply Rlt_le, Rinv_0_lt_compat; lra).
    apply Rmult_le_reg_r with (1 + d); [lra|]. rewrite Rmult_assoc, Rinv_l, Rmult_1_r by lra.
    apply Rle_trans with (7 / 2 * u); [apply Rabs_le; nra|]. nra.
Qed.
End Params.
