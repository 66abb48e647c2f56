(** Proofs about float views (C09): ranges that start anywhere. *)

From Coq Require Import ZArith NArith Reals Psatz SpecFloat List Bool Lia ZifyBool ZifyN ZifyNat.
From Flocq Require Import Core Relative Plus_error BinarySingleNaN.
From Verif Require Import Base Schema Bits BitsFacts Codec Compiler Access SpecStruct StructFacts StructThms ViewThms
  FloatFacts SpecFloats FloatThms FloatView FloatExact FloatDecl.
Local Open Scope R_scope.
Local Notation val := (SF2R radix2).
Local Notation pw := (bpow radix2).

Section Format.
Variables prec emax : Z.
Context (Hp : Prec_gt_0 prec) (Hm : Prec_lt_emax prec emax).
Context (Hp24 : (24 <= prec)%Z) (He : (prec + 104 <= emax)%Z).
Notation rnd := (rnd prec emax).
Notation valid := (SpecFloat.valid_binary prec emax).
Notation lit := (lit prec emax).
Let u : R := pw (- prec).

Lemma add_equiv : forall x y : binary_float prec emax, SFadd prec emax (B2SF x) (B2SF y) = B2SF (Bplus mode_NE x y).
Proof.
  intros [sx|sx| |sx mx ex Bx] [sy|sy| |sy my ey By]; try reflexivity; cbn -[SpecFloat.binary_normalize binary_normalize].
  - destruct (Bool.eqb sx sy); reflexivity.
  - destruct (Bool.eqb sx sy); reflexivity.
  - apply normalize_equiv.
Qed.

(** The sum of two numbers of the format is rounded with a relative error, however small it is. *)
Lemma valid_format : forall x, valid x = true -> generic_format radix2 (SpecFloat.fexp prec emax) (val x).
Proof. intros x Vx. rewrite <- (B2R_SF2B prec emax x Vx). apply generic_format_B2R. Qed.
Lemma add_val : forall x y, valid x = true -> valid y = true -> is_finite_SF x = true -> is_finite_SF y = true ->
  Rabs (val x + val y) <= pw (emax - 1) ->
  (exists e, Rabs e <= u /\ val (SFadd prec emax x y) = (val x + val y) * (1 + e)) /\
  is_finite_SF (SFadd prec emax x y) = true /\ valid (SFadd prec emax x y) = true.
Proof.
  intros x y Vx Vy Fx Fy Hb.
  assert (E : SFadd prec emax x y = B2SF (Bplus mode_NE (SF2B x Vx) (SF2B y Vy))) by (rewrite <- add_equiv, !B2SF_SF2B; reflexivity).
  rewrite E.
  assert (Hr : exists e, Rabs e <= u /\ rnd (val x + val y) = (val x + val y) * (1 + e)).
  { destruct (FLT_plus_error_N_ex radix2 (3 - emax - prec) prec (fun t => negb (Z.even t)) (val x) (val y)) as (e & H1 & H2);
      [apply (valid_format _ Vx)|apply (valid_format _ Vy)|].
    exists e. split; [|exact H2]. eapply Rle_trans; [exact H1|].
    assert (Eu : u_ro radix2 prec = u).
    { unfold u_ro, u. rewrite bpow_plus. change (pw 1) with 2. field. }
    rewrite Eu. pose proof (u_pos prec) as Hu. fold u in Hu.
    apply Rmult_le_reg_r with (1 + u); [lra|]. unfold Rdiv. rewrite Rmult_assoc, Rinv_l by lra. nra. }
  destruct Hr as (e & He1 & He2).
  pose proof (u_small prec Hp24) as Hu2. fold u in Hu2.
  assert (Hover : Rabs (rnd (val x + val y)) < pw emax).
  { rewrite He2, Rabs_mult. replace emax with (emax - 1 + 1)%Z by ring. rewrite bpow_plus. change (pw 1) with 2.
    pose proof (bpow_gt_0 radix2 (emax - 1)). apply Rle_lt_trans with (pw (emax - 1) * (3 / 2)); [|nra].
    apply Rmult_le_compat; try apply Rabs_pos; [exact Hb|]. apply Rabs_le_inv in He1. apply Rabs_le. lra. }
  pose proof (Bplus_correct prec emax Hp Hm mode_NE (SF2B x Vx) (SF2B y Vy)) as H.
  rewrite !is_finite_SF2B, !B2R_SF2B in H. specialize (H Fx Fy).
  rewrite Rlt_bool_true in H by exact Hover. destruct H as (H1 & H2 & _).
  rewrite <- is_finite_SF_B2SF in H2. split; [|split].
  - exists e. split; [exact He1|]. rewrite SF2R_B2SF, H1. exact He2.
  - exact H2.
  - apply valid_binary_B2SF.
Qed.

(** A parameter of either sign. *)
Lemma lit_any : forall a, is_finite_SF a = true -> val a = 0 \/ pw (-100) <= Rabs (val a) <= pw 100 ->
  (exists e, Rabs e <= u /\ val (lit a) = val a * (1 + e)) /\ is_finite_SF (lit a) = true /\ valid (lit a) = true.
Proof.
  intros a Fa Ha. pose proof (u_pos prec) as Hu. pose proof (u_small prec Hp24) as Hu2. fold u in Hu, Hu2.
  assert (Hr : exists e, Rabs e <= u /\ rnd (val a) = val a * (1 + e)).
  { destruct Ha as [->|Ha].
    - exists 0. rewrite Rabs_R0, Rmult_0_l. split; [lra|]. unfold FloatFacts.rnd. apply round_0. typeclasses eauto.
    - apply rnd_relative; [exact Hp|]. eapply Rle_trans; [|apply Ha]. apply bpow_le. lia. }
  destruct Hr as (e & He1 & He2).
  assert (Hbig : Rabs (val a) <= pw 100).
  { destruct Ha as [->|Ha]; [rewrite Rabs_R0; apply bpow_ge_0|apply Ha]. }
  assert (Hover : Rabs (rnd (val a)) < pw emax).
  { rewrite He2, Rabs_mult. apply Rle_lt_trans with (pw 100 * 2).
    - apply Rmult_le_compat; try apply Rabs_pos; [exact Hbig|]. apply Rabs_le_inv in He1. apply Rabs_le. lra.
    - change 2 with (pw 1). rewrite <- bpow_plus. apply bpow_lt. lia. }
  destruct a as [s|s| |s m x]; try discriminate.
  - cbn [FloatThms.lit]. split; [|auto]. exists 0. cbn. rewrite Rabs_R0. split; [lra|ring].
  - cbn [FloatThms.lit].
    assert (E : F2R (Defs.Float radix2 (if s then Zneg m else Zpos m) x) = val (S754_finite s m x)) by (cbn [SF2R]; destruct s; reflexivity).
    destruct (normalize_val prec emax Hp Hm (if s then Zneg m else Zpos m) x s) as (N1 & N2 & N3); [rewrite E; exact Hover|].
    split; [|auto]. exists e. split; [exact He1|]. rewrite N1, E. exact He2.
Qed.
End Format.

Lemma val_opp : forall x, val (SFopp x) = - val x.
Proof. intros [s|s| |s m e]; cbn [SFopp SF2R]; try ring. destruct s; cbn [negb cond_Zopp]; rewrite <- F2R_Zopp; reflexivity. Qed.
Lemma fin_opp : forall x, is_finite_SF (SFopp x) = is_finite_SF x.
Proof. intros [s|s| |s m e]; reflexivity. Qed.
Lemma as_unsigned_negative : forall sz x, is_finite_SF x = true -> val x < 0 -> f_as_unsigned sz x = 0%N.
Proof.
  intros sz [s|s| |s m e] Fx Hx; try discriminate; [cbn in Hx; lra|]. cbn [f_as_unsigned]. destruct s; [reflexivity|].
  exfalso. cbn [SF2R cond_Zopp] in Hx. unfold F2R in Hx. cbn [Fnum Fexp] in Hx.
  pose proof (bpow_gt_0 radix2 e). assert (0 < IZR (Zpos m)) by (apply IZR_lt; lia). nra.
Qed.
Lemma Rabs_sum : forall x y a b, Rabs x <= a -> Rabs y <= b -> Rabs (x + y) <= a + b.
Proof. intros x y a b Hx Hy. eapply Rle_trans; [apply Rabs_triang|]. lra. Qed.

Section Core.
Variables (ft : fixed_type) (prec emax : Z).
Hypothesis Hft : fprec ft = (prec, emax).
Context (Hp : Prec_gt_0 prec) (Hm : Prec_lt_emax prec emax).
Context (Hp24 : (24 <= prec)%Z) (Hp53 : (prec <= 53)%Z) (He : (prec + 104 <= emax)%Z).
Let u : R := pw (- prec).
Variables (a b : spec_float) (alpha : R) (n : N).
Hypotheses (Va : SpecFloat.valid_binary 53 1024 a = true) (Fa : is_finite_SF a = true).
Hypothesis Ea : exists d, Rabs d <= pw (-53) /\ val a = alpha * (1 + d).
Hypothesis Hal : pw (-100) <= alpha <= pw 100.
Hypotheses (Fb : is_finite_SF b = true) (Hb : val b = 0 \/ pw (-100) <= Rabs (val b) <= pw 100).
Hypothesis Hn : (1 <= Z.of_N n <= prec - 4)%Z.
Let P : R := pw (Z.of_N n).
Let beta : R := val b.

Lemma Hn3 : (1 <= Z.of_N n <= prec - 3)%Z.
Proof. lia. Qed.
Lemma range_get : forall raw, (raw < 2 ^ n)%N -> let y := float_get ft a b raw in
  is_finite_SF y = true /\ SpecFloat.valid_binary prec emax y = true /\
  Rabs (val y - (IZR (Z.of_N raw) * alpha + beta)) <= 7 * u * (IZR (Z.of_N raw) * alpha + Rabs beta).
Proof.
  intros raw Hr y.
  pose proof (u_pos prec) as Hu. pose proof (u_small prec Hp24) as Hu2. fold u in Hu, Hu2.
  assert (Har : pw (-101) <= alpha <= pw 100) by (split; [apply Rle_trans with (pw (-100)); [apply bpow_le; lia|apply Hal]|apply Hal]).
  destruct (params prec emax Hp Hm Hp24 Hp53 He a alpha Va Fa Ea Hal) as (VA & FA & _ & _ & EA & _).
  destruct (of_raw ft prec emax Hft Hp Hm Hp24 He a n Hn3 raw Hr) as (Q1 & Q2 & Q3).
  destruct (unscaled prec emax Hp Hm Hp24 He alpha (lit prec emax a) (Z.of_N n) Har VA FA EA Hn3 (Z.of_N raw)) with (q := f_of_N ft raw)
    as (Y1 & Y2 & Y3); auto.
  { split; [lia|]. change 2%Z with (Z.of_N 2). rewrite <- N2Z.inj_pow. lia. }
  fold u in Y3. set (p := SFmul prec emax (f_of_N ft raw) (lit prec emax a)) in *.
  set (rs := IZR (Z.of_N raw) * alpha) in *.
  destruct (lit_any prec emax Hp Hm Hp24 He b Fb Hb) as ((e & He1 & EL) & FL & VL). fold u in He1.
  fold beta in EL.
  assert (Hal0 : 0 < alpha) by (pose proof (bpow_gt_0 radix2 (-100)); lra).
  assert (HzP : 0 <= IZR (Z.of_N raw) <= P).
  { split; [apply IZR_le; lia|]. unfold P. rewrite <- (IZR_Zpower radix2) by lia. apply IZR_le.
    change (radix2 ^ Z.of_N n)%Z with (Z.of_N 2 ^ Z.of_N n)%Z. rewrite <- N2Z.inj_pow. lia. }
  assert (Hrs : 0 <= rs <= P * pw 100).
  { unfold rs. split; [apply Rmult_le_pos; lra|]. apply Rmult_le_compat; lra. }
  assert (Hbb : 0 <= Rabs beta <= pw 100).
  { split; [apply Rabs_pos|]. unfold beta. destruct Hb as [->|H]; [rewrite Rabs_R0; apply bpow_ge_0|apply H]. }
  assert (Hs : Rabs (val p + val (lit prec emax b) - (rs + beta)) <= 5 * u * rs + u * Rabs beta).
  { replace (val p + val (lit prec emax b) - (rs + beta)) with ((val p - rs) + e * beta) by (rewrite EL; ring).
    apply Rabs_sum; [exact Y3|]. rewrite Rabs_mult. apply Rmult_le_compat_r; [apply Rabs_pos|exact He1]. }
  assert (Hs2 : Rabs (val p + val (lit prec emax b)) <= 2 * (rs + Rabs beta)).
  { replace (val p + val (lit prec emax b)) with ((val p + val (lit prec emax b) - (rs + beta)) + (rs + beta)) by ring.
    eapply Rle_trans; [apply Rabs_sum; [exact Hs|apply Rabs_sum; [apply Rle_refl|apply Rle_refl]]|].
    rewrite (Rabs_pos_eq rs) by lra. nra. }
  assert (Hs3 : Rabs (val p + val (lit prec emax b)) <= (1 + 5 * u) * rs + (1 + u) * Rabs beta).
  { replace (val p + val (lit prec emax b)) with ((val p + val (lit prec emax b) - (rs + beta)) + (rs + beta)) by ring.
    eapply Rle_trans; [apply Rabs_sum; [exact Hs|apply Rabs_sum; [apply Rle_refl|apply Rle_refl]]|].
    rewrite (Rabs_pos_eq rs) by lra. lra. }
  destruct (add_val prec emax Hp Hm Hp24 p (lit prec emax b) Y2 VL Y1 FL) as ((e2 & He2 & EY) & FY & VY).
  { eapply Rle_trans; [exact Hs2|].
    assert (1 <= P) by (unfold P; change 1 with (pw 0); apply bpow_le; lia).
    assert (rs + Rabs beta <= 2 * (P * pw 100)).
    { assert (1 * pw 100 <= P * pw 100) by (apply Rmult_le_compat_r; [apply bpow_ge_0|assumption]). lra. }
    apply Rle_trans with (pw 2 * (P * pw 100)); [change (pw 2) with 4; lra|].
    unfold P. rewrite <- !bpow_plus. apply bpow_le. lia. }
  fold u in He2.
  assert (Ey : y = SFadd prec emax p (lit prec emax b)).
  { unfold y, float_get. rewrite !(lit_is ft prec emax Hft). unfold f_add, f_mul. rewrite Hft. reflexivity. }
  rewrite Ey. split; [exact FY|]. split; [exact VY|]. rewrite EY.
  replace ((val p + val (lit prec emax b)) * (1 + e2) - (rs + beta)) with
    ((val p + val (lit prec emax b) - (rs + beta)) + (val p + val (lit prec emax b)) * e2) by ring.
  eapply Rle_trans; [apply Rabs_sum; [exact Hs|rewrite Rabs_mult; apply Rmult_le_compat; [apply Rabs_pos|apply Rabs_pos|exact Hs3|exact He2]]|].
  assert (u * u * rs <= / 1000000 * (u * rs)) by (rewrite Rmult_assoc; apply Rmult_le_compat_r; nra).
  assert (u * u * Rabs beta <= / 1000000 * (u * Rabs beta)) by (rewrite Rmult_assoc; apply Rmult_le_compat_r; nra).
  nra.
Qed.

Lemma range_set : forall sz v, (Z.of_N n <= 8 * Z.of_nat sz)%Z ->
  SpecFloat.valid_binary prec emax v = true -> is_finite_SF v = true -> 0 <= val v <= alpha * P ->
  0 <= val v / alpha - beta <= P - 1 ->
  let raw := float_set ft sz (f64_div f64_one a) (SFopp b) v in (raw < 2 ^ n)%N /\
  Rabs (IZR (Z.of_N raw) - (val v / alpha - beta)) <= 1 + 8 * (P * u).
Proof.
  intros sz v Hsz Vv Fv Hv Ht raw.
  pose proof (u_pos prec) as Hu. pose proof (u_small prec Hp24) as Hu2. fold u in Hu, Hu2.
  assert (Har : pw (-101) <= alpha <= pw 100) by (split; [apply Rle_trans with (pw (-100)); [apply bpow_le; lia|apply Hal]|apply Hal]).
  assert (Hal0 : 0 < alpha) by (pose proof (bpow_gt_0 radix2 (-100)); lra).
  destruct (params prec emax Hp Hm Hp24 Hp53 He a alpha Va Fa Ea Hal) as (_ & _ & VI & FI & _ & EI).
  destruct (scaled_near prec emax Hp Hm Hp24 He alpha (lit prec emax (f64_div f64_one a)) (Z.of_N n) Har VI FI EI Hn3 v Vv Fv Hv)
    as (R1 & R2 & R3 & R4). fold u P in R4.
  set (x := SFmul prec emax v (lit prec emax (f64_div f64_one a))) in *.
  assert (HPu : 16 * (P * u) <= 1).
  { unfold P, u. change 16 with (pw 4). rewrite <- !bpow_plus. change 1 with (pw 0). apply bpow_le. lia. }
  assert (HP2 : 2 <= P) by (unfold P; change 2 with (pw 1); apply bpow_le; lia).
  set (q := val v / alpha) in *.
  assert (Hq : 0 <= q <= P).
  { unfold q. split.
    - apply Rmult_le_pos; [lra|]. apply Rlt_le, Rinv_0_lt_compat, Hal0.
    - apply Rmult_le_reg_r with alpha; [exact Hal0|]. unfold Rdiv. rewrite Rmult_assoc, Rinv_l, Rmult_1_r by lra. lra. }
  assert (Hbeta : Rabs beta <= P) by (apply Rabs_le; lra).
  destruct (lit_any prec emax Hp Hm Hp24 He (SFopp b)) as ((e & He1 & EL) & FL & VL).
  { rewrite fin_opp. exact Fb. } { rewrite val_opp, Rabs_Ropp. destruct Hb as [->|H]; [left; ring|right; exact H]. }
  rewrite val_opp in EL. fold u in He1. fold beta in EL.
  set (l := lit prec emax (SFopp b)) in *.
  assert (Hs : Rabs (val x + val l - (q - beta)) <= 7 * (P * u)).
  { replace (val x + val l - (q - beta)) with ((val x - q) + e * - beta) by (rewrite EL; ring).
    replace (7 * (P * u)) with (6 * (P * u) + u * P) by ring. apply Rabs_sum; [exact R4|].
    rewrite Rabs_mult, Rabs_Ropp. apply Rmult_le_compat; try apply Rabs_pos; assumption. }
  assert (Hs2 : Rabs (val x + val l) <= P) by (apply Rabs_le_inv in Hs; apply Rabs_le; lra).
  destruct (add_val prec emax Hp Hm Hp24 x l R2 VL R1 FL) as ((e2 & He2 & EZ) & FZ & VZ).
  { eapply Rle_trans; [exact Hs2|]. unfold P. apply bpow_le. lia. }
  fold u in He2. set (z := SFadd prec emax x l) in *.
  assert (Hz : Rabs (val z - (q - beta)) <= 8 * (P * u)).
  { rewrite EZ. replace ((val x + val l) * (1 + e2) - (q - beta)) with ((val x + val l - (q - beta)) + (val x + val l) * e2) by ring.
    replace (8 * (P * u)) with (7 * (P * u) + P * u) by ring. apply Rabs_sum; [exact Hs|].
    rewrite Rabs_mult. apply Rmult_le_compat; try apply Rabs_pos; assumption. }
  assert (Hzb := Rabs_le_inv _ _ Hz).
  assert (Ez : raw = f_as_unsigned sz z).
  { unfold raw, float_set. rewrite !(lit_is ft prec emax Hft). unfold f_add, f_mul. rewrite Hft. reflexivity. }
  destruct (Rlt_or_le (val z) 0) as [Hneg|Hpos].
  - rewrite Ez, (as_unsigned_negative sz z FZ Hneg). split; [apply pow2_pos|]. change (IZR (Z.of_N 0)) with 0. apply Rabs_le. lra.
  - assert (Hlt : val z < P) by lra.
    assert (Er : Z.of_N raw = Zfloor (val z)).
    { rewrite Ez, as_unsigned_floor; [|exact FZ|exact Hpos]. apply Z.min_l.
      apply Z.lt_le_pred. apply lt_IZR. eapply Rle_lt_trans; [apply Zfloor_lb|].
      eapply Rlt_le_trans; [exact Hlt|]. change 2%Z with (radix_val radix2). rewrite IZR_Zpower by lia. apply bpow_le. exact Hsz. }
    split.
    + apply N2Z.inj_lt. rewrite Er, N2Z.inj_pow. apply lt_IZR. eapply Rle_lt_trans; [apply Zfloor_lb|].
      change (Z.of_N 2) with (radix_val radix2). rewrite IZR_Zpower by lia. exact Hlt.
    + rewrite Er. pose proof (Zfloor_lb (val z)). pose proof (Zfloor_ub (val z)). apply Rabs_le. lra.
Qed.

Lemma range_set_get : forall sz v, (Z.of_N n <= 8 * Z.of_nat sz)%Z ->
  SpecFloat.valid_binary prec emax v = true -> is_finite_SF v = true -> 0 <= val v <= alpha * P ->
  0 <= val v / alpha - beta <= P - 1 ->
  let raw := float_set ft sz (f64_div f64_one a) (SFopp b) v in
  Rabs (val (float_get ft a b raw) - (val v + beta * (1 - alpha))) <= alpha * (1 + 15 * P * u) + 7 * u * Rabs beta.
Proof.
  intros sz v Hsz Vv Fv Hv Ht raw.
  pose proof (u_pos prec) as Hu. fold u in Hu.
  assert (Hal0 : 0 < alpha) by (pose proof (bpow_gt_0 radix2 (-100)); lra).
  destruct (range_set sz v Hsz Vv Fv Hv Ht) as (Hraw & Hr). fold raw in Hraw, Hr.
  destruct (range_get raw Hraw) as (_ & _ & Hy). set (y := val (float_get ft a b raw)) in *. set (r := IZR (Z.of_N raw)) in *.
  assert (HrP : 0 <= r <= P).
  { unfold r. split; [apply IZR_le; lia|]. unfold P. rewrite <- (IZR_Zpower radix2) by lia. apply IZR_le.
    change (radix2 ^ Z.of_N n)%Z with (Z.of_N 2 ^ Z.of_N n)%Z. rewrite <- N2Z.inj_pow. lia. }
  replace (y - (val v + beta * (1 - alpha))) with ((y - (r * alpha + beta)) + (r - (val v / alpha - beta)) * alpha) by (field; lra).
  eapply Rle_trans; [apply Rabs_sum; [exact Hy|rewrite Rabs_mult, (Rabs_pos_eq alpha) by lra; apply Rmult_le_compat_r; [lra|exact Hr]]|].
  assert (u * (r * alpha) <= u * (P * alpha)) by (apply Rmult_le_compat_l; [lra|apply Rmult_le_compat_r; lra]).
  lra.
Qed.
End Core.

Section View.
Context {E : Type}.
Lemma range_view : forall m mr enums structs id d s i df f n o w lo hi step,
  structure_from_model m Little enums structs id d = Ok s ->
  no_overflow m structs d ->
  nth_error (ss_fields d) i = Some df ->
  sf_info df = STFloat n -> sf_view df = Some (SVFloatRange lo hi) ->
  nth_error (s_fields s) i = Some (FFixed f) -> declared_at structs d i o w ->
  w = n -> addressable o n -> (Z.of_N n + 4 <= view_digits n)%Z ->
  is_f64 lo -> is_f64 hi -> real_of lo = 0 \/ moderate (Rabs (real_of lo)) ->
  step = real_of hi / (raws n - 1) -> moderate step ->
  forall buf, (s_byte_size s <= len buf)%N -> bytes_ok buf ->
    (exists raw y, is_field_value buf o n raw /\ get_view (E:=E) mr f buf = Ok (XFloat y) /\ is_view n y /\
       Rabs (real_of y - (real_of lo + step * INR (N.to_nat raw))) <= 7 * view_eps n * (Rabs (real_of lo) + step * INR (N.to_nat raw))) /\
    (forall v, is_view n v -> 0 <= real_of v <= step * raws n -> 0 <= real_of v / step - real_of lo <= raws n - 1 ->
       exists buf' raw y, set_view (E:=E) mr f buf (XFloat v) = Ok buf' /\ is_field_update buf o n raw buf' /\
         (raw < 2 ^ n)%N /\ Rabs (INR (N.to_nat raw) - (real_of v / step - real_of lo)) <= 1 + 8 * raws n * view_eps n /\
         get_view (E:=E) mr f buf' = Ok (XFloat y) /\ is_view n y /\
         Rabs (real_of y - (real_of v + real_of lo * (1 - step))) <= step * (1 + 15 * raws n * view_eps n) + 7 * view_eps n * Rabs (real_of lo)).
Proof.
  intros m mr enums structs id d s i df f n o w lo hi step H Hno Hd Hi Hv Hf Hat Hw Ha Hn4 (Vl & Nl) Hhi Hlo Hstep Hmod buf Hlen Hbuf. subst w.
  destruct (format_facts n) as (Hp & Hm & Hp24 & Hp53 & He).
  assert (Hn64 : (0 < n)%N).
  { destruct (float_shape m enums structs id d s i df f n H Hd Hi Hf) as (Hty & _). eapply fixed_ok_bits; [eassumption|reflexivity|discriminate]. }
  assert (Hnn : (1 <= Z.of_N n <= view_digits n - 4)%Z) by lia.
  assert (Hsh := range_shape m enums structs id d s i df f n H Hd Hi Hf lo hi Hv ltac:(lia)).
  destruct (float_accessors (E:=E) m enums structs id d s i df f n H Hd Hi Hf mr o Hno Hat Ha _ _ _ _ Hsh) as (_ & Hft & sz & Hsz & Hacc).
  destruct (range_param hi n Hhi) as ((Va & Na) & Ea); [lia|rewrite <- Hstep; exact Hmod|]. rewrite <- Hstep in Ea.
  set (a := f64_div hi (f64_of_N (2 ^ n - 1))) in *. apply pw_range in Hmod.
  assert (Hb : val lo = 0 \/ pw (-100) <= Rabs (val lo) <= pw 100).
  { rewrite <- real_val. destruct Hlo as [Hz|Hz]; [left; exact Hz|right; apply pw_range; exact Hz]. }
  assert (Hg := range_get (ff_ty f) _ _ Hft Hp Hm Hp24 Hp53 He a lo step n Va (number_fin _ Na) Ea Hmod (number_fin _ Nl) Hb Hnn).
  assert (Hr2 : forall raw, IZR (Z.of_N raw) = INR (N.to_nat raw)).
  { intros raw. rewrite INR_IZR_INZ. f_equal. lia. }
  assert (HP : pw (Z.of_N n) = raws n) by apply pw_powerRZ.
  assert (Heps : pw (- view_digits n) = view_eps n) by apply pw_powerRZ.
  split.
  - destruct (Hacc buf Hlen Hbuf) as ((raw & Hrv & Hlt & Hget) & _). destruct (Hg raw Hlt) as (Y1 & Y2 & Y3).
    exists raw, (float_get (ff_ty f) a lo raw). split; [exact Hrv|]. split; [exact Hget|].
    split; [split; [exact Y2|apply fin_number; exact Y1]|]. rewrite !real_val, <- Hr2, <- Heps.
    rewrite (Rplus_comm (val lo)), (Rplus_comm (Rabs (val lo))), (Rmult_comm step). exact Y3.
  - intros v (Vv & Nv) Hv1 Hv2. rewrite !real_val, <- HP in Hv1. rewrite !real_val, <- HP in Hv2.
    assert (Hszz : (Z.of_N n <= 8 * Z.of_nat sz)%Z) by lia.
    destruct (range_set (ff_ty f) _ _ Hft Hp Hm Hp24 Hp53 He a lo step n Va (number_fin _ Na) Ea Hmod (number_fin _ Nl) Hb Hnn sz v
      Hszz Vv (number_fin _ Nv) Hv1 Hv2) as (Hlt & Hraw).
    assert (Hy := range_set_get (ff_ty f) _ _ Hft Hp Hm Hp24 Hp53 He a lo step n Va (number_fin _ Na) Ea Hmod (number_fin _ Nl) Hb Hnn sz v
      Hszz Vv (number_fin _ Nv) Hv1 Hv2). cbv zeta in Hy.
    destruct (Hacc buf Hlen Hbuf) as (_ & Hset). destruct (Hset v) as (buf' & Hs1 & Hu).
    set (raw := float_set _ _ _ _ _) in *.
    destruct (update_kept s _ _ _ _ _ Hlen Hu) as (Hlen' & Hbuf').
    destruct (Hacc buf' Hlen' Hbuf') as ((raw' & Hrv & _ & Hget) & _).
    assert (raw' = raw) by (eapply update_value; eassumption). subst raw'.
    destruct (Hg raw Hlt) as (Y1 & Y2 & _).
    exists buf', raw, (float_get (ff_ty f) a lo raw).
    split; [exact Hs1|]. split; [exact Hu|]. split; [exact Hlt|].
    split; [rewrite !real_val, <- Hr2, <- HP, <- Heps, Rmult_assoc; exact Hraw|].
    split; [exact Hget|]. split; [split; [exact Y2|apply fin_number; exact Y1]|].
    rewrite !real_val, <- HP, <- Heps. exact Hy.
Qed.

(** The ends of the range: raw 0 stands for the minimum, the largest raw value for the sum of both bounds. *)
Lemma range_ends : forall m mr enums structs id d s i df f n o w lo hi step,
  structure_from_model m Little enums structs id d = Ok s ->
  no_overflow m structs d ->
  nth_error (ss_fields d) i = Some df ->
  sf_info df = STFloat n -> sf_view df = Some (SVFloatRange lo hi) ->
  nth_error (s_fields s) i = Some (FFixed f) -> declared_at structs d i o w ->
  w = n -> addressable o n -> (Z.of_N n + 4 <= view_digits n)%Z ->
  is_f64 lo -> is_f64 hi -> real_of lo = 0 \/ moderate (Rabs (real_of lo)) ->
  step = real_of hi / (raws n - 1) -> moderate step ->
  forall buf, (s_byte_size s <= len buf)%N -> bytes_ok buf ->
    (is_field_value buf o n 0 -> exists y, get_view (E:=E) mr f buf = Ok (XFloat y) /\
       Rabs (real_of y - real_of lo) <= 7 * view_eps n * Rabs (real_of lo)) /\
    (is_field_value buf o n (2 ^ n - 1) -> exists y, get_view (E:=E) mr f buf = Ok (XFloat y) /\
       Rabs (real_of y - (real_of lo + real_of hi)) <= 7 * view_eps n * (Rabs (real_of lo) + real_of hi) /\
       (7 * view_eps n * (Rabs (real_of lo) + real_of hi) < Rabs (real_of lo) -> real_of y <> real_of hi)).
Proof.
  intros m mr enums structs id d s i df f n o w lo hi step H Hno Hd Hi Hv Hf Hat Hw Ha Hn4 Hl Hhi Hlo Hstep Hmod buf Hlen Hbuf.
  destruct (range_view m mr enums structs id d s i df f n o w lo hi step H Hno Hd Hi Hv Hf Hat Hw Ha Hn4 Hl Hhi Hlo Hstep Hmod buf Hlen Hbuf)
    as ((raw & y & Hrv & Hg & _ & Hy) & _).
  assert (Hn0 : (0 < n)%N).
  { destruct (float_shape m enums structs id d s i df f n H Hd Hi Hf) as (Hty & _). eapply fixed_ok_bits; [eassumption|reflexivity|discriminate]. }
  split; intros Hf0.
  - exists y. split; [exact Hg|]. rewrite (is_field_value_unique _ _ _ _ _ Hrv Hf0) in Hy. cbn [N.to_nat INR] in Hy.
    rewrite Rmult_0_r, !Rplus_0_r in Hy. exact Hy.
  - exists y. split; [exact Hg|]. rewrite (is_field_value_unique _ _ _ _ _ Hrv Hf0) in Hy.
    assert (Er : INR (N.to_nat (2 ^ n - 1)) = raws n - 1).
    { rewrite INR_IZR_INZ, N_nat_Z. pose proof (pow2_pos n). rewrite N2Z.inj_sub by lia. rewrite minus_IZR. f_equal. rewrite N2Z.inj_pow.
      change (Z.of_N 2) with (radix_val radix2). rewrite IZR_Zpower by lia. apply pw_powerRZ. }
    assert (2 <= raws n).
    { unfold raws. rewrite <- pw_powerRZ. change 2 with (pw 1). apply bpow_le. lia. }
    assert (Es : step * INR (N.to_nat (2 ^ n - 1)) = real_of hi) by (rewrite Er, Hstep; field; lra).
    rewrite Es in Hy. split; [exact Hy|]. intros Hbig Heq. rewrite Heq in Hy.
    replace (real_of hi - (real_of lo + real_of hi)) with (- real_of lo) in Hy by ring. rewrite Rabs_Ropp in Hy. lra.
Qed.

Lemma range_write_back : forall m mr enums structs id d s i df f n o w lo hi step,
  structure_from_model m Little enums structs id d = Ok s ->
  no_overflow m structs d ->
  nth_error (ss_fields d) i = Some df ->
  sf_info df = STFloat n -> sf_view df = Some (SVFloatRange lo hi) ->
  nth_error (s_fields s) i = Some (FFixed f) -> declared_at structs d i o w ->
  w = n -> addressable o n -> (Z.of_N n + 4 <= view_digits n)%Z ->
  is_f64 lo -> is_f64 hi -> real_of lo = 0 \/ moderate (Rabs (real_of lo)) ->
  step = real_of hi / (raws n - 1) -> moderate step ->
  forall buf, (s_byte_size s <= len buf)%N -> bytes_ok buf ->
    exists raw y, is_field_value buf o n raw /\ get_view (E:=E) mr f buf = Ok (XFloat y) /\
      (0 <= real_of y <= step * raws n -> 0 <= real_of y / step - real_of lo <= raws n - 1 ->
       exists buf' raw', set_view (E:=E) mr f buf (XFloat y) = Ok buf' /\ is_field_update buf o n raw' buf' /\ (raw' < 2 ^ n)%N /\
         Rabs (INR (N.to_nat raw') - (INR (N.to_nat raw) + real_of lo * (1 - step) / step))
           <= 1 + 8 * raws n * view_eps n + 7 * view_eps n * (Rabs (real_of lo) / step + INR (N.to_nat raw))).
Proof.
  intros m mr enums structs id d s i df f n o w lo hi step H Hno Hd Hi Hv Hf Hat Hw Ha Hn4 Hl Hhi Hlo Hstep Hmod buf Hlen Hbuf.
  destruct (range_view m mr enums structs id d s i df f n o w lo hi step H Hno Hd Hi Hv Hf Hat Hw Ha Hn4 Hl Hhi Hlo Hstep Hmod buf Hlen Hbuf)
    as ((raw & y & Hrv & Hg & Iy & Hy) & Hset).
  exists raw, y. split; [exact Hrv|]. split; [exact Hg|]. intros Hy1 Hy2.
  destruct (Hset y Iy Hy1 Hy2) as (buf' & raw' & y' & Hs & Hu & Hlt & Hr & _). exists buf', raw'.
  split; [exact Hs|]. split; [exact Hu|]. split; [exact Hlt|].
  assert (Hp : 0 < step) by (pose proof (powerRZ_lt 2 (-100) ltac:(lra)); unfold moderate in Hmod; lra).
  set (a := INR (N.to_nat raw')) in *. set (r := INR (N.to_nat raw)) in *.
  replace (a - (r + real_of lo * (1 - step) / step))
    with ((a - (real_of y / step - real_of lo)) + (real_of y - (real_of lo + step * r)) / step) by (field; lra).
  eapply Rle_trans; [apply Rabs_triang|]. apply Rplus_le_compat; [exact Hr|].
  unfold Rdiv. rewrite Rabs_mult, (Rabs_pos_eq (/ step)) by (apply Rlt_le, Rinv_0_lt_compat; exact Hp).
  apply Rmult_le_reg_r with step; [exact Hp|]. rewrite Rmult_assoc, Rinv_l, Rmult_1_r by lra.
  eapply Rle_trans; [exact Hy|]. apply Req_le. field. lra.
Qed.
End View.
