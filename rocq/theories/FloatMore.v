(** Proofs about float views: writing back what was read, and values outside the range (C09, C58). *)

From Coq Require Import ZArith NArith Reals Psatz SpecFloat List Bool Lia ZifyBool ZifyN ZifyNat.
From Flocq Require Import Core Relative BinarySingleNaN.
From Verif Require Import Base Schema Bits BitsFacts Codec Compiler Access SpecStruct StructFacts StructThms ViewThms
  FloatFacts SpecFloats FloatThms FloatView FloatExact FloatDecl.
Local Open Scope R_scope.
Local Notation val := (SF2R radix2).
Local Notation pw := (bpow radix2).

Section Core.
Variables (ft : fixed_type) (prec emax : Z).
Hypothesis Hft : fprec ft = (prec, emax).
Context (Hp : Prec_gt_0 prec) (Hm : Prec_lt_emax prec emax).
Context (Hp24 : (24 <= prec)%Z) (Hp53 : (prec <= 53)%Z) (He : (prec + 104 <= emax)%Z).
Let u : R := pw (- prec).
Variables (a b bi : spec_float) (alpha : R) (n : N).
Hypotheses (Va : SpecFloat.valid_binary 53 1024 a = true) (Fa : is_finite_SF a = true).
Hypothesis Ea : exists d, Rabs d <= pw (-53) /\ val a = alpha * (1 + d).
Hypothesis Hal : pw (-100) <= alpha <= pw 100.
Hypotheses (Hb : zero b) (Hbi : zero bi).
Hypothesis Hn : (1 <= Z.of_N n <= prec - 4)%Z.
Let P : R := pw (Z.of_N n).

Lemma back_core : forall sz raw, (Z.of_N n <= 8 * Z.of_nat sz)%Z -> (raw < 2 ^ n)%N ->
  let raw' := float_set ft sz (f64_div f64_one a) bi (float_get ft a b raw) in raw' = raw \/ (raw' + 1)%N = raw.
Proof.
  intros sz raw Hsz Hr raw'. assert (Hn3 : (1 <= Z.of_N n <= prec - 3)%Z) by lia.
  assert (Hapos : 0 < alpha) by (pose proof (bpow_gt_0 radix2 (-100)); lra).
  assert (Hu : 0 < u) by apply bpow_gt_0.
  assert (HPu : 16 * (P * u) <= 1).
  { unfold P, u. change 16 with (pw 4). rewrite <- !bpow_plus. change 1 with (pw 0). apply bpow_le. lia. }
  destruct (get_core ft prec emax Hft Hp Hm Hp24 Hp53 He a b alpha n Va Fa Ea Hal Hb Hn3 raw Hr) as (Y1 & Y2 & Y3).
  set (y := float_get ft a b raw) in *. set (z := IZR (Z.of_N raw)) in *. fold u in Y3.
  assert (Hz : 0 <= z <= P - 1).
  { unfold z. split; [apply IZR_le; lia|]. unfold P. rewrite <- IZR_Zpower by lia. rewrite <- minus_IZR. apply IZR_le.
    change (radix_val radix2) with (Z.of_N 2). rewrite <- N2Z.inj_pow. lia. }
  assert (HzPu : z * u <= P * u) by (apply Rmult_le_compat_r; lra).
  assert (Hya : Rabs (val y / alpha - z) <= 5 * (P * u)).
  { replace (val y / alpha - z) with ((val y - z * alpha) * / alpha) by (field; lra).
    rewrite Rabs_mult, (Rabs_pos_eq (/ alpha)) by (apply Rlt_le, Rinv_0_lt_compat; lra).
    apply Rmult_le_reg_r with alpha; [exact Hapos|]. rewrite Rmult_assoc, Rinv_l, Rmult_1_r by lra.
    eapply Rle_trans; [exact Y3|]. nra. }
  assert (Hyv : 0 <= val y <= alpha * P).
  { apply Rabs_le_inv in Hya. split.
    - apply Rabs_le_inv in Y3. assert (z * alpha * (1 - 5 * u) >= 0) by (apply Rle_ge, Rmult_le_pos; [apply Rmult_le_pos; lra|]; nra). nra.
    - replace (val y) with (alpha * (val y / alpha)) by (field; lra). apply Rmult_le_compat_l; [lra|]. lra. }
  destruct (params prec emax Hp Hm Hp24 Hp53 He a alpha Va Fa Ea Hal) as (_ & _ & VI & FI & _ & EI).
  destruct (scaled_near prec emax Hp Hm Hp24 He alpha (lit prec emax (f64_div f64_one a)) (Z.of_N n) ltac:(eapply alpha_range; eassumption) VI FI EI Hn3 y Y2 Y1 Hyv)
    as (R1 & R2 & R3 & R4). fold P u in R4.
  set (r := SFmul prec emax y (lit prec emax (f64_div f64_one a))) in *.
  assert (Hrz : z - 1 < val r < z + 1) by (apply Rabs_le_inv in Hya; apply Rabs_le_inv in R4; lra).
  assert (Er : Z.of_N raw' = Zfloor (val r)).
  { unfold raw', float_set. rewrite !(lit_is ft prec emax Hft). unfold f_add, f_mul. rewrite Hft. fold r.
    destruct (lit_zero prec emax bi Hbi) as (s & ->).
    destruct (add_zero prec emax _ s R1 R2) as (Z1 & Z2 & Z3).
    rewrite as_unsigned_floor; [|exact Z2|rewrite Z1; exact R3]. rewrite Z1. apply Z.min_l.
    apply Z.lt_le_pred. apply lt_IZR. eapply Rle_lt_trans; [apply Zfloor_lb|].
    apply Rlt_le_trans with P; [lra|]. change 2%Z with (radix_val radix2). rewrite IZR_Zpower by lia. apply bpow_le. exact Hsz. }
  pose proof (Zfloor_lb (val r)) as F1. pose proof (Zfloor_ub (val r)) as F2. rewrite <- Er in F1, F2.
  assert (G1 : IZR (Z.of_N raw') < IZR (Z.of_N raw + 1)) by (rewrite plus_IZR; fold z; lra).
  assert (G2 : IZR (Z.of_N raw - 2) < IZR (Z.of_N raw')) by (rewrite minus_IZR; fold z; lra).
  apply lt_IZR in G1. apply lt_IZR in G2. lia.
Qed.
End Core.

(** ** Values outside the range *)
Definition nonpos (x : spec_float) : Prop :=
  match x with S754_zero _ | S754_nan | S754_infinity true | S754_finite true _ _ => True | _ => False end.
Definition nonneg (x : spec_float) : Prop :=
  match x with S754_zero false | S754_infinity false | S754_finite false _ _ => True | _ => False end.
Lemma nonpos_zero : forall sz x, nonpos x -> f_as_unsigned sz x = 0%N.
Proof. intros sz [s|s| |s p e]; cbn; try destruct s; tauto || reflexivity. Qed.
Lemma nonpos_add : forall prec emax x s, nonpos x -> nonpos (SFadd prec emax x (S754_zero s)).
Proof. intros prec emax [sx|sx| |sx p e] s Hx; cbn in *; try destruct sx; try destruct s; cbn; tauto. Qed.
Lemma round_aux_sign : forall prec emax s m e l, let z := SpecFloat.binary_round_aux prec emax s m e l in
  z = S754_zero s \/ z = S754_infinity s \/ (exists p k, z = S754_finite s p k) \/ z = S754_nan.
Proof.
  intros prec emax s m e l z. unfold z, SpecFloat.binary_round_aux. destruct (shr_fexp _ _ _ _ _) as [mrs' e'].
  destruct (shr_fexp _ _ _ _ _) as [mrs'' e'']. destruct (shr_m mrs''); [auto| |auto].
  destruct (_ <=? _)%Z; [|auto]. right. right. left. eauto.
Qed.
Lemma mul_nonpos : forall prec emax v x, below_zero v \/ v = S754_nan -> nonneg x -> nonpos (SFmul prec emax v x).
Proof.
  intros prec emax v x [Hv| ->] Hx; [|destruct x as [[]|[]| |[] p e]; cbn in *; tauto].
  destruct v as [[]|[]| |[] p e]; cbn in Hv; try contradiction; destruct x as [[]|[]| |[] q k]; cbn in *; try tauto.
  match goal with |- context[SpecFloat.binary_round_aux ?a ?b ?c ?d ?e ?f] => destruct (round_aux_sign a b c d e f) as [-> | [-> | [(r & t & ->) | ->]]] end; exact I.
Qed.

Lemma positive_finite : forall x, is_finite_SF x = true -> 0 < val x -> exists p e, x = S754_finite false p e.
Proof.
  intros [s|s| |s p e] F Hx; try discriminate; [cbn in Hx; lra|]. destruct s; [exfalso|eauto].
  cbn in Hx. assert (F2R (Defs.Float radix2 (Zneg p) e) < 0) by (apply F2R_lt_0; reflexivity). lra.
Qed.

Section Views.
Context {E : Type}.

Lemma write_back : forall m mr enums structs id d s i df f n o w view step,
  structure_from_model m Little enums structs id d = Ok s ->
  no_overflow m structs d ->
  nth_error (ss_fields d) i = Some df ->
  sf_info df = STFloat n -> sf_view df = Some view ->
  nth_error (s_fields s) i = Some (FFixed f) -> declared_at structs d i o w ->
  w = n -> addressable o n -> (Z.of_N n + 4 <= view_digits n)%Z ->
  scaled_by n view step -> moderate step ->
  forall buf, (s_byte_size s <= len buf)%N -> bytes_ok buf ->
    exists raw y raw' buf', is_field_value buf o n raw /\ get_view (E:=E) mr f buf = Ok (XFloat y) /\
      set_view (E:=E) mr f buf (XFloat y) = Ok buf' /\ is_field_update buf o n raw' buf' /\
      (raw' = raw \/ (raw' + 1)%N = raw).
Proof.
  intros m mr enums structs id d s i df f n o w view step H Hno Hd Hi Hv Hf Hat Hw Ha Hn Hs Hr buf Hlen Hbuf. subst w.
  destruct (scaled_shape m enums structs id d s i df f n view step H Hd Hi Hv Hf) as (a & b & bi & Hsh & Hb & Hbi & (Va & Na) & Ea); [lia|exact Hs|exact Hr|].
  destruct (float_accessors (E:=E) m enums structs id d s i df f n H Hd Hi Hf mr o Hno Hat Ha _ _ _ _ Hsh)
    as (Hn64 & Hft & sz & Hsz & Hacc).
  destruct (format_facts n) as (Hp & Hm & Hp24 & Hp53 & He).
  destruct (Hacc buf Hlen Hbuf) as ((raw & Hrv & Hlt & Hget) & Hset).
  destruct (Hset (float_get (ff_ty f) a b raw)) as (buf' & Hs1 & Hu).
  exists raw, (float_get (ff_ty f) a b raw), (float_set (ff_ty f) sz (f64_div f64_one a) bi (float_get (ff_ty f) a b raw)), buf'.
  split; [exact Hrv|]. split; [exact Hget|]. split; [exact Hs1|]. split; [exact Hu|].
  apply (back_core (ff_ty f) _ _ Hft Hp Hm Hp24 Hp53 He a b bi step n Va (number_fin _ Na) Ea); [apply pw_range; exact Hr|assumption|assumption|lia|lia|exact Hlt].
Qed.

Lemma outside : forall m mr enums structs id d s i df f n o w view step,
  structure_from_model m Little enums structs id d = Ok s ->
  no_overflow m structs d ->
  nth_error (ss_fields d) i = Some df ->
  sf_info df = STFloat n -> sf_view df = Some view ->
  nth_error (s_fields s) i = Some (FFixed f) -> declared_at structs d i o w ->
  w = n -> addressable o n -> (Z.of_N n + 3 <= view_digits n)%Z ->
  scaled_by n view step -> moderate step ->
  forall buf, (s_byte_size s <= len buf)%N -> bytes_ok buf ->
    (forall v, below_zero v \/ v = S754_nan ->
      exists buf', set_view (E:=E) mr f buf (XFloat v) = Ok buf' /\ is_field_update buf o n 0 buf') /\
    (exists buf', set_view (E:=E) mr f buf (XFloat (S754_infinity false)) = Ok buf' /\ is_field_update buf o n (2 ^ n - 1) buf').
Proof.
  intros m mr enums structs id d s i df f n o w view step H Hno Hd Hi Hv Hf Hat Hw Ha Hn Hs Hr buf Hlen Hbuf. subst w.
  destruct (scaled_shape m enums structs id d s i df f n view step H Hd Hi Hv Hf) as (a & b & bi & Hsh & Hb & Hbi & (Va & Na) & Ea); [lia|exact Hs|exact Hr|].
  destruct (float_accessors (E:=E) m enums structs id d s i df f n H Hd Hi Hf mr o Hno Hat Ha _ _ _ _ Hsh)
    as (Hn64 & Hft & sz & Hsz & Hacc).
  destruct (format_facts n) as (Hp & Hm & Hp24 & Hp53 & He). assert (Hr' := pw_range _ Hr).
  destruct (params (view_digits n) (view_top n) Hp Hm Hp24 Hp53 He a step Va (number_fin _ Na) Ea Hr') as (_ & _ & VI & FI & _ & EI).
  assert (Hpos : 0 < val (lit (view_digits n) (view_top n) (f64_div f64_one a))).
  { pose proof (bpow_gt_0 radix2 (-100)) as Hz. assert (Hinv : 0 < / step) by (apply Rinv_0_lt_compat; lra).
    pose proof (u_small (view_digits n) Hp24) as Hu. apply Rabs_le_inv in EI. nra. }
  destruct (positive_finite _ FI Hpos) as (p & e & EI2). destruct Hbi as (sb & ->).
  destruct (Hacc buf Hlen Hbuf) as (_ & Hset). split.
  - intros v Hv0. destruct (Hset v) as (buf' & Hs1 & Hu). exists buf'. split; [exact Hs1|].
    replace (float_set (ff_ty f) sz (f64_div f64_one a) (S754_zero sb) v) with 0%N in Hu; [exact Hu|]. symmetry.
    unfold float_set. rewrite !(lit_is _ _ _ Hft), EI2. unfold f_add, f_mul. rewrite Hft. cbn [lit].
    apply nonpos_zero, nonpos_add, mul_nonpos; [exact Hv0|exact I].
  - destruct (Hset (S754_infinity false)) as (buf' & Hs1 & Hu). exists buf'. split; [exact Hs1|].
    replace (float_set (ff_ty f) sz (f64_div f64_one a) (S754_zero sb) (S754_infinity false)) with (tmod sz - 1)%N in Hu.
    + destruct Hu as (U1 & U2 & U3). split; [exact U1|]. split; [exact U2|]. intros j. rewrite U3.
      destruct ((o <=? j) && (j <? o + n))%N eqn:Ej; [|reflexivity].
      unfold tmod.
      replace (2 ^ (8 * N.of_nat sz) - 1)%N with (N.ones (8 * N.of_nat sz)) by (rewrite N.ones_equiv; lia).
      replace (2 ^ n - 1)%N with (N.ones n) by (rewrite N.ones_equiv; lia).
      rewrite !N.ones_spec_low by lia. reflexivity.
    + unfold float_set. rewrite !(lit_is _ _ _ Hft), EI2. unfold f_add, f_mul. rewrite Hft. reflexivity.
Qed.
End Views.
