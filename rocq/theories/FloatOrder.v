(** Proofs about float views (C95): every step of an accessor keeps the order. *)

From Coq Require Import ZArith NArith Reals Psatz SpecFloat List Bool Lia ZifyBool ZifyN ZifyNat.
From Flocq Require Import Core Relative BinarySingleNaN.
From Verif Require Import Base Schema Bits Codec Compiler Access SpecStruct FloatFacts SpecFloats FloatThms FloatMore FloatRange SpecFloatOrder.
Local Open Scope R_scope.
Local Notation val := (SF2R radix2).
Local Notation pw := (bpow radix2).

Lemma finite_at_most : forall x y, is_finite_SF x = true -> is_finite_SF y = true -> (at_most x y <-> val x <= val y).
Proof.
  intros x y Fx Fy. rewrite <- !real_val. destruct x as [[]|[]| |[]]; destruct y as [[]|[]| |[]]; try discriminate; reflexivity.
Qed.

Section Ops.
Variables prec emax : Z.
Context (Hp : Prec_gt_0 prec) (Hm : Prec_lt_emax prec emax).
Notation rnd := (rnd prec emax).
Notation valid := (SpecFloat.valid_binary prec emax).

(** [z] is the rounded number [r], or an infinity if that is too big. *)
Definition rounds_to (r : R) (z : spec_float) : Prop :=
  (Rabs (rnd r) < pw emax /\ is_finite_SF z = true /\ valid z = true /\ val z = rnd r) \/
  (pw emax <= rnd r /\ z = S754_infinity false) \/ (rnd r <= - pw emax /\ z = S754_infinity true).
Lemma rnd_mono : forall r r', r <= r' -> rnd r <= rnd r'.
Proof. intros r r' H. apply round_le; [apply FLT_exp_valid; exact Hp | apply valid_rnd_N | exact H]. Qed.
Lemma rnd_zero : rnd 0 = 0.
Proof. apply round_0. apply valid_rnd_N. Qed.
Lemma rounds_mono : forall r r' z z', r <= r' -> rounds_to r z -> rounds_to r' z' -> at_most z z'.
Proof.
  intros r r' z z' H Hz Hz'. apply rnd_mono in H. pose proof (bpow_gt_0 radix2 emax) as Hpos.
  destruct Hz as [(B & F & _ & V)|[(B & ->)|(B & ->)]]; destruct Hz' as [(B' & F' & _ & V')|[(B' & ->)|(B' & ->)]];
    try (apply Rabs_def2 in B); try (apply Rabs_def2 in B'); try (exfalso; lra).
  - apply finite_at_most; [assumption|assumption|lra].
  - destruct z as [[]|[]| |[]]; try discriminate F; exact I.
  - exact I.
  - destruct z' as [[]|[]| |[]]; try discriminate F'; exact I.
  - exact I.
  - exact I.
Qed.
Lemma rounds_not_nan : forall r z, rounds_to r z -> z <> S754_nan.
Proof. intros r z [(_ & F & _)|[(_ & ->)|(_ & ->)]]; try discriminate. intros ->. discriminate F. Qed.
Lemma rounds_valid : forall r z, rounds_to r z -> valid z = true.
Proof. intros r z [(_ & _ & V & _)|[(_ & ->)|(_ & ->)]]; [exact V | reflexivity | reflexivity]. Qed.

(** The sign of a number. *)
Lemma sign_val : forall x, is_finite_SF x = true -> if sign_SF x then val x <= 0 else 0 <= val x.
Proof.
  intros [s|s| |s m e] F; try discriminate F; cbn [sign_SF SF2R]; [destruct s; lra|].
  unfold F2R. cbn [Fnum Fexp]. pose proof (bpow_gt_0 radix2 e).
  destruct s; cbn [cond_Zopp]; [assert (IZR (- Zpos m) < 0) by (apply IZR_lt; lia) | assert (0 < IZR (Zpos m)) by (apply IZR_lt; lia)]; nra.
Qed.
Lemma by_sign : forall (r : R) (s : bool) z, (if s then r <= 0 else 0 <= r) -> ~ Rabs (rnd r) < pw emax -> z = S754_infinity s -> rounds_to r z.
Proof.
  intros r s z Hs Hb ->. pose proof (bpow_gt_0 radix2 emax) as Hpos. right. apply Rnot_lt_le in Hb. destruct s.
  - right. split; [|reflexivity]. apply rnd_mono in Hs. rewrite rnd_zero in Hs. rewrite Rabs_left1 in Hb by exact Hs. lra.
  - left. split; [|reflexivity]. apply rnd_mono in Hs. rewrite rnd_zero in Hs. rewrite Rabs_pos_eq in Hb by exact Hs. lra.
Qed.

Lemma mul_rounds : forall x y, valid x = true -> valid y = true -> is_finite_SF x = true -> is_finite_SF y = true ->
  rounds_to (val x * val y) (SFmul prec emax x y).
Proof.
  intros x y Vx Vy Fx Fy. destruct (Rlt_or_le (Rabs (rnd (val x * val y))) (pw emax)) as [Hb|Hb].
  - left. destruct (mul_val prec emax Hp Hm x y Vx Vy Fx Fy Hb) as (A & B & C). auto.
  - assert (E : SFmul prec emax x y = B2SF (Bmult mode_NE (SF2B x Vx) (SF2B y Vy))) by (rewrite <- mul_equiv, !B2SF_SF2B; reflexivity).
    pose proof (Bmult_correct prec emax Hp Hm mode_NE (SF2B x Vx) (SF2B y Vy)) as H.
    rewrite !B2R_SF2B in H. rewrite Rlt_bool_false in H by exact Hb.
    apply (by_sign _ (xorb (sign_SF x) (sign_SF y))).
    + pose proof (sign_val x Fx) as Sx. pose proof (sign_val y Fy) as Sy.
      destruct (sign_SF x), (sign_SF y); cbn [xorb]; nra.
    + apply Rle_not_lt. exact Hb.
    + rewrite E, H. rewrite !Bsign_SF2B. reflexivity.
Qed.
Lemma add_rounds : forall x y, valid x = true -> valid y = true -> is_finite_SF x = true -> is_finite_SF y = true ->
  rounds_to (val x + val y) (SFadd prec emax x y).
Proof.
  intros x y Vx Vy Fx Fy.
  assert (E : SFadd prec emax x y = B2SF (Bplus mode_NE (SF2B x Vx) (SF2B y Vy))) by (rewrite <- add_equiv, !B2SF_SF2B; reflexivity).
  pose proof (Bplus_correct prec emax Hp Hm mode_NE (SF2B x Vx) (SF2B y Vy)) as H.
  rewrite !is_finite_SF2B, !B2R_SF2B in H. specialize (H Fx Fy).
  destruct (Rlt_or_le (Rabs (rnd (val x + val y))) (pw emax)) as [Hb|Hb].
  - rewrite Rlt_bool_true in H by exact Hb. destruct H as (H1 & H2 & _). left. split; [exact Hb|]. rewrite E.
    split; [rewrite is_finite_SF_B2SF; exact H2|]. split; [apply valid_binary_B2SF|]. rewrite SF2R_B2SF. exact H1.
  - rewrite Rlt_bool_false in H by exact Hb. destruct H as (H1 & H2). rewrite Bsign_SF2B in H1. rewrite !Bsign_SF2B in H2.
    apply (by_sign _ (sign_SF x)).
    + pose proof (sign_val x Fx) as Sx. pose proof (sign_val y Fy) as Sy. rewrite <- H2 in Sy. destruct (sign_SF x); lra.
    + apply Rle_not_lt. exact Hb.
    + rewrite E, H1. reflexivity.
Qed.
Lemma normalize_rounds : forall m e s, rounds_to (F2R (Defs.Float radix2 m e)) (SpecFloat.binary_normalize prec emax m e s).
Proof.
  intros m e s. destruct (Rlt_or_le (Rabs (rnd (F2R (Defs.Float radix2 m e)))) (pw emax)) as [Hb|Hb].
  - left. destruct (normalize_val prec emax Hp Hm m e s Hb) as (A & B & C). auto.
  - rewrite (normalize_equiv prec emax Hp Hm).
    pose proof (binary_normalize_correct prec emax Hp Hm mode_NE m e s) as H. cbv zeta in H.
    rewrite Rlt_bool_false in H by exact Hb.
    apply (by_sign _ (Rlt_bool (F2R (Defs.Float radix2 m e)) 0)).
    + case Rlt_bool_spec; lra.
    + apply Rle_not_lt. exact Hb.
    + rewrite H. reflexivity.
Qed.

(** Multiplying by a number that is not negative, and adding a number. *)
Lemma mul_mono : forall c x y, valid c = true -> is_finite_SF c = true -> 0 <= val c -> valid x = true -> valid y = true ->
  (is_finite_SF x = true /\ is_finite_SF y = true) \/ 0 < val c ->
  at_most x y -> at_most (SFmul prec emax x c) (SFmul prec emax y c).
Proof.
  intros c x y Vc Fc Pc Vx Vy Hf H.
  destruct (is_finite_SF x) eqn:Fx; destruct (is_finite_SF y) eqn:Fy.
  - eapply rounds_mono; [|apply mul_rounds; assumption|apply mul_rounds; assumption].
    apply finite_at_most in H; [|assumption|assumption]. nra.
  - destruct Hf as [(_ & Hf)|Hc]; [discriminate Hf|]. destruct (FloatMore.positive_finite c Fc Hc) as (p & e & ->).
    destruct y as [|[]| |]; try discriminate Fy; try (destruct x as [[]|[]| |[]]; try discriminate Fx; contradiction H).
    pose proof (rounds_not_nan _ _ (mul_rounds x _ Vx Vc Fx Fc)) as Hn.
    cbn [SFmul xorb]. destruct (SFmul prec emax x _) as [[]|[]| |[]]; try exact I. contradiction Hn; reflexivity.
  - destruct Hf as [(Hf & _)|Hc]; [discriminate Hf|]. destruct (FloatMore.positive_finite c Fc Hc) as (p & e & ->).
    destruct x as [|[]| |]; try discriminate Fx; try (destruct y as [[]|[]| |[]]; try discriminate Fy; contradiction H).
    pose proof (rounds_not_nan _ _ (mul_rounds y _ Vy Vc Fy Fc)) as Hn.
    change (at_most (S754_infinity true) (SFmul prec emax y (S754_finite false p e))).
    destruct (SFmul prec emax y _) as [[]|[]| |[]]; try exact I. contradiction Hn; reflexivity.
  - destruct Hf as [(Hf & _)|Hc]; [discriminate Hf|]. destruct (FloatMore.positive_finite c Fc Hc) as (p & e & ->).
    destruct x as [|[]| |]; try discriminate Fx; destruct y as [|[]| |]; try discriminate Fy; cbn; try exact I; contradiction H.
Qed.
Lemma mul_inf_valid : forall c x, valid c = true -> is_finite_SF c = true -> valid x = true -> valid (SFmul prec emax x c) = true.
Proof.
  intros c x Vc Fc Vx. destruct (is_finite_SF x) eqn:Fx.
  - exact (rounds_valid _ _ (mul_rounds x c Vx Vc Fx Fc)).
  - destruct x; try discriminate Fx; destruct c; try discriminate Fc; reflexivity.
Qed.
Lemma add_mono : forall c x y, valid c = true -> is_finite_SF c = true -> valid x = true -> valid y = true ->
  at_most x y -> at_most (SFadd prec emax x c) (SFadd prec emax y c).
Proof.
  intros c x y Vc Fc Vx Vy H.
  assert (Inf : forall s, SFadd prec emax (S754_infinity s) c = S754_infinity s) by (intro s; destruct c; try discriminate Fc; reflexivity).
  destruct (is_finite_SF x) eqn:Fx; destruct (is_finite_SF y) eqn:Fy.
  - eapply rounds_mono; [|apply add_rounds; assumption|apply add_rounds; assumption].
    apply finite_at_most in H; [|assumption|assumption]. lra.
  - destruct y as [|[]| |]; try discriminate Fy; try (destruct x as [[]|[]| |[]]; try discriminate Fx; contradiction H).
    pose proof (rounds_not_nan _ _ (add_rounds x _ Vx Vc Fx Fc)) as Hn. rewrite Inf.
    destruct (SFadd prec emax x c) as [[]|[]| |[]]; try exact I. contradiction Hn; reflexivity.
  - destruct x as [|[]| |]; try discriminate Fx; try (destruct y as [[]|[]| |[]]; try discriminate Fy; contradiction H).
    pose proof (rounds_not_nan _ _ (add_rounds y _ Vy Vc Fy Fc)) as Hn. rewrite Inf.
    destruct (SFadd prec emax y c) as [[]|[]| |[]]; try exact I. contradiction Hn; reflexivity.
  - destruct x as [|[]| |]; try discriminate Fx; destruct y as [|[]| |]; try discriminate Fy; rewrite ?Inf; try exact I; contradiction H.
Qed.
End Ops.

(** Truncation. *)
Lemma as_unsigned_mono : forall sz x y, at_most x y -> (f_as_unsigned sz x <= f_as_unsigned sz y)%N.
Proof.
  intros sz x y H.
  assert (Low : forall z, is_finite_SF z = true -> val z < 0 -> f_as_unsigned sz z = 0%N) by (intros; apply as_unsigned_negative; assumption).
  assert (Top : forall z, (f_as_unsigned sz z <= f_as_unsigned sz (S754_infinity false))%N).
  { intros [s|[]| |[] m e]; cbn [f_as_unsigned]; lia. }
  destruct (is_finite_SF x) eqn:Fx; destruct (is_finite_SF y) eqn:Fy.
  - apply finite_at_most in H; [|assumption|assumption].
    destruct (Rlt_or_le (val x) 0) as [Hx|Hx]; [rewrite (Low x Fx Hx); lia|].
    apply N2Z.inj_le. rewrite !as_unsigned_floor by (assumption || lra). apply Zfloor_le in H. lia.
  - destruct y as [|[]| |]; try discriminate Fy; try (destruct x as [[]|[]| |[]]; try discriminate Fx; contradiction H). apply Top.
  - destruct x as [|[]| |]; try discriminate Fx; try (destruct y as [[]|[]| |[]]; try discriminate Fy; contradiction H).
    cbn [f_as_unsigned]. lia.
  - destruct x as [|[]| |]; try discriminate Fx; destruct y as [|[]| |]; try discriminate Fy; try (cbn [f_as_unsigned]; lia); contradiction H.
Qed.
