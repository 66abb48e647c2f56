(** Operations of [SpecFloat] as rounded operations on real numbers, through Flocq. *)

From Coq Require Import ZArith Reals Psatz SpecFloat.
From Flocq Require Import Core Relative BinarySingleNaN.
Local Open Scope R_scope.

Section Ops.
Variables prec emax : Z.
Context (Hp : Prec_gt_0 prec) (Hm : Prec_lt_emax prec emax).
Notation fx := (SpecFloat.fexp prec emax).
Definition rnd (x : R) : R := round radix2 fx ZnearestE x.
Notation val := (SF2R radix2).
Notation valid := (SpecFloat.valid_binary prec emax).

(** The lemmas [round_nearest_even_equiv] to [binary_normalize_equiv] of Flocq's
    PrimFloat, for any format. *)
Lemma nearest_equiv : forall s m l, round_nearest_even m l = choice_mode mode_NE s m l.
Proof. intros s m l. destruct l as [|c]; [reflexivity|]. destruct c; try reflexivity. cbn. unfold Round.cond_incr. destruct (Z.even m); reflexivity. Qed.
Lemma round_aux_equiv : forall sx mx ex lx,
  SpecFloat.binary_round_aux prec emax sx mx ex lx = binary_round_aux prec emax mode_NE sx mx ex lx.
Proof.
  intros sx mx ex lx. unfold SpecFloat.binary_round_aux, binary_round_aux.
  set (mrse' := shr_fexp _ _ _). destruct mrse' as [mrs' e']. cbn. rewrite (nearest_equiv sx). reflexivity.
Qed.
Lemma round_equiv : forall s m e, SpecFloat.binary_round prec emax s m e = binary_round prec emax mode_NE s m e.
Proof.
  intros s m e. unfold SpecFloat.binary_round, binary_round, shl_align_fexp.
  set (mez := shl_align _ _ _). destruct mez as [mz ez]. apply round_aux_equiv.
Qed.
Lemma normalize_equiv : forall m e szero,
  SpecFloat.binary_normalize prec emax m e szero = B2SF (binary_normalize prec emax Hp Hm mode_NE m e szero).
Proof.
  intros m e szero. destruct m as [|p|p]; [reflexivity| |]; simpl; rewrite B2SF_SF2B; apply round_equiv.
Qed.
Lemma mul_equiv : forall x y : binary_float prec emax, SFmul prec emax (B2SF x) (B2SF y) = B2SF (Bmult mode_NE x y).
Proof.
  intros [sx|sx| |sx mx ex Bx] [sy|sy| |sy my ey By]; try reflexivity.
  simpl. rewrite B2SF_SF2B. apply round_aux_equiv.
Qed.
Lemma div_equiv : forall x y : binary_float prec emax, SFdiv prec emax (B2SF x) (B2SF y) = B2SF (Bdiv mode_NE x y).
Proof.
  intros [sx|sx| |sx mx ex Bx] [sy|sy| |sy my ey By]; try reflexivity.
  simpl. rewrite B2SF_SF2B. set (melz := SFdiv_core_binary _ _ _ _ _ _). destruct melz as [[mz ez] lz]. apply round_aux_equiv.
Qed.

Lemma mul_val : forall x y, valid x = true -> valid y = true -> is_finite_SF x = true -> is_finite_SF y = true ->
  Rabs (rnd (val x * val y)) < bpow radix2 emax ->
  val (SFmul prec emax x y) = rnd (val x * val y) /\ is_finite_SF (SFmul prec emax x y) = true /\ valid (SFmul prec emax x y) = true.
Proof.
  intros x y Vx Vy Fx Fy Hb.
  assert (E : SFmul prec emax x y = B2SF (Bmult mode_NE (SF2B x Vx) (SF2B y Vy))) by (rewrite <- mul_equiv, !B2SF_SF2B; reflexivity).
  rewrite E.
  pose proof (Bmult_correct prec emax Hp Hm mode_NE (SF2B x Vx) (SF2B y Vy)) as H.
  rewrite !B2R_SF2B in H. rewrite Rlt_bool_true in H by exact Hb. destruct H as (H1 & H2 & _).
  rewrite !is_finite_SF2B, Fx, Fy in H2.
  rewrite <- is_finite_SF_B2SF in H2. split; [|split].
  - rewrite SF2R_B2SF, H1. reflexivity.
  - exact H2.
  - apply valid_binary_B2SF.
Qed.
Lemma div_val : forall x y, valid x = true -> valid y = true -> is_finite_SF x = true -> val y <> 0 ->
  Rabs (rnd (val x / val y)) < bpow radix2 emax ->
  val (SFdiv prec emax x y) = rnd (val x / val y) /\ is_finite_SF (SFdiv prec emax x y) = true /\ valid (SFdiv prec emax x y) = true.
Proof.
  intros x y Vx Vy Fx Ny Hb.
  assert (E : SFdiv prec emax x y = B2SF (Bdiv mode_NE (SF2B x Vx) (SF2B y Vy))) by (rewrite <- div_equiv, !B2SF_SF2B; reflexivity).
  rewrite E.
  assert (Ny' : B2R (SF2B y Vy) <> 0) by (rewrite B2R_SF2B; exact Ny).
  pose proof (Bdiv_correct prec emax Hp Hm mode_NE (SF2B x Vx) (SF2B y Vy) Ny') as H.
  rewrite !B2R_SF2B in H. rewrite Rlt_bool_true in H by exact Hb. destruct H as (H1 & H2 & _).
  rewrite is_finite_SF2B, Fx in H2.
  rewrite <- is_finite_SF_B2SF in H2. split; [|split].
  - rewrite SF2R_B2SF, H1. reflexivity.
  - exact H2.
  - apply valid_binary_B2SF.
Qed.
Lemma normalize_val : forall m e s, Rabs (rnd (F2R (Float radix2 m e))) < bpow radix2 emax ->
  let z := SpecFloat.binary_normalize prec emax m e s in
  val z = rnd (F2R (Float radix2 m e)) /\ is_finite_SF z = true /\ valid z = true.
Proof.
  intros m e s Hb. cbv zeta. rewrite normalize_equiv.
  pose proof (binary_normalize_correct prec emax Hp Hm mode_NE m e s) as H. cbv zeta in H.
  rewrite Rlt_bool_true in H by exact Hb. destruct H as (H1 & H2 & _).
  rewrite <- is_finite_SF_B2SF in H2. split; [|split].
  - rewrite SF2R_B2SF, H1. reflexivity.
  - exact H2.
  - apply valid_binary_B2SF.
Qed.

(** Rounding errors. *)
Lemma rnd_error : forall x, exists eps eta, Rabs eps <= bpow radix2 (- prec) /\
  Rabs eta <= bpow radix2 (2 - emax - prec) /\ rnd x = x * (1 + eps) + eta.
Proof.
  intros x. destruct (error_N_FLT radix2 (3 - emax - prec) prec Hp (fun t => negb (Z.even t)) x) as (eps & eta & H1 & H2 & _ & H4).
  exists eps, eta. split; [|split].
  - replace (bpow radix2 (- prec)) with (/2 * bpow radix2 (- prec + 1)); [exact H1|].
    rewrite bpow_plus. change (bpow radix2 1) with 2. field.
  - replace (bpow radix2 (2 - emax - prec)) with (/2 * bpow radix2 (3 - emax - prec)); [exact H2|].
    replace (3 - emax - prec)%Z with (2 - emax - prec + 1)%Z by ring. rewrite bpow_plus. change (bpow radix2 1) with 2. field.
  - exact H4.
Qed.
Lemma rnd_relative : forall x, bpow radix2 (2 - emax) <= Rabs x -> exists eps, Rabs eps <= bpow radix2 (- prec) /\ rnd x = x * (1 + eps).
Proof.
  intros x Hx. destruct (relative_error_N_FLT_ex radix2 (3 - emax - prec) prec Hp (fun t => negb (Z.even t)) x) as (eps & H1 & H2).
  - replace (3 - emax - prec + prec - 1)%Z with (2 - emax)%Z by ring. exact Hx.
  - exists eps. split; [|exact H2].
    replace (bpow radix2 (- prec)) with (/2 * bpow radix2 (- prec + 1)); [exact H1|].
    rewrite bpow_plus. change (bpow radix2 1) with 2. field.
Qed.
End Ops.
