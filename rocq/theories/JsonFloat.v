(** Proofs about the numbers of a description (C59): an integer where a float is wanted. *)

From Coq Require Import ZArith NArith Reals Psatz SpecFloat Lia.
From Flocq Require Import Core BinarySingleNaN.
From Verif Require Import Base Schema Compiler Json SpecJson FloatFacts SpecFloats FloatThms FloatView.
Local Open Scope R_scope.
Local Notation val := (SF2R radix2).
Local Notation pw := (bpow radix2).
Local Notation fx := (SpecFloat.fexp 53 1024).

Lemma f64_of_Z_val : forall z, (- 2 ^ 63 <= z < 2 ^ 63)%Z ->
  is_f64 (f64_of_Z z) /\ real_of (f64_of_Z z) = rnd 53 1024 (IZR z).
Proof.
  intros z Hz. rewrite real_val.
  assert (Hb : Rabs (rnd 53 1024 (IZR z)) < pw 1024).
  { apply Rle_lt_trans with (pw 63); [|apply bpow_lt; lia]. unfold rnd. apply abs_round_le_generic; [typeclasses eauto|typeclasses eauto| |].
    - apply generic_format_bpow. cbn. lia.
    - rewrite <- abs_IZR. change (pw 63) with (IZR (2 ^ 63)). apply IZR_le. lia. }
  destruct z as [|p|p]; cbn [f64_of_Z].
  - split; [split; [reflexivity|exact I]|]. cbn [SF2R]. unfold rnd. rewrite round_0 by typeclasses eauto. reflexivity.
  - assert (E : F2R (Defs.Float radix2 (Zpos p) 0) = IZR (Zpos p)) by (unfold F2R; cbn; ring).
    destruct (normalize_val 53 1024 prec53 max53 (Zpos p) 0 false) as (H1 & H2 & H3); [rewrite E; exact Hb|].
    rewrite E in H1. split; [split; [exact H3|apply fin_number; exact H2]|exact H1].
  - assert (E : F2R (Defs.Float radix2 (Zneg p) 0) = IZR (Zneg p)) by (unfold F2R; cbn; ring).
    destruct (normalize_val 53 1024 prec53 max53 (Zneg p) 0 true) as (H1 & H2 & H3); [rewrite E; exact Hb|].
    rewrite E in H1. split; [split; [exact H3|apply fin_number; exact H2]|exact H1].
Qed.

Lemma f64_format : forall x, is_f64 x -> generic_format radix2 fx (real_of x).
Proof. intros x (Vx & _). rewrite real_val, <- (B2R_SF2B 53 1024 x Vx). apply generic_format_B2R. Qed.

(** An integer stands for the nearest float, which is the integer itself up to 2^53. *)
Lemma integer_nearest : forall z v, is_real (JInt z) v ->
  is_f64 v /\ (forall y, is_f64 y -> Rabs (real_of v - IZR z) <= Rabs (real_of y - IZR z)) /\
  ((- 2 ^ 53 <= z <= 2 ^ 53)%Z -> real_of v = IZR z).
Proof.
  intros z v [E|(z' & E & Hz & ->)]; [discriminate|]. injection E as <-.
  destruct (f64_of_Z_val z Hz) as (H1 & H2). split; [exact H1|]. split.
  - intros y Hy. rewrite H2. apply (round_N_pt radix2 fx (fun t => negb (Z.even t)) (IZR z)). apply f64_format. exact Hy.
  - intros Hs. rewrite H2. unfold rnd. apply round_generic; [typeclasses eauto|].
    destruct (Z.eq_dec (Z.abs z) (2 ^ 53)) as [He|He].
    + assert (Hp : generic_format radix2 fx (pw 53)) by (apply generic_format_bpow; cbn; lia).
      change (pw 53) with (IZR (2 ^ 53)) in Hp.
      destruct (Z.abs_eq_or_opp z) as [Ha|Ha]; rewrite Ha in He; [rewrite He; exact Hp|].
      replace z with (- 2 ^ 53)%Z by lia. rewrite opp_IZR. apply generic_format_opp. exact Hp.
    + apply generic_format_FLT. exists (Defs.Float radix2 z 0); [unfold F2R; cbn; ring|cbn [Fnum]|cbn; lia].
      change (radix2 ^ 53)%Z with (2 ^ 53)%Z. lia.
Qed.
