(** Proofs about float views (C09): from the arithmetic to the generated accessors. *)

From Coq Require Import ZArith NArith Reals Psatz SpecFloat List Bool Lia ZifyBool ZifyN ZifyNat.
From Flocq Require Import Core Relative BinarySingleNaN.
From Verif Require Import Base Schema Bits BitsFacts Codec Compiler Access SpecStruct StructFacts StructThms ViewThms FloatFacts SpecFloats FloatThms.
Local Open Scope R_scope.
Local Notation val := (SF2R radix2).
Local Notation pw := (bpow radix2).

Definition zero (x : spec_float) : Prop := exists s, x = S754_zero s.

Section Core.
Variables (ft : fixed_type) (prec emax : Z).
Hypothesis Hft : fprec ft = (prec, emax).
Context (Hp : Prec_gt_0 prec) (Hm : Prec_lt_emax prec emax).
Context (Hp24 : (24 <= prec)%Z) (Hp53 : (prec <= 53)%Z) (He : (prec + 104 <= emax)%Z).
Let u : R := pw (- prec).
Variables (a b bi : spec_float) (alpha : R) (n : N).
Hypotheses (Va : SpecFloat.valid_binary 53 1024 a = true) (Fa : is_finite_SF a = true).
Hypothesis Ea : exists d, Rabs d <= pw (-53) /\ val a = alpha * (1 + d).
Hypothesis Hal : pw (-100) <= alpha <= pw 100.
Hypotheses (Hb : zero b) (Hbi : zero bi).
Hypothesis Hn : (1 <= Z.of_N n <= prec - 3)%Z.
Let P : R := pw (Z.of_N n).

Lemma lit_is : forall x, f_literal ft x = lit prec emax x.
Proof. intros x. unfold f_literal. rewrite Hft. reflexivity. Qed.
Lemma lit_zero : forall x, zero x -> zero (lit prec emax x).
Proof. intros x (s & ->). exists s. reflexivity. Qed.
Lemma of_raw : forall raw, (raw < 2 ^ n)%N -> val (f_of_N ft raw) = IZR (Z.of_N raw) /\
  SpecFloat.valid_binary prec emax (f_of_N ft raw) = true /\ is_finite_SF (f_of_N ft raw) = true.
Proof.
  intros raw Hr. unfold f_of_N. rewrite Hft. destruct raw as [|p]; [cbn; auto|].
  destruct (of_N_val prec emax Hp Hm Hp24 He (Zpos p)) as (H1 & H2 & H3); [|auto].
  split; [lia|]. apply Z.lt_le_trans with (2 ^ Z.of_N n)%Z; [|apply Z.pow_le_mono_r; lia].
  change (Zpos p) with (Z.of_N (Npos p)). change 2%Z with (Z.of_N 2). rewrite <- N2Z.inj_pow. lia.
Qed.

Lemma alpha_range : pw (-101) <= alpha <= pw 100.
Proof. split; [apply Rle_trans with (pw (-100)); [apply bpow_le; lia|apply Hal]|apply Hal]. Qed.

Lemma get_core : forall raw, (raw < 2 ^ n)%N -> let y := float_get ft a b raw in
  is_finite_SF y = true /\ SpecFloat.valid_binary prec emax y = true /\
  Rabs (val y - IZR (Z.of_N raw) * alpha) <= 5 * u * (IZR (Z.of_N raw) * alpha).
Proof.
  intros raw Hr y.
  destruct (params prec emax Hp Hm Hp24 Hp53 He a alpha Va Fa Ea Hal) as (VA & FA & _ & _ & EA & _).
  destruct (of_raw raw Hr) as (Q1 & Q2 & Q3).
  destruct (unscaled prec emax Hp Hm Hp24 He alpha (lit prec emax a) (Z.of_N n) alpha_range VA FA EA Hn (Z.of_N raw)) with (q := f_of_N ft raw)
    as (Y1 & Y2 & Y3); auto.
  { split; [lia|]. change 2%Z with (Z.of_N 2). rewrite <- N2Z.inj_pow. lia. }
  unfold y, float_get. rewrite !lit_is. unfold f_add, f_mul. rewrite Hft.
  destruct (lit_zero b Hb) as (s & ->).
  destruct (add_zero prec emax _ s Y1 Y2) as (Z1 & Z2 & Z3).
  split; [exact Z2|]. split; [exact Z3|]. rewrite Z1. exact Y3.
Qed.

Lemma set_core : forall sz v, (Z.of_N n <= 8 * Z.of_nat sz)%Z ->
  SpecFloat.valid_binary prec emax v = true -> is_finite_SF v = true -> 0 <= val v <= alpha * (P - 1) ->
  let raw := float_set ft sz (f64_div f64_one a) bi v in (raw < 2 ^ n)%N /\
  Rabs (val (float_get ft a b raw) - val v) <= alpha * (1 + 11 * P * u).
Proof.
  intros sz v Hsz Vv Fv Hv raw.
  destruct (params prec emax Hp Hm Hp24 Hp53 He a alpha Va Fa Ea Hal) as (_ & _ & VI & FI & _ & EI).
  destruct (scaled prec emax Hp Hm Hp24 He alpha (lit prec emax (f64_div f64_one a)) (Z.of_N n) alpha_range VI FI EI Hn v Vv Fv Hv)
    as (R1 & R2 & (R3 & R4) & R5).
  assert (Er : Z.of_N raw = Zfloor (val (SFmul prec emax v (lit prec emax (f64_div f64_one a))))).
  { unfold raw, float_set. rewrite !lit_is. unfold f_add, f_mul. rewrite Hft.
    destruct (lit_zero bi Hbi) as (s & ->).
    destruct (add_zero prec emax _ s R1 R2) as (Z1 & Z2 & Z3).
    rewrite as_unsigned_floor; [|exact Z2|rewrite Z1; exact R3]. rewrite Z1. apply Z.min_l.
    apply Z.lt_le_pred. apply lt_IZR. eapply Rle_lt_trans; [apply Zfloor_lb|].
    eapply Rlt_le_trans; [exact R4|]. change 2%Z with (radix_val radix2). rewrite IZR_Zpower by lia. apply bpow_le. exact Hsz. }
  set (r := val (SFmul prec emax v (lit prec emax (f64_div f64_one a)))) in *.
  assert (Hraw : (raw < 2 ^ n)%N).
  { apply N2Z.inj_lt. rewrite Er, N2Z.inj_pow. apply lt_IZR. eapply Rle_lt_trans; [apply Zfloor_lb|].
    change (Z.of_N 2) with (radix_val radix2). rewrite IZR_Zpower by lia. exact R4. }
  split; [exact Hraw|].
  destruct (get_core raw Hraw) as (_ & _ & Hy).
  apply (within prec alpha (Z.of_N n) alpha_range Hn (val v) (Z.of_N raw)); [exact Hv| | |exact Hy].
  - rewrite Er. pose proof (Zfloor_lb r). pose proof (Zfloor_ub r). apply Rabs_le_inv in R5. apply Rabs_le.
    unfold P. unfold u in *. lra.
  - split; [lia|]. change 2%Z with (Z.of_N 2). rewrite <- N2Z.inj_pow. lia.
Qed.
End Core.

Lemma fprec_single : forall n ty, fixed_from_model (STFloat n) = Ok ty -> fprec ty = (view_digits n, view_top n).
Proof.
  intros n ty. unfold fixed_from_model. cbn [get_simple_type get_bit_size ok_or bind simple_eqb andb map_numeric].
  unfold view_digits, view_top, single.
  destruct (N.eqb_spec n 32); [intros H; inversion H; subst; reflexivity|].
  destruct (N.eqb_spec n 64); [intros H; inversion H; subst; reflexivity|].
  rewrite orb_false_r.
  destruct (_ && _)%bool eqn:E1; [intros H; inversion H; subst; destruct (N.leb_spec n 16); [lia|reflexivity]|].
  destruct ((16 <? n) && (n <=? 32))%N eqn:E2; [intros H; inversion H; subst; destruct (N.leb_spec n 16); [lia|reflexivity]|].
  destruct ((8 <? n) && (n <=? 16))%N eqn:E3; [intros H; inversion H; subst; destruct (N.leb_spec n 16); [reflexivity|lia]|].
  destruct ((0 <? n) && (n <=? 8))%N eqn:E4; [intros H; inversion H; subst; destruct (N.leb_spec n 16); [reflexivity|lia]|].
  discriminate.
Qed.

Lemma format_facts : forall n, Prec_gt_0 (view_digits n) /\ Prec_lt_emax (view_digits n) (view_top n) /\
  (24 <= view_digits n)%Z /\ (view_digits n <= 53)%Z /\ (view_digits n + 104 <= view_top n)%Z.
Proof. intros n. unfold view_digits, view_top. destruct (single n); repeat split; lia. Qed.

Lemma number_fin : forall x, is_number x -> is_finite_SF x = true.
Proof. intros [ | | | ]; cbn; tauto || auto. Qed.
Lemma fin_number : forall x, is_finite_SF x = true -> is_number x.
Proof. intros [ | | | ]; cbn; auto; discriminate. Qed.

Section Decl.
Context {E : Type}.
(** The accessors of a field whose view is a scaling by [a] close to [alpha]. *)
Lemma scaling_view : forall m mr enums structs id d s i df f n o w a b bi alpha,
  structure_from_model m Little enums structs id d = Ok s ->
  no_overflow m structs d ->
  nth_error (ss_fields d) i = Some df ->
  sf_info df = STFloat n ->
  nth_error (s_fields s) i = Some (FFixed f) -> declared_at structs d i o w ->
  w = n -> addressable o n -> (Z.of_N n + 3 <= view_digits n)%Z ->
  ff_view f = VFloat a b (f64_div f64_one a) bi -> zero b -> zero bi ->
  is_f64 a -> (exists e, Rabs e <= pw (-53) /\ val a = alpha * (1 + e)) -> pw (-100) <= alpha <= pw 100 ->
  forall buf, (s_byte_size s <= len buf)%N -> bytes_ok buf ->
    (exists raw y, is_field_value buf o n raw /\ get_view (E:=E) mr f buf = Ok (XFloat y) /\ is_view n y /\
       Rabs (real_of y - alpha * INR (N.to_nat raw)) <= 5 * view_eps n * (alpha * INR (N.to_nat raw))) /\
    (forall v, is_view n v -> 0 <= real_of v <= alpha * (raws n - 1) ->
       exists buf' raw y, set_view (E:=E) mr f buf (XFloat v) = Ok buf' /\
         is_field_update buf o n raw buf' /\ get_view (E:=E) mr f buf' = Ok (XFloat y) /\ is_view n y /\
         Rabs (real_of y - real_of v) <= alpha * (1 + 11 * raws n * view_eps n)).
Proof.
  intros m mr enums structs id d s i df f n o w a b bi alpha H Hno Hd Hi Hf Hat Hwn Ha Hn3 Hview Hb Hbi (Va & Na) Ea Hal buf Hlen Hbuf. subst w.
  destruct (structure_nth _ _ _ _ _ _ _ _ _ H Hf) as (df' & o1 & o2 & Hd' & Hfm).
  assert (df' = df) by congruence. subst df'.
  apply scalar_shape in Hfm. rewrite Hi in Hfm. destruct Hfm as (b0 & Hb0 & Hty & _ & _). cbn in Hb0. inversion Hb0; subst b0. clear Hb0.
  assert (Hn : (0 < n <= 64)%N) by (eapply fixed_ok_bits; [eassumption|reflexivity|discriminate]).
  pose proof (fprec_single _ _ Hty) as Hft.
  destruct (format_facts n) as (Hp & Hm & Hp24 & Hp53 & He).
  assert (Hnn : (1 <= Z.of_N n <= view_digits n - 3)%Z) by lia.
  destruct (good_accessor (E:=E) m mr _ _ _ _ _ _ _ _ _ H Hno Hf Hat Hn Ha) as (ac & Hg & Hsz & Hnsz & Hget & Hset).
  assert (Hvg : forall raw, view_get (E:=E) mr f (ac_raw ac) raw = Ok (XFloat (float_get (ff_ty f) a b raw))).
  { intro raw. unfold view_get. rewrite Hview. reflexivity. }
  assert (Hcore := get_core (ff_ty f) _ _ Hft Hp Hm Hp24 Hp53 He a b alpha n Va (number_fin _ Na) Ea Hal Hb Hnn).
  assert (Hr2 : forall raw, IZR (Z.of_N raw) = INR (N.to_nat raw)).
  { intros raw. rewrite INR_IZR_INZ. f_equal. lia. }
  assert (Heps : pw (- view_digits n) = view_eps n) by apply pw_powerRZ.
  assert (HP : pw (Z.of_N n) = raws n) by apply pw_powerRZ.
  split.
  - destruct (Hget buf Hlen Hbuf) as (raw & Hr & Hrv). exists raw, (float_get (ff_ty f) a b raw).
    destruct (Hcore raw) as (Y1 & Y2 & Y3); [eapply is_field_value_bound; eassumption|].
    split; [assumption|]. split; [unfold get_view; rewrite Hg; cbn [bind]; rewrite Hr; cbn [bind]; apply Hvg|].
    split; [split; [exact Y2|apply fin_number; exact Y1]|].
    rewrite real_val, <- Hr2, <- Heps, (Rmult_comm alpha). exact Y3.
  - intros v (Vv & Nv) Hv. rewrite real_val, <- HP in Hv.
    destruct (set_core (ff_ty f) _ _ Hft Hp Hm Hp24 Hp53 He a b bi alpha n Va (number_fin _ Na) Ea Hal Hb Hbi Hnn (ac_raw ac) v)
      as (Hraw & Hy); [lia|exact Vv|apply number_fin; exact Nv|exact Hv|].
    set (raw := float_set _ _ _ _ _) in *.
    destruct (Hset buf raw Hlen Hbuf) as (b' & Hs & Hu). exists b', raw, (float_get (ff_ty f) a b raw).
    split; [unfold set_view; rewrite Hg; cbn [bind]; unfold view_set; rewrite Hview; cbn [bind]; exact Hs|]. split; [exact Hu|].
    destruct (Hcore raw Hraw) as (Y1 & Y2 & _).
    split; [|split; [split; [exact Y2|apply fin_number; exact Y1]|rewrite !real_val, <- HP, <- Heps; exact Hy]].
    assert (Hlen' : (s_byte_size s <= len b')%N) by (destruct Hu as (U1 & _); unfold len in *; lia).
    assert (Hok' : bytes_ok b') by (destruct Hu as (_ & U2 & _); assumption).
    destruct (Hget b' Hlen' Hok') as (r' & Hr' & Hrv').
    assert (r' = raw) by (eapply is_field_value_unique; [eassumption|]; rewrite <- (N.mod_small raw (2 ^ n)) by assumption; eapply field_value_update_same; eassumption). subst r'.
    unfold get_view. rewrite Hg. cbn [bind]. rewrite Hr'. cbn [bind]. apply Hvg.
Qed.
End Decl.
