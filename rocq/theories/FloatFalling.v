(** Views with a negative step (C95): the raw values run the other way. *)

From Coq Require Import ZArith NArith Reals Psatz SpecFloat List Bool Lia ZifyBool ZifyN ZifyNat.
From Flocq Require Import Core Relative BinarySingleNaN.
From Verif Require Import Base Schema Bits BitsFacts Codec Compiler Access SpecStruct StructFacts StructThms ViewThms
  FloatFacts SpecFloats FloatThms FloatView FloatExact FloatDecl FloatMore FloatRange SpecFloatOrder FloatOrder FloatOrderView.
Local Open Scope R_scope.
Local Notation val := (SF2R radix2).
Local Notation pw := (bpow radix2).

(** ** Changing the sign *)
Lemma opp_twice : forall x, SFopp (SFopp x) = x.
Proof. intros [[]|[]| |[] m e]; reflexivity. Qed.
Lemma opp_number : forall x, is_number x -> is_number (SFopp x).
Proof. intros [s|s| |s m e] H; exact H. Qed.
Lemma opp_valid : forall prec emax x, SpecFloat.valid_binary prec emax x = true -> SpecFloat.valid_binary prec emax (SFopp x) = true.
Proof. intros prec emax [s|s| |s m e] H; exact H. Qed.
Lemma round_aux_opp : forall prec emax s m e l,
  SpecFloat.binary_round_aux prec emax (negb s) m e l = SFopp (SpecFloat.binary_round_aux prec emax s m e l).
Proof.
  intros prec emax s m e l. unfold SpecFloat.binary_round_aux. destruct (SpecFloat.shr_fexp prec emax m e l) as [[m' ? ?] e'].
  destruct (SpecFloat.shr_fexp prec emax _ e' SpecFloat.loc_Exact) as [[m'' ? ?] e'']. destruct (SpecFloat.shr_m _); try reflexivity.
  destruct (_ <=? _)%Z; reflexivity.
Qed.
Lemma div_opp_l : forall x y, f64_div (SFopp x) y = SFopp (f64_div x y).
Proof.
  intros [s|s| |s m e] [s'|s'| |s' m' e']; unfold f64_div; cbn [SFdiv SFopp]; try reflexivity; try (destruct s, s'; reflexivity).
  destruct (SpecFloat.SFdiv_core_binary _ _ _ _ _ _) as [[mz ez] lz]. rewrite <- round_aux_opp. f_equal. destruct s, s'; reflexivity.
Qed.
Lemma div_opp_r : forall x y, f64_div x (SFopp y) = SFopp (f64_div x y).
Proof.
  intros [s|s| |s m e] [s'|s'| |s' m' e']; unfold f64_div; cbn [SFdiv SFopp]; try reflexivity; try (destruct s, s'; reflexivity).
  destruct (SpecFloat.SFdiv_core_binary _ _ _ _ _ _) as [[mz ez] lz]. rewrite <- round_aux_opp. f_equal. destruct s, s'; reflexivity.
Qed.
Lemma at_most_opp : forall x y, at_most x y -> at_most (SFopp y) (SFopp x).
Proof.
  intros x y H. destruct (is_finite_SF x) eqn:Fx; destruct (is_finite_SF y) eqn:Fy.
  - apply finite_at_most in H; [|assumption|assumption]. apply finite_at_most; [rewrite fin_opp; assumption|rewrite fin_opp; assumption|]. rewrite !val_opp. lra.
  - destruct x as [[]|[]| |[]]; try discriminate Fx; destruct y as [|[]| |]; try discriminate Fy; try exact I; contradiction H.
  - destruct x as [|[]| |]; try discriminate Fx; destruct y as [[]|[]| |[]]; try discriminate Fy; try exact I; contradiction H.
  - destruct x as [|[]| |]; try discriminate Fx; destruct y as [|[]| |]; try discriminate Fy; try exact I; contradiction H.
Qed.

Section Format.
Variables (prec emax : Z).
Context (Hp : Prec_gt_0 prec) (Hm : Prec_lt_emax prec emax).
Context (Hp24 : (24 <= prec)%Z) (Hp53 : (prec <= 53)%Z) (He : (prec + 104 <= emax)%Z).
Notation rnd := (rnd prec emax).
Notation valid := (SpecFloat.valid_binary prec emax).
Notation rounds := (rounds_to prec emax).

Lemma mul_opp : forall x y, SFmul prec emax x (SFopp y) = SFopp (SFmul prec emax x y).
Proof.
  intros [s|s| |s m e] [s'|s'| |s' m' e']; cbn [SFmul SFopp]; try reflexivity; try (destruct s, s'; reflexivity).
  rewrite <- round_aux_opp. f_equal. destruct s, s'; reflexivity.
Qed.
Lemma lit_opp_rounds : forall a, is_finite_SF a = true -> 0 <= val a <= pw 104 ->
  is_finite_SF (lit prec emax (SFopp a)) = true /\ valid (lit prec emax (SFopp a)) = true /\ val (lit prec emax (SFopp a)) = - rnd (val a).
Proof.
  intros a Fa Ba. assert (Fo : is_finite_SF (SFopp a) = true) by (rewrite fin_opp; exact Fa).
  destruct (rounds_small prec emax Hp Hp24 He (val (SFopp a)) _ 104%Z ltac:(lia) (lit_rounds prec emax Hp Hm (SFopp a) Fo)) as (F & V & Ev).
  { rewrite val_opp, Rabs_Ropp, Rabs_pos_eq; lra. }
  split; [exact F|]. split; [exact V|]. rewrite Ev, val_opp. apply rnd_opp.
Qed.
Lemma mul_anti : forall c x y, valid c = true -> is_finite_SF c = true -> val c <= 0 -> valid x = true -> valid y = true ->
  (is_finite_SF x = true /\ is_finite_SF y = true) \/ val c < 0 ->
  at_most x y -> at_most (SFmul prec emax y c) (SFmul prec emax x c).
Proof.
  intros c x y Vc Fc Pc Vx Vy Hf H. rewrite <- (opp_twice c). rewrite (mul_opp y (SFopp c)), (mul_opp x (SFopp c)). apply at_most_opp.
  apply (mul_mono prec emax Hp Hm); try assumption; [apply opp_valid; exact Vc|rewrite fin_opp; exact Fc|rewrite val_opp; lra|].
  destruct Hf as [Hf|Hf]; [left; exact Hf|right; rewrite val_opp; lra].
Qed.

Section Accessor.
Variables (ft : fixed_type) (a b : spec_float).
Hypothesis Hft : fprec ft = (prec, emax).
Hypotheses (Fa : is_finite_SF a = true) (Fb : is_finite_SF b = true) (Ha : 0 <= val a <= pw 104) (Hb : Rabs (val b) <= pw 104).

Lemma get_anti : forall raw raw', (raw <= raw')%N -> (raw' < 2 ^ 64)%N -> at_most (float_get ft (SFopp a) b raw') (float_get ft (SFopp a) b raw).
Proof.
  intros raw raw' Hle Hlt. unfold float_get. rewrite !(lit_is ft prec emax Hft). unfold f_add, f_mul. rewrite Hft.
  destruct (lit_opp_rounds a Fa Ha) as (Fa' & Va' & Ea').
  destruct (rounds_small prec emax Hp Hp24 He _ _ 104%Z ltac:(lia) (lit_rounds prec emax Hp Hm b Fb) Hb) as (Fb' & Vb' & _).
  assert (Hin : forall x, (x < 2 ^ 64)%N -> Rabs (IZR (Z.of_N x)) <= pw 104).
  { intros x Hx. rewrite Rabs_pos_eq by (apply IZR_le; lia). apply Rle_trans with (pw 64); [|apply bpow_le; lia].
    change (pw 64) with (IZR (2 ^ 64)). apply IZR_le. lia. }
  pose proof (of_N_rounds prec emax Hp Hm ft raw Hft) as Q. pose proof (of_N_rounds prec emax Hp Hm ft raw' Hft) as Q'.
  destruct (rounds_small prec emax Hp Hp24 He _ _ 104%Z ltac:(lia) Q (Hin raw ltac:(lia))) as (F & V & _).
  destruct (rounds_small prec emax Hp Hp24 He _ _ 104%Z ltac:(lia) Q' (Hin raw' Hlt)) as (F' & V' & _).
  apply (add_mono prec emax Hp Hm); auto using mul_inf_valid.
  apply mul_anti; auto.
  - rewrite Ea'. assert (0 <= rnd (val a)); [|lra]. rewrite <- (rnd_zero prec emax). apply (rnd_mono prec emax Hp). apply Ha.
  - apply (rounds_mono prec emax Hp _ _ _ _ (IZR_le (Z.of_N raw) (Z.of_N raw') ltac:(lia)) Q Q').
Qed.
Lemma set_anti : forall sz v v', pw (-101) <= val a -> valid v = true -> valid v' = true -> at_most v v' ->
  (float_set ft sz (SFopp a) b v' <= float_set ft sz (SFopp a) b v)%N.
Proof.
  intros sz v v' Hlow Vv Vv' H. unfold float_set. rewrite !(lit_is ft prec emax Hft). unfold f_add, f_mul. rewrite Hft.
  destruct (lit_opp_rounds a Fa Ha) as (Fa' & Va' & Ea').
  destruct (rounds_small prec emax Hp Hp24 He _ _ 104%Z ltac:(lia) (lit_rounds prec emax Hp Hm b Fb) Hb) as (Fb' & Vb' & _).
  assert (Hneg : val (lit prec emax (SFopp a)) < 0).
  { rewrite Ea'. apply (rnd_mono prec emax Hp) in Hlow. rewrite (rnd_pw prec emax Hp24 He) in Hlow by lia. pose proof (bpow_gt_0 radix2 (-101)). lra. }
  apply as_unsigned_mono. apply (add_mono prec emax Hp Hm); auto using mul_inf_valid.
  apply mul_anti; auto. lra.
Qed.
End Accessor.
End Format.

(** ** The compiled parameters *)
Lemma stepped_falling : forall m enums structs id d s i df f n view lo step,
  structure_from_model m Little enums structs id d = Ok s ->
  nth_error (ss_fields d) i = Some df -> sf_info df = STFloat n -> sf_view df = Some view ->
  nth_error (s_fields s) i = Some (FFixed f) ->
  stepped n view lo step -> 0 <= - step <= powerRZ 2 100 -> Rabs lo <= powerRZ 2 100 ->
  exists a b bi, ff_view f = VFloat (SFopp a) b (SFopp (f64_div f64_one a)) bi /\
    is_finite_SF a = true /\ 0 <= val a <= pw 104 /\ is_finite_SF b = true /\ Rabs (val b) <= pw 104 /\
    is_finite_SF bi = true /\ Rabs (val bi) <= pw 104 /\
    (moderate (- step) -> is_finite_SF (f64_div f64_one a) = true /\ pw (-101) <= val (f64_div f64_one a) <= pw 104).
Proof.
  intros m enums structs id d s i df f n view lo step H Hd Hi Hv Hf Hs Hstep Hlo.
  assert (Hn64 : (0 < n <= 64)%N).
  { destruct (float_shape m enums structs id d s i df f n H Hd Hi Hf) as (Hty & _). eapply fixed_ok_bits; [eassumption|reflexivity|discriminate]. }
  rewrite <- pw_powerRZ in Hstep, Hlo.
  assert (Hup : pw 100 <= pw 104) by (apply bpow_le; lia).
  destruct one_val as (O1 & O2 & O3).
  assert (Inv : forall a, is_f64 a -> pw (-101) <= val a <= pw 101 ->
    is_finite_SF (f64_div f64_one a) = true /\ pw (-101) <= val (f64_div f64_one a) <= pw 104).
  { intros a (Va & Na) Ha. pose proof (bpow_gt_0 radix2 (-101)) as Hz.
    assert (H1 : pw (-101) <= 1 / val a <= pw 101).
    { split.
      - apply Rmult_le_reg_r with (val a); [lra|]. replace (1 / val a * val a) with 1 by (field; lra).
        apply Rle_trans with (pw (-101) * pw 101); [apply Rmult_le_compat_l; lra|]. rewrite <- bpow_plus. cbn. lra.
      - apply Rmult_le_reg_r with (val a); [lra|]. replace (1 / val a * val a) with 1 by (field; lra).
        apply Rle_trans with (pw 101 * pw (-101)); [rewrite <- bpow_plus; cbn; lra|]. apply Rmult_le_compat_l; [apply bpow_ge_0|lra]. }
    destruct (div_between f64_one a (-101) 101 O3 Va O2) as ((V & N) & (B1 & B2) & B3); [lra|lia|rewrite O1; lra|].
    split; [apply number_fin; exact N|]. split; [apply B3; [lia|rewrite O1; lra]|].
    apply Rle_trans with (pw 101); [exact B2|apply bpow_le; lia]. }
  destruct view as [name|minimum maximum|mult]; [contradiction| |].
  - destruct Hs as ((Vl & Nl) & (Vh & Nh) & Hn & -> & ->). rewrite real_val in Hlo.
    apply opp_valid in Vh. apply opp_number in Nh.
    destruct (largest_raw n) as (VD & HD); [lia|]. cbv zeta in VD, HD. set (D := f64_of_N (2 ^ n - 1)) in *.
    assert (Hpn : pw (Z.of_N n) = 2 * pw (Z.of_N n - 1)) by (replace (Z.of_N n) with (1 + (Z.of_N n - 1))%Z at 1 by lia; rewrite bpow_plus; reflexivity).
    assert (H1 : 1 <= pw (Z.of_N n - 1)) by (change 1 with (pw 0); apply bpow_le; lia).
    assert (Hraw : raws n = pw (Z.of_N n)) by (unfold raws; symmetry; apply pw_powerRZ). rewrite Hraw in *.
    rewrite real_val in *. replace (- (val maximum / (pw (Z.of_N n) - 1))) with (val (SFopp maximum) / (pw (Z.of_N n) - 1)) in * by (rewrite val_opp; unfold Rdiv; ring). set (h := val (SFopp maximum)) in *. set (q := pw (Z.of_N n - 1)) in *. rewrite Hpn in *.
    assert (HhE : h = h / (2 * q - 1) * (2 * q - 1)) by (field; lra).
    set (st := h / (2 * q - 1)) in *.
    assert (Hq : 0 <= h / val D <= pw 101).
    { split; [apply Rmult_le_pos; [rewrite HhE; apply Rmult_le_pos; lra|apply Rlt_le, Rinv_0_lt_compat; lra]|].
      apply Rmult_le_reg_r with (val D); [lra|]. replace (h / val D * val D) with h by (field; lra).
      change 101%Z with (1 + 100)%Z. rewrite bpow_plus. change (pw 1) with 2. rewrite HhE.
      apply Rle_trans with (pw 100 * (2 * q)); [apply Rmult_le_compat; lra|].
      replace (2 * pw 100 * val D) with (pw 100 * (2 * val D)) by ring. apply Rmult_le_compat_l; [apply bpow_ge_0|lra]. }
    destruct (div_between (SFopp maximum) D (-101) 101 Vh VD (number_fin _ Nh)) as (Ia & Ba & Bl); [lra|lia|exact Hq|].
    exists (f64_div (SFopp maximum) D), minimum, (SFopp minimum).
    assert (Eo : SFopp (f64_div (SFopp maximum) D) = f64_div maximum D) by (rewrite <- div_opp_l, opp_twice; reflexivity).
    split; [rewrite <- (div_opp_r f64_one), Eo; exact (range_shape m enums structs id d s i df f n H Hd Hi Hf minimum maximum Hv Hn)|].
    split; [apply number_fin, Ia|]. split; [split; [apply Ba|apply Rle_trans with (pw 101); [apply Ba|apply bpow_le; lia]]|].
    split; [apply number_fin, Nl|]. split; [lra|]. split; [rewrite fin_opp; apply number_fin, Nl|].
    split; [rewrite val_opp, Rabs_Ropp; lra|].
    intros Hmod. apply pw_range in Hmod. apply Inv; [exact Ia|]. split; [|apply Ba]. apply Bl; [lia|].
    fold h. apply Rmult_le_reg_r with (val D); [lra|]. replace (h / val D * val D) with h by (field; lra).
    rewrite HhE. change (-101)%Z with (-100 + -1)%Z. rewrite bpow_plus. change (pw (-1)) with (/ 2).
    apply Rle_trans with (pw (-100) * q); [|apply Rmult_le_compat; try lra; apply bpow_ge_0].
    rewrite Rmult_assoc. apply Rmult_le_compat_l; [apply bpow_ge_0|lra].
  - destruct Hs as ((Vm & Nm) & -> & ->). apply opp_valid in Vm. apply opp_number in Nm. rewrite real_val, <- val_opp in *. exists (SFopp mult), f64_zero, f64_zero.
    assert (Z0 : Rabs (val f64_zero) <= pw 104) by (cbn [SF2R f64_zero]; rewrite Rabs_R0; apply bpow_ge_0).
    split; [rewrite <- (div_opp_r f64_one), opp_twice; exact (multiplier_shape m enums structs id d s i df f n H Hd Hi Hf mult Hv)|].
    split; [apply number_fin, Nm|]. split; [lra|]. split; [reflexivity|]. split; [exact Z0|]. split; [reflexivity|]. split; [exact Z0|].
    intros Hmod. apply pw_range in Hmod. apply Inv; [split; assumption|].
    split; [apply Rle_trans with (pw (-100)); [apply bpow_le; lia|lra] | apply Rle_trans with (pw 100); [lra|apply bpow_le; lia]].
Qed.


Section Views.
Context {E : Type}.
Lemma read_falling : forall m mr enums structs id d s i df f n o w view lo step,
  structure_from_model m Little enums structs id d = Ok s ->
  no_overflow m structs d ->
  nth_error (ss_fields d) i = Some df ->
  sf_info df = STFloat n -> sf_view df = Some view ->
  nth_error (s_fields s) i = Some (FFixed f) -> declared_at structs d i o w ->
  w = n -> addressable o n ->
  stepped n view lo step -> 0 <= - step <= powerRZ 2 100 -> Rabs lo <= powerRZ 2 100 ->
  forall buf buf' raw raw', (s_byte_size s <= len buf)%N -> bytes_ok buf -> (s_byte_size s <= len buf')%N -> bytes_ok buf' ->
    is_field_value buf o n raw -> is_field_value buf' o n raw' -> (raw <= raw')%N ->
    exists y y', get_view (E:=E) mr f buf = Ok (XFloat y) /\ get_view (E:=E) mr f buf' = Ok (XFloat y') /\ at_most y' y.
Proof.
  intros m mr enums structs id d s i df f n o w view lo step H Hno Hd Hi Hv Hf Hat Hw Ha Hs Hstep Hlo buf buf' raw raw' Hl Hb Hl' Hb' Hr Hr' Hle. subst w.
  destruct (stepped_falling _ _ _ _ _ _ _ _ _ _ _ _ _ H Hd Hi Hv Hf Hs Hstep Hlo) as (a & b & bi & Hsh & Fa & Ba & Fb & Bb & _).
  destruct (float_accessors (E:=E) m enums structs id d s i df f n H Hd Hi Hf mr o Hno Hat Ha _ _ _ _ Hsh) as (Hn & Hft & sz & _ & Hacc).
  destruct (Hacc buf Hl Hb) as ((r & Hrv & Hrl & Hg) & _). destruct (Hacc buf' Hl' Hb') as ((r' & Hrv' & Hrl' & Hg') & _).
  assert (r = raw) by (eapply is_field_value_unique; eassumption). subst r.
  assert (r' = raw') by (eapply is_field_value_unique; eassumption). subst r'.
  eexists _, _. split; [exact Hg|]. split; [exact Hg'|].
  destruct (format_facts n) as (Hp & Hm & Hp24 & Hp53 & He).
  apply (get_anti (view_digits n) (view_top n)); try assumption.
  apply N.lt_le_trans with (2 ^ n)%N; [exact Hrl'|]. apply N.pow_le_mono_r; lia.
Qed.
Lemma write_falling : forall m mr enums structs id d s i df f n o w view lo step,
  structure_from_model m Little enums structs id d = Ok s ->
  no_overflow m structs d ->
  nth_error (ss_fields d) i = Some df ->
  sf_info df = STFloat n -> sf_view df = Some view ->
  nth_error (s_fields s) i = Some (FFixed f) -> declared_at structs d i o w ->
  w = n -> addressable o n -> (n = 8 \/ n = 16 \/ n = 32 \/ n = 64)%N ->
  stepped n view lo step -> moderate (- step) -> Rabs lo <= powerRZ 2 100 ->
  forall buf buf' v v', (s_byte_size s <= len buf)%N -> bytes_ok buf -> (s_byte_size s <= len buf')%N -> bytes_ok buf' ->
    of_view_type n v -> of_view_type n v' -> at_most v v' ->
    exists out out' raw raw' y y',
      set_view (E:=E) mr f buf (XFloat v) = Ok out /\ set_view (E:=E) mr f buf' (XFloat v') = Ok out' /\
      is_field_update buf o n raw out /\ is_field_update buf' o n raw' out' /\ (raw' <= raw < 2 ^ n)%N /\
      get_view (E:=E) mr f out = Ok (XFloat y) /\ get_view (E:=E) mr f out' = Ok (XFloat y') /\ at_most y y'.
Proof.
  intros m mr enums structs id d s i df f n o w view lo step H Hno Hd Hi Hv Hf Hat Hw Ha Hfull Hs Hmod Hlo buf buf' v v' Hl Hb Hl' Hb' Vv Vv' Hle. subst w.
  assert (Hstep : 0 <= - step <= powerRZ 2 100).
  { destruct Hmod as (H1 & H2). split; [|exact H2]. rewrite <- pw_powerRZ in H1. pose proof (bpow_gt_0 radix2 (-100)). lra. }
  destruct (stepped_falling _ _ _ _ _ _ _ _ _ _ _ _ _ H Hd Hi Hv Hf Hs Hstep Hlo) as (a & b & bi & Hsh & Fa & Ba & Fb & Bb & Fbi & Bbi & Hinv).
  destruct (Hinv Hmod) as (Fi & Bi).
  destruct (float_accessors_full (E:=E) m enums structs id d s i df f n H Hd Hi Hf mr o Hno Hat Ha _ _ _ _ Hsh) as (Hn & Hft & sz & Hsz & Hfw & Hacc).
  destruct (format_facts n) as (Hp & Hm & Hp24 & Hp53 & He). specialize (Hfw Hfull).
  pose proof (bpow_gt_0 radix2 (-101)) as Hz.
  set (ai := SFopp (f64_div f64_one a)) in *.
  assert (Hraw : (float_set (ff_ty f) sz ai bi v' <= float_set (ff_ty f) sz ai bi v)%N).
  { apply (set_anti (view_digits n) (view_top n)); try assumption; lra. }
  assert (Hroom : (float_set (ff_ty f) sz ai bi v < 2 ^ n)%N).
  { unfold float_set. match goal with |- (f_as_unsigned sz ?x < _)%N => generalize x end. intro x.
    assert (Ht : tmod sz = (2 ^ n)%N) by (unfold tmod; rewrite Hfw; reflexivity). pose proof (pow2_pos n) as Hpos.
    destruct x as [t|[]| |[] q e]; cbn [f_as_unsigned]; rewrite ?Ht; lia. }
  set (raw := float_set (ff_ty f) sz ai bi v) in *. set (raw' := float_set (ff_ty f) sz ai bi v') in *.
  destruct (Hacc buf Hl Hb) as (_ & Hset). destruct (Hset v) as (out & Hs1 & Hu).
  destruct (Hacc buf' Hl' Hb') as (_ & Hset'). destruct (Hset' v') as (out' & Hs1' & Hu').
  fold raw in Hu. fold raw' in Hu'.
  destruct (update_kept s _ _ _ _ _ Hl Hu) as (Kl & Kb). destruct (update_kept s _ _ _ _ _ Hl' Hu') as (Kl' & Kb').
  destruct (Hacc out Kl Kb) as ((r & Hrv & _ & Hg) & _). destruct (Hacc out' Kl' Kb') as ((r' & Hrv' & _ & Hg') & _).
  assert (r = raw) by (eapply update_value; eassumption). subst r.
  assert (r' = raw') by (eapply update_value; [eassumption|eassumption|lia]). subst r'.
  exists out, out', raw, raw'. eexists _, _. repeat (split; [eassumption|]). split; [lia|]. split; [exact Hg|]. split; [exact Hg'|].
  apply (get_anti (view_digits n) (view_top n)); try assumption.
  apply N.lt_le_trans with (2 ^ n)%N; [exact Hroom|]. apply N.pow_le_mono_r; lia.
Qed.
End Views.
