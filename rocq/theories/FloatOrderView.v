(** Proofs about float views (C95): the accessors keep the order. *)

From Coq Require Import ZArith NArith Reals Psatz SpecFloat List Bool Lia ZifyBool ZifyN ZifyNat.
From Flocq Require Import Core Relative BinarySingleNaN.
From Verif Require Import Base Schema Bits BitsFacts Codec Compiler Access SpecStruct StructFacts StructThms ViewThms
  FloatFacts SpecFloats FloatThms FloatView FloatExact FloatDecl FloatMore FloatRange SpecFloatOrder FloatOrder.
Local Open Scope R_scope.
Local Notation val := (SF2R radix2).
Local Notation pw := (bpow radix2).

Section Format.
Variables (prec emax : Z).
Context (Hp : Prec_gt_0 prec) (Hm : Prec_lt_emax prec emax).
Context (Hp24 : (24 <= prec)%Z) (Hp53 : (prec <= 53)%Z) (He : (prec + 104 <= emax)%Z).
Notation rnd := (rnd prec emax).
Notation valid := (SpecFloat.valid_binary prec emax).
Notation rounds := (rounds_to prec emax).

Lemma rnd_pw : forall k, (-101 <= k <= 104)%Z -> rnd (pw k) = pw k.
Proof.
  intros k Hk. apply round_generic; [apply valid_rnd_N|]. apply generic_format_bpow.
  unfold SpecFloat.fexp, SpecFloat.emin. lia.
Qed.
Lemma rnd_opp : forall r, rnd (- r) = - rnd r.
Proof. intro r. apply round_NE_opp. Qed.
Lemma rnd_small : forall r k, (-101 <= k <= 104)%Z -> Rabs r <= pw k -> Rabs (rnd r) <= pw k.
Proof.
  intros r k Hk H. apply Rabs_le_inv in H. destruct H as (H1 & H2).
  apply (rnd_mono prec emax Hp) in H1. apply (rnd_mono prec emax Hp) in H2. rewrite rnd_opp, rnd_pw in H1 by exact Hk.
  rewrite rnd_pw in H2 by exact Hk. apply Rabs_le. split; assumption.
Qed.
Lemma rounds_small : forall r z k, (-101 <= k <= 104)%Z -> rounds r z -> Rabs r <= pw k ->
  is_finite_SF z = true /\ valid z = true /\ val z = rnd r.
Proof.
  intros r z k Hk Hz H. apply (rnd_small r k Hk) in H. pose proof (bpow_lt radix2 k emax ltac:(lia)) as Hlt.
  destruct Hz as [(_ & A & B & C)|[(A & _)|(A & _)]]; [auto| |]; exfalso; pose proof (Rabs_le_inv _ _ H); lra.
Qed.

(** A parameter printed into the code. *)
Lemma lit_rounds : forall a, is_finite_SF a = true -> rounds (val a) (lit prec emax a).
Proof.
  intros [s|s| |s m e] F; try discriminate F.
  - left. cbn [SF2R lit is_finite_SF]. rewrite (rnd_zero prec emax), Rabs_R0. repeat split. apply bpow_gt_0.
  - cbn [lit].
    assert (E : F2R (Defs.Float radix2 (if s then Zneg m else Zpos m) e) = val (S754_finite s m e)) by (cbn [SF2R]; destruct s; reflexivity).
    rewrite <- E. apply normalize_rounds; assumption.
Qed.
Lemma of_N_rounds : forall ft raw, fprec ft = (prec, emax) -> rounds (IZR (Z.of_N raw)) (f_of_N ft raw).
Proof.
  intros ft raw Hft. unfold f_of_N. rewrite Hft. destruct raw as [|p].
  - left. change (IZR (Z.of_N 0)) with 0. rewrite (rnd_zero prec emax), Rabs_R0. repeat split. apply bpow_gt_0.
  - replace (IZR (Z.of_N (Npos p))) with (F2R (Defs.Float radix2 (Zpos p) 0)) by (unfold F2R; cbn; ring).
    apply normalize_rounds; assumption.
Qed.

Section Accessor.
Variables (ft : fixed_type) (a b : spec_float).
Hypothesis Hft : fprec ft = (prec, emax).
Hypotheses (Fa : is_finite_SF a = true) (Fb : is_finite_SF b = true) (Ha : 0 <= val a <= pw 104) (Hb : Rabs (val b) <= pw 104).

Lemma get_mono : forall raw raw', (raw <= raw')%N -> (raw' < 2 ^ 64)%N -> at_most (float_get ft a b raw) (float_get ft a b raw').
Proof.
  intros raw raw' Hle Hlt. unfold float_get. rewrite !(lit_is ft prec emax Hft). unfold f_add, f_mul. rewrite Hft.
  destruct (rounds_small _ _ 104%Z ltac:(lia) (lit_rounds a Fa)) as (Fa' & Va' & Ea'); [rewrite Rabs_pos_eq; lra|].
  destruct (rounds_small _ _ 104%Z ltac:(lia) (lit_rounds b Fb) Hb) as (Fb' & Vb' & _).
  assert (Hin : forall x, (x < 2 ^ 64)%N -> Rabs (IZR (Z.of_N x)) <= pw 104).
  { intros x Hx. rewrite Rabs_pos_eq by (apply IZR_le; lia). apply Rle_trans with (pw 64); [|apply bpow_le; lia].
    change (pw 64) with (IZR (2 ^ 64)). apply IZR_le. lia. }
  pose proof (of_N_rounds ft raw Hft) as Q. pose proof (of_N_rounds ft raw' Hft) as Q'.
  destruct (rounds_small _ _ 104%Z ltac:(lia) Q (Hin raw ltac:(lia))) as (F & V & _).
  destruct (rounds_small _ _ 104%Z ltac:(lia) Q' (Hin raw' Hlt)) as (F' & V' & _).
  apply (add_mono prec emax Hp Hm); auto using mul_inf_valid.
  apply (mul_mono prec emax Hp Hm); auto.
  - rewrite Ea'. rewrite <- (rnd_zero prec emax). apply (rnd_mono prec emax Hp). apply Ha.
  - apply (rounds_mono prec emax Hp _ _ _ _ (IZR_le (Z.of_N raw) (Z.of_N raw') ltac:(lia)) Q Q').
Qed.
Lemma set_mono : forall sz v v', pw (-101) <= val a -> valid v = true -> valid v' = true -> at_most v v' ->
  (float_set ft sz a b v <= float_set ft sz a b v')%N.
Proof.
  intros sz v v' Hlow Vv Vv' H. unfold float_set. rewrite !(lit_is ft prec emax Hft). unfold f_add, f_mul. rewrite Hft.
  destruct (rounds_small _ _ 104%Z ltac:(lia) (lit_rounds a Fa)) as (Fa' & Va' & Ea'); [rewrite Rabs_pos_eq; lra|].
  destruct (rounds_small _ _ 104%Z ltac:(lia) (lit_rounds b Fb) Hb) as (Fb' & Vb' & _).
  assert (Hpos : 0 < val (lit prec emax a)).
  { rewrite Ea'. apply (rnd_mono prec emax Hp) in Hlow. rewrite rnd_pw in Hlow by lia. pose proof (bpow_gt_0 radix2 (-101)). lra. }
  apply as_unsigned_mono. apply (add_mono prec emax Hp Hm); auto using mul_inf_valid.
  apply (mul_mono prec emax Hp Hm); auto. lra.
Qed.
End Accessor.
End Format.

(** ** The compiled parameters *)
Lemma rnd53 : forall k, (-101 <= k <= 104)%Z -> rnd 53 1024 (pw k) = pw k.
Proof. intros k Hk. apply rnd_pw; lia. Qed.
(** A quotient between two powers of two. *)
Lemma div_between : forall x y lo hi, SpecFloat.valid_binary 53 1024 x = true -> SpecFloat.valid_binary 53 1024 y = true ->
  is_finite_SF x = true -> val y <> 0 -> (-101 <= hi <= 104)%Z -> 0 <= val x / val y <= pw hi ->
  is_f64 (f64_div x y) /\ 0 <= val (f64_div x y) <= pw hi /\
  ((-101 <= lo <= 104)%Z -> pw lo <= val x / val y -> pw lo <= val (f64_div x y)).
Proof.
  intros x y lo hi Vx Vy Fx Ny Hk Hq.
  assert (Hr : 0 <= rnd 53 1024 (val x / val y) <= pw hi).
  { split; [rewrite <- (rnd_zero 53 1024) | rewrite <- (rnd53 hi Hk)]; apply rnd_mono; solve [reflexivity | apply Hq]. }
  destruct (div_val 53 1024 prec53 max53 x y Vx Vy Fx Ny) as (A & B & C).
  { rewrite Rabs_pos_eq by lra. apply Rle_lt_trans with (pw hi); [lra|]. apply bpow_lt. lia. }
  unfold f64_div. split; [split; [exact C|apply fin_number; exact B]|]. rewrite A. split; [exact Hr|].
  intros Hl H. rewrite <- (rnd53 lo Hl). apply rnd_mono; [reflexivity|exact H].
Qed.
Lemma largest_raw : forall n, (0 < n < 64)%N -> let D := f64_of_N (2 ^ n - 1) in
  SpecFloat.valid_binary 53 1024 D = true /\ pw (Z.of_N n - 1) <= val D <= pw (Z.of_N n).
Proof.
  intros n Hn D. assert (ED : D = f_of_N F64 (2 ^ n - 1)) by reflexivity.
  assert (Ez : IZR (Z.of_N (2 ^ n - 1)) = pw (Z.of_N n) - 1).
  { pose proof (pow2_pos n) as Hpos. rewrite N2Z.inj_sub by lia. rewrite minus_IZR. f_equal. rewrite N2Z.inj_pow.
    change (Z.of_N 2) with (radix_val radix2). rewrite IZR_Zpower by lia. reflexivity. }
  assert (Hb : pw (Z.of_N n - 1) <= IZR (Z.of_N (2 ^ n - 1)) <= pw (Z.of_N n)).
  { rewrite Ez. split; [|lra]. replace (Z.of_N n) with (Z.of_N n - 1 + 1)%Z at 2 by lia. rewrite bpow_plus. change (pw 1) with 2.
    assert (1 <= pw (Z.of_N n - 1)); [|lra]. change 1 with (pw 0). apply bpow_le. lia. }
  destruct (rounds_small 53 1024 prec53 ltac:(lia) ltac:(lia) (IZR (Z.of_N (2 ^ n - 1))) D (Z.of_N n)) as (F & V & E).
  - lia.
  - rewrite ED. apply (of_N_rounds 53 1024 prec53 max53 F64). reflexivity.
  - rewrite Rabs_pos_eq; [lra|]. apply IZR_le. lia.
  - split; [exact V|]. rewrite E. rewrite <- (rnd53 (Z.of_N n)), <- (rnd53 (Z.of_N n - 1)) by lia.
    split; apply rnd_mono; solve [reflexivity | apply Hb].
Qed.

(** The compiled view: the factor of the getter, and that of the setter if the step is moderate. *)
Lemma stepped_shape : forall m enums structs id d s i df f n view lo step,
  structure_from_model m Little enums structs id d = Ok s ->
  nth_error (ss_fields d) i = Some df -> sf_info df = STFloat n -> sf_view df = Some view ->
  nth_error (s_fields s) i = Some (FFixed f) ->
  stepped n view lo step -> 0 <= step <= powerRZ 2 100 -> Rabs lo <= powerRZ 2 100 ->
  exists a b bi, ff_view f = VFloat a b (f64_div f64_one a) bi /\
    is_finite_SF a = true /\ 0 <= val a <= pw 104 /\ is_finite_SF b = true /\ Rabs (val b) <= pw 104 /\
    is_finite_SF bi = true /\ Rabs (val bi) <= pw 104 /\
    (moderate step -> is_finite_SF (f64_div f64_one a) = true /\ pw (-101) <= val (f64_div f64_one a) <= pw 104).
Proof.
  intros m enums structs id d s i df f n view lo step H Hd Hi Hv Hf Hs Hstep Hlo.
  assert (Hn64 : (0 < n <= 64)%N).
  { destruct (float_shape m enums structs id d s i df f n H Hd Hi Hf) as (Hty & _). eapply fixed_ok_bits; [eassumption|reflexivity|discriminate]. }
  rewrite <- pw_powerRZ in Hstep, Hlo.
  assert (Hup : pw 100 <= pw 104) by (apply bpow_le; lia).
  destruct one_val as (O1 & O2 & O3).
  assert (Inv : forall a, is_f64 a -> pw (-101) <= val a <= pw 101 ->
    is_finite_SF (f64_div f64_one a) = true /\ pw (-101) <= val (f64_div f64_one a) <= pw 104).
  { intros a (Va & Na) Ha. pose proof (bpow_gt_0 radix2 (-101)) as Hz.
    assert (H1 : pw (-101) <= 1 / val a <= pw 101).
    { split.
      - apply Rmult_le_reg_r with (val a); [lra|]. replace (1 / val a * val a) with 1 by (field; lra).
        apply Rle_trans with (pw (-101) * pw 101); [apply Rmult_le_compat_l; lra|]. rewrite <- bpow_plus. cbn. lra.
      - apply Rmult_le_reg_r with (val a); [lra|]. replace (1 / val a * val a) with 1 by (field; lra).
        apply Rle_trans with (pw 101 * pw (-101)); [rewrite <- bpow_plus; cbn; lra|]. apply Rmult_le_compat_l; [apply bpow_ge_0|lra]. }
    destruct (div_between f64_one a (-101) 101 O3 Va O2) as ((V & N) & (B1 & B2) & B3); [lra|lia|rewrite O1; lra|].
    split; [apply number_fin; exact N|]. split; [apply B3; [lia|rewrite O1; lra]|].
    apply Rle_trans with (pw 101); [exact B2|apply bpow_le; lia]. }
  destruct view as [name|minimum maximum|mult]; [contradiction| |].
  - destruct Hs as ((Vl & Nl) & (Vh & Nh) & Hn & -> & ->). rewrite real_val in Hlo.
    destruct (largest_raw n) as (VD & HD); [lia|]. cbv zeta in VD, HD. set (D := f64_of_N (2 ^ n - 1)) in *.
    assert (Hpn : pw (Z.of_N n) = 2 * pw (Z.of_N n - 1)) by (replace (Z.of_N n) with (1 + (Z.of_N n - 1))%Z at 1 by lia; rewrite bpow_plus; reflexivity).
    assert (H1 : 1 <= pw (Z.of_N n - 1)) by (change 1 with (pw 0); apply bpow_le; lia).
    assert (Hraw : raws n = pw (Z.of_N n)) by (unfold raws; symmetry; apply pw_powerRZ). rewrite Hraw in *.
    rewrite real_val in *. set (h := val maximum) in *. set (q := pw (Z.of_N n - 1)) in *. rewrite Hpn in *.
    assert (HhE : h = h / (2 * q - 1) * (2 * q - 1)) by (field; lra).
    set (st := h / (2 * q - 1)) in *.
    assert (Hq : 0 <= h / val D <= pw 101).
    { split; [apply Rmult_le_pos; [rewrite HhE; apply Rmult_le_pos; lra|apply Rlt_le, Rinv_0_lt_compat; lra]|].
      apply Rmult_le_reg_r with (val D); [lra|]. replace (h / val D * val D) with h by (field; lra).
      change 101%Z with (1 + 100)%Z. rewrite bpow_plus. change (pw 1) with 2. rewrite HhE.
      apply Rle_trans with (pw 100 * (2 * q)); [apply Rmult_le_compat; lra|].
      replace (2 * pw 100 * val D) with (pw 100 * (2 * val D)) by ring. apply Rmult_le_compat_l; [apply bpow_ge_0|lra]. }
    destruct (div_between maximum D (-101) 101 Vh VD (number_fin _ Nh)) as (Ia & Ba & Bl); [lra|lia|exact Hq|].
    exists (f64_div maximum D), minimum, (SFopp minimum).
    split; [exact (range_shape m enums structs id d s i df f n H Hd Hi Hf minimum maximum Hv Hn)|].
    split; [apply number_fin, Ia|]. split; [split; [apply Ba|apply Rle_trans with (pw 101); [apply Ba|apply bpow_le; lia]]|].
    split; [apply number_fin, Nl|]. split; [lra|]. split; [rewrite fin_opp; apply number_fin, Nl|].
    split; [rewrite val_opp, Rabs_Ropp; lra|].
    intros Hmod. apply pw_range in Hmod. apply Inv; [exact Ia|]. split; [|apply Ba]. apply Bl; [lia|].
    fold h. apply Rmult_le_reg_r with (val D); [lra|]. replace (h / val D * val D) with h by (field; lra).
    rewrite HhE. change (-101)%Z with (-100 + -1)%Z. rewrite bpow_plus. change (pw (-1)) with (/ 2).
    apply Rle_trans with (pw (-100) * q); [|apply Rmult_le_compat; try lra; apply bpow_ge_0].
    rewrite Rmult_assoc. apply Rmult_le_compat_l; [apply bpow_ge_0|lra].
  - destruct Hs as ((Vm & Nm) & -> & ->). rewrite real_val in *. exists mult, f64_zero, f64_zero.
    assert (Z0 : Rabs (val f64_zero) <= pw 104) by (cbn [SF2R f64_zero]; rewrite Rabs_R0; apply bpow_ge_0).
    split; [exact (multiplier_shape m enums structs id d s i df f n H Hd Hi Hf mult Hv)|].
    split; [apply number_fin, Nm|]. split; [lra|]. split; [reflexivity|]. split; [exact Z0|]. split; [reflexivity|]. split; [exact Z0|].
    intros Hmod. apply pw_range in Hmod. apply Inv; [split; assumption|].
    split; [apply Rle_trans with (pw (-100)); [apply bpow_le; lia|lra] | apply Rle_trans with (pw 100); [lra|apply bpow_le; lia]].
Qed.

Section Views.
Context {E : Type}.
Lemma read_order : forall m mr enums structs id d s i df f n o w view lo step,
  structure_from_model m Little enums structs id d = Ok s ->
  no_overflow m structs d ->
  nth_error (ss_fields d) i = Some df ->
  sf_info df = STFloat n -> sf_view df = Some view ->
  nth_error (s_fields s) i = Some (FFixed f) -> declared_at structs d i o w ->
  w = n -> addressable o n ->
  stepped n view lo step -> 0 <= step <= powerRZ 2 100 -> Rabs lo <= powerRZ 2 100 ->
  forall buf buf' raw raw', (s_byte_size s <= len buf)%N -> bytes_ok buf -> (s_byte_size s <= len buf')%N -> bytes_ok buf' ->
    is_field_value buf o n raw -> is_field_value buf' o n raw' -> (raw <= raw')%N ->
    exists y y', get_view (E:=E) mr f buf = Ok (XFloat y) /\ get_view (E:=E) mr f buf' = Ok (XFloat y') /\ at_most y y'.
Proof.
  intros m mr enums structs id d s i df f n o w view lo step H Hno Hd Hi Hv Hf Hat Hw Ha Hs Hstep Hlo buf buf' raw raw' Hl Hb Hl' Hb' Hr Hr' Hle. subst w.
  destruct (stepped_shape _ _ _ _ _ _ _ _ _ _ _ _ _ H Hd Hi Hv Hf Hs Hstep Hlo) as (a & b & bi & Hsh & Fa & Ba & Fb & Bb & _).
  destruct (float_accessors (E:=E) m enums structs id d s i df f n H Hd Hi Hf mr o Hno Hat Ha _ _ _ _ Hsh) as (Hn & Hft & sz & _ & Hacc).
  destruct (Hacc buf Hl Hb) as ((r & Hrv & Hrl & Hg) & _). destruct (Hacc buf' Hl' Hb') as ((r' & Hrv' & Hrl' & Hg') & _).
  assert (r = raw) by (eapply is_field_value_unique; eassumption). subst r.
  assert (r' = raw') by (eapply is_field_value_unique; eassumption). subst r'.
  eexists _, _. split; [exact Hg|]. split; [exact Hg'|].
  destruct (format_facts n) as (Hp & Hm & Hp24 & Hp53 & He).
  apply (get_mono (view_digits n) (view_top n)); try assumption.
  apply N.lt_le_trans with (2 ^ n)%N; [exact Hrl'|]. apply N.pow_le_mono_r; lia.
Qed.

(** Writing two values and reading them: the raw numbers before they are cut to the width are in order;
    if the greater one has room, so is everything. *)
Lemma write_order_core : forall m mr enums structs id d s i df f n o w view lo step,
  structure_from_model m Little enums structs id d = Ok s ->
  no_overflow m structs d ->
  nth_error (ss_fields d) i = Some df ->
  sf_info df = STFloat n -> sf_view df = Some view ->
  nth_error (s_fields s) i = Some (FFixed f) -> declared_at structs d i o w ->
  w = n -> addressable o n ->
  stepped n view lo step -> moderate step -> Rabs lo <= powerRZ 2 100 ->
  exists a b bi sz, ff_view f = VFloat a b (f64_div f64_one a) bi /\ (n <= 8 * N.of_nat sz)%N /\ ((n = 8 \/ n = 16 \/ n = 32 \/ n = 64)%N -> (8 * N.of_nat sz)%N = n) /\ fprec (ff_ty f) = (view_digits n, view_top n) /\
  (forall v v', of_view_type n v -> of_view_type n v' -> at_most v v' ->
     (float_set (ff_ty f) sz (f64_div f64_one a) bi v <= float_set (ff_ty f) sz (f64_div f64_one a) bi v')%N) /\
  forall buf buf' v v', (s_byte_size s <= len buf)%N -> bytes_ok buf -> (s_byte_size s <= len buf')%N -> bytes_ok buf' ->
    of_view_type n v -> of_view_type n v' -> at_most v v' -> (float_set (ff_ty f) sz (f64_div f64_one a) bi v' < 2 ^ n)%N ->
    exists out out' raw raw' y y',
      set_view (E:=E) mr f buf (XFloat v) = Ok out /\ set_view (E:=E) mr f buf' (XFloat v') = Ok out' /\
      is_field_update buf o n raw out /\ is_field_update buf' o n raw' out' /\ (raw <= raw' < 2 ^ n)%N /\
      get_view (E:=E) mr f out = Ok (XFloat y) /\ get_view (E:=E) mr f out' = Ok (XFloat y') /\ at_most y y'.
Proof.
  intros m mr enums structs id d s i df f n o w view lo step H Hno Hd Hi Hv Hf Hat Hw Ha Hs Hmod Hlo. subst w.
  assert (Hstep : 0 <= step <= powerRZ 2 100).
  { destruct Hmod as (H1 & H2). split; [|exact H2]. rewrite <- pw_powerRZ in H1. pose proof (bpow_gt_0 radix2 (-100)). lra. }
  destruct (stepped_shape _ _ _ _ _ _ _ _ _ _ _ _ _ H Hd Hi Hv Hf Hs Hstep Hlo) as (a & b & bi & Hsh & Fa & Ba & Fb & Bb & Fbi & Bbi & Hinv).
  destruct (Hinv Hmod) as (Fi & Bi).
  destruct (float_accessors_full (E:=E) m enums structs id d s i df f n H Hd Hi Hf mr o Hno Hat Ha _ _ _ _ Hsh) as (Hn & Hft & sz & Hsz & Hfull & Hacc).
  exists a, b, bi, sz. split; [exact Hsh|]. split; [exact Hsz|]. split; [exact Hfull|]. split; [exact Hft|].
  destruct (format_facts n) as (Hp & Hm & Hp24 & Hp53 & He).
  pose proof (bpow_gt_0 radix2 (-101)) as Hz.
  assert (Hmono : forall v v', of_view_type n v -> of_view_type n v' -> at_most v v' ->
    (float_set (ff_ty f) sz (f64_div f64_one a) bi v <= float_set (ff_ty f) sz (f64_div f64_one a) bi v')%N).
  { intros v v' Vv Vv' Hle. apply (set_mono (view_digits n) (view_top n)); try assumption; lra. }
  split; [exact Hmono|]. intros buf buf' v v' Hl Hb Hl' Hb' Vv Vv' Hle Hroom. pose proof (Hmono v v' Vv Vv' Hle) as Hraw.
  set (raw := float_set (ff_ty f) sz (f64_div f64_one a) bi v) in *. set (raw' := float_set (ff_ty f) sz (f64_div f64_one a) bi v') in *.
  destruct (Hacc buf Hl Hb) as (_ & Hset). destruct (Hset v) as (out & Hs1 & Hu).
  destruct (Hacc buf' Hl' Hb') as (_ & Hset'). destruct (Hset' v') as (out' & Hs1' & Hu').
  fold raw in Hu. fold raw' in Hu'.
  destruct (update_kept s _ _ _ _ _ Hl Hu) as (Kl & Kb). destruct (update_kept s _ _ _ _ _ Hl' Hu') as (Kl' & Kb').
  destruct (Hacc out Kl Kb) as ((r & Hrv & _ & Hg) & _). destruct (Hacc out' Kl' Kb') as ((r' & Hrv' & _ & Hg') & _).
  assert (r = raw) by (eapply update_value; [eassumption|eassumption|lia]). subst r.
  assert (r' = raw') by (eapply update_value; eassumption). subst r'.
  exists out, out', raw, raw'. eexists _, _. repeat (split; [eassumption|]). split; [lia|]. split; [exact Hg|]. split; [exact Hg'|].
  apply (get_mono (view_digits n) (view_top n)); try assumption.
  apply N.lt_le_trans with (2 ^ n)%N; [exact Hroom|]. apply N.pow_le_mono_r; lia.
Qed.

Lemma scaled_stepped : forall n view step, (n < 64)%N -> scaled_by n view step -> stepped n view 0 step.
Proof.
  intros n [name|lo hi|mult] step Hn Hs; [contradiction| |].
  - destruct Hs as (Hl & Hz & Hh & ->). cbn. repeat (split; [assumption|]). split; [symmetry; exact Hz|reflexivity].
  - destruct Hs as (Hl & ->). cbn. auto.
Qed.
Lemma write_order_scaled : forall m mr enums structs id d s i df f n o w view step,
  structure_from_model m Little enums structs id d = Ok s ->
  no_overflow m structs d ->
  nth_error (ss_fields d) i = Some df ->
  sf_info df = STFloat n -> sf_view df = Some view ->
  nth_error (s_fields s) i = Some (FFixed f) -> declared_at structs d i o w ->
  w = n -> addressable o n -> (Z.of_N n + 3 <= view_digits n)%Z ->
  scaled_by n view step -> moderate step ->
  forall buf buf' v v', (s_byte_size s <= len buf)%N -> bytes_ok buf -> (s_byte_size s <= len buf')%N -> bytes_ok buf' ->
    of_view_type n v -> of_view_type n v' -> at_most v v' -> is_number v' -> real_of v' <= step * (raws n - 1) ->
    exists out out' raw raw' y y',
      set_view (E:=E) mr f buf (XFloat v) = Ok out /\ set_view (E:=E) mr f buf' (XFloat v') = Ok out' /\
      is_field_update buf o n raw out /\ is_field_update buf' o n raw' out' /\ (raw <= raw' < 2 ^ n)%N /\
      get_view (E:=E) mr f out = Ok (XFloat y) /\ get_view (E:=E) mr f out' = Ok (XFloat y') /\ at_most y y'.
Proof.
  intros m mr enums structs id d s i df f n o w view step H Hno Hd Hi Hv Hf Hat Hw Ha Hn Hs Hmod buf buf' v v' Hl Hb Hl' Hb' Vv Vv' Hle Nv' Htop.
  destruct (format_facts n) as (Hp & Hm & Hp24 & Hp53 & He).
  assert (Hn64 : (0 < n <= 64)%N).
  { destruct (float_shape m enums structs id d s i df f n H Hd Hi Hf) as (Hty & _). eapply fixed_ok_bits; [eassumption|reflexivity|discriminate]. }
  assert (Hlo : Rabs 0 <= powerRZ 2 100) by (rewrite Rabs_R0, <- pw_powerRZ; apply bpow_ge_0).
  destruct (write_order_core m mr enums structs id d s i df f n o w view 0 step H Hno Hd Hi Hv Hf Hat Hw Ha
    (scaled_stepped n view step ltac:(lia) Hs) Hmod Hlo) as (a & b & bi & sz & Hsh & Hsz & _ & Hft & Hmono & Hcore).
  destruct (scaled_shape _ _ _ _ _ _ _ _ _ _ _ _ H Hd Hi Hv Hf Hn Hs Hmod) as (a' & b' & bi' & Hsh' & Hzb & Hzi & (Va & Na) & Ea).
  rewrite Hsh in Hsh'. injection Hsh' as <- <- _ <-.
  apply Hcore; try assumption. apply pw_range in Hmod. pose proof (bpow_gt_0 radix2 (-100)) as Hz.
  assert (HP : pw (Z.of_N n) = raws n) by apply pw_powerRZ.
  assert (HP1 : 1 <= raws n) by (rewrite <- HP; change 1 with (pw 0); apply bpow_le; lia).
  assert (Hnon : forall x, of_view_type n x -> is_number x -> 0 <= val x <= step * (raws n - 1) ->
    (float_set (ff_ty f) sz (f64_div f64_one a) bi x < 2 ^ n)%N).
  { intros x Vx Nx Hx. refine (proj1 (set_core (ff_ty f) (view_digits n) (view_top n) Hft Hp Hm Hp24 Hp53 He a b bi step n Va (number_fin _ Na) Ea Hmod Hzb Hzi _ sz x _ Vx (number_fin _ Nx) _)).
    - lia.
    - lia.
    - rewrite HP. exact Hx. }
  rewrite real_val in Htop.
  destruct (Rlt_or_le (val v') 0) as [Hneg|Hpos].
  - apply N.le_lt_trans with (float_set (ff_ty f) sz (f64_div f64_one a) bi (S754_zero false)).
    + apply Hmono; [exact Vv' | reflexivity |]. apply finite_at_most; [apply number_fin, Nv' | reflexivity | cbn [SF2R]; lra].
    + apply Hnon; [reflexivity | exact I |]. cbn [SF2R]. split; [lra|]. apply Rmult_le_pos; lra.
  - apply Hnon; [exact Vv' | exact Nv' | lra].
Qed.
Lemma write_order_range : forall m mr enums structs id d s i df f n o w lo hi step,
  structure_from_model m Little enums structs id d = Ok s ->
  no_overflow m structs d ->
  nth_error (ss_fields d) i = Some df ->
  sf_info df = STFloat n -> sf_view df = Some (SVFloatRange lo hi) ->
  nth_error (s_fields s) i = Some (FFixed f) -> declared_at structs d i o w ->
  w = n -> addressable o n -> (Z.of_N n + 4 <= view_digits n)%Z ->
  is_f64 lo -> is_f64 hi -> real_of lo = 0 \/ moderate (Rabs (real_of lo)) ->
  step = real_of hi / (raws n - 1) -> moderate step ->
  forall buf buf' v v', (s_byte_size s <= len buf)%N -> bytes_ok buf -> (s_byte_size s <= len buf')%N -> bytes_ok buf' ->
    of_view_type n v -> of_view_type n v' -> at_most v v' -> is_number v' ->
    0 <= real_of v' <= step * raws n -> 0 <= real_of v' / step - real_of lo <= raws n - 1 ->
    exists out out' raw raw' y y',
      set_view (E:=E) mr f buf (XFloat v) = Ok out /\ set_view (E:=E) mr f buf' (XFloat v') = Ok out' /\
      is_field_update buf o n raw out /\ is_field_update buf' o n raw' out' /\ (raw <= raw' < 2 ^ n)%N /\
      get_view (E:=E) mr f out = Ok (XFloat y) /\ get_view (E:=E) mr f out' = Ok (XFloat y') /\ at_most y y'.
Proof.
  intros m mr enums structs id d s i df f n o w lo hi step H Hno Hd Hi Hv Hf Hat Hw Ha Hn Il Ih Hlo Hstep Hmod buf buf' v v' Hl Hb Hl' Hb' Vv Vv' Hle Nv' Htop Hin.
  destruct (format_facts n) as (Hp & Hm & Hp24 & Hp53 & He).
  assert (Hn64 : (0 < n <= 64)%N).
  { destruct (float_shape m enums structs id d s i df f n H Hd Hi Hf) as (Hty & _). eapply fixed_ok_bits; [eassumption|reflexivity|discriminate]. }
  assert (Hlo2 : Rabs (real_of lo) <= powerRZ 2 100).
  { destruct Hlo as [->|Hlo]; [rewrite Rabs_R0, <- pw_powerRZ; apply bpow_ge_0 | apply Hlo]. }
  assert (Hst : stepped n (SVFloatRange lo hi) (real_of lo) step).
  { cbn. split; [exact Il|]. split; [exact Ih|]. split; [lia|]. split; [reflexivity|exact Hstep]. }
  destruct (write_order_core m mr enums structs id d s i df f n o w _ (real_of lo) step H Hno Hd Hi Hv Hf Hat Hw Ha Hst Hmod Hlo2)
    as (a & b & bi & sz & Hsh & Hsz & _ & Hft & Hmono & Hcore).
  apply Hcore; try assumption.
  rewrite (range_shape m enums structs id d s i df f n H Hd Hi Hf lo hi Hv ltac:(lia)) in Hsh. injection Hsh as <- <- _ <-.
  destruct (range_param hi n Ih) as ((Va & Na) & Ea); [lia|rewrite <- Hstep; exact Hmod|]. rewrite <- Hstep in Ea.
  apply pw_range in Hmod.
  assert (HP : pw (Z.of_N n) = raws n) by apply pw_powerRZ.
  assert (Hb0 : val lo = 0 \/ pw (-100) <= Rabs (val lo) <= pw 100).
  { rewrite <- real_val. destruct Hlo as [Hz|Hz]; [left; exact Hz|right; apply pw_range; exact Hz]. }
  destruct Il as (Vl & Nl). rewrite !real_val, <- HP in Htop. rewrite !real_val, <- HP in Hin.
  refine (proj1 (range_set (ff_ty f) _ _ Hft Hp Hm Hp24 Hp53 He _ lo step n Va (number_fin _ Na) Ea Hmod (number_fin _ Nl) Hb0 _ sz v'
      _ Vv' (number_fin _ Nv') Htop Hin)); lia.
Qed.

(** A field as wide as its raw type saturates: nothing is lost above the scale. *)
Lemma write_order_full : forall m mr enums structs id d s i df f n o w view lo step,
  structure_from_model m Little enums structs id d = Ok s ->
  no_overflow m structs d ->
  nth_error (ss_fields d) i = Some df ->
  sf_info df = STFloat n -> sf_view df = Some view ->
  nth_error (s_fields s) i = Some (FFixed f) -> declared_at structs d i o w ->
  w = n -> addressable o n -> (n = 8 \/ n = 16 \/ n = 32 \/ n = 64)%N ->
  stepped n view lo step -> moderate step -> Rabs lo <= powerRZ 2 100 ->
  forall buf buf' v v', (s_byte_size s <= len buf)%N -> bytes_ok buf -> (s_byte_size s <= len buf')%N -> bytes_ok buf' ->
    of_view_type n v -> of_view_type n v' -> at_most v v' ->
    exists out out' raw raw' y y',
      set_view (E:=E) mr f buf (XFloat v) = Ok out /\ set_view (E:=E) mr f buf' (XFloat v') = Ok out' /\
      is_field_update buf o n raw out /\ is_field_update buf' o n raw' out' /\ (raw <= raw' < 2 ^ n)%N /\
      get_view (E:=E) mr f out = Ok (XFloat y) /\ get_view (E:=E) mr f out' = Ok (XFloat y') /\ at_most y y'.
Proof.
  intros m mr enums structs id d s i df f n o w view lo step H Hno Hd Hi Hv Hf Hat Hw Ha Hfull Hs Hmod Hlo buf buf' v v' Hl Hb Hl' Hb' Vv Vv' Hle.
  destruct (write_order_core m mr enums structs id d s i df f n o w view lo step H Hno Hd Hi Hv Hf Hat Hw Ha Hs Hmod Hlo)
    as (a & b & bi & sz & Hsh & Hsz & Hfw & Hft & Hmono & Hcore).
  apply Hcore; try assumption. specialize (Hfw Hfull).
  assert (Hb0 : forall x, (f_as_unsigned sz x < 2 ^ n)%N).
  { intro x. assert (Ht : tmod sz = (2 ^ n)%N) by (unfold tmod; rewrite Hfw; reflexivity). pose proof (pow2_pos n) as Hpos.
    destruct x as [t|[]| |[] q e]; cbn [f_as_unsigned]; rewrite ?Ht; lia. }
  apply Hb0.
Qed.
End Views.
