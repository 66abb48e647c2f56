(** Proofs of the structure properties (C01-C08). *)

From Coq Require Import Arith NArith ZArith String List Bool Lia ZifyBool ZifyN ZifyNat.
From Verif Require Import Base Schema Bits BitsFacts Codec CodecFacts Compiler Access SpecStruct StructFacts.
Import ListNotations.
Local Open Scope N_scope.
Ltac Zify.zify_post_hook ::= idtac.

Lemma no_overflow_no_wrap : forall m structs d t,
  no_overflow m structs d -> declared_total structs (ss_fields d) = Some t -> no_wrap m t.
Proof. intros m structs d t [H|H] Ht; [left; assumption|right; apply H; assumption]. Qed.

(** ** C01 *)
Lemma layout : forall m endi enums structs id d s,
  structure_from_model m endi enums structs id d = Ok s ->
  no_overflow m structs d ->
  s_name s = ss_name d /\
  length (s_fields s) = length (ss_fields d) /\
  declared_total structs (ss_fields d) = Some (s_bit_size s) /\
  s_byte_size s = ceil8 (s_bit_size s) /\
  forall i f, nth_error (s_fields s) i = Some f ->
    exists o w, declared_at structs d i o w /\
      8 * l_byte_offset (field_loc f) + l_bit_offset (field_loc f) = o /\
      l_bit_offset (field_loc f) < 8 /\
      l_bit_size (field_loc f) = w /\
      o + w <= s_bit_size s.
Proof.
  intros m endi enums structs id d s H Hno. apply structure_layout in H.
  destruct H as (_ & Hn & Hl & Hb & t & Ht & H).
  destruct H as (Hs & H); [eapply no_overflow_no_wrap; eassumption|].
  repeat split; try assumption; [congruence|]. intros i f Hf.
  destruct (H i f Hf) as (df & o & w & Hd & Hnm & Hat & Hle & Hloc).
  exists o, w. split; [assumption|]. rewrite Hloc.
  split; [apply loc_start|]. split; [rewrite loc_bit_offset; apply N.mod_lt; discriminate|].
  split; [reflexivity|]. rewrite Hs. assumption.
Qed.

Lemma declared_at_fun : forall structs d i o w o' w',
  declared_at structs d i o w -> declared_at structs d i o' w' -> o = o' /\ w = w'.
Proof.
  intros structs d i o w o' w' (H1 & f & H2 & H3) (H1' & f' & H2' & H3').
  assert (f = f') by congruence. subst. split; congruence.
Qed.

(** What is known of a scalar field found in a compiled structure. *)
Lemma fixed_in_structure : forall m enums structs id d s i f o w,
  structure_from_model m Little enums structs id d = Ok s ->
  no_overflow m structs d ->
  nth_error (s_fields s) i = Some f -> declared_at structs d i o w ->
  field_loc f = location_from_model w o /\ o + w <= s_bit_size s /\
  o / 8 + ceil8 w <= s_byte_size s.
Proof.
  intros m enums structs id d s i f o w H Hno Hf Hat. apply structure_layout in H.
  destruct H as (_ & _ & _ & Hb & t & Ht & H).
  destruct H as (Hs & H); [eapply no_overflow_no_wrap; eassumption|].
  destruct (H i f Hf) as (df & o' & w' & Hd & Hnm & Hat' & Hle & Hloc).
  destruct (declared_at_fun _ _ _ _ _ _ _ Hat Hat'); subst o' w'.
  split; [assumption|]. split; [congruence|]. rewrite Hb, Hs. unfold ceil8. clear - Hle.
  Ltac Zify.zify_post_hook ::= Z.to_euclidean_division_equations. lia.
  Ltac Zify.zify_post_hook ::= idtac.
Qed.

Lemma field_endianness : forall m enums structs d off f off',
  field_from_model m Little enums structs off d = Ok (f, off') ->
  match f with
  | FFixed x => ff_endianness x = Little
  | FArray x => fa_endianness x = Little
  | FStruct _ _ _ => True
  end.
Proof.
  intros m enums structs d off f off' H. unfold field_from_model in H.
  destruct (sf_info d) as [b|b|b|b|n].
  1-4: cbn [get_bit_size ok_or bind] in H; inv_bind H; inv_bind H; inv_bind H;
    destruct (1 <? _); [destruct (negb _); [discriminate|]|];
    inv_bind H; inversion H; subst; reflexivity.
  inv_bind H. inv_bind H. inversion H; subst. exact I.
Qed.

Lemma fields_all : forall (P : field -> Prop) m endi enums structs,
  (forall d off f off', field_from_model m endi enums structs off d = Ok (f, off') -> P f) ->
  forall l off fs off',
  fields_from_model m endi enums structs off l = Ok (fs, off') -> Forall P fs.
Proof.
  intros P m endi enums structs HP. induction l as [|d l IH]; intros off fs off' H; cbn in H.
  - inversion H. constructor.
  - apply bind_ok in H. destruct H as ((f & off1) & H0 & H).
    apply bind_ok in H. destruct H as ((fs1 & off2) & H1 & H). inversion H; subst.
    constructor; [eapply HP; eassumption|eapply IH; eassumption].
Qed.

Lemma structure_endianness : forall m enums structs id d s,
  structure_from_model m Little enums structs id d = Ok s ->
  Forall (fun f => match f with
                   | FFixed x => ff_endianness x = Little
                   | FArray x => fa_endianness x = Little
                   | FStruct _ _ _ => True end) (s_fields s).
Proof.
  intros m enums structs id d s H. unfold structure_from_model in H.
  apply bind_ok in H. destruct H as ((fs & off) & H0 & H). inversion H; subst. cbn.
  eapply fields_all; [|eassumption]. intros. eapply field_endianness; eassumption.
Qed.

Lemma fixed_little : forall m enums structs id d s i f,
  structure_from_model m Little enums structs id d = Ok s ->
  nth_error (s_fields s) i = Some (FFixed f) -> ff_endianness f = Little.
Proof.
  intros m enums structs id d s i f H Hf. apply structure_endianness in H.
  apply nth_error_In in Hf. rewrite Forall_forall in H. apply (H _ Hf).
Qed.
Lemma array_little : forall m enums structs id d s i f,
  structure_from_model m Little enums structs id d = Ok s ->
  nth_error (s_fields s) i = Some (FArray f) -> fa_endianness f = Little.
Proof.
  intros m enums structs id d s i f H Hf. apply structure_endianness in H.
  apply nth_error_In in Hf. rewrite Forall_forall in H. apply (H _ Hf).
Qed.

(** ** C02 *)
Lemma window_in_bounds : forall m endi enums structs id d s i f,
  structure_from_model m endi enums structs id d = Ok s ->
  no_overflow m structs d ->
  nth_error (s_fields s) i = Some f ->
  l_byte_offset (field_loc f) + l_byte_size (field_loc f) <= s_byte_size s.
Proof.
  intros m endi enums structs id d s i f H Hno Hf. pose proof H as H'. apply structure_layout in H.
  destruct H as (_ & _ & _ & Hb & t & Ht & H).
  destruct H as (Hs & H); [eapply no_overflow_no_wrap; eassumption|].
  destruct (H i f Hf) as (df & o & w & Hd & Hnm & Hat & Hle & Hloc).
  rewrite Hloc, loc_byte_size, loc_byte_offset, Hb, Hs. unfold ceil8. clear - Hle.
  Ltac Zify.zify_post_hook ::= Z.to_euclidean_division_equations. lia.
  Ltac Zify.zify_post_hook ::= idtac.
Qed.

(** ** C03 / C04 *)
Section Raw.
Context {E : Type}.

Lemma get_raw_exact : forall m mr enums structs id d s i f o w buf,
  structure_from_model m Little enums structs id d = Ok s ->
  no_overflow m structs d ->
  nth_error (s_fields s) i = Some (FFixed f) -> declared_at structs d i o w ->
  0 < w <= 64 -> addressable o w ->
  s_byte_size s <= len buf -> bytes_ok buf ->
  exists v, get_raw (E:=E) mr f buf = Ok v /\ is_field_value buf o w v.
Proof.
  intros m mr enums structs id d s i f o w buf H Hno Hf Hat Hw Ha Hlen Hbuf.
  pose proof (fixed_little _ _ _ _ _ _ _ _ H Hf) as Hl.
  destruct (fixed_in_structure _ _ _ _ _ _ _ _ _ _ H Hno Hf Hat) as (Hloc & Hle & Hwin).
  destruct (ac_get_LE (E:=E) mr f o w buf) as (v & Hv & Hb); try assumption; [lia|].
  exists v. split; [assumption|]. destruct (addressable_acc o w Ha) as (H1 & H2).
  rewrite H1, H2 in Hb. exact Hb.
Qed.

Lemma set_raw_exact : forall m mr enums structs id d s i f o w buf v,
  structure_from_model m Little enums structs id d = Ok s ->
  no_overflow m structs d ->
  nth_error (s_fields s) i = Some (FFixed f) -> declared_at structs d i o w ->
  0 < w <= 64 -> addressable o w ->
  s_byte_size s <= len buf -> bytes_ok buf ->
  exists buf', set_raw (E:=E) mr f buf v = Ok buf' /\ is_field_update buf o w v buf'.
Proof.
  intros m mr enums structs id d s i f o w buf v H Hno Hf Hat Hw Ha Hlen Hbuf.
  pose proof (fixed_little _ _ _ _ _ _ _ _ H Hf) as Hl.
  destruct (fixed_in_structure _ _ _ _ _ _ _ _ _ _ H Hno Hf Hat) as (Hloc & Hle & Hwin).
  destruct (ac_set_LE (E:=E) mr f o w buf v) as (b' & Hv & Hb); try assumption; [lia|].
  exists b'. split; [assumption|]. destruct (addressable_acc o w Ha) as (H1 & H2).
  rewrite H1, H2 in Hb. exact Hb.
Qed.

(** All scalar raw accessors succeed, addressable or not. *)
Lemma raw_accessors_total : forall m mr enums structs id d s i f o w buf v,
  structure_from_model m Little enums structs id d = Ok s ->
  no_overflow m structs d ->
  nth_error (s_fields s) i = Some (FFixed f) -> declared_at structs d i o w ->
  0 < w <= 64 ->
  s_byte_size s <= len buf -> bytes_ok buf ->
  (exists x, get_raw (E:=E) mr f buf = Ok x /\ x < 2 ^ w) /\
  (exists buf', set_raw (E:=E) mr f buf v = Ok buf' /\ length buf' = length buf /\ bytes_ok buf').
Proof.
  intros m mr enums structs id d s i f o w buf v H Hno Hf Hat Hw Hlen Hbuf.
  pose proof (fixed_little _ _ _ _ _ _ _ _ H Hf) as Hl.
  destruct (fixed_in_structure _ _ _ _ _ _ _ _ _ _ H Hno Hf Hat) as (Hloc & Hle & Hwin).
  split.
  - destruct (ac_get_LE (E:=E) mr f o w buf) as (x & Hv & Hb); try assumption; [lia|].
    exists x. split; [assumption|]. apply lt_pow2_testbit. intros j Hj. rewrite Hb.
    unfold acc_width. destruct (N.eqb (w mod 8) 0);
    match goal with |- (?a <? ?b) && _ = _ => destruct (N.ltb_spec a b) end; try reflexivity; lia.
  - destruct (ac_set_LE (E:=E) mr f o w buf v) as (b' & Hv & Hb); try assumption; [lia|].
    exists b'. split; [assumption|]. destruct Hb as (H1 & H2 & _). split; assumption.
Qed.

(** The witness buffer: all zero except bit [k]. *)
Definition one_bit (n : nat) (k : N) : bytes := le_enc n (2 ^ k).

Lemma one_bit_spec : forall n k i, k < 8 * N.of_nat n -> bit_at (one_bit n k) i = (i =? k).
Proof.
  intros n k i H. unfold one_bit. rewrite bit_at_le_enc.
  destruct (N.eqb_spec i k) as [->|Hne].
  - rewrite N.pow2_bits_true. destruct (N.ltb_spec k (8 * N.of_nat n)); [reflexivity|lia].
  - rewrite N.pow2_bits_false by congruence. apply andb_false_r.
Qed.

Lemma addressable_dec : forall o w, {addressable o w} + {~ addressable o w}.
Proof.
  intros. unfold addressable. destruct (w mod 8 =? 0).
  - apply N.eq_dec.
  - destruct (N.leb (o mod 8 + w) (8 * ceil8 w)) eqn:He.
    + left. apply N.leb_le. assumption.
    + right. apply N.leb_gt in He. lia.
Qed.

(** Not addressable: the getter misses the field's last bit, or reads a bit
    that is not the field's first. *)
Lemma get_raw_wrong : forall m mr enums structs id d s i f o w,
  structure_from_model m Little enums structs id d = Ok s ->
  no_overflow m structs d ->
  nth_error (s_fields s) i = Some (FFixed f) -> declared_at structs d i o w ->
  0 < w <= 64 -> ~ addressable o w ->
  exists buf v, len buf = s_byte_size s /\ bytes_ok buf /\
    get_raw (E:=E) mr f buf = Ok v /\ ~ is_field_value buf o w v.
Proof.
  intros m mr enums structs id d s i f o w H Hno Hf Hat Hw Ha.
  pose proof (fixed_little _ _ _ _ _ _ _ _ H Hf) as Hl.
  destruct (fixed_in_structure _ _ _ _ _ _ _ _ _ _ H Hno Hf Hat) as (Hloc & Hle & Hwin).
  apply structure_layout in H. destruct H as (_ & _ & _ & Hbs & _).
  set (k := o + w - 1).
  set (buf := one_bit (N.to_nat (s_byte_size s)) k).
  assert (Hlen : len buf = s_byte_size s).
  { unfold buf, one_bit, len. rewrite le_enc_length. lia. }
  assert (Hok : bytes_ok buf) by apply le_enc_ok.
  assert (Hk : k < 8 * N.of_nat (N.to_nat (s_byte_size s))).
  { rewrite Hbs. unfold ceil8, k.
    Ltac Zify.zify_post_hook ::= Z.to_euclidean_division_equations. lia. }
  destruct (ac_get_LE (E:=E) mr f o w buf) as (v & Hv & Hb); try assumption; [lia|].
  exists buf, v. repeat split; try assumption. intro Hc.
  specialize (Hc (w - 1)). specialize (Hb (w - 1)). rewrite Hb in Hc.
  unfold buf in Hc. rewrite !one_bit_spec in Hc by assumption.
  replace (o + (w - 1) =? k) with true in Hc by (symmetry; apply N.eqb_eq; unfold k; lia).
  replace (w - 1 <? w) with true in Hc by (symmetry; apply N.ltb_lt; lia).
  apply andb_true_iff in Hc. destruct Hc as (Hc1 & Hc2).
  apply N.ltb_lt in Hc1. apply N.eqb_eq in Hc2.
  unfold acc_start, acc_width, addressable, ceil8, k in *.
  destruct (N.eqb_spec (w mod 8) 0); lia.
  Ltac Zify.zify_post_hook ::= idtac.
Qed.

(** Not addressable: the setter fails to store the field's last bit. *)
Lemma set_raw_wrong : forall m mr enums structs id d s i f o w,
  structure_from_model m Little enums structs id d = Ok s ->
  no_overflow m structs d ->
  nth_error (s_fields s) i = Some (FFixed f) -> declared_at structs d i o w ->
  0 < w <= 64 -> ~ addressable o w ->
  exists buf v buf', len buf = s_byte_size s /\ bytes_ok buf /\ v < 2 ^ w /\
    set_raw (E:=E) mr f buf v = Ok buf' /\ ~ is_field_update buf o w v buf'.
Proof.
  intros m mr enums structs id d s i f o w H Hno Hf Hat Hw Ha.
  pose proof (fixed_little _ _ _ _ _ _ _ _ H Hf) as Hl.
  destruct (fixed_in_structure _ _ _ _ _ _ _ _ _ _ H Hno Hf Hat) as (Hloc & Hle & Hwin).
  set (buf := repeat 0 (N.to_nat (s_byte_size s))).
  assert (Hlen : len buf = s_byte_size s).
  { unfold buf, len. rewrite repeat_length. lia. }
  assert (Hok : bytes_ok buf) by apply bytes_ok_zeros.
  destruct (ac_set_LE (E:=E) mr f o w buf (2 ^ w - 1)) as (b' & Hv & (H1 & H2 & H3));
    try assumption; [lia|].
  exists buf, (2 ^ w - 1), b'. repeat split; try assumption.
  { assert (2 ^ w <> 0) by (apply N.pow_nonzero; lia). lia. }
  intros (_ & _ & Hc). specialize (Hc (o + w - 1)). specialize (H3 (o + w - 1)).
  rewrite H3 in Hc. rewrite !testbit_mask in Hc. unfold buf in Hc. rewrite !bit_at_zeros in Hc.
  clear - Hc Ha Hw.
  Ltac Zify.zify_post_hook ::= Z.to_euclidean_division_equations.
  replace (o <=? o + w - 1) with true in Hc by lia.
  replace (o + w - 1 <? o + w) with true in Hc by lia.
  replace (o + w - 1 - o <? w) with true in Hc by lia. cbn [andb] in Hc.
  match type of Hc with (if ?c then _ else _) = _ => destruct c eqn:Hcond; [|discriminate] end.
  apply andb_true_iff in Hcond. destruct Hcond as (Hc1 & Hc2).
  apply N.leb_le in Hc1. apply N.ltb_lt in Hc2.
  unfold acc_start, acc_width, addressable, ceil8 in *.
  destruct (N.eqb_spec (w mod 8) 0); lia.
  Ltac Zify.zify_post_hook ::= idtac.
Qed.

(** ** C05 *)

Lemma declared_total_app : forall structs a b t,
  declared_total structs (a ++ b) = Some t ->
  exists ta tb, declared_total structs a = Some ta /\ declared_total structs b = Some tb /\ t = ta + tb.
Proof.
  intros structs. induction a as [|x a IH]; intros b t H; cbn in *.
  - exists 0, t. repeat split; assumption.
  - destruct (declared_bits structs x) as [w|]; [|discriminate].
    destruct (declared_total structs (a ++ b)) as [t'|] eqn:Ht; [|discriminate].
    destruct (IH b t' Ht) as (ta & tb & -> & -> & ->). inversion H; subst.
    exists (w + ta), tb. repeat split. lia.
Qed.

Lemma firstn_S_nth : forall {A} (l : list A) i x, nth_error l i = Some x ->
  firstn (S i) l = firstn i l ++ [x].
Proof.
  intros A l. induction l as [|y l IH]; intros [|i] x H; try discriminate; cbn in *.
  - inversion H. reflexivity.
  - f_equal. apply IH. assumption.
Qed.

(** Declared positions of different fields do not overlap. *)
Lemma declared_disjoint : forall structs d i j o w o' w',
  declared_at structs d i o w -> declared_at structs d j o' w' -> (i < j)%nat -> o + w <= o'.
Proof.
  intros structs d i j o w o' w' (H1 & f & H2 & H3) (H1' & f' & H2' & H3') Hij.
  assert (Hsplit : firstn j (ss_fields d) =
     firstn (S i) (ss_fields d) ++ skipn (S i) (firstn j (ss_fields d))).
  { rewrite <- (firstn_skipn (S i) (firstn j (ss_fields d))) at 1. f_equal.
    rewrite firstn_firstn. f_equal. lia. }
  rewrite Hsplit in H1'. apply declared_total_app in H1'.
  destruct H1' as (ta & tb & Ha & Hb & ->).
  rewrite (firstn_S_nth _ _ _ H2) in Ha. apply declared_total_app in Ha.
  destruct Ha as (t1 & t2 & Ha1 & Ha2 & ->). cbn in Ha2. rewrite H3 in Ha2. inversion Ha2; subst.
  rewrite Ha1 in H1. inversion H1; subst. lia.
Qed.

Lemma field_value_update_same : forall buf o w v buf',
  is_field_update buf o w v buf' -> is_field_value buf' o w (v mod 2 ^ w).
Proof.
  intros buf o w v buf' (_ & _ & H) j. rewrite testbit_mod_pow2, H.
  destruct (N.ltb_spec j w); [|reflexivity]. cbn [andb].
  destruct (N.leb_spec o (o + j)); [|lia]. destruct (N.ltb_spec (o + j) (o + w)); [|lia].
  cbn [andb]. f_equal. lia.
Qed.

Lemma field_value_update_other : forall buf o w v buf' o' w' x,
  is_field_update buf o w v buf' -> (o + w <= o' \/ o' + w' <= o) ->
  is_field_value buf o' w' x -> is_field_value buf' o' w' x.
Proof.
  intros buf o w v buf' o' w' x (_ & _ & H) Hd Hx j. rewrite Hx.
  destruct (N.ltb_spec j w'); [|reflexivity]. cbn [andb]. rewrite H.
  destruct (N.leb_spec o (o' + j)), (N.ltb_spec (o' + j) (o + w)); try reflexivity; lia.
Qed.

Lemma history_correct : forall m mr enums structs id d s,
  structure_from_model m Little enums structs id d = Ok s ->
  no_overflow m structs d ->
  forall h buf,
  (forall i v, In (i, v) h -> good_field structs d s i) ->
  s_byte_size s <= len buf -> bytes_ok buf ->
  exists buf', run_history (E:=E) mr s h buf = Ok buf' /\ length buf' = length buf /\ bytes_ok buf' /\
    forall i f o w, nth_error (s_fields s) i = Some (FFixed f) -> declared_at structs d i o w ->
      0 < w <= 64 -> addressable o w ->
      get_raw (E:=E) mr f buf' =
        match last_set h i with
        | Some v => Ok (v mod 2 ^ w)
        | None => get_raw mr f buf
        end.
Proof.
  intros m mr enums structs id d s H Hno. induction h as [|(i & v) h IH]; intros buf Hgood Hlen Hok.
  - exists buf. cbn. repeat split; auto.
  - destruct (Hgood i v) as (f & o & w & Hf & Hat & Hw & Ha); [left; reflexivity|].
    destruct (set_raw_exact m mr _ _ _ _ _ _ _ _ _ buf v H Hno Hf Hat Hw Ha Hlen Hok)
      as (b1 & Hset & Hupd).
    cbn [run_history]. rewrite Hf, Hset. cbn [bind].
    pose proof Hupd as (Hl1 & Hok1 & _).
    destruct (IH b1) as (buf' & Hrun & Hl & Hok' & Hget).
    { intros i' v' Hin. apply (Hgood i' v'). right. assumption. }
    { unfold len in *. lia. }
    { assumption. }
    exists buf'. split; [assumption|]. split; [congruence|]. split; [assumption|].
    intros i' f' o' w' Hf' Hat' Hw' Ha'. rewrite (Hget i' f' o' w' Hf' Hat' Hw' Ha').
    cbn [last_set]. destruct (last_set h i') as [x|]; [reflexivity|].
    assert (Hlen1 : s_byte_size s <= len b1) by (unfold len in *; lia).
    destruct (get_raw_exact m mr _ _ _ _ _ _ _ _ _ b1 H Hno Hf' Hat' Hw' Ha' Hlen1 Hok1)
      as (y & Hy & Hyv). rewrite Hy.
    destruct (Nat.eqb_spec i i') as [->|Hne].
    + destruct (declared_at_fun _ _ _ _ _ _ _ Hat Hat'); subst o' w'. f_equal.
      eapply is_field_value_unique; [eassumption|]. eapply field_value_update_same; eassumption.
    + destruct (get_raw_exact m mr _ _ _ _ _ _ _ _ _ buf H Hno Hf' Hat' Hw' Ha' Hlen Hok)
        as (z & Hz & Hzv). rewrite Hz. f_equal.
      eapply is_field_value_unique; [eassumption|].
      eapply field_value_update_other; [eassumption| |eassumption].
      destruct (Nat.lt_total i i') as [Hlt|[Heq|Hlt]]; [|congruence|].
      * left. eapply declared_disjoint; eassumption.
      * right. eapply declared_disjoint; eassumption.
Qed.

End Raw.
