(** Proofs about chains of nested structure accessors (C12). *)

From Coq Require Import Arith NArith ZArith String List Bool Lia ZifyBool ZifyN ZifyNat.
From Verif Require Import Base Schema Bits BitsFacts Codec CodecFacts Compiler Access SpecStruct
  StructFacts StructThms.
Import ListNotations.
Local Open Scope N_scope.
Ltac Zify.zify_post_hook ::= idtac.

Inductive struct_ok : structure -> Prop :=
| struct_ok_intro : forall id name fs bits,
    layout_ok 0 fs bits -> struct_ok (MkStructure id name fs (ceil8 bits) bits)
with layout_ok : N -> list field -> N -> Prop :=
| lo_nil : forall off, layout_ok off [] off
| lo_fixed : forall off f w fs t,
    ff_loc f = location_from_model w off -> ff_endianness f = Little ->
    layout_ok (off + w) fs t -> layout_ok off (FFixed f :: fs) t
| lo_array : forall off f w fs t,
    fa_loc f = location_from_model w off ->
    layout_ok (off + w) fs t -> layout_ok off (FArray f :: fs) t
| lo_struct : forall off n r fs t,
    struct_ok r -> layout_ok (off + s_bit_size r) fs t ->
    layout_ok off (FStruct n r (location_from_model (s_bit_size r) off) :: fs) t.

Lemma fields_layout_ok : forall m enums structs,
  (forall n r, sget n structs = Some r -> struct_ok r) ->
  forall l off fs off' t,
  fields_from_model m Little enums structs off l = Ok (fs, off') ->
  declared_total structs l = Some t -> no_wrap m (off + t) ->
  layout_ok off fs off'.
Proof.
  intros m enums structs Hs. induction l as [|d l IH]; intros off fs off' t H Ht Hn; cbn in H.
  - inversion H; subst. constructor.
  - apply bind_ok in H. destruct H as ((f & off1) & H0 & H).
    apply bind_ok in H. destruct H as ((fs1 & off2) & H1 & H). inversion H; subst.
    pose proof (field_from_model_layout _ _ _ _ _ _ _ _ H0) as (w & Hw & _ & Hl).
    pose proof (field_endianness _ _ _ _ _ _ _ H0) as He.
    cbn in Ht. rewrite Hw in Ht. destruct (declared_total structs l) as [t1|] eqn:Ht1; [|discriminate].
    inversion Ht; subst t. destruct Hl as (-> & Hl); [eapply no_wrap_le; [eassumption|lia]|].
    assert (Hrest : layout_ok (off + w) fs1 off').
    { eapply IH; [eassumption|reflexivity|]. replace (off + w + t1) with (off + (w + t1)) by lia. assumption. }
    destruct f as [x|x|n r loc]; cbn [field_loc] in Hl.
    + econstructor; eassumption.
    + econstructor; eassumption.
    + assert (Hr : struct_ok r /\ w = s_bit_size r).
      { unfold field_from_model in H0. unfold declared_bits in Hw. destruct (sf_info d) as [b|b|b|b|nm].
        1-4: cbn [get_bit_size ok_or bind] in H0; inv_bind H0; inv_bind H0; inv_bind H0;
          destruct (1 <? _); [destruct (negb _); [discriminate|]|]; inv_bind H0; discriminate.
        inv_bind H0. inv_bind H0. inversion H0; subst. apply ok_or_ok in H2. rewrite H2 in Hw.
        inversion Hw. split; [eapply Hs; eassumption|reflexivity]. }
      destruct Hr as (Hr & ->). subst loc. constructor; assumption.
Qed.

Lemma structure_ok : forall m enums structs id d s,
  (forall n r, sget n structs = Some r -> struct_ok r) ->
  structure_from_model m Little enums structs id d = Ok s -> no_overflow m structs d -> struct_ok s.
Proof.
  intros m enums structs id d s Hs H Hno. pose proof (structure_layout _ _ _ _ _ _ _ H) as Hl.
  destruct Hl as (_ & _ & _ & _ & t & Ht & _).
  unfold structure_from_model in H. apply bind_ok in H. destruct H as ((fs & off) & H0 & H).
  inversion H; subst. rewrite ceil8_eq. constructor.
  eapply fields_layout_ok; [eassumption|eassumption|eassumption|].
  cbn. eapply no_overflow_no_wrap; eassumption.
Qed.

Lemma built_ok : forall m structs, built m structs -> forall n r, sget n structs = Some r -> struct_ok r.
Proof.
  intros m structs H. induction H as [|enums visible id d s k others Hv IHv Hs Hno Ho IHo]; intros n r Hr.
  - discriminate.
  - cbn in Hr. destruct (String.eqb n k).
    + inversion Hr; subst. exact (structure_ok _ _ _ _ _ _ IHv Hs Hno).
    + eapply IHo; eassumption.
Qed.

Lemma loc_bit_size : forall w o, l_bit_size (location_from_model w o) = w.
Proof. reflexivity. Qed.

(** Position of a field inside a layout. *)
Lemma layout_nth : forall off fs t, layout_ok off fs t ->
  forall i f, nth_error fs i = Some f ->
  field_loc f = location_from_model (field_bits f) (off + total_bits (firstn i fs)) /\
  off + total_bits (firstn i fs) + field_bits f <= t /\
  match f with
  | FFixed x => ff_endianness x = Little
  | FArray _ => True
  | FStruct _ r _ => struct_ok r
  end.
Proof.
  intros off fs t H.
  assert (Hmono : forall off fs t, layout_ok off fs t -> off <= t).
  { clear. intros off fs. revert off. induction fs as [|f fs IH]; intros off t H; inversion H; subst;
      [lia|specialize (IH _ _ H6)|specialize (IH _ _ H5)|specialize (IH _ _ H5)]; lia. }
  revert off t H. induction fs as [|g fs IH]; intros off t H [|i] f Hf; try discriminate; cbn in Hf.
  - inversion Hf; subst g. cbn [firstn total_bits]. rewrite N.add_0_r.
    inversion H as [| ? x w ? ? Hl He Hr | ? x w ? ? Hl Hr | ? n r ? ? Hr Hrest]; subst;
      cbn [field_loc field_bits].
    + rewrite Hl, loc_bit_size. split; [reflexivity|]. split; [apply (Hmono _ _ _ Hr)|assumption].
    + rewrite Hl, loc_bit_size. split; [reflexivity|]. split; [apply (Hmono _ _ _ Hr)|exact I].
    + split; [reflexivity|]. split; [apply (Hmono _ _ _ Hrest)|assumption].
  - cbn [firstn total_bits].
    inversion H as [| ? x w ? ? Hl He Hr | ? x w ? ? Hl Hr | ? n r ? ? Hr Hrest]; subst;
      cbn [field_bits].
    + rewrite Hl, loc_bit_size, N.add_assoc. apply IH; assumption.
    + rewrite Hl, loc_bit_size, N.add_assoc. apply IH; assumption.
    + rewrite N.add_assoc. apply IH; assumption.
Qed.

Lemma struct_nth : forall s, struct_ok s -> forall i f, nth_error (s_fields s) i = Some f ->
  field_loc f = location_from_model (field_bits f) (total_bits (firstn i (s_fields s))) /\
  total_bits (firstn i (s_fields s)) + field_bits f <= s_bit_size s /\
  match f with
  | FFixed x => ff_endianness x = Little
  | FArray _ => True
  | FStruct _ r _ => struct_ok r
  end.
Proof.
  intros s H i f Hf. inversion H as [id name fs bits Hl]; subst. cbn in *.
  apply (layout_nth _ _ _ Hl _ _ Hf).
Qed.

Lemma struct_bytes : forall s, struct_ok s -> s_byte_size s = ceil8 (s_bit_size s).
Proof. intros s H. inversion H; subst. reflexivity. Qed.

Lemma path_at_le : forall s path o w, path_at s path o w -> struct_ok s -> o + w <= s_bit_size s.
Proof.
  intros s path o w H. induction H as [s i f Hf|s i n r loc rest o w Hf Hp IH]; intro Hok;
    destruct (struct_nth s Hok i _ Hf) as (Hloc & Hle & Hr); cbn [field_bits] in *.
  - assumption.
  - specialize (IH Hr). lia.
Qed.

Lemma ceil8_le : forall a b, a <= b -> ceil8 a <= ceil8 b.
Proof. intros. unfold ceil8. apply N.div_le_mono; lia. Qed.
Lemma ceil8_cover : forall a, a <= 8 * ceil8 a.
Proof.
  intros. unfold ceil8.
  Ltac Zify.zify_post_hook ::= Z.to_euclidean_division_equations. lia.
  Ltac Zify.zify_post_hook ::= idtac.
Qed.
Lemma window_fits : forall o w t, o + w <= t -> o / 8 + ceil8 w <= ceil8 t.
Proof.
  intros. unfold ceil8.
  Ltac Zify.zify_post_hook ::= Z.to_euclidean_division_equations. lia.
  Ltac Zify.zify_post_hook ::= idtac.
Qed.

Section Nested.
Context {E : Type}.

Lemma path_get_correct : forall mr path s o w buf,
  struct_ok s -> path_at s path o w -> path_bytes_aligned s path ->
  0 < w <= 64 -> addressable o w ->
  s_byte_size s <= len buf -> bytes_ok buf ->
  exists v, path_get (E:=E) mr s path buf = Ok v /\ is_field_value buf o w v.
Proof.
  intros mr. induction path as [|i path IH]; intros s o w buf Hok Hp Hal Hw Ha Hlen Hbuf; [inversion Hp|].
  inversion Hp as [s0 i0 f Hf|s0 i0 n r loc rest o' w' Hf Hr]; subst; cbn [path_get]; rewrite Hf;
    destruct (struct_nth s Hok i _ Hf) as (Hloc & Hle & Hx); cbn [field_bits field_loc] in *;
    rewrite (struct_bytes _ Hok) in Hlen.
  - pose proof (window_fits _ _ _ Hle).
    destruct (ac_get_LE (E:=E) mr f _ _ buf Hloc Hx Hw) as (v & Hv & Hb); [lia|assumption|].
    exists v. split; [assumption|]. destruct (addressable_acc _ _ Ha) as (H1 & H2).
    rewrite H1, H2 in Hb. exact Hb.
  - cbn [path_bytes_aligned] in Hal. rewrite Hf in Hal. destruct Hal as (Hal0 & Hal).
    subst loc. set (o0 := total_bits (firstn i (s_fields s))) in *.
    rewrite loc_byte_offset, loc_byte_size.
    pose proof (window_fits _ _ _ Hle) as Hfit.
    destruct (slice_window (E:=E) buf (o0 / 8) (o0 / 8 + ceil8 (s_bit_size r)))
      as (x & Hsl & Hxl & Hxo & Hxb); [lia|lia|assumption|].
    rewrite Hsl. cbn [bind].
    assert (Ho0 : o0 = 8 * (o0 / 8)).
    { pose proof (N.div_mod o0 8 ltac:(discriminate)) as Hdm. rewrite Hal0 in Hdm. lia. }
    assert (Ha' : addressable o' w).
    { unfold addressable in *. rewrite Ho0, N.add_comm, (N.mul_comm 8), N.mod_add in Ha by discriminate.
      assumption. }
    destruct (IH r o' w x) as (v & Hv & Hvf); try assumption.
    { rewrite (struct_bytes _ Hx). unfold len. lia. }
    exists v. split; [assumption|]. intro j. rewrite Hvf, Hxb.
    destruct (N.ltb_spec j w); [|reflexivity]. cbn [andb].
    pose proof (path_at_le _ _ _ _ Hr Hx). pose proof (ceil8_cover (s_bit_size r)).
    destruct (N.ltb_spec (o' + j) (8 * (o0 / 8 + ceil8 (s_bit_size r) - o0 / 8))); [|lia].
    cbn [andb]. f_equal. lia.
Qed.

Lemma path_set_correct : forall mr v path s o w buf,
  struct_ok s -> path_at s path o w -> path_bytes_aligned s path ->
  0 < w <= 64 -> addressable o w ->
  s_byte_size s <= len buf -> bytes_ok buf ->
  exists buf', path_set (E:=E) mr s path buf v = Ok buf' /\ is_field_update buf o w v buf'.
Proof.
  intros mr v. induction path as [|i path IH]; intros s o w buf Hok Hp Hal Hw Ha Hlen Hbuf; [inversion Hp|].
  inversion Hp as [s0 i0 f Hf|s0 i0 n r loc rest o' w' Hf Hr]; subst; cbn [path_set]; rewrite Hf;
    destruct (struct_nth s Hok i _ Hf) as (Hloc & Hle & Hx); cbn [field_bits field_loc] in *;
    rewrite (struct_bytes _ Hok) in Hlen.
  - pose proof (window_fits _ _ _ Hle).
    destruct (ac_set_LE (E:=E) mr f _ _ buf v Hloc Hx Hw) as (b' & Hv & Hb); [lia|assumption|].
    exists b'. split; [assumption|]. destruct (addressable_acc _ _ Ha) as (H1 & H2).
    rewrite H1, H2 in Hb. exact Hb.
  - cbn [path_bytes_aligned] in Hal. rewrite Hf in Hal. destruct Hal as (Hal0 & Hal).
    subst loc. set (o0 := total_bits (firstn i (s_fields s))) in *.
    rewrite loc_byte_offset, loc_byte_size. unfold update_slice.
    pose proof (window_fits _ _ _ Hle) as Hfit.
    destruct (slice_window (E:=E) buf (o0 / 8) (o0 / 8 + ceil8 (s_bit_size r)))
      as (x & Hsl & Hxl & Hxo & Hxb); [lia|lia|assumption|].
    rewrite Hsl. cbn [bind].
    assert (Ho0 : o0 = 8 * (o0 / 8)).
    { pose proof (N.div_mod o0 8 ltac:(discriminate)) as Hdm. rewrite Hal0 in Hdm. lia. }
    assert (Ha' : addressable o' w).
    { unfold addressable in *. rewrite Ho0, N.add_comm, (N.mul_comm 8), N.mod_add in Ha by discriminate.
      assumption. }
    destruct (IH r o' w x) as (x' & Hv & U1 & U2 & U3); try assumption.
    { rewrite (struct_bytes _ Hx). unfold len. lia. }
    rewrite Hv. cbn [bind]. eexists. split; [reflexivity|].
    assert (Hlx : len x' = ceil8 (s_bit_size r)) by (unfold len; lia).
    pose proof (path_at_le _ _ _ _ Hr Hx) as Hple. pose proof (ceil8_cover (s_bit_size r)) as Hcov.
    split; [apply splice_length; rewrite Hlx; lia|]. split; [apply bytes_ok_splice; assumption|].
    intro t. rewrite bit_at_splice by (rewrite Hlx; lia). rewrite Hlx, U3.
    set (q := o0 / 8) in *. clearbody q. clear Hal0 Hfit.
    destruct (N.leb_spec (8 * q) t), (N.ltb_spec t (8 * (q + ceil8 (s_bit_size r)))); cbn [andb].
    + destruct (N.leb_spec o' (t - 8 * q)), (N.ltb_spec (t - 8 * q) (o' + w)),
        (N.leb_spec (o0 + o') t), (N.ltb_spec t (o0 + o' + w)); try lia; cbn [andb].
      * f_equal. lia.
      * rewrite Hxb.
        destruct (N.ltb_spec (t - 8 * q) (8 * (q + ceil8 (s_bit_size r) - q))); [|lia].
        cbn [andb]. f_equal. lia.
      * rewrite Hxb.
        destruct (N.ltb_spec (t - 8 * q) (8 * (q + ceil8 (s_bit_size r) - q))); [|lia].
        cbn [andb]. f_equal. lia.
    + destruct (N.leb_spec (o0 + o') t), (N.ltb_spec t (o0 + o' + w)); try reflexivity. lia.
    + destruct (N.leb_spec (o0 + o') t), (N.ltb_spec t (o0 + o' + w)); try reflexivity. lia.
    + destruct (N.leb_spec (o0 + o') t), (N.ltb_spec t (o0 + o' + w)); try reflexivity. lia.
Qed.

(** ** C12 *)
Lemma nested_paths : forall m mr structs name s path o w,
  built m structs -> sget name structs = Some s ->
  path_at s path o w -> path_bytes_aligned s path -> 0 < w <= 64 -> addressable o w ->
  o + w <= s_bit_size s /\
  forall buf, s_byte_size s <= len buf -> bytes_ok buf ->
    (exists v, path_get (E:=E) mr s path buf = Ok v /\ is_field_value buf o w v) /\
    (forall v, exists buf', path_set (E:=E) mr s path buf v = Ok buf' /\ is_field_update buf o w v buf').
Proof.
  intros m mr structs name s path o w Hb Hs Hp Hal Hw Ha.
  pose proof (built_ok _ _ Hb _ _ Hs) as Hok. split; [eapply path_at_le; eassumption|].
  intros buf Hlen Hbuf. split.
  - eapply path_get_correct; eassumption.
  - intro v. eapply path_set_correct; eassumption.
Qed.

End Nested.
