(** The scalars and array items of a structure, at every depth, are independent
    variables (C99). *)

From Coq Require Import Arith NArith ZArith String List Bool Lia ZifyBool ZifyN ZifyNat.
From Verif Require Import Base Schema Bits BitsFacts Codec CodecFacts Compiler Access SpecStruct
  StructFacts StructThms ViewThms ArrayThms NestedThms Place SpecPlace.
Import ListNotations.
Local Open Scope N_scope.
Ltac Zify.zify_post_hook ::= idtac.

(** ** Windows *)
Lemma value_lift : forall buf x q n o w v,
  (forall i, bit_at x i = (i <? 8 * n) && bit_at buf (8 * q + i)) -> o + w <= 8 * n ->
  is_field_value x o w v -> is_field_value buf (8 * q + o) w v.
Proof.
  intros buf x q n o w v Hx Hw Hv j. rewrite Hv, Hx. destruct (N.ltb_spec j w); [|reflexivity]. cbn [andb].
  destruct (N.ltb_spec (o + j) (8 * n)); [|lia]. cbn [andb]. f_equal. lia.
Qed.
Lemma update_lift : forall buf x x' q n o w v, bytes_ok buf -> q + n <= len buf -> len x = n ->
  (forall i, bit_at x i = (i <? 8 * n) && bit_at buf (8 * q + i)) -> o + w <= 8 * n ->
  is_field_update x o w v x' -> is_field_update buf (8 * q + o) w v (splice buf q x').
Proof.
  intros buf x x' q n o w v Hb Hn Hl Hx Hw (U1 & U2 & U3). assert (Hl' : len x' = n) by (unfold len in *; lia).
  split; [apply splice_length; rewrite Hl'; exact Hn|]. split; [apply bytes_ok_splice; assumption|].
  intro t. rewrite bit_at_splice by (rewrite Hl'; exact Hn). rewrite Hl', U3, Hx.
  destruct (N.leb_spec (8 * q) t), (N.ltb_spec t (8 * (q + n))), (N.leb_spec o (t - 8 * q)), (N.ltb_spec (t - 8 * q) (o + w)),
    (N.leb_spec (8 * q + o) t), (N.ltb_spec t (8 * q + o + w)), (N.ltb_spec (t - 8 * q) (8 * n)); cbn [andb]; try lia; try reflexivity;
    f_equal; lia.
Qed.

(** ** Arrays of compiled structures *)
Definition array_fine (f : array_field) : Prop :=
  fa_endianness f = Little /\ 0 < fa_array_len f.
Inductive deep : structure -> Prop :=
| deep_intro : forall s, s_bit_size s < usize_mod ->
    (forall i f, nth_error (s_fields s) i = Some (FArray f) -> array_fine f) ->
    (forall i n r loc, nth_error (s_fields s) i = Some (FStruct n r loc) -> deep r) -> deep s.

Lemma built_deep : forall m structs, built m structs -> forall n r, sget n structs = Some r -> deep r.
Proof.
  intros m structs H. induction H as [|enums visible id d s k others Hv IHv Hs Hno Ho IHo]; intros n r Hr.
  - discriminate.
  - cbn in Hr. destruct (String.eqb n k); [|eapply IHo; eassumption]. injection Hr as <-. constructor.
    + eapply structure_bound; eassumption.
    + intros i f Hf. split; [eapply array_little; eassumption|].
      destruct (structure_nth _ _ _ _ _ _ _ _ _ Hs Hf) as (df & o1 & o2 & _ & Hfm).
      apply array_shape in Hfm. destruct Hfm as (b & c & _ & _ & H1 & H2 & _). lia.
    + intros i nm r loc Hf. destruct (structure_nth _ _ _ _ _ _ _ _ _ Hs Hf) as (df & o1 & o2 & _ & Hfm).
      unfold field_from_model in Hfm. destruct (sf_info df) as [b|b|b|b|x].
      1-4: cbn [get_bit_size ok_or bind] in Hfm; inv_bind Hfm; inv_bind Hfm; inv_bind Hfm;
        destruct (1 <? _); [destruct (negb _); [discriminate|]|]; inv_bind Hfm; discriminate.
      inv_bind Hfm. inv_bind Hfm. inversion Hfm; subst. match goal with X : ok_or _ _ = Ok _ |- _ => apply ok_or_ok in X; eapply IHv; exact X end.
Qed.

Lemma type_size : forall ty, (get_byte_size ty <= 8)%nat.
Proof. intros []; cbn; lia. Qed.

(** ** Places are apart *)
Lemma total_bits_app : forall a b, total_bits (a ++ b) = total_bits a + total_bits b.
Proof. induction a as [|f a IH]; intro b; cbn [app total_bits]; [reflexivity|]. rewrite IH. lia. Qed.
Lemma later_field : forall fs i j f, (i < j)%nat -> nth_error fs i = Some f ->
  total_bits (firstn i fs) + field_bits f <= total_bits (firstn j fs).
Proof.
  intros fs i j f Hij Hf. destruct (nth_error_split _ _ Hf) as (a & b & -> & <-).
  rewrite firstn_app, firstn_all, Nat.sub_diag, firstn_O, app_nil_r.
  rewrite firstn_app, firstn_all2 by lia. destruct (j - length a)%nat as [|k] eqn:K; [lia|].
  cbn [firstn]. rewrite total_bits_app. cbn [total_bits]. lia.
Qed.

Lemma item_end : forall b n k, n < k -> b * n + b <= b * k.
Proof. intros b n k H. nia. Qed.

(** A place lies in its field. *)
Lemma place_field : forall s i rest item o w, struct_ok s -> at_place s (i :: rest) item o w ->
  exists f, nth_error (s_fields s) i = Some f /\
    total_bits (firstn i (s_fields s)) <= o /\ o + w <= total_bits (firstn i (s_fields s)) + field_bits f.
Proof.
  assert (G : forall s path item o w, at_place s path item o w -> struct_ok s ->
    o + w <= s_bit_size s /\ forall i rest, path = i :: rest ->
    exists f, nth_error (s_fields s) i = Some f /\
      total_bits (firstn i (s_fields s)) <= o /\ o + w <= total_bits (firstn i (s_fields s)) + field_bits f).
  { intros s path item o w H. induction H as [s i f Hf|s i f n b Hf Hn Hb Hs|s i nm r loc rest item o w Hf Hp IH]; intro Hok;
      destruct (struct_nth s Hok i _ Hf) as (Hloc & Hle & Hr); cbn [field_bits] in Hle.
    - split; [exact Hle|]. intros j rest' Hj. injection Hj as <- <-. exists (FFixed f). cbn [field_bits]. split; [exact Hf|lia].
    - rewrite Hb in Hle. pose proof (item_end b n _ Hn). split; [lia|]. intros j rest' Hj. injection Hj as <- <-.
      exists (FArray f). cbn [field_bits]. rewrite Hb. split; [exact Hf|lia].
    - destruct (IH Hr) as (IH1 & _). split; [lia|]. intros j rest' Hj. injection Hj as <- <-.
      exists (FStruct nm r loc). cbn [field_bits]. split; [exact Hf|lia]. }
  intros s i rest item o w Hok H. exact (proj2 (G _ _ _ _ _ H Hok) i rest eq_refl).
Qed.
Lemma place_le : forall s path item o w, struct_ok s -> at_place s path item o w -> o + w <= s_bit_size s.
Proof.
  intros s path item o w Hok H. destruct path as [|i rest]; [inversion H|].
  destruct (place_field _ _ _ _ _ _ Hok H) as (f & Hf & _ & H2). destruct (struct_nth s Hok i f Hf) as (_ & H3 & _). lia.
Qed.

Lemma place_fun : forall s path item o w, at_place s path item o w -> forall o' w', at_place s path item o' w' -> o = o' /\ w = w'.
Proof.
  intros s path item o w H. induction H as [s i f Hf|s i f n b Hf Hn Hb Hs|s i nm r loc rest item o w Hf Hp IH]; intros o' w' H';
    inversion H' as [s0 i0 f0 Hf0|s0 i0 f0 n0 b0 Hf0 Hn0 Hb0 Hs0|s0 i0 nm0 r0 loc0 rest0 item0 o0 w0 Hf0 Hp0]; subst;
    rewrite Hf in Hf0; inversion Hf0; subst; try (match goal with X : at_place _ [] _ _ _ |- _ => inversion X end).
  - auto.
  - rewrite Hb in Hb0. apply N.mul_cancel_r in Hb0; [|lia]. subst. auto.
  - match goal with X : at_place _ rest _ _ _ |- _ => destruct (IH _ _ X) as (-> & ->) end. auto.
Qed.

Lemma places_apart : forall s path item o w, at_place s path item o w -> struct_ok s -> forall path' item' o' w',
  at_place s path' item' o' w' -> path <> path' \/ item <> item' -> o + w <= o' \/ o' + w' <= o.
Proof.
  intros s path item o w H. induction H as [s i f Hf|s i f n b Hf Hn Hb Hs|s i nm r loc rest item o w Hf Hp IH]; intros Hok path' item' o' w' H' Hne.
  1: pose proof (at_scalar _ _ _ Hf) as H. 2: pose proof (at_item _ _ _ _ _ Hf Hn Hb Hs) as H. 3: pose proof (at_inside _ _ _ _ _ _ _ _ _ Hf Hp) as H.
  all: destruct path' as [|i' rest']; [inversion H'|];
    destruct (place_field _ _ _ _ _ _ Hok H) as (g & Hg & G1 & G2); destruct (place_field _ _ _ _ _ _ Hok H') as (g' & Hg' & G1' & G2');
    destruct (Nat.lt_total i i') as [L|[L|L]];
    [left; pose proof (later_field _ _ _ _ L Hg); lia | subst i' | right; pose proof (later_field _ _ _ _ L Hg'); lia].
  - inversion H' as [s0 i0 f0 Hf0|s0 i0 f0 n0 b0 Hf0 Hn0 Hb0 Hs0|s0 i0 nm0 r0 loc0 rest0 item0 o0 w0 Hf0 Hp0]; subst;
      rewrite Hf in Hf0; inversion Hf0; subst. destruct Hne as [Hne|Hne]; congruence.
  - inversion H' as [s0 i0 f0 Hf0|s0 i0 f0 n0 b0 Hf0 Hn0 Hb0 Hs0|s0 i0 nm0 r0 loc0 rest0 item0 o0 w0 Hf0 Hp0]; subst;
      rewrite Hf in Hf0; inversion Hf0; subst. rewrite Hb in Hb0. apply N.mul_cancel_r in Hb0; [|lia]. subst.
    destruct Hne as [Hne|Hne]; [congruence|].
    destruct (N.lt_total n n0) as [L|[L|L]]; [left|congruence|right]; match goal with X : l_bit_size _ = ?bb * _ |- _ => pose proof (item_end bb _ _ L) end; lia.
  - inversion H' as [s0 i0 f0 Hf0|s0 i0 f0 n0 b0 Hf0 Hn0 Hb0 Hs0|s0 i0 nm0 r0 loc0 rest0 item0 o0 w0 Hf0 Hp0]; subst;
      rewrite Hf in Hf0; inversion Hf0; subst. destruct (struct_nth s Hok i _ Hf) as (_ & _ & Hr).
    match goal with X : at_place ?z rest' _ ?a _ |- _ => destruct (IH Hr _ _ _ _ X) as [L|L] end; [|left; lia|right; lia].
    destruct Hne as [Hne|Hne]; [left; congruence|right; exact Hne].
Qed.

(** ** One access *)
Section Access.
Context {E : Type} (mr : mode).

Lemma byte_start : forall o, o mod 8 = 0 -> o = 8 * (o / 8).
Proof. intros o H. pose proof (N.div_mod o 8 ltac:(discriminate)) as D. rewrite H in D. lia. Qed.
Lemma ceil8_bytes : forall a, ceil8 (8 * a) = a.
Proof. intro a. unfold ceil8. replace (8 * a + 7) with (7 + a * 8) by lia. rewrite N.div_add by discriminate. reflexivity. Qed.

Lemma item_correct : forall s i f n b buf, struct_ok s -> deep s -> nth_error (s_fields s) i = Some (FArray f) ->
  n < fa_array_len f -> l_bit_size (fa_loc f) = b * fa_array_len f -> b <= 8 * N.of_nat (get_byte_size (fa_ty f)) ->
  0 < b -> b mod 8 = 0 -> (total_bits (firstn i (s_fields s)) + b * n) mod 8 = 0 -> s_byte_size s <= len buf -> bytes_ok buf ->
  (exists v, arr_get (E:=E) mr f buf n = Ok v /\ is_field_value buf (total_bits (firstn i (s_fields s)) + b * n) b v) /\
  (forall v, exists buf', arr_set (E:=E) mr f buf n v = Ok buf' /\
     is_field_update buf (total_bits (firstn i (s_fields s)) + b * n) b v buf').
Proof.
  intros s i f n b buf Hok Hd Hf Hn Hb Hs Hb0 Hb8 Ho8 Hlen Hbuf. inversion Hd as [s0 Hbd Ha _]; subst s0.
  destruct (Ha _ _ Hf) as (He & Hk). destruct (struct_nth s Hok i _ Hf) as (Hloc & Hle & _). cbn [field_bits field_loc] in *.
  rewrite (struct_bytes _ Hok) in Hlen. pose proof (window_fits _ _ _ Hle) as Hwin.
  set (o0 := total_bits (firstn i (s_fields s))) in *. set (k := fa_array_len f) in *.
  pose proof (byte_start b Hb8) as Eb. set (c := b / 8) in *.
  assert (Ho0 : o0 mod 8 = 0).
  { rewrite Eb in Ho8. replace (o0 + 8 * c * n) with (o0 + (c * n) * 8) in Ho8 by lia. rewrite N.mod_add in Ho8 by discriminate. exact Ho8. }
  pose proof (byte_start o0 Ho0) as Eo. set (q := o0 / 8) in *.
  assert (Hceil : ceil8 (l_bit_size (fa_loc f)) = c * k).
  { rewrite Hb, Eb. rewrite <- N.mul_assoc. apply ceil8_bytes. }
  rewrite Hceil in Hwin. rewrite Hb in Hle. pose proof (item_end c n k Hn) as Hck0. pose proof (item_end b n k Hn) as Hbk.
  assert (Hc : 0 < c) by lia.
  assert (Hck : c * k < usize_mod). { assert (b * k = 8 * (c * k)) by (rewrite Eb; lia). lia. }
  assert (Hibs : item_bit_size (E:=E) f = Ok (8 * c)).
  { unfold item_bit_size, udiv. fold k. rewrite Hb. destruct (N.eqb_spec k 0); [lia|]. rewrite N.div_mul by assumption. congruence. }
  destruct (slice_window (E:=E) buf q (q + c * k)) as (w & Hw & Hwl & Hwo & Hwb); [lia|lia|assumption|].
  assert (Hwlen : len w = c * k) by (unfold len; lia).
  replace (q + c * k - q) with (c * k) in Hwb by lia.
  assert (Hfit : 8 * c * n + 8 * c <= 8 * (c * k)) by lia.
  assert (Hcs : 0 < c <= N.of_nat (get_byte_size (fa_ty f))) by lia.
  assert (Hpos : l_byte_offset (fa_loc f) = q /\ l_byte_offset (fa_loc f) + l_byte_size (fa_loc f) = q + c * k).
  { rewrite Hloc at 1 2 3. rewrite loc_byte_offset, loc_byte_size. fold q. rewrite Hceil. auto. }
  destruct Hpos as (P1 & P2).
  assert (Eoff : o0 + b * n = 8 * q + 8 * c * n) by (rewrite Eb, Eo at 1; reflexivity).
  rewrite Eoff. rewrite Eb. split.
  - unfold arr_get, arr_window. rewrite Hibs. cbn [bind]. rewrite P2, P1, Hw. cbn [bind]. rewrite He. cbn [order_of].
    destruct (array_get_window (E:=E) mr (get_byte_size (fa_ty f)) c k w n) as (v & Hv & Hvf); try assumption; [apply type_size|].
    exists v. split; [exact Hv|]. eapply value_lift; eassumption.
  - intro v. unfold arr_set. rewrite Hibs. cbn [bind]. unfold update_slice. rewrite P2, P1, Hw. cbn [bind]. rewrite He. cbn [order_of].
    destruct (array_set_window (E:=E) mr (get_byte_size (fa_ty f)) c k w n v) as (w' & Hs' & U); try assumption; [apply type_size|].
    rewrite Hs'. cbn [bind]. eexists. split; [reflexivity|]. eapply update_lift; try eassumption. lia.
Qed.

Lemma follow_correct : forall path item s o w buf, struct_ok s -> deep s -> at_place s path item o w -> path_bytes_aligned s path ->
  0 < w <= 64 -> addressable o w -> match item with Some _ => w mod 8 = 0 | None => True end ->
  s_byte_size s <= len buf -> bytes_ok buf ->
  (exists v, follow_get (E:=E) mr s path item buf = Ok v /\ is_field_value buf o w v) /\
  (forall v, exists buf', follow_set (E:=E) mr s path item buf v = Ok buf' /\ is_field_update buf o w v buf').
Proof.
  induction path as [|i path IH]; intros item s o w buf Hok Hd Hp Hal Hw Ha Hi Hlen Hbuf; [inversion Hp|].
  inversion Hp as [s0 i0 f Hf|s0 i0 f n b Hf Hn Hb Hs|s0 i0 nm r loc rest item0 o' w' Hf Hr]; subst; cbn [follow_get follow_set]; rewrite Hf.
  - assert (P : path_at s [i] (total_bits (firstn i (s_fields s))) (l_bit_size (ff_loc f))) by (apply path_scalar; exact Hf).
    split.
    + destruct (path_get_correct (E:=E) mr [i] s _ _ buf Hok P Hal Hw Ha Hlen Hbuf) as (v & Hv & Hvf). cbn [path_get] in Hv.
      rewrite Hf in Hv. eauto.
    + intro v. destruct (path_set_correct (E:=E) mr v [i] s _ _ buf Hok P Hal Hw Ha Hlen Hbuf) as (b' & Hv & Hvf). cbn [path_set] in Hv.
      rewrite Hf in Hv. eauto.
  - apply item_correct; try assumption; [lia|]. unfold addressable in Ha. rewrite Hi in Ha. exact Ha.
  - destruct (struct_nth s Hok i _ Hf) as (Hloc & Hle & Hx); cbn [field_bits field_loc] in *. rewrite (struct_bytes _ Hok) in Hlen.
    cbn [path_bytes_aligned] in Hal. rewrite Hf in Hal. destruct Hal as (Hal0 & Hal).
    subst loc. set (o0 := total_bits (firstn i (s_fields s))) in *.
    rewrite loc_byte_offset, loc_byte_size. pose proof (window_fits _ _ _ Hle) as Hfit.
    pose proof (byte_start o0 Hal0) as Eo. set (q := o0 / 8) in *. set (z := ceil8 (s_bit_size r)) in *.
    destruct (slice_window (E:=E) buf q (q + z)) as (x & Hsl & Hxl & Hxo & Hxb); [lia|lia|assumption|].
    replace (q + z - q) with z in Hxb by lia.
    assert (Ha' : addressable o' w).
    { unfold addressable in *. rewrite Eo, N.add_comm, (N.mul_comm 8), N.mod_add in Ha by discriminate. exact Ha. }
    inversion Hd as [s0 _ _ Hdr]; subst s0. specialize (Hdr _ _ _ _ Hf).
    assert (Hxlen : len x = z) by (unfold len; lia).
    pose proof (place_le _ _ _ _ _ Hx Hr) as Hple. pose proof (ceil8_cover (s_bit_size r)) as Hcov. fold z in Hcov.
    destruct (IH item r o' w x) as (G & S); try assumption.
    { rewrite (struct_bytes _ Hx). fold z. lia. }
    replace (o0 + o') with (8 * q + o') by (rewrite Eo at 1; reflexivity). split.
    + rewrite Hsl. cbn [bind]. destruct G as (v & Hv & Hvf). exists v. split; [exact Hv|].
      eapply value_lift; [exact Hxb| |exact Hvf]. lia.
    + intro v. unfold update_slice. rewrite Hsl. cbn [bind]. destruct (S v) as (x' & Hv & U). rewrite Hv. cbn [bind].
      eexists. split; [reflexivity|]. eapply update_lift; [exact Hbuf| |exact Hxlen|exact Hxb| |exact U]; lia.
Qed.

(** ** Histories *)
Theorem places_independent : forall m structs name s, built m structs -> sget name structs = Some s ->
  forall h buf, (forall p v, In (p, v) h -> exists o w, reachable s p o w) ->
  s_byte_size s <= len buf -> bytes_ok buf ->
  exists buf', place_run (E:=E) mr s h buf = Ok buf' /\ length buf' = length buf /\ bytes_ok buf' /\
    forall p o w, reachable s p o w ->
      place_get (E:=E) mr s p buf' =
        match last_written h p with Some v => Ok (v mod 2 ^ w) | None => place_get mr s p buf end.
Proof.
  intros m structs name s Hb Hs. pose proof (built_ok _ _ Hb _ _ Hs) as Hok. pose proof (built_deep _ _ Hb _ _ Hs) as Hd.
  assert (R : forall p o w buf, reachable s p o w -> s_byte_size s <= len buf -> bytes_ok buf ->
    (exists v, place_get (E:=E) mr s p buf = Ok v /\ is_field_value buf o w v) /\
    (forall v, exists buf', place_set (E:=E) mr s p buf v = Ok buf' /\ is_field_update buf o w v buf')).
  { intros p o w buf (R1 & R2 & R3 & R4 & R5) Hl Hbuf. apply follow_correct; assumption. }
  induction h as [|(p & v) h IH]; intros buf Hgood Hlen Hbuf.
  - exists buf. cbn. repeat split; auto.
  - destruct (Hgood p v) as (o & w & Hp); [left; reflexivity|].
    destruct (proj2 (R p o w buf Hp Hlen Hbuf) v) as (b1 & Hset & Hupd). cbn [place_run]. rewrite Hset. cbn [bind].
    pose proof Hupd as (Hl1 & Hok1 & _). assert (Hlen1 : s_byte_size s <= len b1) by (unfold len in *; lia).
    destruct (IH b1) as (buf' & Hrun & Hl & Hok' & Hget); [|exact Hlen1|exact Hok1|].
    { intros p' v' Hin. apply (Hgood p' v'). right. exact Hin. }
    exists buf'. split; [exact Hrun|]. split; [congruence|]. split; [exact Hok'|].
    intros p' o' w' Hp'. rewrite (Hget p' o' w' Hp'). cbn [last_written].
    destruct (last_written h p') as [x|]; [reflexivity|].
    destruct (proj1 (R p' o' w' b1 Hp' Hlen1 Hok1)) as (y & Hy & Hyv). rewrite Hy.
    destruct (same_place p p') as [->|Hne].
    + destruct (place_fun _ _ _ _ _ (proj1 Hp) _ _ (proj1 Hp')) as (<- & <-). f_equal.
      eapply is_field_value_unique; [eassumption|]. eapply field_value_update_same; eassumption.
    + destruct (proj1 (R p' o' w' buf Hp' Hlen Hbuf)) as (z & Hz & Hzv). rewrite Hz. f_equal.
      eapply is_field_value_unique; [eassumption|]. eapply field_value_update_other; [eassumption| |eassumption].
      eapply places_apart; [exact (proj1 Hp)|exact Hok|exact (proj1 Hp')|].
      destruct p as [a b], p' as [a' b']. cbn [pl_path pl_item] in *.
      destruct (list_eq_dec Nat.eq_dec a a') as [->|Na]; [right; congruence|left; exact Na].
Qed.

(** The bits after a history. *)
Lemma history_bits : forall s, struct_ok s -> deep s ->
  forall h buf, (forall p v, In (p, v) h -> exists o w, reachable s p o w) ->
  s_byte_size s <= len buf -> bytes_ok buf ->
  exists buf', place_run (E:=E) mr s h buf = Ok buf' /\ length buf' = length buf /\ bytes_ok buf' /\
    forall i,
      (forall p v o w, last_written h p = Some v -> reachable s p o w -> o <= i < o + w -> bit_at buf' i = N.testbit v (i - o)) /\
      ((forall p v o w, last_written h p = Some v -> reachable s p o w -> ~ o <= i < o + w) -> bit_at buf' i = bit_at buf i).
Proof.
  intros s Hok Hd. induction h as [|(p & v) h IH]; intros buf Hgood Hlen Hbuf.
  - exists buf. cbn. repeat split; auto. intros; discriminate.
  - destruct (Hgood p v) as (o & w & Hp); [left; reflexivity|]. pose proof Hp as (R1 & R2 & R3 & R4 & R5).
    destruct (proj2 (follow_correct _ _ s o w buf Hok Hd R1 R2 R3 R4 R5 Hlen Hbuf) v) as (b1 & Hset & Hupd).
    cbn [place_run]. unfold place_set. rewrite Hset. cbn [bind].
    pose proof Hupd as (Hl1 & Hok1 & Hbits). assert (Hlen1 : s_byte_size s <= len b1) by (unfold len in *; lia).
    destruct (IH b1) as (buf' & Hrun & Hl & Hok' & Hget); [|exact Hlen1|exact Hok1|].
    { intros p' v' Hin. apply (Hgood p' v'). right. exact Hin. }
    exists buf'. split; [exact Hrun|]. split; [congruence|]. split; [exact Hok'|].
    assert (Apart : forall p' o' w' i, reachable s p' o' w' -> o' <= i < o' + w' -> o <= i < o + w -> p = p').
    { intros p' o' w' i Hp' I1 I2. destruct (same_place p p') as [|Hne]; [assumption|exfalso].
      assert (D : o + w <= o' \/ o' + w' <= o).
      { eapply places_apart; [exact R1|exact Hok|exact (proj1 Hp')|].
        destruct p as [a b], p' as [a' b']. cbn [pl_path pl_item] in *.
        destruct (list_eq_dec Nat.eq_dec a a') as [->|Na]; [right; congruence|left; exact Na]. }
      lia. }
    intro i. destruct (Hget i) as (G1 & G2). cbn [last_written]. split.
    + intros p' v' o' w' HL Hp' Hi. destruct (last_written h p') as [x|] eqn:L.
      * injection HL as <-. eapply G1; eassumption.
      * destruct (same_place p p') as [->|Hne]; [injection HL as <-|discriminate].
        destruct (place_fun _ _ _ _ _ R1 _ _ (proj1 Hp')) as (<- & <-).
        rewrite G2, Hbits.
        { destruct (N.leb_spec o i), (N.ltb_spec i (o + w)); cbn [andb]; try lia. reflexivity. }
        intros q x oq wq HLq Hq Hiq. assert (p' = q) by (eapply Apart; eassumption). subst q. congruence.
    + intro Hno. rewrite G2, Hbits.
      { destruct (N.leb_spec o i), (N.ltb_spec i (o + w)); cbn [andb]; try reflexivity. exfalso.
        destruct (last_written h p) as [x|] eqn:L.
        - apply (Hno p x o w); [rewrite L; reflexivity|exact Hp|lia].
        - apply (Hno p v o w); [rewrite L; destruct (same_place p p); congruence|exact Hp|lia]. }
      intros q x oq wq HLq Hq Hiq. apply (Hno q x oq wq); [rewrite HLq; reflexivity|exact Hq|exact Hiq].
Qed.

Lemma last_in : forall h p v, last_written h p = Some v -> In (p, v) h.
Proof.
  induction h as [|(q & x) h IH]; intros p v H; [discriminate|]. cbn [last_written] in H.
  destruct (last_written h p) as [y|] eqn:L; [right; apply IH; congruence|].
  destruct (same_place q p) as [->|]; [left; congruence|discriminate].
Qed.
Lemma in_last : forall h p v, In (p, v) h -> exists x, last_written h p = Some x.
Proof.
  induction h as [|(q & x) h IH]; intros p v H; [contradiction|]. cbn [last_written].
  destruct (last_written h p) as [y|] eqn:L; [eauto|]. destruct H as [H|H].
  - injection H as -> ->. destruct (same_place p p); [eauto|congruence].
  - destruct (IH _ _ H) as (y & Hy). congruence.
Qed.
Lemma covered : forall s (h : list (place * N)) i, (forall p v, In (p, v) h -> exists o w, reachable s p o w) ->
  (exists p v o w, In (p, v) h /\ reachable s p o w /\ o <= i < o + w) \/
  (forall p v o w, In (p, v) h -> reachable s p o w -> ~ o <= i < o + w).
Proof.
  intros s h i. induction h as [|(p & v) h IH]; intro H; [right; intros ? ? ? ? []|].
  destruct (H p v) as (o & w & Hp); [left; reflexivity|].
  destruct (N.le_gt_cases o i), (N.lt_ge_cases i (o + w)).
  1: left; exists p, v, o, w; split; [left; reflexivity|]; split; [exact Hp|lia].
  all: destruct IH as [(q & x & a & b & K1 & K2)|K]; [intros q x Hq; apply (H q x); right; exact Hq| |];
    [left; exists q, x, a, b; split; [right; exact K1|exact K2]|right; intros q x a b [Hq|Hq] Hr;
      [injection Hq as <- <-; destruct (place_fun _ _ _ _ _ (proj1 Hp) _ _ (proj1 Hr)) as (<- & <-); lia|eapply K; eassumption]].
Qed.

Theorem order_free : forall m structs name s, built m structs -> sget name structs = Some s ->
  forall h1 h2 buf, (forall p v, In (p, v) h1 -> exists o w, reachable s p o w) ->
  (forall p v, In (p, v) h2 -> exists o w, reachable s p o w) ->
  (forall p, last_written h1 p = last_written h2 p) -> s_byte_size s <= len buf -> bytes_ok buf ->
  exists buf', place_run (E:=E) mr s h1 buf = Ok buf' /\ place_run (E:=E) mr s h2 buf = Ok buf'.
Proof.
  intros m structs name s Hb Hs h1 h2 buf H1 H2 Hsame Hlen Hbuf.
  pose proof (built_ok _ _ Hb _ _ Hs) as Hok. pose proof (built_deep _ _ Hb _ _ Hs) as Hd.
  destruct (history_bits s Hok Hd h1 buf H1 Hlen Hbuf) as (b1 & R1 & L1 & O1 & B1).
  destruct (history_bits s Hok Hd h2 buf H2 Hlen Hbuf) as (b2 & R2 & L2 & O2 & B2).
  exists b1. split; [exact R1|]. rewrite R2. f_equal. symmetry. apply bits_ext; [exact O1|exact O2|congruence|].
  intro i. destruct (B1 i) as (A1 & N1). destruct (B2 i) as (A2 & N2).
  destruct (covered s h1 i H1) as [(p & v & o & w & Hin & Hp & Hi)|No].
  - destruct (in_last _ _ _ Hin) as (x & Hx). rewrite (A1 p x o w Hx Hp Hi). rewrite Hsame in Hx. symmetry. exact (A2 p x o w Hx Hp Hi).
  - rewrite N1, N2; [reflexivity| |].
    + intros p v o w HL. rewrite <- Hsame in HL. apply last_in in HL. eapply No. exact HL.
    + intros p v o w HL. apply last_in in HL. eapply No. exact HL.
Qed.

Theorem outside_kept : forall m structs name s, built m structs -> sget name structs = Some s ->
  forall h buf, (forall p v, In (p, v) h -> exists o w, reachable s p o w) -> s_byte_size s <= len buf -> bytes_ok buf ->
  exists buf', place_run (E:=E) mr s h buf = Ok buf' /\
    forall i, (forall p v o w, In (p, v) h -> reachable s p o w -> i < o \/ o + w <= i) -> bit_at buf' i = bit_at buf i.
Proof.
  intros m structs name s Hb Hs h buf H Hlen Hbuf.
  pose proof (built_ok _ _ Hb _ _ Hs) as Hok. pose proof (built_deep _ _ Hb _ _ Hs) as Hd.
  destruct (history_bits s Hok Hd h buf H Hlen Hbuf) as (b1 & R1 & L1 & O1 & B1). exists b1. split; [exact R1|].
  intros i Hi. apply (proj2 (B1 i)). intros p v o w HL Hp. apply last_in in HL. pose proof (Hi p v o w HL Hp). lia.
Qed.
End Access.

Theorem apart : forall m structs name s, built m structs -> sget name structs = Some s -> forall path item o w path' item' o' w',
  at_place s path item o w -> at_place s path' item' o' w' ->
  o + w <= s_bit_size s /\ ((path, item) <> (path', item') -> o + w <= o' \/ o' + w' <= o).
Proof.
  intros m structs name s Hb Hs path item o w path' item' o' w' H H'. pose proof (built_ok _ _ Hb _ _ Hs) as Hok.
  split; [eapply place_le; eassumption|]. intro Hne. eapply places_apart; [exact H|exact Hok|exact H'|].
  destruct (list_eq_dec Nat.eq_dec path path') as [->|Na]; [right; congruence|left; exact Na].
Qed.
