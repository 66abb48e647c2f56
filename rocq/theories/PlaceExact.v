(** Which structures are records of their scalars and array items (C99). *)

From Coq Require Import Arith NArith ZArith String List Bool Lia ZifyBool ZifyN ZifyNat.
From Verif Require Import Base Schema Bits BitsFacts Codec CodecFacts Compiler Access SpecStruct
  StructFacts StructThms ViewThms ArrayThms ArrayExact StackThms NestedThms NestedExact Place SpecPlace PlaceThms.
Import ListNotations.
Local Open Scope N_scope.
Ltac Zify.zify_post_hook ::= idtac.

(** ** Every bit belongs to a place *)
Lemma layout_total : forall off fs t, layout_ok off fs t -> t = off + total_bits fs.
Proof.
  intros off fs t H. induction H as [off|off f w fs t Hl He H IH|off f w fs t Hl H IH|off n r fs t Hr H IH]; cbn [total_bits field_bits].
  - lia.
  - rewrite Hl. cbn [l_bit_size location_from_model]. lia.
  - rewrite Hl. cbn [l_bit_size location_from_model]. lia.
  - lia.
Qed.
Lemma struct_total : forall s, struct_ok s -> s_bit_size s = total_bits (s_fields s).
Proof. intros s H. inversion H as [id name fs bits Hl]; subst. cbn [s_bit_size s_fields]. apply layout_total in Hl. lia. Qed.
Lemma field_of_bit : forall fs i, i < total_bits fs ->
  exists k f, nth_error fs k = Some f /\ total_bits (firstn k fs) <= i < total_bits (firstn k fs) + field_bits f.
Proof.
  induction fs as [|f fs IH]; intros i Hi; cbn [total_bits] in Hi; [lia|].
  destruct (N.lt_ge_cases i (field_bits f)) as [L|L].
  - exists 0%nat, f. cbn [nth_error firstn total_bits]. split; [reflexivity|lia].
  - destruct (IH (i - field_bits f) ltac:(lia)) as (k & g & Hg & H). exists (S k), g. cbn [nth_error firstn total_bits]. split; [exact Hg|lia].
Qed.
Lemma bit_placed : forall s, usual s -> struct_ok s -> forall i, i < s_bit_size s ->
  exists path item o w, at_place s path item o w /\ o <= i < o + w.
Proof.
  intros s H. induction H as [s H1 H2 H3 IH]. intros Hok i Hi. rewrite (struct_total _ Hok) in Hi.
  destruct (field_of_bit _ _ Hi) as (k & f & Hf & Hb). set (t := total_bits (firstn k (s_fields s))) in *.
  destruct f as [f|f|name r loc]; cbn [field_bits] in Hb.
  - exists [k], None, t, (l_bit_size (ff_loc f)). split; [apply at_scalar; exact Hf|exact Hb].
  - destruct (H2 _ _ Hf) as (b & Eb & Hb0). rewrite Eb in Hb.
    pose proof (N.div_mod (i - t) b ltac:(lia)) as D. pose proof (N.mod_lt (i - t) b ltac:(lia)) as M.
    exists [k], (Some ((i - t) / b)), (t + b * ((i - t) / b)), b. split; [|lia].
    apply (at_item s k f); [exact Hf| |exact Eb|lia]. apply N.div_lt_upper_bound; lia.
  - destruct (struct_nth s Hok k _ Hf) as (_ & _ & Hr). destruct (IH _ _ _ _ Hf Hr (i - t) ltac:(lia)) as (path & item & o & w & Hp & Ho).
    exists (k :: path), item, (t + o), w. split; [eapply at_inside; eassumption|lia].
Qed.
Lemma usual_width : forall s path item o w, at_place s path item o w -> usual s -> 0 < w <= 64.
Proof.
  intros s path item o w H. induction H as [s i f Hf|s i f n b Hf Hn Hb Hs|s i nm r loc rest item o w Hf Hp IH]; intro U;
    inversion U as [s0 U1 U2 U3]; subst.
  - eapply U1. exact Hf.
  - destruct (U2 _ _ Hf) as (b' & Eb & Hb0). rewrite Hb in Eb. apply N.mul_cancel_r in Eb; [|lia]. subst.
    pose proof (type_size (fa_ty f)). lia.
  - apply IH. eapply U3. exact Hf.
Qed.

(** ** What the accessors of any place do *)
Section Reach.
Context {E : Type} (mr : mode).

Lemma place_reach : forall path item s o w, struct_ok s -> deep s -> at_place s path item o w -> 0 < w <= 64 ->
  exists p n, n <= w /\ p <= o /\ p + n <= 8 * s_byte_size s /\
    (p = o -> n = w -> path_bytes_aligned s path /\ addressable o w /\ match item with Some _ => w mod 8 = 0 | None => True end) /\
    forall buf, s_byte_size s <= len buf -> bytes_ok buf ->
      (exists v, follow_get (E:=E) mr s path item buf = Ok v /\ is_field_value buf p n v) /\
      (forall v, exists buf', follow_set (E:=E) mr s path item buf v = Ok buf' /\ is_field_update buf p n v buf').
Proof.
  induction path as [|i path IH]; intros item s o w Hok Hd Hp Hw; [inversion Hp|].
  inversion Hp as [s0 i0 f Hf|s0 i0 f k b Hf Hn Hb Hs|s0 i0 nm r loc rest item0 o' w' Hf Hr]; subst; rewrite (struct_bytes _ Hok);
    destruct (struct_nth s Hok i _ Hf) as (Hloc & Hle & Hx); cbn [field_bits field_loc] in *;
    pose proof (window_fits _ _ _ Hle) as Hfit; pose proof (ceil8_cover (s_bit_size s)) as Hcov.
  - set (o := total_bits (firstn i (s_fields s))) in *. set (w := l_bit_size (ff_loc f)) in *.
    pose proof (acc_end o w) as Hend. pose proof (N.div_mod o 8 ltac:(discriminate)) as Hdm.
    exists (acc_start o w), (acc_width o w). split; [apply acc_width_le|].
    split; [unfold acc_start; destruct (w mod 8 =? 0); lia|]. split; [lia|]. split.
    + intros E1 E2. split; [cbn [path_bytes_aligned]; rewrite Hf; exact I|]. split; [|exact I].
      destruct (acc_short o w) as [Ha|Ha]; [lia|exact Ha|lia].
    + intros buf Hlen Hbuf. cbn [follow_get follow_set]. rewrite Hf. split.
      * apply (ac_get_LE (E:=E) mr f o w buf Hloc Hx Hw); [lia|assumption].
      * intro v. apply (ac_set_LE (E:=E) mr f o w buf v Hloc Hx Hw); [lia|assumption].
  - inversion Hd as [s0 Hbd Ha _]; subst s0. destruct (Ha _ _ Hf) as (He & Hk). clear Ha.
    set (o0 := total_bits (firstn i (s_fields s))) in *. set (K := fa_array_len f) in *. rename w into b.
    set (c := b / 8). set (q := o0 / 8) in *.
    pose proof (N.div_mod o0 8 ltac:(discriminate)) as Hdm. fold q in Hdm. pose proof (N.mod_lt o0 8 ltac:(discriminate)) as Hm8.
    pose proof (N.div_mod b 8 ltac:(discriminate)) as Hbm. fold c in Hbm. pose proof (N.mod_lt b 8 ltac:(discriminate)) as Hb8.
    set (wl := ceil8 (l_bit_size (fa_loc f))) in *. pose proof (ceil8_cover (l_bit_size (fa_loc f))) as Hwl. fold wl in Hwl.
    rewrite Hb in Hwl, Hle. pose proof (item_end c k K Hn) as Hck. pose proof (item_end b k K Hn) as Hbk.
    assert (Hcb : 8 * (c * k) <= b * k) by nia.
    assert (Hlow : c * K <= wl) by nia.
    assert (Hwlu : wl < usize_mod).
    { assert (usize_mod = 2 ^ 64) by reflexivity. assert (8 * wl < b * K + 8).
      { unfold wl. rewrite Hb. unfold ceil8. pose proof (N.div_mod (b * K + 7) 8 ltac:(discriminate)). pose proof (N.mod_lt (b * K + 7) 8 ltac:(discriminate)). lia. }
      lia. }
    exists (8 * (q + c * k)), (8 * c). split; [lia|]. split; [lia|]. split; [lia|]. split.
    + intros E1 E2. split; [cbn [path_bytes_aligned]; rewrite Hf; exact I|].
      assert (Z : b mod 8 = 0) by lia. split; [|exact Z]. unfold addressable. rewrite Z. cbn [N.eqb].
      rewrite <- E1, N.mul_comm, N.mod_mul by discriminate. reflexivity.
    + intros buf Hlen Hbuf. cbn [follow_get follow_set]. rewrite Hf.
      assert (Hibs : item_bit_size (E:=E) f = Ok b).
      { unfold item_bit_size, udiv. fold K. rewrite Hb. destruct (N.eqb_spec K 0); [lia|]. rewrite N.div_mul by assumption. reflexivity. }
      destruct (slice_window (E:=E) buf q (q + wl)) as (x & Hsl & Hxl & Hxo & Hxb); [lia|lia|assumption|].
      replace (q + wl - q) with wl in Hxb by lia.
      assert (Hxlen : len x = wl) by (unfold len; lia).
      assert (Hpos : l_byte_offset (fa_loc f) = q /\ l_byte_offset (fa_loc f) + l_byte_size (fa_loc f) = q + wl).
      { rewrite Hloc at 1 2 3. rewrite loc_byte_offset, loc_byte_size. auto. }
      destruct Hpos as (P1 & P2). assert (Hcs : c <= N.of_nat (get_byte_size (fa_ty f))) by lia.
      replace (8 * (q + c * k)) with (8 * q + 8 * c * k) by lia. split.
      * unfold arr_get, arr_window. rewrite Hibs. cbn [bind]. rewrite P2, P1, Hsl. cbn [bind]. rewrite He. cbn [order_of].
        destruct (codec_get (E:=E) mr (get_byte_size (fa_ty f)) b K x k) as (v & Hv & Hvf);
          [assumption|fold c; lia|lia|fold c; exact Hcs|apply type_size|exact Hn|].
        exists v. split; [exact Hv|]. fold c in Hvf. eapply value_lift; [exact Hxb| |exact Hvf]. lia.
      * intro v. unfold arr_set. rewrite Hibs. cbn [bind]. unfold update_slice. rewrite P2, P1, Hsl. cbn [bind]. rewrite He. cbn [order_of].
        destruct (codec_set (E:=E) mr (get_byte_size (fa_ty f)) b K x k v) as (x' & Hv & U);
          [assumption|fold c; lia|lia|fold c; exact Hcs|apply type_size|exact Hn|].
        rewrite Hv. cbn [bind]. fold c in U. eexists. split; [reflexivity|]. eapply update_lift; [exact Hbuf| |exact Hxlen|exact Hxb| |exact U]; lia.
  - subst loc. set (o0 := total_bits (firstn i (s_fields s))) in *. inversion Hd as [s0 _ _ Hdr]; subst s0. specialize (Hdr _ _ _ _ Hf).
    destruct (IH item r o' w Hx Hdr Hr Hw) as (p & n & Hn & Hpo & Hpb & Hal & Hacc).
    rewrite (struct_bytes _ Hx) in *. set (z := ceil8 (s_bit_size r)) in *. set (q := o0 / 8) in *.
    pose proof (N.div_mod o0 8 ltac:(discriminate)) as Hdm. fold q in Hdm. pose proof (N.mod_lt o0 8 ltac:(discriminate)) as Hm8.
    exists (8 * q + p), n. split; [exact Hn|]. split; [lia|]. split; [lia|]. split.
    + intros E1 E2. assert (Hz : o0 mod 8 = 0) by lia. destruct (Hal ltac:(lia) E2) as (A1 & A2 & A3).
      split; [cbn [path_bytes_aligned]; rewrite Hf; split; assumption|]. split; [|exact A3].
      unfold addressable in *. assert (Ho0 : o0 = 8 * q) by lia. rewrite Ho0, N.add_comm, (N.mul_comm 8), N.mod_add by discriminate. assumption.
    + intros buf Hlen Hbuf. cbn [follow_get follow_set]. rewrite Hf, loc_byte_offset, loc_byte_size. fold q z.
      destruct (slice_window (E:=E) buf q (q + z)) as (x & Hsl & Hxl & Hxo & Hxb); [lia|lia|assumption|].
      replace (q + z - q) with z in Hxb by lia. assert (Hxlen : len x = z) by (unfold len; lia).
      destruct (Hacc x ltac:(lia) Hxo) as (G & S). split.
      * rewrite Hsl. cbn [bind]. destruct G as (v & Hv & Hvf). exists v. split; [exact Hv|]. eapply value_lift; [exact Hxb| |exact Hvf]. lia.
      * intro v. unfold update_slice. rewrite Hsl. cbn [bind]. destruct (S v) as (x' & Hv & U). rewrite Hv. cbn [bind].
        eexists. split; [reflexivity|]. eapply update_lift; [exact Hbuf| |exact Hxlen|exact Hxb| |exact U]; lia.
Qed.

(** ** Records *)
Lemma top_bit : forall w, 0 < w -> N.testbit (2 ^ w - 1) (w - 1) = true.
Proof. intros w H. rewrite <- N.pred_sub. rewrite <- N.ones_equiv. apply N.ones_spec_low. lia. Qed.

Theorem record_exact : forall m structs name s, built m structs -> sget name structs = Some s -> usual s ->
  ((forall h buf, (forall p v, In (p, v) h -> exists o w, at_place s (pl_path p) (pl_item p) o w) ->
      s_byte_size s <= len buf -> bytes_ok buf ->
      exists buf', place_run (E:=E) mr s h buf = Ok buf' /\
        forall p o w, at_place s (pl_path p) (pl_item p) o w ->
          place_get (E:=E) mr s p buf' =
            match last_written h p with Some v => Ok (v mod 2 ^ w) | None => place_get mr s p buf end) <->
   (forall p o w, at_place s (pl_path p) (pl_item p) o w -> reachable s p o w)).
Proof.
  intros m structs name s Hb Hs U. pose proof (built_ok _ _ Hb _ _ Hs) as Hok. pose proof (built_deep _ _ Hb _ _ Hs) as Hd. split.
  2:{ intros R h buf Hh Hlen Hbuf. destruct (places_independent (E:=E) mr m structs name s Hb Hs h buf) as (buf' & H1 & _ & _ & H2); try assumption.
      { intros p v Hin. destruct (Hh p v Hin) as (o & w & Hp). exists o, w. apply R. exact Hp. }
      exists buf'. split; [exact H1|]. intros p o w Hp. apply (H2 p o w). apply R. exact Hp. }
  intros Rec. set (z := repeat 0 (N.to_nat (s_byte_size s))).
  assert (Zok : bytes_ok z) by apply bytes_ok_zeros. assert (Zlen : s_byte_size s <= len z) by (unfold z, len; rewrite repeat_length; lia).
  assert (Zbit : forall i, bit_at z i = false) by (intro i; apply BitsFacts.bit_at_zeros).
  assert (G : forall b p o w, o < b -> at_place s (pl_path p) (pl_item p) o w -> reachable s p o w).
  { intro b. induction b as [|b IH] using N.peano_ind; intros p o w Hob Hp; [lia|].
    pose proof (usual_width _ _ _ _ _ Hp U) as Hw.
    destruct (place_reach _ _ s o w Hok Hd Hp Hw) as (q & n & Hn & Hq & Hqs & Hfine & Hacc).
    assert (En : n = w).
    { destruct (Rec [(p, 2 ^ w - 1)] z) as (b1 & Hrun & Hget); try assumption.
      { intros p' v' [X|[]]. inversion X; subst. eauto. }
      cbn [place_run] in Hrun. unfold place_set in Hrun. destruct (proj2 (Hacc z Zlen Zok) (2 ^ w - 1)) as (b2 & Hset & U1 & U2 & U3).
      rewrite Hset in Hrun. cbn [bind] in Hrun. injection Hrun as <-.
      specialize (Hget p o w Hp). cbn [last_written] in Hget. destruct (same_place p p); [|congruence].
      destruct (proj1 (Hacc b2 ltac:(unfold len in *; lia) U2)) as (v & Hv & Hvf). unfold place_get in Hget. rewrite Hv in Hget. injection Hget as ->.
      specialize (Hvf (w - 1)). rewrite N.mod_small in Hvf by (pose proof (N.pow_nonzero 2 w ltac:(discriminate)); lia).
      rewrite top_bit in Hvf by lia. symmetry in Hvf. apply andb_true_iff in Hvf. destruct Hvf as (Hvf & _). apply N.ltb_lt in Hvf. lia. }
    destruct (N.eq_dec q o) as [Eq|Nq].
    { destruct (Hfine Eq En) as (F1 & F2 & F3). repeat split; try assumption; lia. }
    exfalso. destruct (bit_placed s U Hok q) as (path & item & o2 & w2 & H2 & Hc).
    { pose proof (place_le _ _ _ _ _ Hok Hp). lia. }
    set (p2 := {| pl_path := path; pl_item := item |}). assert (R2 : reachable s p2 o2 w2) by (apply IH; [lia|exact H2]).
    destruct (Rec [(p2, 2 ^ w2 - 1)] z) as (b1 & Hrun & Hget); try assumption.
    { intros p' v' [X|[]]. inversion X; subst. eauto. }
    destruct R2 as (R1 & R2 & R3 & R4 & R5).
    destruct (proj2 (follow_correct (E:=E) mr _ _ s o2 w2 z Hok Hd R1 R2 R3 R4 R5 Zlen Zok) (2 ^ w2 - 1)) as (b2 & Hset & U1 & U2 & U3).
    cbn [place_run] in Hrun. unfold place_set in Hrun. rewrite Hset in Hrun. cbn [bind] in Hrun. injection Hrun as <-.
    specialize (Hget p o w Hp). cbn [last_written] in Hget.
    destruct (same_place p2 p) as [Es|_].
    { subst p. cbn [p2 pl_path pl_item] in *. destruct (place_fun _ _ _ _ _ H2 _ _ Hp). lia. }
    unfold place_get in Hget. destruct (proj1 (Hacc z Zlen Zok)) as (v & Hv & Hvf). rewrite Hv in Hget.
    destruct (proj1 (Hacc b2 ltac:(unfold len in *; lia) U2)) as (v' & Hv' & Hvf'). rewrite Hv' in Hget. injection Hget as ->.
    specialize (Hvf 0). specialize (Hvf' 0). rewrite Hvf in Hvf'. rewrite Zbit, U3, N.add_0_r, andb_false_r in Hvf'.
    destruct (N.ltb_spec 0 n); [|lia]. destruct (N.leb_spec o2 q), (N.ltb_spec q (o2 + w2)); try lia. cbn [andb] in Hvf'.
    rewrite <- N.pred_sub, <- N.ones_equiv, N.ones_spec_low in Hvf' by lia. discriminate. }
  intros p o w Hp. apply (G (N.succ o)); [lia|exact Hp].
Qed.
End Reach.

(** ** Usual structures *)
Theorem usual_compiled : forall m enums structs id d s, structure_from_model m Little enums structs id d = Ok s -> no_overflow m structs d ->
  (forall f, In f (ss_fields d) -> sf_array_len f <> Some 0 /\ forall b, sf_info f = STBoolean b -> 0 < b <= 8) ->
  (forall n r, sget n structs = Some r -> usual r) -> usual s.
Proof.
  intros m enums structs id d s H Hno Hd Hr. pose proof (layout _ _ _ _ _ _ _ H Hno) as (_ & _ & _ & _ & Hl).
  assert (G : forall i f, nth_error (s_fields s) i = Some f ->
    match f with
    | FFixed f => 0 < l_bit_size (ff_loc f) <= 64
    | FArray f => exists b, l_bit_size (fa_loc f) = b * fa_array_len f /\ 0 < b <= 8 * N.of_nat (get_byte_size (fa_ty f))
    | FStruct _ r _ => usual r
    end).
  { intros i f Hf. destruct (Hl i f Hf) as (o & w & (_ & df' & Hdf & Hw) & _ & _ & Hs & _).
    destruct (structure_nth _ _ _ _ _ _ _ _ _ H Hf) as (df & o1 & o2 & Hd1 & Hfm). assert (df' = df) by congruence. subst df'.
    destruct (Hd df (nth_error_In _ _ Hd1)) as (Hk & Hbool).
    unfold declared_bits in Hw. unfold field_from_model in Hfm.
    assert (B : forall b ty, get_bit_size (sf_info df) = Some b -> fixed_from_model (sf_info df) = Ok ty ->
      0 < b <= 64 /\ b <= 8 * N.of_nat (get_byte_size ty)).
    { intros b ty Eb Et. destruct (sf_info df) as [c|c|c|c|n] eqn:Ei; cbn [get_bit_size] in Eb; try discriminate; injection Eb as ->.
      1-3: split; [eapply fixed_ok_bits; [exact Et|reflexivity|cbn; discriminate]|eapply fixed_size_ok; [exact Et|reflexivity|cbn; discriminate]].
      cbn in Et. injection Et as <-. specialize (Hbool b eq_refl). cbn. lia. }
    destruct (sf_info df) as [b|b|b|b|n] eqn:Ei.
    1-4: cbn [get_bit_size ok_or bind] in Hfm; inv_bind Hfm; inv_bind Hfm; inv_bind Hfm;
      match goal with X : fixed_from_model _ = Ok ?t |- _ => destruct (B b t eq_refl X) as (B1 & B2) end;
      injection Hw as <-; destruct (N.ltb_spec 1 (match sf_array_len df with Some k => k | None => 1 end)) as [L|L];
      [ destruct (negb _); [discriminate|]; inv_bind Hfm; inversion Hfm; subst; cbn [field_loc fa_loc fa_array_len fa_ty] in *;
        exists b; split; [exact Hs|lia]
      | inv_bind Hfm; inversion Hfm; subst; cbn [field_loc ff_loc] in *;
        match goal with X : l_bit_size ?l = _ |- context [l_bit_size ?l] => rewrite X end;
        destruct (sf_array_len df) as [k|]; [assert (k = 1) by (destruct (N.eq_dec k 0); [subst; congruence|lia]); subst|]; lia ].
    inv_bind Hfm. inv_bind Hfm. inversion Hfm; subst. match goal with X : ok_or _ _ = Ok _ |- _ => apply ok_or_ok in X; eapply Hr; exact X end. }
  constructor.
  - intros i f Hf. exact (G i _ Hf).
  - intros i f Hf. exact (G i _ Hf).
  - intros i nm r loc Hf. exact (G i _ Hf).
Qed.
