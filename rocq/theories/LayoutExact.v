(** Proofs of the exact layout in both build modes (C01) and of the exact
    condition under which an accessor panics, for both byte orders (C02). *)

From Coq Require Import Arith NArith ZArith String List Bool Lia ZifyBool ZifyN ZifyNat.
From Verif Require Import Base Schema Bits BitsFacts Codec CodecFacts Compiler Access SpecStruct StructFacts
  StructThms ViewThms BEThms BEExact.
Import ListNotations.
Local Open Scope N_scope.
Ltac Zify.zify_post_hook ::= idtac.

(** ** Layout *)

Lemma uadd_value : forall E m a b r, uadd (E:=E) m a b = Ok r ->
  r = (a + b) mod usize_mod /\ (m = Debug -> a + b < usize_mod).
Proof.
  intros E m a b r H. unfold uadd in H. destruct (N.ltb_spec (a + b) usize_mod) as [Hl|Hl].
  - inversion H. rewrite N.mod_small by assumption. auto.
  - destruct m; [discriminate H|]. inversion H. split; [reflexivity|discriminate].
Qed.
Lemma umul_value : forall E m a b r, umul (E:=E) m a b = Ok r ->
  r = (a * b) mod usize_mod /\ (m = Debug -> a * b < usize_mod).
Proof.
  intros E m a b r H. unfold umul in H. destruct (N.ltb_spec (a * b) usize_mod) as [Hl|Hl].
  - inversion H. rewrite N.mod_small by assumption. auto.
  - destruct m; [discriminate H|]. inversion H. split; [reflexivity|discriminate].
Qed.
Lemma usize_mod_pos : usize_mod <> 0.
Proof. vm_compute. discriminate. Qed.

(** Every structure in scope has a size that is a usize. *)
Definition sizes_fit (structs : smap structure) : Prop :=
  forall n r, sget n structs = Some r -> s_bit_size r < usize_mod.

Lemma field_exact : forall m endi enums structs off d f off', sizes_fit structs -> off < usize_mod ->
  field_from_model m endi enums structs off d = Ok (f, off') ->
  exists w, declared_bits structs d = Some w /\ field_name f = sf_name d /\
    off' = (off + w) mod usize_mod /\ (m = Debug -> off + w < usize_mod) /\
    field_loc f = location_from_model (w mod usize_mod) off.
Proof.
  intros m endi enums structs off d f off' Hs Hoff H. unfold field_from_model in H.
  unfold declared_bits. destruct (sf_info d) as [b|b|b|b|n] eqn:Hi.
  1-4: cbn [get_bit_size ok_or bind] in H;
    inv_bind H; inv_bind H; inv_bind H;
    set (al := match sf_array_len d with Some n => n | None => 1 end) in *;
    exists (b * al); split; [reflexivity|];
    destruct (N.ltb_spec 1 al);
    [destruct (negb (a0 mod 8 =? 0)); [discriminate|]|];
    inv_bind H; inversion H; subst; cbn [field_name field_loc ff_name fa_name ff_loc fa_loc];
    (split; [reflexivity|]);
    apply umul_value in H1; apply uadd_value in H4;
    destruct H1 as (-> & D1); destruct H4 as (-> & D2);
    (split; [apply N.add_mod_idemp_r; apply usize_mod_pos|]);
    (split; [intro Dm; specialize (D1 Dm); specialize (D2 Dm); rewrite N.mod_small in D2 by assumption; assumption|]);
    reflexivity.
  inv_bind H. apply ok_or_ok in H0. rewrite H0. exists (s_bit_size a). split; [reflexivity|].
  inv_bind H. inversion H; subst; cbn [field_name field_loc]. split; [reflexivity|].
  apply uadd_value in H1. destruct H1 as (-> & D). split; [reflexivity|]. split; [assumption|].
  rewrite N.mod_small by (eapply Hs; eassumption). reflexivity.
Qed.

Lemma fields_exact : forall m endi enums structs l off base fs off', sizes_fit structs ->
  off = base mod usize_mod -> (m = Debug -> base < usize_mod) ->
  fields_from_model m endi enums structs off l = Ok (fs, off') ->
  length fs = length l /\
  exists t, declared_total structs l = Some t /\
    off' = (base + t) mod usize_mod /\ (m = Debug -> base + t < usize_mod) /\
    forall i f d, nth_error fs i = Some f -> nth_error l i = Some d ->
      field_name f = sf_name d /\
      exists o w, declared_total structs (firstn i l) = Some o /\ declared_bits structs d = Some w /\
        field_loc f = location_from_model (w mod usize_mod) ((base + o) mod usize_mod).
Proof.
  intros m endi enums structs. induction l as [|d l IH]; intros off base fs off' Hs Hoff Hd H; cbn in H.
  - inversion H; subst. split; [reflexivity|]. exists 0. rewrite N.add_0_r. split; [reflexivity|].
    split; [reflexivity|]. split; [assumption|]. intros [|i] f d H1; discriminate.
  - apply bind_ok in H. destruct H as ((f & off1) & H0 & H).
    apply bind_ok in H. destruct H as ((fs1 & off2) & H1 & H). inversion H; subst; clear H.
    apply field_exact in H0; [|assumption|apply N.mod_lt, usize_mod_pos].
    destruct H0 as (w & Hw & Hname & Hoff1 & Hd1 & Hloc).
    rewrite N.add_mod_idemp_l in Hoff1 by apply usize_mod_pos.
    apply (IH _ (base + w)) in H1; [|assumption|assumption|].
    2: { intro Dm. specialize (Hd1 Dm). rewrite N.mod_small in Hd1 by (apply Hd; exact Dm). exact Hd1. }
    destruct H1 as (Hlen & t & Ht & Hoff2 & Hd2 & H1).
    split; [cbn; congruence|]. exists (w + t). cbn [declared_total]. rewrite Hw, Ht, N.add_assoc.
    split; [reflexivity|]. split; [assumption|]. split; [assumption|].
    intros [|i] f' d' Hf Hdd; cbn in Hf, Hdd.
    + inversion Hf; inversion Hdd; subst. split; [assumption|]. exists 0, w.
      cbn. rewrite N.add_0_r. repeat split; assumption.
    + specialize (H1 i f' d' Hf Hdd). destruct H1 as (Hn' & o & w' & Ho & Hw' & Hloc').
      split; [assumption|]. exists (w + o), w'. cbn [firstn declared_total]. rewrite Hw, Ho, N.add_assoc.
      repeat split; assumption.
Qed.

Theorem layout_exact : forall m endi enums structs id d s,
  (forall n r, sget n structs = Some r -> s_bit_size r < 2 ^ 64) ->
  structure_from_model m endi enums structs id d = Ok s ->
  s_name s = ss_name d /\
  length (s_fields s) = length (ss_fields d) /\
  exists t, declared_total structs (ss_fields d) = Some t /\
    (m = Debug -> t < 2 ^ 64) /\
    s_bit_size s = t mod 2 ^ 64 /\
    s_byte_size s = ceil8 (s_bit_size s) /\
    forall i f, nth_error (s_fields s) i = Some f ->
      exists o w, declared_at structs d i o w /\
        8 * l_byte_offset (field_loc f) + l_bit_offset (field_loc f) = o mod 2 ^ 64 /\
        l_bit_offset (field_loc f) < 8 /\
        l_bit_size (field_loc f) = w mod 2 ^ 64.
Proof.
  intros m endi enums structs id d s Hs H. unfold structure_from_model in H.
  apply bind_ok in H. destruct H as ((fs & off) & H0 & H). inversion H; subst; clear H.
  cbn [s_name s_fields s_bit_size s_byte_size].
  apply (fields_exact _ _ _ _ _ _ 0) in H0; [|exact Hs|reflexivity|reflexivity].
  destruct H0 as (Hlen & t & Ht & Hoff & Hd & H1).
  split; [reflexivity|]. split; [assumption|]. exists t. split; [assumption|].
  split; [exact Hd|]. split; [exact Hoff|]. split; [apply ceil8_eq|]. intros i f Hf.
  assert (Hi : (i < length (ss_fields d))%nat).
  { rewrite <- Hlen. apply nth_error_Some. congruence. }
  destruct (nth_error (ss_fields d) i) as [df|] eqn:Hdf; [|apply nth_error_None in Hdf; lia].
  destruct (H1 i f df Hf Hdf) as (_ & o & w & Ho & Hw & Hloc).
  exists o, w. split; [split; [assumption|exists df; auto]|]. rewrite Hloc.
  split; [apply loc_start|]. split; [rewrite loc_bit_offset; apply N.mod_lt; discriminate|]. reflexivity.
Qed.

(** With wrap-around an accessor can leave the structure. *)
Definition wrapping : sstruct :=
  {| ss_name := "Wrapping"%string;
     ss_fields := [ {| sf_name := "a"%string; sf_info := STUnsigned 8; sf_array_len := Some (2 ^ 61 - 1); sf_view := None |};
                    {| sf_name := "b"%string; sf_info := STUnsigned 16; sf_array_len := None; sf_view := None |} ] |}.

Lemma windows_release_refuted : exists d s i f o w,
  structure_from_model Release Little [] [] 0 d = Ok s /\
  nth_error (s_fields s) i = Some (FFixed f) /\ declared_at [] d i o w /\ 0 < w <= 64 /\
  s_byte_size s = 1 /\
  forall E mr buf, len buf = 1 ->
    get_raw (E:=E) mr f buf = Panic /\ forall v, set_raw (E:=E) mr f buf v = Panic.
Proof.
  eexists wrapping, _, 1%nat, _, _, _. split; [vm_compute; reflexivity|]. split; [reflexivity|].
  split; [split; [vm_compute; reflexivity|eexists; split; [reflexivity|vm_compute; reflexivity]]|].
  split; [lia|]. split; [reflexivity|].
  intros E mr buf Hl. unfold get_raw, set_raw. 
  match goal with |- context [gen_fixed ?f] =>
    let r := eval vm_compute in (gen_fixed (E:=E) f) in replace (gen_fixed (E:=E) f) with r by (vm_compute; reflexivity) end.
  cbn [bind]. unfold ac_get, ac_set, update_slice, slice. cbn [ac_start ac_end]. rewrite Hl.
  split; reflexivity.
Qed.

(** ** Panics *)

Lemma signed_get_total : forall E m sz n raw, 0 < n -> n < 8 * N.of_nat sz ->
  exists z, signed_get (E:=E) m sz (2 ^ (n - 1) - 1) raw = Ok z.
Proof.
  intros E m sz n raw Hn Hsz. unfold signed_get.
  pose proof (pow2_pos (n - 1)) as Hp. pose proof (pow2_half n Hn) as H2.
  assert (Hle : 2 ^ n <= tmod sz / 2).
  { rewrite tmod_half by lia. apply pow2_small. lia. }
  assert (Ht : tmod sz = 2 * (tmod sz / 2)).
  { rewrite tmod_half by lia. unfold tmod. apply pow2_half. lia. }
  destruct (N.ltb_spec (2 ^ (n - 1) - 1) raw) as [Hhi|Hlo]; [|eexists; reflexivity].
  rewrite land_mask. cbn zeta.
  assert (Hx : (tmod sz - 1 - raw) mod 2 ^ (n - 1) < 2 ^ (n - 1)) by (apply N.mod_lt; lia).
  set (x := (tmod sz - 1 - raw) mod 2 ^ (n - 1)) in *. clearbody x.
  destruct (N.ltb_spec (x + 1) (tmod sz)); [|lia]. cbn [bind].
  unfold neg_signed, as_signed.
  destruct (N.ltb_spec (x + 1) (tmod sz / 2)); [|lia].
  match goal with |- context [(?a =? ?b)%Z] => destruct (Z.eqb_spec a b); [lia|] end.
  eexists. reflexivity.
Qed.

(** Codecs never return an error. *)
Definition no_error {E A} (x : outcome E A) : Prop := forall e, x <> Err e.
Lemma no_error_bind : forall E A B (x : outcome E A) (f : A -> outcome E B),
  no_error x -> (forall a, no_error (f a)) -> no_error (x <- x ;; f x).
Proof.
  intros E A B x f Hx Hf. destruct x as [a|e|]; cbn [bind]; [apply Hf|exfalso; apply (Hx e); reflexivity|].
  intros e H. discriminate H.
Qed.
Lemma no_error_ok : forall E A (a : A), no_error (E:=E) (Ok a).
Proof. intros E A a e H. discriminate H. Qed.
Lemma no_error_panic : forall E A, no_error (E:=E) (A:=A) Panic.
Proof. intros E A e H. discriminate H. Qed.
Lemma no_error_overflow : forall E m n, no_error (overflow (E:=E) m n).
Proof. intros E [] n e H; discriminate H. Qed.
Lemma no_error_total : forall E A (x : outcome E A), no_error x -> x <> Panic -> exists a, x = Ok a.
Proof. intros E A [a|e|] H P; [eauto|destruct (H e eq_refl)|congruence]. Qed.

Ltac no_err :=
  repeat first
    [ apply no_error_bind; [|intro] | apply no_error_ok | apply no_error_panic | apply no_error_overflow
    | match goal with |- no_error (if ?c then _ else _) => destruct c end ].

Lemma bit_read_no_error : forall E m sz bo bs w, no_error (bit_read (E:=E) m BE sz bo bs w).
Proof.
  intros. unfold bit_read, bit_read_unaligned, bit_read_aligned, pad8, bit_mask, ushl1, usub, read_bytes,
    be_shift, usub, tshr. no_err.
Qed.
Lemma bit_write_no_error : forall E m sz bo bs w v, no_error (bit_write (E:=E) m BE sz bo bs w v).
Proof.
  intros. unfold bit_write, bit_write_unaligned, bit_write_aligned, pad8, bit_mask, reset_mask, ushl1, usub,
    read_bytes, be_shift, usub, tshl. cbv zeta. unfold write_bytes. no_err.
Qed.
Lemma byte_read_total : forall E sz w, (length w <= sz <= 8)%nat -> exists x, byte_read (E:=E) BE sz w = Ok x.
Proof.
  intros E sz w H. unfold byte_read, byte_read_unaligned, byte_read_aligned, pad8, read_bytes.
  destruct (Nat.eqb_spec sz (length w)).
  - destruct (Nat.ltb_spec (length w) sz); [lia|]. eexists; reflexivity.
  - destruct (Nat.ltb_spec 8 (length w)); [lia|]. cbn [bind]. rewrite app_length, repeat_length.
    destruct (Nat.ltb_spec (length w + (8 - length w)) sz); [lia|]. eexists; reflexivity.
Qed.
Lemma byte_write_total : forall E sz w v, (length w <= sz <= 8)%nat -> exists x, byte_write (E:=E) BE sz w v = Ok x.
Proof.
  intros E sz w v H. unfold byte_write, byte_write_unaligned, byte_write_aligned, pad8, write_bytes.
  destruct (Nat.eqb_spec sz (length w)).
  - destruct (Nat.ltb_spec (length w) sz); [lia|]. eexists; reflexivity.
  - destruct (Nat.ltb_spec 8 (length w)); [lia|]. cbn [bind]. rewrite app_length, repeat_length.
    destruct (Nat.ltb_spec (length w + (8 - length w)) sz); [lia|]. eexists; reflexivity.
Qed.

(** What the accessors of a big-endian field do. *)
Lemma big_accessors : forall E mr f o w buf,
  ff_loc f = location_from_model w o -> ff_endianness f = Big -> 0 < w <= 64 ->
  o / 8 + ceil8 w <= len buf -> bytes_ok buf ->
  exists a, gen_fixed (E:=E) f = Ok a /\ w <= 8 * N.of_nat (ac_raw a) /\
    (shift_overflows mr Big o w ->
       ac_get (E:=E) mr a buf = Panic /\ forall v, ac_set (E:=E) mr a buf v = Panic) /\
    (~ shift_overflows mr Big o w ->
       (exists x, ac_get (E:=E) mr a buf = Ok x) /\ forall v, exists b, ac_set (E:=E) mr a buf v = Ok b).
Proof.
  intros E mr f o w buf Hloc Hend Hw Hlen Hbuf.
  destruct (gen_fixed_ok (E:=E) f) as (a & Ha & Hs & He & Hr & Hrb & Hbit & Hal & Hord);
    [rewrite Hloc; exact Hw|].
  exists a. split; [assumption|]. rewrite Hloc in *. rewrite loc_byte_size, loc_byte_offset, loc_bit_offset in *.
  cbn [l_bit_size location_from_model] in *. split; [assumption|].
  assert (Hc : 0 < ceil8 w <= N.of_nat (ac_raw a)).
  { unfold ceil8. clear - Hw Hrb. Ltac Zify.zify_post_hook ::= Z.to_euclidean_division_equations. lia.
    Ltac Zify.zify_post_hook ::= idtac. }
  destruct (slice_window (E:=E) buf (o / 8) (o / 8 + ceil8 w)) as (win & Hsl & Hwl & Hwok & Hwb);
    [lia|assumption|assumption|].
  replace (o / 8 + ceil8 w - o / 8) with (ceil8 w) in * by lia.
  assert (Hall : ac_aligned a = (ac_raw a =? length win)%nat).
  { rewrite Hal. destruct (N.eqb_spec (N.of_nat (ac_raw a)) (ceil8 w)), (Nat.eqb_spec (ac_raw a) (length win)); lia. }
  assert (Hsz : In (ac_raw a) [1; 2; 4; 8]%nat) by (cbn; lia).
  assert (Hwin : (0 < length win <= ac_raw a)%nat) by lia.
  assert (Hbo : o mod 8 < 8) by (apply N.mod_lt; discriminate).
  assert (Hm8 : w mod 8 < 8) by (apply N.mod_lt; discriminate).
  assert (Hget : ac_get (E:=E) mr a buf =
     if w mod 8 =? 0 then byte_read BE (ac_raw a) win else bit_read mr BE (ac_raw a) (o mod 8) w win).
  { unfold ac_get. rewrite Hs, He, Hsl. cbn [bind]. rewrite Hbit, Hord, Hend, Hall. cbn [order_of].
    destruct (w mod 8 =? 0); reflexivity. }
  assert (Hset : forall v, ac_set (E:=E) mr a buf v =
     (r <- (if w mod 8 =? 0 then byte_write BE (ac_raw a) win v else bit_write mr BE (ac_raw a) (o mod 8) w win v) ;;
      Ok (splice buf (o / 8) r))).
  { intro v. unfold ac_set, update_slice. rewrite Hs, He, Hsl. cbn [bind]. rewrite Hbit, Hord, Hend, Hall.
    cbn [order_of]. destruct (w mod 8 =? 0); reflexivity. }
  rewrite Hget.
  destruct (N.eqb_spec (w mod 8) 0) as [H0|H0].
  - split.
    + intros (_ & _ & K). lia.
    + intros _. split; [apply byte_read_total; cbn in Hsz; lia|]. intro v. rewrite Hset.
      destruct (byte_write_total E (ac_raw a) win v) as (r & ->); [cbn in Hsz; lia|]. eexists. reflexivity.
  - assert (Hw64 : 0 < w < 64).
    { destruct (N.eq_dec w 64) as [->|]; [destruct H0; reflexivity|lia]. }
    destruct (be_bits_panic (E:=E) mr (ac_raw a) (o mod 8) w win Hsz Hwin Hwok Hw64 Hbo) as (P1 & P2).
    assert (Hov : (mr = Debug /\ (8 < o mod 8 + w mod 8 \/ 8 * N.of_nat (ac_raw a) <= 8 - w mod 8 - o mod 8))
                  <-> shift_overflows mr Big o w).
    { unfold shift_overflows. split; [intros (? & K); repeat split; try assumption; lia|intros (? & _ & K); auto]. }
    rewrite Hov in P1. split.
    + intro K. split; [apply P1; exact K|]. intro v. rewrite Hset, (proj2 (P2 v)) by (apply Hov; exact K). reflexivity.
    + intro K. split.
      * apply no_error_total; [apply bit_read_no_error|]. intro X. apply K, P1, X.
      * intro v. rewrite Hset.
        destruct (no_error_total _ _ (bit_write (E:=E) mr BE (ac_raw a) (o mod 8) w win v)) as (r & ->);
          [apply bit_write_no_error|intro X; apply K, Hov, (P2 v), X|]. eexists. reflexivity.
Qed.

Lemma fixed_endianness : forall m endi enums structs id d s i f,
  structure_from_model m endi enums structs id d = Ok s ->
  nth_error (s_fields s) i = Some (FFixed f) -> ff_endianness f = endi.
Proof.
  intros m endi enums structs id d s i f H Hf. unfold structure_from_model in H.
  apply bind_ok in H. destruct H as ((fs & off) & H0 & H). inversion H; subst. cbn in Hf.
  eapply (fields_all (fun f => match f with FFixed x => ff_endianness x = endi | _ => True end)) in H0.
  - rewrite Forall_forall in H0. apply nth_error_In in Hf. exact (H0 _ Hf).
  - clear. intros d off f off' H. unfold field_from_model in H.
    destruct (sf_info d) as [b|b|b|b|n].
    1-4: cbn [get_bit_size ok_or bind] in H; inv_bind H; inv_bind H; inv_bind H;
      destruct (1 <? _); [destruct (negb _); [discriminate|]|];
      inv_bind H; inversion H; subst; cbn; auto.
    inv_bind H. inv_bind H. inversion H; subst. exact I.
Qed.

Lemma any_in_structure : forall m endi enums structs id d s i f o w,
  structure_from_model m endi enums structs id d = Ok s ->
  no_overflow m structs d ->
  nth_error (s_fields s) i = Some f -> declared_at structs d i o w ->
  field_loc f = location_from_model w o /\ o / 8 + ceil8 w <= s_byte_size s.
Proof.
  intros m endi enums structs id d s i f o w H Hno Hf Hat. apply structure_layout in H.
  destruct H as (_ & _ & _ & Hb & t & Ht & H).
  destruct H as (Hs & H); [eapply no_overflow_no_wrap; eassumption|].
  destruct (H i f Hf) as (df & o' & w' & Hd & Hnm & Hat' & Hle & Hloc).
  destruct (declared_at_fun _ _ _ _ _ _ _ Hat Hat'); subst o' w'.
  split; [assumption|]. rewrite Hb, Hs. unfold ceil8. clear - Hle.
  Ltac Zify.zify_post_hook ::= Z.to_euclidean_division_equations. lia.
  Ltac Zify.zify_post_hook ::= idtac.
Qed.

Theorem accessor_panics : forall E m mr endi enums structs id d s i f o w buf,
  structure_from_model m endi enums structs id d = Ok s ->
  no_overflow m structs d ->
  nth_error (s_fields s) i = Some (FFixed f) -> declared_at structs d i o w ->
  0 < w <= 64 -> s_byte_size s <= len buf -> bytes_ok buf ->
  (shift_overflows mr endi o w ->
     get_raw (E:=E) mr f buf = Panic /\ (forall v, set_raw (E:=E) mr f buf v = Panic) /\
     get_view (E:=E) mr f buf = Panic /\ (forall x, set_view (E:=E) mr f buf x = Panic)) /\
  (~ shift_overflows mr endi o w ->
     (exists v, get_raw (E:=E) mr f buf = Ok v) /\
     (forall v, exists b, set_raw (E:=E) mr f buf v = Ok b) /\
     (exists x, get_view (E:=E) mr f buf = Ok x) /\
     (forall x, view_value f x -> exists b, set_view (E:=E) mr f buf x = Ok b)).
Proof.
  intros E m mr endi enums structs id d s i f o w buf H Hno Hf Hat Hw Hlen Hbuf.
  destruct endi.
  - split; [intros (_ & K & _); discriminate K|]. intros _.
    split; [|split; [|split]].
    + destruct (raw_accessors_total (E:=E) m mr _ _ _ _ _ _ _ _ _ buf 0 H Hno Hf Hat Hw Hlen Hbuf) as ((x & K & _) & _).
      eauto.
    + intro v. destruct (raw_accessors_total (E:=E) m mr _ _ _ _ _ _ _ _ _ buf v H Hno Hf Hat Hw Hlen Hbuf) as (_ & x & K & _).
      eauto.
    + eapply get_view_total; eassumption.
    + intros x Hx. eapply set_view_total; eassumption.
  - pose proof (fixed_endianness _ _ _ _ _ _ _ _ _ H Hf) as He.
    destruct (any_in_structure _ _ _ _ _ _ _ _ _ _ _ H Hno Hf Hat) as (Hloc & Hwin). cbn [field_loc] in Hloc.
    destruct (big_accessors E mr f o w buf Hloc He Hw ltac:(lia) Hbuf) as (a & Hg & Hraw & HP & HT).
    unfold get_raw, set_raw, get_view, set_view. rewrite Hg. cbn [bind]. split.
    + intro K. destruct (HP K) as (P1 & P2). rewrite P1. split; [reflexivity|]. split; [exact P2|].
      split; [reflexivity|]. intro x.
      assert (N : no_error (view_set (E:=E) f (ac_raw a) x)).
      { unfold view_set. destruct (ff_view f); destruct x; try destruct n; try destruct (ff_ty f);
          try apply no_error_ok; apply no_error_panic. }
      destruct (view_set f (ac_raw a) x) as [r|e|]; cbn [bind]; [apply P2|destruct (N e eq_refl)|reflexivity].
    + intro K. destruct (HT K) as ((v & T1) & T2). rewrite T1. split; [eauto|]. split; [exact T2|]. cbn [bind].
      split.
      * unfold view_get. destruct (ff_view f) as [a0 b0 c0 d0|e| |mp|] eqn:Hv; try (eexists; reflexivity).
        destruct (structure_nth _ _ _ _ _ _ _ _ _ H Hf) as (df & o1 & o2 & Hd & Hfm).
        apply scalar_shape in Hfm. destruct Hfm as (b & Hb & Hty & Hview & Hal).
        assert (Hwb : w = b).
        { destruct Hat as (_ & df' & Hd' & Hw'). assert (df' = df) by congruence. subst df'.
          assert (Hk : declared_bits structs df = Some (b * match sf_array_len df with Some n => n | None => 1 end)).
          { unfold declared_bits. destruct (sf_info df); cbn in Hb; inversion Hb; reflexivity. }
          rewrite Hk in Hw'. inversion Hw' as [Hwk]. clear - Hal Hwk Hw.
          destruct (sf_array_len df) as [k|]; [|lia].
          assert (Hk01 : k = 0 \/ k = 1) by lia. destruct Hk01; subst k; lia. }
        subst b. rewrite Hv in Hview. unfold view_from_model in Hview.
        destruct (sf_view df) as [[nm|mn mx|ml]|].
        { destruct (negb _); [discriminate|]. inv_bind Hview. discriminate. }
        { destruct (negb _); [discriminate|]. inv_bind Hview. inv_bind Hview. discriminate. }
        { destruct (negb _); [discriminate|]. discriminate. }
        destruct (_ && negb (w =? 32) && negb (w =? 64)); [discriminate|].
        destruct (simple_eqb (get_simple_type (sf_info df)) Signed && negb (w =? 8) && negb (w =? 16)
                    && negb (w =? 32) && negb (w =? 64)) eqn:Hc;
          [|destruct (simple_eqb _ Unsigned); discriminate].
        unfold usub at 1 in Hview. destruct (N.leb_spec 1 w); [|lia]. cbn [bind] in Hview.
        unfold ushl1 in Hview. destruct (N.ltb_spec (w - 1) 64); [|lia]. cbn [bind] in Hview.
        unfold usub in Hview. pose proof (pow2_pos (w - 1)).
        destruct (N.leb_spec 1 (2 ^ (w - 1))); [|lia]. cbn [bind] in Hview. inversion Hview; subst mp.
        destruct (signed_get_total E mr (ac_raw a) w v) as (z & ->); [lia| |eexists; reflexivity].
        apply andb_true_iff in Hc. destruct Hc as (Hc & H64). apply andb_true_iff in Hc. destruct Hc as (Hc & H32).
        apply andb_true_iff in Hc. destruct Hc as (Hc & H16). apply andb_true_iff in Hc. destruct Hc as (_ & H8).
        destruct (gen_fixed_ok (E:=E) f) as (a' & Hg' & _ & _ & Hsz & Hbits & _); [rewrite Hloc; exact Hw|].
        assert (a' = a) by congruence. subst a'.
        destruct (N.eqb_spec w 8), (N.eqb_spec w 16), (N.eqb_spec w 32), (N.eqb_spec w 64); try discriminate. lia.
      * intros x Hx.
        assert (Hr : exists r, view_set (E:=E) f (ac_raw a) x = Ok r).
        { unfold view_set, view_value in *. destruct (ff_view f), x; try contradiction; try (eexists; reflexivity);
            try (destruct (ff_ty f); try contradiction; eexists; reflexivity).
          destruct n; try contradiction; eexists; reflexivity. }
        destruct Hr as (r & ->). cbn [bind]. apply T2.
Qed.
