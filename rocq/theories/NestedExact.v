(** Chains of nested structure accessors in general, for C12: which bits they reach. *)

From Coq Require Import Arith NArith ZArith String List Bool Lia ZifyBool ZifyN ZifyNat.
From Verif Require Import Base Schema Bits BitsFacts Codec CodecFacts Compiler Access SpecStruct
  StructFacts StructThms NestedThms StackThms.
Import ListNotations.
Local Open Scope N_scope.
Ltac Zify.zify_post_hook ::= idtac.

Lemma acc_short : forall o w, 0 < w -> addressable o w \/ acc_start o w + acc_width o w < o + w.
Proof.
  intros o w Hw. unfold addressable, acc_start, acc_width. destruct (N.eqb_spec (w mod 8) 0) as [He|He].
  - pose proof (N.div_mod o 8 ltac:(discriminate)). pose proof (N.mod_lt o 8 ltac:(discriminate)).
    destruct (N.eq_dec (o mod 8) 0); [left; assumption|right]. lia.
  - destruct (N.leb_spec (o mod 8 + w) (8 * ceil8 w)); [left; assumption|right]. lia.
Qed.
Lemma acc_end : forall o w, acc_start o w + acc_width o w <= o + w.
Proof.
  intros o w. unfold acc_start, acc_width. pose proof (N.div_mod o 8 ltac:(discriminate)).
  destruct (w mod 8 =? 0); lia.
Qed.

Section Nested.
Context {E : Type}.

(** The accessors of a chain read and write the bits [p .. p + n). *)
Lemma path_reach : forall mr path s o w, struct_ok s -> path_at s path o w -> 0 < w <= 64 ->
  exists p n, n <= w /\ p + n <= o + w /\ p + n <= 8 * s_byte_size s /\
    (path_bytes_aligned s path /\ addressable o w \/ p + n < o + w) /\
    forall buf, s_byte_size s <= len buf -> bytes_ok buf ->
      (exists v, path_get (E:=E) mr s path buf = Ok v /\ is_field_value buf p n v) /\
      (forall v, exists buf', path_set (E:=E) mr s path buf v = Ok buf' /\ is_field_update buf p n v buf').
Proof.
  intros mr. induction path as [|i path IH]; intros s o w Hok Hp Hw; [inversion Hp|].
  inversion Hp as [s0 i0 f Hf|s0 i0 n r loc rest o' w' Hf Hr]; subst;
    destruct (struct_nth s Hok i _ Hf) as (Hloc & Hle & Hx); cbn [field_bits field_loc] in *;
    rewrite (struct_bytes _ Hok).
  - set (o := total_bits (firstn i (s_fields s))) in *. set (w := l_bit_size (ff_loc f)) in *.
    pose proof (window_fits _ _ _ Hle) as Hfit. pose proof (acc_end o w) as Hend.
    pose proof (ceil8_cover (s_bit_size s)).
    exists (acc_start o w), (acc_width o w). split; [apply acc_width_le|]. split; [exact Hend|]. split; [lia|]. split.
    + destruct (acc_short o w) as [Ha|Ha]; [lia| |right; exact Ha]. left. split; [|exact Ha].
      cbn [path_bytes_aligned]. rewrite Hf. exact I.
    + intros buf Hlen Hbuf. cbn [path_get path_set]. rewrite Hf. split.
      * apply (ac_get_LE (E:=E) mr f o w buf Hloc Hx Hw); [lia|assumption].
      * intro v. apply (ac_set_LE (E:=E) mr f o w buf v Hloc Hx Hw); [lia|assumption].
  - subst loc. set (o0 := total_bits (firstn i (s_fields s))) in *.
    destruct (IH r o' w Hx Hr Hw) as (p & k & Hk & Hpk & Hpb & Hal & Hacc).
    pose proof (window_fits _ _ _ Hle) as Hfit. rewrite (struct_bytes _ Hx) in *.
    pose proof (N.div_mod o0 8 ltac:(discriminate)) as Hdm. pose proof (N.mod_lt o0 8 ltac:(discriminate)) as Hm8.
    exists (8 * (o0 / 8) + p), k. split; [exact Hk|]. split; [lia|]. split; [lia|]. split.
    + destruct Hal as [(Hal & Ha)|Hs]; [|right; lia].
      destruct (N.eq_dec (o0 mod 8) 0) as [Hz|Hz]; [left|right; lia]. split.
      * cbn [path_bytes_aligned]. rewrite Hf. split; [exact Hz|exact Hal].
      * unfold addressable in *. assert (Ho0 : o0 = 8 * (o0 / 8)) by lia.
        rewrite Ho0, N.add_comm, (N.mul_comm 8), N.mod_add by discriminate. assumption.
    + intros buf Hlen Hbuf. cbn [path_get path_set]. rewrite Hf, loc_byte_offset, loc_byte_size.
      destruct (slice_window (E:=E) buf (o0 / 8) (o0 / 8 + ceil8 (s_bit_size r)))
        as (x & Hsl & Hxl & Hxo & Hxb); [lia|lia|assumption|].
      assert (Hxlen : ceil8 (s_bit_size r) <= len x) by (unfold len; lia).
      destruct (Hacc x Hxlen Hxo) as (Hget & Hset). split.
      * rewrite Hsl. cbn [bind]. destruct Hget as (v & Hv & Hvf). exists v. split; [exact Hv|].
        intro j. rewrite Hvf, Hxb. destruct (N.ltb_spec j k); [|reflexivity]. cbn [andb].
        destruct (N.ltb_spec (p + j) (8 * (o0 / 8 + ceil8 (s_bit_size r) - o0 / 8))); [|lia].
        cbn [andb]. f_equal. lia.
      * intro v. unfold update_slice. rewrite Hsl. cbn [bind]. destruct (Hset v) as (x' & Hv & U1 & U2 & U3).
        rewrite Hv. cbn [bind]. eexists. split; [reflexivity|].
        assert (Hlx : len x' = ceil8 (s_bit_size r)) by (unfold len; lia).
        split; [apply splice_length; rewrite Hlx; lia|]. split; [apply bytes_ok_splice; assumption|].
        intro t. rewrite bit_at_splice by (rewrite Hlx; lia). rewrite Hlx, U3.
        set (q := o0 / 8) in *. clearbody q. clear Hfit Hal.
        destruct (N.leb_spec (8 * q) t), (N.ltb_spec t (8 * (q + ceil8 (s_bit_size r)))); cbn [andb].
        -- destruct (N.leb_spec p (t - 8 * q)), (N.ltb_spec (t - 8 * q) (p + k)),
             (N.leb_spec (8 * q + p) t), (N.ltb_spec t (8 * q + p + k)); try lia; cbn [andb].
           ++ f_equal. lia.
           ++ rewrite Hxb. destruct (N.ltb_spec (t - 8 * q) (8 * (q + ceil8 (s_bit_size r) - q))); [|lia].
              cbn [andb]. f_equal. lia.
           ++ rewrite Hxb. destruct (N.ltb_spec (t - 8 * q) (8 * (q + ceil8 (s_bit_size r) - q))); [|lia].
              cbn [andb]. f_equal. lia.
        -- destruct (N.leb_spec (8 * q + p) t), (N.ltb_spec t (8 * q + p + k)); try reflexivity. lia.
        -- destruct (N.leb_spec (8 * q + p) t), (N.ltb_spec t (8 * q + p + k)); try reflexivity. lia.
        -- destruct (N.leb_spec (8 * q + p) t), (N.ltb_spec t (8 * q + p + k)); try reflexivity. lia.
Qed.

Theorem nested_exact : forall m mr structs name s path o w, built m structs -> sget name structs = Some s ->
  path_at s path o w -> 0 < w <= 64 ->
  ((forall buf, s_byte_size s <= len buf -> bytes_ok buf ->
      exists v, path_get (E:=E) mr s path buf = Ok v /\ is_field_value buf o w v) <->
     path_bytes_aligned s path /\ addressable o w) /\
  ((forall buf v, s_byte_size s <= len buf -> bytes_ok buf ->
      exists buf', path_set (E:=E) mr s path buf v = Ok buf' /\ is_field_update buf o w v buf') <->
     path_bytes_aligned s path /\ addressable o w).
Proof.
  intros m mr structs name s path o w Hb Hs Hp Hw. pose proof (built_ok _ _ Hb _ _ Hs) as Hok.
  pose proof (path_at_le _ _ _ _ Hp Hok) as Hle. pose proof (struct_bytes _ Hok) as Hby.
  pose proof (ceil8_cover (s_bit_size s)) as Hcov.
  destruct (path_reach mr path s o w Hok Hp Hw) as (p & n & Hn & Hpn & _ & Hcase & Hacc).
  split; split.
  - intro H. destruct Hcase as [Hc|Hshort]; [exact Hc|exfalso].
    set (buf := one_bit (N.to_nat (s_byte_size s)) (o + w - 1)).
    assert (Hk : o + w - 1 < 8 * N.of_nat (N.to_nat (s_byte_size s))) by (rewrite N2Nat.id, Hby; lia).
    assert (Hlen : s_byte_size s <= len buf) by (unfold buf, one_bit, len; rewrite le_enc_length; lia).
    assert (Hbuf : bytes_ok buf) by apply le_enc_ok.
    destruct (H buf Hlen Hbuf) as (v & Hv & Hf). destruct (Hacc buf Hlen Hbuf) as ((v' & Hv' & Hf') & _).
    assert (v' = v) by congruence. subst v'. specialize (Hf (w - 1)). rewrite Hf' in Hf.
    unfold buf in Hf. rewrite !one_bit_spec in Hf by exact Hk.
    destruct (N.ltb_spec (w - 1) n), (N.ltb_spec (w - 1) w), (N.eqb_spec (p + (w - 1)) (o + w - 1)),
      (N.eqb_spec (o + (w - 1)) (o + w - 1)); cbn [andb] in Hf; try lia; discriminate.
  - intros (Hal & Ha) buf Hlen Hbuf. apply (path_get_correct mr path s o w buf); assumption.
  - intro H. destruct Hcase as [Hc|Hshort]; [exact Hc|exfalso].
    set (buf := repeat 0 (N.to_nat (s_byte_size s))).
    assert (Hlen : s_byte_size s <= len buf) by (unfold buf, len; rewrite repeat_length; lia).
    assert (Hbuf : bytes_ok buf) by apply bytes_ok_zeros.
    destruct (H buf (2 ^ w - 1) Hlen Hbuf) as (b & Hv & _ & _ & Hf).
    destruct (proj2 (Hacc buf Hlen Hbuf) (2 ^ w - 1)) as (b' & Hv' & _ & _ & Hf').
    assert (b' = b) by congruence. subst b'. specialize (Hf (o + w - 1)). rewrite Hf' in Hf.
    rewrite !testbit_mask in Hf. unfold buf in Hf. rewrite !bit_at_zeros in Hf.
    destruct (N.leb_spec p (o + w - 1)), (N.ltb_spec (o + w - 1) (p + n)), (N.leb_spec o (o + w - 1)), (N.ltb_spec (o + w - 1) (o + w)),
      (N.ltb_spec (o + w - 1 - o) w); cbn [andb] in Hf; try lia; discriminate.
  - intros (Hal & Ha) buf v Hlen Hbuf. apply (path_set_correct mr v path s o w buf); assumption.
Qed.

End Nested.
