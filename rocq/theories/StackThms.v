(** Zeroed structures (C52), the range of what a raw getter returns, and
    accessors of big-endian fields (C13). *)

From Coq Require Import Arith NArith List Bool Lia ZifyBool ZifyN ZifyNat.
From Verif Require Import Base Schema Bits BitsFacts Codec CodecFacts Compiler Access SpecStruct StructFacts StructThms
  NestedThms BEThms SpecUnion.
Import ListNotations.
Local Open Scope N_scope.

Lemma acc_width_le : forall o w, acc_width o w <= w.
Proof. intros. unfold acc_width. destruct (w mod 8 =? 0); lia. Qed.

Lemma bits_below : forall v w, (forall j, w <= j -> N.testbit v j = false) -> v < 2 ^ w.
Proof.
  intros v w H. destruct (N.eq_dec v 0) as [->|Hv]; [apply N.neq_0_lt_0, N.pow_nonzero; discriminate|].
  apply N.log2_lt_pow2; [lia|]. destruct (N.lt_ge_cases (N.log2 v) w); [assumption|].
  pose proof (N.bit_log2 v Hv). rewrite H in H1 by assumption. discriminate.
Qed.

Lemma bit_at_zeros : forall n i, bit_at (repeat 0 n) i = false.
Proof.
  intros n i. unfold bit_at. destruct (nth_in_or_default (N.to_nat (i / 8)) (repeat 0 n) 0) as [H|H].
  - apply repeat_spec in H. rewrite H. apply N.bits_0.
  - rewrite H. apply N.bits_0.
Qed.
Lemma zeros_ok : forall n, bytes_ok (repeat 0 n).
Proof. intro n. apply Forall_forall. intros x H. apply repeat_spec in H. subst. reflexivity. Qed.
Lemma skipn_zeros : forall (k n : nat), skipn k (repeat 0 n) = repeat 0 (n - k).
Proof. induction k; intros [|n]; cbn; try reflexivity. apply IHk. Qed.
Lemma firstn_zeros : forall (k n : nat), firstn k (repeat 0 n) = repeat 0 (min k n).
Proof. induction k; intros [|n]; cbn; try reflexivity. rewrite IHk. reflexivity. Qed.
Lemma slice_zeros : forall {E} n lo hi, lo <= hi -> hi <= N.of_nat n ->
  slice (E:=E) (repeat 0 n) lo hi = Ok (repeat 0 (N.to_nat (hi - lo))).
Proof.
  intros E n lo hi H1 H2. rewrite slice_ok; [|assumption|unfold len; rewrite repeat_length; assumption].
  f_equal. rewrite skipn_zeros, firstn_zeros. f_equal. lia.
Qed.

Section Stack.
Context {E : Type}.

Lemma path_get_zero : forall mr path s o w n,
  struct_ok s -> path_at s path o w -> 0 < w <= 64 -> s_byte_size s <= N.of_nat n ->
  path_get (E:=E) mr s path (repeat 0 n) = Ok 0.
Proof.
  intros mr. induction path as [|i path IH]; intros s o w n Hok Hp Hw Hlen; [inversion Hp|].
  inversion Hp as [s0 i0 f Hf|s0 i0 nm r loc rest o' w' Hf Hr]; subst; cbn [path_get]; rewrite Hf;
    destruct (struct_nth s Hok i _ Hf) as (Hloc & Hle & Hx); cbn [field_bits field_loc] in *;
    rewrite (struct_bytes _ Hok) in Hlen; pose proof (window_fits _ _ _ Hle) as Hfit.
  - destruct (ac_get_LE (E:=E) mr f _ _ (repeat 0 n) Hloc Hx Hw) as (v & Hv & Hb);
      [unfold len; rewrite repeat_length; lia|apply zeros_ok|].
    rewrite Hv. f_equal. apply N.bits_inj. intro j. rewrite Hb, bit_at_zeros, N.bits_0. apply andb_false_r.
  - subst loc. rewrite loc_byte_offset, loc_byte_size, slice_zeros by lia. cbn [bind].
    eapply IH; [exact Hx|exact Hr|exact Hw|]. rewrite (struct_bytes _ Hx). lia.
Qed.

Theorem new_on_stack_zero : forall m mr structs name s, built m structs -> sget name structs = Some s ->
  len (new_on_stack s) = s_byte_size s /\
  forall path o w, path_at s path o w -> 0 < w <= 64 ->
    path_get (E:=E) mr s path (new_on_stack s) = Ok 0.
Proof.
  intros m mr structs name s Hb Hs. pose proof (built_ok _ _ Hb _ _ Hs) as Hok. unfold new_on_stack. split.
  - unfold len. rewrite repeat_length. lia.
  - intros path o w Hp Hw. eapply path_get_zero; [exact Hok|exact Hp|exact Hw|lia].
Qed.

Lemma path_get_bound : forall mr path s o w data v,
  struct_ok s -> path_at s path o w -> 0 < w <= 64 -> bytes_ok data ->
  path_get (E:=E) mr s path data = Ok v -> v < 2 ^ w.
Proof.
  intros mr. induction path as [|i path IH]; intros s o w data v Hok Hp Hw Hd; [inversion Hp|].
  inversion Hp as [s0 i0 f Hf|s0 i0 nm r loc rest o' w' Hf Hr]; subst; cbn [path_get]; rewrite Hf;
    destruct (struct_nth s Hok i _ Hf) as (Hloc & Hle & Hx); cbn [field_bits field_loc] in *.
  - intro H. set (o := total_bits (firstn i (s_fields s))) in *. set (w := l_bit_size (ff_loc f)) in *.
    destruct (N.le_gt_cases (o / 8 + ceil8 w) (len data)) as [Hlen|Hlen].
    + destruct (ac_get_LE (E:=E) mr f _ _ data Hloc Hx Hw Hlen Hd) as (v' & Hv & Hb). rewrite Hv in H.
      inversion H; subst. apply bits_below. intros j Hj. rewrite Hb. pose proof (acc_width_le o w).
      destruct (N.ltb_spec j (acc_width o w)); [lia|reflexivity].
    + exfalso. unfold get_raw in H.
      destruct (gen_fixed_ok (E:=E) f) as (a & Ha & Hs & He & _); [rewrite Hloc; exact Hw|].
      rewrite Ha in H. cbn [bind] in H. unfold ac_get in H. rewrite Hs, He, Hloc, loc_byte_offset, loc_byte_size in H.
      unfold slice in H. destruct (N.leb_spec (o / 8 + ceil8 w) (len data)); [lia|]. rewrite andb_false_r in H.
      cbn [bind] in H. discriminate.
  - intro H. destruct (slice (E:=E) data (l_byte_offset loc) (l_byte_offset loc + l_byte_size loc)) as [x| |] eqn:Hsl;
      cbn [bind] in H; [|discriminate..].
    eapply IH; [exact Hx|exact Hr|exact Hw| |exact H].
    unfold slice in Hsl. destruct (_ && _); [|discriminate]. inversion Hsl; subst.
    apply bytes_ok_firstn, bytes_ok_skipn, Hd.
Qed.
End Stack.

(** No discriminant of less than 64 bits has the number of a negative label. *)
Theorem negative_case_dead : forall m mr structs name u o w c data d,
  built m structs -> sget name structs = Some (d_root (u_disc u)) ->
  path_at (d_root (u_disc u)) (d_index_list (u_disc u)) o w -> 0 < w < 64 ->
  In c (u_cases u) -> 2 ^ 63 <= uc_case c -> bytes_ok data ->
  discriminant mr u data d -> uc_case c <> d.
Proof.
  intros m mr structs name u o w c data d Hb Hs Hp Hw _ Hc Hd H. unfold discriminant in H.
  apply (path_get_bound _ _ _ _ _ _ _ (built_ok _ _ Hb _ _ Hs) Hp) in H; [|lia|assumption].
  assert (2 ^ w <= 2 ^ 63) by (apply N.pow_le_mono_r; lia). lia.
Qed.

(** ** Big-endian scalar fields of whole bytes *)

Lemma skipn_add : forall {A} (x y : nat) (l : list A), skipn x (skipn y l) = skipn (y + x) l.
Proof.
  intros A x y. induction y as [|y IH]; intros l; [reflexivity|]. destruct l as [|a l]; [|apply IH].
  rewrite !skipn_nil. reflexivity.
Qed.

Section Big.
Context {E : Type}.

(** The window of a field of [sz] whole bytes at a byte boundary. *)
Lemma be_field : forall mr f k sz buf,
  ff_loc f = location_from_model (8 * N.of_nat sz) (8 * k) -> ff_endianness f = Big ->
  In sz [1; 2; 4; 8]%nat -> k + N.of_nat sz <= len buf -> bytes_ok buf ->
  let window (b : bytes) := firstn sz (skipn (N.to_nat k) b) in
  get_raw (E:=E) mr f buf = Ok (be_value (window buf)) /\
  forall v, exists buf', set_raw (E:=E) mr f buf v = Ok buf' /\
    length buf' = length buf /\ bytes_ok buf' /\
    firstn (N.to_nat k) buf' = firstn (N.to_nat k) buf /\
    skipn (N.to_nat k + sz) buf' = skipn (N.to_nat k + sz) buf /\
    be_value (window buf') = v mod 2 ^ (8 * N.of_nat sz) /\
    get_raw (E:=E) mr f buf' = Ok (v mod 2 ^ (8 * N.of_nat sz)).
Proof.
  intros mr f k sz buf Hloc Hend Hsz Hlen Hbuf window.
  assert (Hg : gen_fixed (E:=E) f = Ok {| ac_start := k; ac_end := k + N.of_nat sz; ac_raw := sz; ac_bit := None;
                                          ac_aligned := true; ac_order := BE |}).
  { unfold gen_fixed. rewrite Hloc, loc_byte_size, loc_byte_offset, loc_bit_size, Hend. cbn [order_of].
    assert (Hk : 8 * k / 8 = k) by (rewrite N.mul_comm, N.div_mul; [reflexivity|discriminate]). rewrite Hk.
    cbn in Hsz. destruct Hsz as [<-|[<-|[<-|[<-|[]]]]]; vm_compute get_unsigned_integer_type; reflexivity. }
  assert (Hd : exists pre win post, buf = pre ++ win ++ post /\ len pre = k /\ length win = sz).
  { exists (firstn (N.to_nat k) buf), (window buf), (skipn (N.to_nat k + sz) buf). unfold window, len in *.
    split; [|split].
    - rewrite <- (firstn_skipn (N.to_nat k) buf) at 1. f_equal.
      rewrite <- (firstn_skipn sz (skipn (N.to_nat k) buf)) at 1. f_equal. rewrite skipn_add. reflexivity.
    - rewrite firstn_length. lia.
    - rewrite firstn_length, skipn_length. lia. }
  destruct Hd as (pre & win & post & Hb & Hk & Hl).
  assert (Hsl : forall w', length w' = sz -> slice (E:=E) (pre ++ w' ++ post) k (k + N.of_nat sz) = Ok w' /\
     window (pre ++ w' ++ post) = w').
  { intros w' Hw'. assert (window (pre ++ w' ++ post) = w') as Hwin.
    { unfold window. subst k. unfold len. rewrite Nat2N.id, skipn_app, skipn_all, Nat.sub_diag. cbn [app skipn].
      rewrite firstn_app, Hw', Nat.sub_diag, firstn_O, app_nil_r. rewrite <- Hw'. apply firstn_all. }
    split; [|exact Hwin]. rewrite slice_ok.
    - unfold window in Hwin. rewrite <- Hwin at 2. f_equal. f_equal. lia.
    - lia.
    - subst k. unfold len. rewrite !app_length. lia. }
  assert (Hok : bytes_ok pre /\ bytes_ok win /\ bytes_ok post).
  { rewrite Hb in Hbuf. unfold bytes_ok in *. rewrite !Forall_app in Hbuf. tauto. }
  destruct Hok as (Hpre & Hwin & Hpost). rewrite Hb.
  assert (Hget : forall w', length w' = sz -> bytes_ok w' -> get_raw (E:=E) mr f (pre ++ w' ++ post) = Ok (be_value w')).
  { intros w' Hw' Hwo. unfold get_raw. rewrite Hg. cbn [bind]. unfold ac_get. cbn [ac_start ac_end ac_bit ac_aligned ac_order ac_raw].
    rewrite (proj1 (Hsl w' Hw')). cbn [bind]. apply (be_read (E:=E) sz w' Hw' Hwo). }
  split; [rewrite (proj2 (Hsl win Hl)); apply Hget; assumption|].
  intro v. destruct (be_write (E:=E) sz win v Hl) as (w' & H1 & H2 & H3 & H4).
  exists (pre ++ w' ++ post).
  assert (Hp : 2 ^ (8 * N.of_nat sz) = tmod sz) by (unfold tmod; reflexivity). rewrite Hp.
  split.
  - unfold set_raw. rewrite Hg. cbn [bind]. unfold ac_set, update_slice. cbn [ac_start ac_end ac_bit ac_aligned ac_order ac_raw].
    rewrite (proj1 (Hsl win Hl)). cbn [bind]. unfold byte_write_aligned. rewrite H1. cbn [bind]. f_equal. unfold splice.
    subst k. unfold len. rewrite Nat2N.id. rewrite firstn_app, Nat.sub_diag, firstn_all, firstn_O, app_nil_r. f_equal. f_equal.
    rewrite skipn_app, skipn_all2 by lia. cbn [app]. rewrite skipn_app, skipn_all2 by lia. cbn [app].
    replace (length pre + length w' - length pre - length win)%nat with 0%nat by lia. reflexivity.
  - split; [rewrite !app_length; lia|]. split; [unfold bytes_ok in *; rewrite !Forall_app; auto|].
    assert (Hkn : N.to_nat k = length pre) by (subst k; unfold len; lia). rewrite Hkn.
    split; [rewrite !firstn_app, Nat.sub_diag, !firstn_O; reflexivity|].
    split.
    { rewrite !skipn_app. rewrite !(skipn_all2 pre) by lia. cbn [app]. f_equal.
      - rewrite !skipn_all2 by lia. reflexivity.
      - f_equal. lia. }
    rewrite (proj2 (Hsl w' H2)). split; [exact H4|]. rewrite Hget by assumption. rewrite H4. reflexivity.
Qed.
End Big.
