(** Exactly which lengths survive their prefix (C37). *)

From Coq Require Import Arith NArith ZArith String List Bool Lia ZifyBool ZifyN ZifyNat.
From Verif Require Import Base Bits BitsFacts Schema Codec Compiler Access Runtime Gen SpecWire SpecUtf8 Utf8 MsgFacts
  StructFacts CompFacts ArrayThms ReadThms Utf8Thms ListThms.
Import ListNotations.
Local Open Scope N_scope.

Lemma varchar_written : forall e sz (data : bytes) s,
  varchar_write vec_sink (order_of e) sz data s = (s ++ num_bytes e sz (len data mod tmod sz) ++ data, Ok tt).
Proof. intros e sz data s. apply (prefix_written e sz data (len data) s). Qed.

(** What the reader of the prefix returns. *)
Lemma prefix_read : forall e ty n r,
  value_reader e ty (num_bytes e (get_byte_size ty) (n mod tmod (get_byte_size ty)) ++ r) =
  Ok (N.of_nat (get_byte_size ty), n mod tmod (get_byte_size ty)).
Proof.
  intros e ty n r. apply value_reader_app. apply number_iff. split; [|reflexivity].
  apply N.mod_lt. pose proof (tmod_pos (get_byte_size ty)). lia.
Qed.

Lemma slice_middle' : forall (a b c : bytes) x y, len a = x -> len b = y ->
  slice (E:=rerror) (a ++ b ++ c) x (x + y) = Ok b.
Proof. intros a b c x y <- <-. apply slice_middle. Qed.

Lemma mod_same : forall n k, 0 < k -> (n mod k = n <-> n < k).
Proof.
  intros n k Hk. split; intro H; [|apply N.mod_small; exact H].
  rewrite <- H. apply N.mod_lt. lia.
Qed.

Theorem string_length_exact : forall m e ty s r b, is_utf8 s ->
  varchar_write vec_sink (order_of e) (get_byte_size ty) s [] = (b, Ok tt) -> len (b ++ r) < 2 ^ 64 ->
  (varchar_from_slice m (value_reader e ty) (b ++ r) = Ok (len b, s) <-> len s < 2 ^ (8 * N.of_nat (get_byte_size ty))).
Proof.
  intros m e ty s r b Hu Hw Hl. rewrite varchar_written in Hw. cbn [app] in Hw. injection Hw as <-.
  change (2 ^ (8 * N.of_nat (get_byte_size ty))) with (tmod (get_byte_size ty)).
  rewrite <- (mod_same _ _ (tmod_pos _)). set (sz := get_byte_size ty) in *. set (n := len s mod tmod sz) in *.
  assert (Hp : len (num_bytes e sz n) = N.of_nat sz) by (unfold len; rewrite num_bytes_length; reflexivity).
  assert (Hle : n <= len s) by (apply N.mod_le; pose proof (tmod_pos sz); lia).
  rewrite !len_app, Hp in Hl.
  unfold varchar_from_slice. rewrite <- app_assoc. unfold n at 1, sz at 1 2. rewrite prefix_read. fold sz. fold n. cbn [bind].
  rewrite uadd_ok by (unfold usize_mod; lia). cbn [bind].
  assert (Hs : slice (E:=rerror) (num_bytes e sz n ++ s ++ r) (N.of_nat sz) (N.of_nat sz + n) = Ok (firstn (N.to_nat n) s)).
  { rewrite <- (firstn_skipn (N.to_nat n) s) at 1. rewrite <- app_assoc.
    assert (Hn : len (firstn (N.to_nat n) s) = n) by (unfold len in *; rewrite firstn_length; lia).
    apply slice_middle'; assumption. }
  rewrite Hs. cbn [bind]. split.
  - intro H. unfold str_from_utf8 in H. destruct (from_utf8 (firstn (N.to_nat n) s)); [|discriminate]. cbn [bind] in H.
    rewrite uadd_ok in H by (unfold usize_mod, len in *; rewrite firstn_length; lia). cbn [bind] in H. injection H as _ H.
    apply (f_equal (@length N)) in H. rewrite firstn_length in H. unfold len in *. lia.
  - intro H. rewrite H. unfold len at 1. rewrite Nat2N.id, firstn_all. unfold str_from_utf8.
    apply utf8_iff in Hu. rewrite Hu. cbn [bind]. rewrite uadd_ok by (unfold usize_mod; lia). cbn [bind].
    f_equal. f_equal. rewrite len_app. unfold len. rewrite num_bytes_length. reflexivity.
Qed.

Theorem array_length_exact : forall m e ty size data n r b, len data = n * size ->
  listing_write vec_sink (order_of e) (get_byte_size ty) data n [] = (b, Ok tt) -> len (b ++ r) < 2 ^ 64 ->
  (array_from_slice m (value_reader e ty) size (b ++ r) = Ok (len b, (data, n)) <->
   n < 2 ^ (8 * N.of_nat (get_byte_size ty))).
Proof.
  intros m e ty size data n r b Hd Hw Hl. rewrite prefix_written in Hw. cbn [app] in Hw. injection Hw as <-.
  change (2 ^ (8 * N.of_nat (get_byte_size ty))) with (tmod (get_byte_size ty)).
  rewrite <- (mod_same _ _ (tmod_pos _)). set (sz := get_byte_size ty) in *. set (k := n mod tmod sz) in *.
  assert (Hp : len (num_bytes e sz k) = N.of_nat sz) by (unfold len; rewrite num_bytes_length; reflexivity).
  assert (Hle : k <= n) by (apply N.mod_le; pose proof (tmod_pos sz); lia).
  rewrite !len_app, Hp in Hl.
  unfold array_from_slice. rewrite <- app_assoc. unfold k at 1, sz at 1 2. rewrite prefix_read. fold sz. fold k. cbn [bind].
  assert (Hks : k * size <= n * size) by (apply N.mul_le_mono_r; exact Hle).
  rewrite umul_ok by (unfold usize_mod; lia). cbn [bind].
  rewrite uadd_ok by (unfold usize_mod; lia). cbn [bind].
  rewrite !len_app, Hp. destruct (N.ltb_spec (N.of_nat sz + (len data + len r)) (N.of_nat sz + k * size)) as [D|D]; [lia|]. clear D.
  assert (Hs : slice (E:=rerror) (num_bytes e sz k ++ data ++ r) (N.of_nat sz) (N.of_nat sz + k * size)
     = Ok (firstn (N.to_nat (k * size)) data)).
  { rewrite <- (firstn_skipn (N.to_nat (k * size)) data) at 1. rewrite <- app_assoc.
    assert (Hn : len (firstn (N.to_nat (k * size)) data) = k * size) by (unfold len in *; rewrite firstn_length; lia).
    apply slice_middle'; assumption. }
  rewrite Hs. cbn [bind]. split.
  - intro H. injection H as _ _ H. exact H.
  - intro H. rewrite H. rewrite <- Hd. unfold len at 2. rewrite Nat2N.id, firstn_all. reflexivity.
Qed.

(** Lists: the count that comes back is the count modulo the range of the prefix. *)
Theorem list_count : forall (A : Type) m e ty (item : reader A) data n r b,
  listing_write vec_sink (order_of e) (get_byte_size ty) data n [] = (b, Ok tt) ->
  (forall k d c, list_from_slice m (value_reader e ty) item (b ++ r) = Ok (k, (d, c)) ->
     c = n mod 2 ^ (8 * N.of_nat (get_byte_size ty))) /\
  (forall k d c, unsized_from_slice (value_reader e ty) (b ++ r) = Ok (k, (d, c)) ->
     c = n mod 2 ^ (8 * N.of_nat (get_byte_size ty))).
Proof.
  intros A m e ty item data n r b Hw. rewrite prefix_written in Hw. cbn [app] in Hw. injection Hw as <-.
  change (2 ^ (8 * N.of_nat (get_byte_size ty))) with (tmod (get_byte_size ty)). rewrite <- app_assoc. split; intros k d c H.
  - unfold list_from_slice in H. rewrite prefix_read in H. cbn [bind] in H.
    do 5 (apply bind_ok in H; destruct H as (? & _ & H)). injection H as _ _ H. symmetry. exact H.
  - unfold unsized_from_slice in H. rewrite prefix_read in H. cbn [bind] in H.
    apply bind_ok in H; destruct H as (? & _ & H). injection H as _ _ H. symmetry. exact H.
Qed.
