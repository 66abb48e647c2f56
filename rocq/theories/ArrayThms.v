(** Proofs about array fields (C10, C11). *)

From Coq Require Import Arith NArith ZArith String List Bool Lia ZifyBool ZifyN ZifyNat.
From Verif Require Import Base Schema Bits BitsFacts Codec CodecFacts Compiler Access SpecStruct
  StructFacts StructThms ViewThms.
Import ListNotations.
Local Open Scope N_scope.
Ltac Zify.zify_post_hook ::= idtac.

Lemma uadd_bound : forall {E} m a b r, uadd (E:=E) m a b = Ok r -> r < usize_mod.
Proof.
  intros E m a b r H. unfold uadd in H. destruct (N.ltb_spec (a + b) usize_mod).
  - inversion H; subst. assumption.
  - destruct m; [discriminate|]. inversion H; subst. apply N.mod_lt. discriminate.
Qed.

Lemma field_bound : forall m endi enums structs off d f off',
  field_from_model m endi enums structs off d = Ok (f, off') -> off' < usize_mod.
Proof.
  intros m endi enums structs off d f off' H. unfold field_from_model in H.
  destruct (sf_info d) as [b|b|b|b|n].
  1-4: cbn [get_bit_size ok_or bind] in H; inv_bind H; inv_bind H; inv_bind H;
    destruct (1 <? _); [destruct (negb _); [discriminate|]|];
    inv_bind H; inversion H; subst; eapply uadd_bound; eassumption.
  inv_bind H. inv_bind H. inversion H; subst. eapply uadd_bound; eassumption.
Qed.

Lemma fields_bound : forall m endi enums structs l off fs off',
  off < usize_mod ->
  fields_from_model m endi enums structs off l = Ok (fs, off') -> off' < usize_mod.
Proof.
  intros m endi enums structs. induction l as [|d l IH]; intros off fs off' Ho H; cbn in H.
  - inversion H; subst. assumption.
  - apply bind_ok in H. destruct H as ((f & off1) & H0 & H).
    apply bind_ok in H. destruct H as ((fs1 & off2) & H1 & H). inversion H; subst.
    eapply IH; [|eassumption]. eapply field_bound; eassumption.
Qed.

Lemma structure_bound : forall m endi enums structs id d s,
  structure_from_model m endi enums structs id d = Ok s -> s_bit_size s < usize_mod.
Proof.
  intros m endi enums structs id d s H. unfold structure_from_model in H.
  apply bind_ok in H. destruct H as ((fs & off) & H0 & H). inversion H; subst. cbn.
  eapply fields_bound; [|eassumption]. reflexivity.
Qed.

Lemma array_shape : forall m endi enums structs o1 df f o2,
  field_from_model m endi enums structs o1 df = Ok (FArray f, o2) ->
  exists b k, get_bit_size (sf_info df) = Some b /\ sf_array_len df = Some k /\ 1 < k /\
    fa_array_len f = k /\ fixed_from_model (sf_info df) = Ok (fa_ty f) /\
    (no_wrap m (b * k) -> (b * k) mod 8 = 0).
Proof.
  intros m endi enums structs o1 df f o2 H. unfold field_from_model in H.
  destruct (sf_info df) as [b|b|b|b|n] eqn:Hi.
  1-4: exists b; cbn [get_bit_size ok_or bind] in H;
    inv_bind H; inv_bind H; inv_bind H;
    destruct (sf_array_len df) as [k|]; [|cbn in H; inv_bind H; discriminate];
    exists k; (split; [reflexivity|]); (split; [reflexivity|]);
    destruct (N.ltb_spec 1 k); [|inv_bind H; discriminate];
    (split; [assumption|]);
    match type of H with context [negb (?z mod 8 =? 0)] => destruct (N.eqb_spec (z mod 8) 0) end; [|discriminate];
    cbn [negb] in H; inv_bind H; inversion H; subst; cbn [fa_array_len fa_ty];
    (split; [reflexivity|]); (split; [assumption|]); intro Hnw;
    match goal with Hm : umul _ _ _ = Ok _ |- _ => rewrite <- (umul_no_wrap _ _ _ _ Hm Hnw) end; assumption.
  inv_bind H. inv_bind H. discriminate.
Qed.

(** Storage of an accepted numeric type: 1, 2, 4 or 8 bytes, wide enough. *)
Lemma fixed_size_ok : forall info ty b, fixed_from_model info = Ok ty -> get_bit_size info = Some b ->
  get_simple_type info <> Boolean ->
  (get_byte_size ty = 1 \/ get_byte_size ty = 2 \/ get_byte_size ty = 4 \/ get_byte_size ty = 8)%nat /\
  b <= 8 * N.of_nat (get_byte_size ty).
Proof.
  intros info ty b H Hb Hn. unfold fixed_from_model in H. rewrite Hb in H. cbn [ok_or bind] in H.
  destruct (simple_eqb (get_simple_type info) Boolean) eqn:He.
  { destruct (get_simple_type info); try discriminate. congruence. }
  destruct (simple_eqb (get_simple_type info) Float && (b =? 32)) eqn:H32.
  { inversion H; subst. cbn. apply andb_true_iff in H32. lia. }
  destruct (simple_eqb (get_simple_type info) Float && (b =? 64)) eqn:H64.
  { inversion H; subst. cbn. apply andb_true_iff in H64. lia. }
  destruct (N.ltb_spec 32 b), (N.leb_spec b 64), (N.ltb_spec 16 b), (N.leb_spec b 32),
    (N.ltb_spec 8 b), (N.leb_spec b 16), (N.ltb_spec 0 b), (N.leb_spec b 8); try lia;
    cbn [andb] in H; try discriminate;
    apply ok_or_ok in H; destruct (get_simple_type info); inversion H; subst; cbn; lia.
Qed.

Section Array.
Context {E : Type}.

Lemma byte_read_eq : forall sz w, byte_read (E:=E) LE sz w = byte_read_sel (sz =? length w)%nat LE sz w.
Proof. reflexivity. Qed.
Lemma byte_write_eq : forall sz w v,
  byte_write (E:=E) LE sz w v = byte_write_sel (sz =? length w)%nat LE sz w v.
Proof. reflexivity. Qed.

Lemma umul_ok : forall m a b, a * b < usize_mod -> umul (E:=E) m a b = Ok (a * b).
Proof. intros. unfold umul. destruct (N.ltb_spec (a * b) usize_mod); [reflexivity|lia]. Qed.
Lemma uadd_ok : forall m a b, a + b < usize_mod -> uadd (E:=E) m a b = Ok (a + b).
Proof. intros. unfold uadd. destruct (N.ltb_spec (a + b) usize_mod); [reflexivity|lia]. Qed.

(** The codec on a window of [k] items of [c] bytes. *)
Lemma array_get_window : forall mr sz c k w i,
  bytes_ok w -> len w = c * k -> c * k < usize_mod -> 0 < c <= N.of_nat sz -> (sz <= 8)%nat -> i < k ->
  exists v, array_get_raw (E:=E) mr LE sz (8 * c) w i = Ok v /\ is_field_value w (8 * c * i) (8 * c) v.
Proof.
  intros mr sz c k w i Hw Hl Hck Hc Hsz Hi. unfold array_get_raw.
  replace (8 * c / 8) with c by (rewrite N.mul_comm, N.div_mul by discriminate; reflexivity).
  assert (Hic : i * c + c <= c * k) by nia.
  rewrite umul_ok by lia. cbn [bind]. rewrite uadd_ok by lia. cbn [bind].
  destruct (slice_window (E:=E) w (i * c) (i * c + c)) as (x & Hx & Hxl & Hxo & Hxb); [lia|lia|assumption|].
  rewrite Hx. cbn [bind]. rewrite byte_read_eq.
  destruct (byte_read_LE (E:=E) (sz =? length x)%nat sz x) as (v & Hv & Hvb).
  { assumption. } { lia. } { intro Heq. apply Nat.eqb_eq in Heq. congruence. }
  exists v. split; [assumption|]. intro j. rewrite Hvb, Hxb.
  replace (i * c + c - i * c) with c by lia. replace (8 * (i * c)) with (8 * c * i) by lia. reflexivity.
Qed.

Lemma array_set_window : forall mr sz c k w i v,
  bytes_ok w -> len w = c * k -> c * k < usize_mod -> 0 < c <= N.of_nat sz -> (sz <= 8)%nat -> i < k ->
  exists w', array_set_raw (E:=E) mr LE sz (8 * c) w i v = Ok w' /\
    is_field_update w (8 * c * i) (8 * c) v w'.
Proof.
  intros mr sz c k w i v Hw Hl Hck Hc Hsz Hi. unfold array_set_raw.
  replace (8 * c / 8) with c by (rewrite N.mul_comm, N.div_mul by discriminate; reflexivity).
  assert (Hic : i * c + c <= c * k) by nia.
  rewrite umul_ok by lia. cbn [bind]. rewrite uadd_ok by lia. cbn [bind]. unfold update_slice.
  destruct (slice_window (E:=E) w (i * c) (i * c + c)) as (x & Hx & Hxl & Hxo & Hxb); [lia|lia|assumption|].
  rewrite Hx. cbn [bind]. rewrite byte_write_eq.
  destruct (byte_write_LE (E:=E) (sz =? length x)%nat sz x v) as (x' & Hv & Hlx' & Hox' & Hvb).
  { assumption. } { lia. } { intro Heq. apply Nat.eqb_eq in Heq. congruence. }
  rewrite Hv. cbn [bind]. eexists. split; [reflexivity|].
  assert (Hlen' : len x' = c) by (unfold len; lia).
  assert (Hlenx : len x = c) by (unfold len; lia).
  split; [apply splice_length; rewrite Hlen'; lia|]. split; [apply bytes_ok_splice; assumption|].
  intro t. rewrite bit_at_splice by (rewrite Hlen'; lia). rewrite Hlen', Hvb, Hlenx.
  destruct (N.leb_spec (8 * (i * c)) t), (N.ltb_spec t (8 * (i * c + c))),
    (N.leb_spec (8 * c * i) t), (N.ltb_spec t (8 * c * i + 8 * c)); try lia; cbn [andb]; try reflexivity.
  destruct (N.ltb_spec (t - 8 * (i * c)) (8 * c)); [|lia]. cbn [andb]. f_equal. lia.
Qed.

Lemma skipn_add : forall {A} a b (l : list A), skipn a (skipn b l) = skipn (b + a) l.
Proof.
  intros A a b. induction b as [|b IH]; intros l; [reflexivity|]. destruct l; cbn; [apply skipn_nil|apply IH].
Qed.

Lemma chunks_aux_spec : forall {A} n k fuel (b : list A), (0 < n)%nat -> length b = (n * k)%nat ->
  (length b <= fuel)%nat ->
  length (chunks_aux fuel n b) = k /\
  forall i, (i < k)%nat -> nth_error (chunks_aux fuel n b) i = Some (firstn n (skipn (i * n) b)).
Proof.
  intros A n. induction k as [|k IH]; intros fuel b Hn Hl Hf.
  - assert (length b = 0)%nat by lia. destruct b; [|discriminate]. destruct fuel; cbn; split; auto; intros; lia.
  - destruct b as [|x b]. { cbn in Hl. nia. }
    destruct fuel as [|fuel]; [cbn in Hf; lia|]. cbn [chunks_aux].
    set (l := x :: b) in *.
    destruct (IH fuel (skipn n l)) as (H1 & H2).
    { assumption. } { rewrite skipn_length. lia. } { rewrite skipn_length. lia. }
    split; [cbn; rewrite H1; reflexivity|]. intros [|i] Hi; [reflexivity|]. cbn [nth_error].
    rewrite H2 by lia. rewrite skipn_add. reflexivity.
Qed.

Lemma mapM_ok : forall {A B} (f : A -> outcome E B) l,
  (forall i x, nth_error l i = Some x -> exists y, f x = Ok y) ->
  exists ys, mapM f l = Ok ys /\ length ys = length l /\
    forall i x y, nth_error l i = Some x -> f x = Ok y -> nth_error ys i = Some y.
Proof.
  intros A B f. induction l as [|x l IH]; intros H.
  - exists []. repeat split; auto. intros [|i] x y Hi; discriminate.
  - destruct (H O x eq_refl) as (y & Hy). destruct IH as (ys & H1 & H2 & H3).
    { intros i z Hz. apply (H (S i) z Hz). }
    exists (y :: ys). cbn [mapM]. rewrite Hy. cbn [bind]. rewrite H1. cbn [bind].
    split; [reflexivity|]. split; [cbn; congruence|]. intros [|i] z t Hz Ht; cbn in *.
    + congruence.
    + eapply H3; eassumption.
Qed.

Lemma array_iter_window : forall sz c k w,
  bytes_ok w -> len w = c * k -> 0 < c <= N.of_nat sz -> (sz <= 8)%nat -> 1 < k ->
  exists l, array_iter_raw (E:=E) LE sz (8 * c) w = Ok l /\ len l = k /\
    forall i v, i < k -> is_field_value w (8 * c * i) (8 * c) v -> nth_error l (N.to_nat i) = Some v.
Proof.
  intros sz c k w Hw Hl Hc Hsz Hk. unfold array_iter_raw, chunks.
  replace (8 * c / 8) with c by (rewrite N.mul_comm, N.div_mul by discriminate; reflexivity).
  destruct (N.eqb_spec c 0); [lia|]. destruct (N.leb_spec (len w) c); [nia|]. cbn [bind].
  destruct (chunks_aux_spec (N.to_nat c) (N.to_nat k) (length w) w) as (H1 & H2).
  { lia. } { unfold len in Hl. lia. } { lia. }
  set (cs := chunks_aux (length w) (N.to_nat c) w) in *.
  assert (Hrd : forall i x, nth_error cs i = Some x ->
     exists v, byte_read (E:=E) LE sz x = Ok v /\ is_field_value w (8 * c * N.of_nat i) (8 * c) v).
  { intros i x Hx. assert (Hik : (i < N.to_nat k)%nat).
    { rewrite <- H1. apply nth_error_Some. congruence. }
    rewrite H2 in Hx by assumption. inversion Hx as [Hx']. clear Hx.
    assert (Hlx : length x = N.to_nat c).
    { rewrite <- Hx', firstn_length, skipn_length. unfold len in Hl. nia. }
    rewrite byte_read_eq.
    destruct (byte_read_LE (E:=E) (sz =? length x)%nat sz x) as (v & Hv & Hvb).
    { subst x. apply bytes_ok_firstn, bytes_ok_skipn, Hw. } { lia. }
    { intro Heq. apply Nat.eqb_eq in Heq. congruence. }
    rewrite Hx'. exists v. split; [assumption|]. intro j. rewrite Hvb. rewrite <- Hx'.
    rewrite bit_at_firstn, bit_at_skipn.
    replace (8 * N.of_nat (N.to_nat c)) with (8 * c) by lia.
    replace (8 * N.of_nat (i * N.to_nat c)) with (8 * c * N.of_nat i)
      by (rewrite Nat2N.inj_mul, N2Nat.id; ring). reflexivity. }
  destruct (mapM_ok (byte_read (E:=E) LE sz) cs) as (ys & Hy1 & Hy2 & Hy3).
  { intros i x Hx. destruct (Hrd i x Hx) as (v & Hv & _). exists v. assumption. }
  exists ys. split; [assumption|]. split; [exact (eq_trans (f_equal N.of_nat (eq_trans Hy2 H1)) (N2Nat.id k))|]. intros i v Hi Hv.
  assert (Hex : exists x, nth_error cs (N.to_nat i) = Some x).
  { destruct (nth_error cs (N.to_nat i)) eqn:He; [eauto|]. apply nth_error_None in He. unfold bytes in *. lia. }
  destruct Hex as (x & Hx). destruct (Hrd _ _ Hx) as (v' & Hv' & Hf).
  rewrite N2Nat.id in Hf. rewrite (is_field_value_unique _ _ _ _ _ Hv Hf).
  eapply Hy3; eassumption.
Qed.

(** ** C10 *)
Lemma array_field_correct : forall m mr enums structs id d s i df f b k o,
  structure_from_model m Little enums structs id d = Ok s ->
  no_overflow m structs d ->
  nth_error (ss_fields d) i = Some df ->
  get_bit_size (sf_info df) = Some b -> get_simple_type (sf_info df) <> Boolean ->
  sf_array_len df = Some k ->
  nth_error (s_fields s) i = Some (FArray f) -> declared_at structs d i o (b * k) ->
  b mod 8 = 0 -> o mod 8 = 0 ->
  1 < k /\ 8 <= b <= 64 /\
  forall buf, s_byte_size s <= len buf -> bytes_ok buf ->
    arr_len (E:=E) f buf = Ok k /\
    (forall n, n < k -> exists v, arr_get (E:=E) mr f buf n = Ok v /\
       is_field_value buf (o + b * n) b v) /\
    (forall n v, n < k -> exists buf', arr_set (E:=E) mr f buf n v = Ok buf' /\
       is_field_update buf (o + b * n) b v buf') /\
    (exists l, arr_iter (E:=E) f buf = Ok l /\ len l = k /\
       forall n v, n < k -> arr_get (E:=E) mr f buf n = Ok v -> nth_error l (N.to_nat n) = Some v).
Proof.
  intros m mr enums structs id d s i df f b k o H Hno Hd Hb Hnb Hk Hf Hat Hb8 Ho8.
  destruct (structure_nth _ _ _ _ _ _ _ _ _ H Hf) as (df' & o1 & o2 & Hd' & Hfm).
  assert (df' = df) by congruence. subst df'.
  apply array_shape in Hfm. destruct Hfm as (b' & k' & Hb' & Hk' & Hk1' & Hfk' & Hty & _).
  assert (Hk1 : 1 < k) by (replace k with k' by congruence; assumption).
  assert (Hfk : fa_array_len f = k) by congruence. clear b' Hb' k' Hk' Hk1' Hfk'.
  pose proof (fixed_ok_bits _ _ _ Hty Hb Hnb) as Hb64.
  destruct (fixed_size_ok _ _ _ Hty Hb Hnb) as (Hsz & Hbsz).
  assert (Hbc : exists c, b = 8 * c /\ o = 8 * (o / 8)).
  { exists (b / 8). clear - Hb8 Ho8.
    Ltac Zify.zify_post_hook ::= Z.to_euclidean_division_equations. lia. }
  Ltac Zify.zify_post_hook ::= idtac.
  destruct Hbc as (c & -> & Ho). set (q := o / 8) in *.
  split; [assumption|]. split; [lia|]. intros buf Hlen Hbuf.
  destruct (fixed_in_structure _ _ _ _ _ _ _ _ _ _ H Hno Hf Hat) as (Hloc & Hle & Hwin).
  cbn [field_loc] in Hloc. pose proof (structure_bound _ _ _ _ _ _ _ H) as Hbd.
  pose proof (array_little _ _ _ _ _ _ _ _ H Hf) as Hend.
  assert (Hceil : ceil8 (8 * c * k) = c * k).
  { unfold ceil8. clear. replace (8 * c * k + 7) with (7 + (c * k) * 8) by lia.
    rewrite N.div_add by discriminate. reflexivity. }
  rewrite Hceil in Hwin. change (o / 8) with q in Hwin.
  assert (Hck : c * k < usize_mod) by nia.
  assert (Hnk : forall n, n < k -> c * n + c <= c * k) by (clear; intros n Hn; nia).
  assert (Hibs : item_bit_size (E:=E) f = Ok (8 * c)).
  { unfold item_bit_size, udiv. rewrite Hfk, Hloc. cbn [l_bit_size location_from_model].
    destruct (N.eqb_spec k 0); [lia|]. rewrite N.div_mul by assumption. reflexivity. }
  destruct (slice_window (E:=E) buf q (q + c * k)) as (w & Hw & Hwl & Hwo & Hwb); [lia|lia|assumption|].
  assert (Hwlen : len w = c * k) by (unfold len; lia).
  assert (Hwindow : arr_window (E:=E) f buf = Ok w).
  { unfold arr_window. rewrite Hloc, loc_byte_size, loc_byte_offset, Hceil. exact Hw. }
  assert (Hc : 0 < c <= N.of_nat (get_byte_size (fa_ty f))) by lia.
  assert (Hsz8 : (get_byte_size (fa_ty f) <= 8)%nat) by lia.
  assert (Hsub : forall n v, n < k -> is_field_value w (8 * c * n) (8 * c) v ->
            is_field_value buf (o + 8 * c * n) (8 * c) v).
  { intros n v Hn Hv j. rewrite Hv, Hwb. destruct (N.ltb_spec j (8 * c)); [|reflexivity]. cbn [andb].
    pose proof (Hnk n Hn). destruct (N.ltb_spec (8 * c * n + j) (8 * (q + c * k - q))); [|lia]. cbn [andb]. f_equal. lia. }
  assert (Hget : forall n, n < k -> exists v, arr_get (E:=E) mr f buf n = Ok v /\
            is_field_value w (8 * c * n) (8 * c) v).
  { intros n Hn. destruct (array_get_window mr (get_byte_size (fa_ty f)) c k w n) as (v & Hv & Hvf);
      try assumption.
    exists v. unfold arr_get. rewrite Hibs. cbn [bind]. rewrite Hwindow. cbn [bind].
    rewrite Hend. cbn [order_of]. split; assumption. }
  split; [|split; [|split]].
  - unfold arr_len. rewrite Hibs. cbn [bind]. rewrite Hwindow. cbn [bind]. unfold array_len, udiv.
    replace (8 * c / 8) with c by (rewrite N.mul_comm, N.div_mul by discriminate; reflexivity).
    destruct (N.eqb_spec c 0); [lia|]. rewrite Hwlen, N.mul_comm, N.div_mul by assumption. reflexivity.
  - intros n Hn. destruct (Hget n Hn) as (v & Hv & Hvf). exists v. split; [assumption|].
    apply Hsub; assumption.
  - intros n v Hn. unfold arr_set. rewrite Hibs. cbn [bind]. unfold update_slice.
    rewrite Hloc, loc_byte_size, loc_byte_offset, Hceil. change (o / 8) with q. rewrite Hw. cbn [bind].
    rewrite Hend. cbn [order_of].
    destruct (array_set_window mr (get_byte_size (fa_ty f)) c k w n v) as (w' & Hs & U1 & U2 & U3);
      try assumption.
    rewrite Hs. cbn [bind]. eexists. split; [reflexivity|].
    assert (Hlw' : len w' = c * k) by (unfold len in *; lia).
    pose proof (Hnk n Hn) as Hnk1.
    split; [apply splice_length; rewrite Hlw'; lia|]. split; [apply bytes_ok_splice; assumption|].
    intro t. rewrite bit_at_splice by (rewrite Hlw'; lia). rewrite Hlw', U3.
    destruct (N.leb_spec (8 * q) t), (N.ltb_spec t (8 * (q + c * k))); cbn [andb].
    + destruct (N.leb_spec (8 * c * n) (t - 8 * q)), (N.ltb_spec (t - 8 * q) (8 * c * n + 8 * c)),
        (N.leb_spec (o + 8 * c * n) t), (N.ltb_spec t (o + 8 * c * n + 8 * c)); try lia; cbn [andb].
      * f_equal. lia.
      * rewrite Hwb. destruct (N.ltb_spec (t - 8 * q) (8 * (q + c * k - q))); [|lia]. cbn [andb]. f_equal. lia.
      * rewrite Hwb. destruct (N.ltb_spec (t - 8 * q) (8 * (q + c * k - q))); [|lia]. cbn [andb]. f_equal. lia.
    + destruct (N.leb_spec (o + 8 * c * n) t), (N.ltb_spec t (o + 8 * c * n + 8 * c)); try reflexivity. lia.
    + destruct (N.leb_spec (o + 8 * c * n) t), (N.ltb_spec t (o + 8 * c * n + 8 * c)); try reflexivity. lia.
    + destruct (N.leb_spec (o + 8 * c * n) t), (N.ltb_spec t (o + 8 * c * n + 8 * c)); try reflexivity. lia.
  - destruct (array_iter_window (get_byte_size (fa_ty f)) c k w) as (l & Hl1 & Hl2 & Hl3); try assumption.
    exists l. unfold arr_iter. rewrite Hibs. cbn [bind]. rewrite Hwindow. cbn [bind]. rewrite Hend.
    cbn [order_of]. split; [assumption|]. split; [assumption|].
    intros n v Hn Hv. destruct (Hget n Hn) as (v' & Hv' & Hvf). apply Hl3; [assumption|]. congruence.
Qed.

End Array.
