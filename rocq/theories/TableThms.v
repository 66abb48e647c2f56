(** The type generated for a list of structures is a table of rows (C98). *)

From Coq Require Import Arith NArith ZArith String List Bool Lia ZifyBool ZifyN ZifyNat.
From Verif Require Import Base Bits BitsFacts Schema Codec Compiler Access Runtime Gen SpecWire SpecOffsets MsgFacts
  StructFacts CompFacts ArrayThms ReadThms ListThms LengthExact ArrayWrapper SpecTable.
From Verif Require AcceptThms ErrorThms.
Import ListNotations.
Local Open Scope N_scope.

Notation sized size rows := (Forall (fun row : bytes => len row = size) rows).

Lemma sized_len : forall size (rows : list bytes), sized size rows -> len (concat rows) = len rows * size.
Proof.
  intros size rows H. induction H as [|row rows Hr H IH]; [reflexivity|]. cbn [concat]. rewrite len_app, IH, Hr.
  unfold len. cbn [length]. rewrite Nat2N.inj_succ, N.mul_succ_l. lia.
Qed.

Lemma row_parts : forall size (rows : list bytes) i row, sized size rows -> nth_error rows i = Some row ->
  exists a b, concat rows = (a ++ row ++ b)%list /\ len a = N.of_nat i * size /\ len row = size /\
    forall f, concat (replace i f rows) = (a ++ f row ++ b)%list.
Proof.
  intros size rows i row H. revert i row. induction H as [|r rows Hr H IH]; intros i row Hi; [destruct i; discriminate|].
  destruct i as [|i].
  - injection Hi as <-. exists [], (concat rows). repeat split; auto.
  - destruct (IH i row Hi) as (a & b & E & La & Lr & F). exists (r ++ a)%list, b. cbn [concat replace]. rewrite E.
    split; [rewrite <- app_assoc; reflexivity|]. split; [rewrite len_app, La, Hr, Nat2N.inj_succ, N.mul_succ_l; lia|].
    split; [exact Lr|]. intro f. rewrite F, <- app_assoc. reflexivity.
Qed.

Lemma replace_sized : forall size f (rows : list bytes) i, (forall w, len w = size -> len (f w) = size) ->
  sized size rows -> sized size (replace i f rows).
Proof.
  intros size f rows i Hf H. revert i. induction H as [|r rows Hr H IH]; intros [|i]; cbn [replace]; constructor; auto.
Qed.
Lemma replace_len : forall f (rows : list bytes) i, len (replace i f rows) = len rows.
Proof.
  intros f rows i. unfold len. f_equal. revert i. induction rows as [|r rows IH]; intros [|i]; cbn [replace length]; auto.
Qed.

Lemma chunks_aux_rows : forall n (rows : list bytes) fuel, (0 < n)%nat -> Forall (fun row => length row = n) rows ->
  (length (concat rows) <= fuel)%nat -> chunks_aux fuel n (concat rows) = rows.
Proof.
  intros n rows fuel Hn H. revert fuel. induction H as [|r rows Hr H IH]; intros fuel Hf.
  - destruct fuel; reflexivity.
  - cbn [concat] in *. rewrite app_length in Hf. destruct fuel as [|fuel]; [lia|].
    destruct (r ++ concat rows)%list as [|x l] eqn:E.
    { apply app_eq_nil in E. destruct E as [-> _]. cbn in Hr. lia. }
    cbn [chunks_aux]. rewrite <- E.
    replace (firstn n (r ++ concat rows)) with r
      by (rewrite <- Hr, firstn_app, firstn_all, Nat.sub_diag, firstn_O, app_nil_r; reflexivity).
    replace (skipn n (r ++ concat rows)) with (concat rows)
      by (rewrite <- Hr, skipn_app, skipn_all, Nat.sub_diag; reflexivity).
    rewrite IH by lia. reflexivity.
Qed.
Lemma chunks_rows : forall E size (rows : list bytes), 0 < size -> sized size rows ->
  chunks (E:=E) size (concat rows) = Ok rows.
Proof.
  intros E size rows Hs H. unfold chunks. replace (size =? 0) with false by lia.
  assert (Hn : Forall (fun row => length row = N.to_nat size) rows).
  { eapply Forall_impl; [|exact H]. intros r Hr. cbn in Hr. unfold len in Hr. lia. }
  destruct (len (concat rows) <=? size) eqn:C.
  - pose proof (sized_len _ _ H) as L. destruct rows as [|r [|r2 rows]].
    + reflexivity.
    + cbn [concat] in *. rewrite app_nil_r. destruct r; [|reflexivity]. inversion Hn; subst. cbn in *. lia.
    + exfalso. unfold len at 2 in L. cbn [length] in L. rewrite !Nat2N.inj_succ, !N.mul_succ_l in L. lia.
  - f_equal. apply chunks_aux_rows; [lia|exact Hn|lia].
Qed.

Lemma beyond : forall A (b : list A) lo hi, len b < hi -> slice (E:=rerror) b lo hi = Panic.
Proof. intros A b lo hi H. unfold slice. destruct (N.leb_spec hi (len b)); [lia|]. rewrite andb_false_r. reflexivity. Qed.

(** ** Adding rows *)
Section Size.
Variables (m : mode) (size : N).
Hypothesis Hsize : 0 < size.

Lemma struct_written : forall item s, struct_write vec_sink size item s =
  if long_enough size item then ((s ++ row_of size item)%list, Ok tt) else (s, Panic).
Proof.
  intros item s. unfold struct_write, wlet, long_enough, row_of. destruct (N.leb_spec size (len item)) as [H|H].
  - rewrite slice_ok by lia. rewrite N.sub_0_r. reflexivity.
  - rewrite beyond by exact H. reflexivity.
Qed.
Lemma row_len : forall item, long_enough size item = true -> len (row_of size item) = size.
Proof.
  intros item H. unfold long_enough, row_of, len in *. rewrite firstn_length. lia.
Qed.

Lemma rows_written : forall items (l : listing bytes) (rows : list bytes), li_data l = concat rows -> li_len l = len rows -> sized size rows ->
  (len rows + len items) * size < 2 ^ 64 ->
  if forallb (long_enough size) items
  then exists l', write_items m (map (struct_write vec_sink size) items) l = (l', Ok tt) /\
    li_data l' = concat (rows ++ map (row_of size) items) /\ li_len l' = len (rows ++ map (row_of size) items) /\
    sized size (rows ++ map (row_of size) items)
  else exists l', write_items m (map (struct_write vec_sink size) items) l = (l', Panic).
Proof.
  induction items as [|item items IH]; intros l rows Hd Hl Hr Hb; cbn [forallb map write_items].
  - exists l. rewrite app_nil_r. auto.
  - unfold write_item. rewrite struct_written. destruct (long_enough size item) eqn:C; cbn [andb]; [|eexists; reflexivity].
    assert (B : len rows + 1 < 2 ^ 64).
    { change (len (item :: items)) with (N.of_nat (length (item :: items))) in Hb. cbn [length] in Hb. nia. }
    cbv beta iota. rewrite Hl, uadd_fit by exact B. cbv beta iota.
    specialize (IH {| li_data := (li_data l ++ row_of size item)%list; li_len := len rows + 1 |} (rows ++ [row_of size item])%list).
    cbn [li_data li_len] in IH. rewrite <- !app_assoc in IH. cbn [app] in IH.
    apply IH.
    + rewrite Hd, concat_app. cbn [concat]. rewrite app_nil_r. reflexivity.
    + rewrite len_app. reflexivity.
    + apply Forall_app. split; [exact Hr|]. constructor; [apply row_len; exact C|constructor].
    + rewrite len_app. change (len [row_of size item]) with 1.
      replace (len rows + 1 + len items) with (len rows + len (item :: items)); [exact Hb|].
      unfold len. cbn [length]. lia.
Qed.

(** ** One call *)
Lemma get_row : forall i (rows : list bytes), sized size rows -> len rows * size < 2 ^ 64 -> m = Debug \/ (i + 1) * size < 2 ^ 64 ->
  arr_item (E:=rerror) m size (concat rows) i = match nth_error rows (N.to_nat i) with Some row => Ok row | None => Panic end.
Proof.
  intros i rows Hr Hb Hi. unfold arr_item. rewrite N.mul_add_distr_r, N.mul_1_l in Hi.
  destruct (nth_error rows (N.to_nat i)) as [row|] eqn:En.
  - destruct (row_parts _ _ _ _ Hr En) as (a & b & E & La & Lr & _). rewrite N2Nat.id in La.
    pose proof (sized_len _ _ Hr) as L. rewrite E, !len_app in L.
    rewrite umul_fit by lia. cbn [bind]. rewrite uadd_fit by lia. cbn [bind]. rewrite E.
    apply slice_middle'; [exact La|exact Lr].
  - apply nth_error_None in En. assert (Hn : len rows <= i) by (unfold len; lia).
    pose proof (sized_len _ _ Hr) as L. assert (len rows * size <= i * size) by (apply N.mul_le_mono_r; exact Hn).
    destruct (N.ltb_spec (i * size + size) (2 ^ 64)) as [B|B].
    + rewrite umul_fit by lia. cbn [bind]. rewrite uadd_fit by lia. cbn [bind]. apply beyond. rewrite L. lia.
    + destruct Hi as [->|Hi]; [|lia]. destruct (umul Debug i size) as [s|e|] eqn:U; [|destruct (ErrorThms.umul_ne _ _ _ _ _ U)|reflexivity].
      cbn [bind]. apply AcceptThms.umul_dbg in U. destruct U as [U ->].
      destruct (uadd Debug (i * size) size) as [s|e|] eqn:V; [|destruct (ErrorThms.uadd_ne _ _ _ _ _ V)|reflexivity].
      apply AcceptThms.uadd_dbg in V. lia.
Qed.

Lemma splice_parts : forall (a b c d : bytes), length b = length d -> splice (a ++ b ++ c) (len a) d = (a ++ d ++ c)%list.
Proof.
  intros a b c d H. unfold splice, len. rewrite Nat2N.id, firstn_app, firstn_all, Nat.sub_diag, firstn_O, app_nil_r.
  f_equal. f_equal. rewrite <- H, app_assoc, skipn_app, skipn_all2 by (rewrite app_length; lia).
  rewrite app_length, Nat.sub_diag. reflexivity.
Qed.

Lemma put_row : forall i f (rows : list bytes), sized size rows -> len rows * size < 2 ^ 64 -> m = Debug \/ (i + 1) * size < 2 ^ 64 ->
  (forall w, len w = size -> len (f w) = size) ->
  arr_item_mut (E:=rerror) m size (concat rows) i (fun w => Ok (f w)) =
  if i <? len rows then Ok (concat (replace (N.to_nat i) f rows)) else Panic.
Proof.
  intros i f rows Hr Hb Hi Hf. pose proof (get_row i rows Hr Hb Hi) as G. unfold arr_item in G. unfold arr_item_mut.
  destruct (umul m i size) as [s|e|] eqn:U; [|destruct (ErrorThms.umul_ne _ _ _ _ _ U)|]; cbn [bind] in *.
  2:{ destruct (nth_error rows (N.to_nat i)) eqn:En; [discriminate|]. apply nth_error_None in En.
      replace (i <? len rows) with false by (unfold len; lia). reflexivity. }
  destruct (uadd m s size) as [e|e|] eqn:V; [|destruct (ErrorThms.uadd_ne _ _ _ _ _ V)|]; cbn [bind] in *.
  2:{ destruct (nth_error rows (N.to_nat i)) eqn:En; [discriminate|]. apply nth_error_None in En.
      replace (i <? len rows) with false by (unfold len; lia). reflexivity. }
  unfold update_slice. rewrite G. destruct (nth_error rows (N.to_nat i)) as [row|] eqn:En; cbn [bind].
  - assert (Hn : (N.to_nat i < length rows)%nat) by (apply nth_error_Some; congruence).
    replace (i <? len rows) with true by (unfold len; lia). f_equal.
    destruct (row_parts _ _ _ _ Hr En) as (a & b & E & La & Lr & F). rewrite N2Nat.id in La. rewrite F, E.
    assert (Hs : s = i * size).
    { destruct Hi as [->|Hi]; [apply AcceptThms.umul_dbg in U; tauto|].
      rewrite umul_fit in U by lia. congruence. }
    rewrite Hs, <- La. apply splice_parts. specialize (Hf _ Lr). unfold len in Hf, Lr. lia.
  - apply nth_error_None in En. replace (i <? len rows) with false by (unfold len; lia). reflexivity.
Qed.

Lemma put_rows : forall f (rows : list bytes), sized size rows ->
  arr_items_mut (E:=rerror) size (concat rows) (fun i w => Ok (f i w)) =
  Ok (concat (map (fun p => f (fst p) (snd p)) (combine (seq 0 (length rows)) rows))).
Proof.
  intros f rows Hr. unfold arr_items_mut. rewrite chunks_rows by assumption. cbn [bind].
  assert (H : forall l : list (nat * bytes), mapM (E:=rerror) (fun p => Ok (f (fst p) (snd p))) l = Ok (map (fun p => f (fst p) (snd p)) l)).
  { induction l as [|p l IH]; [reflexivity|]. cbn [mapM map bind]. rewrite IH. reflexivity. }
  rewrite H. reflexivity.
Qed.

Lemma rows_after : forall f k (rows : list bytes), (forall i w, len w = size -> len (f i w) = size) -> sized size rows ->
  sized size (map (fun p => f (fst p) (snd p)) (combine (seq k (length rows)) rows)).
Proof.
  intros f k rows Hf H. revert k. induction H as [|r rows Hr H IH]; intro k; cbn [length seq combine map]; constructor; auto.
Qed.
Lemma count_after : forall (f : nat -> bytes -> bytes) k (rows : list bytes),
  len (map (fun p => f (fst p) (snd p)) (combine (seq k (length rows)) rows)) = len rows.
Proof. intros f k rows. unfold len. rewrite map_length, combine_length, seq_length, Nat.min_id. reflexivity. Qed.

Lemma one_call : forall c a rows, holds_rows size a rows -> sane m size c -> len rows * size + adds size c < 2 ^ 64 ->
  match on_table size c rows with
  | None => called m size c a = None
  | Some (x, rows') => exists a', called m size c a = Some (x, a') /\ holds_rows size a' rows' /\
      len rows' * size = len rows * size + adds size c
  end.
Proof.
  intros c [l] rows (Hd & Hl & Hr) Hs Hb. unfold aw_len in Hl. cbn [aw_0] in *.
  destruct c as [item|items| |i|i f| |f]; cbn [on_table called sane adds] in *.
  - pose proof (rows_written [item] l rows Hd Hl Hr) as W. cbn [forallb map write_items andb] in W.
    rewrite andb_true_r in W. unfold aw_write_item. cbn [aw_0].
    assert (B : (len rows + len [item]) * size < 2 ^ 64) by (change (len [item]) with 1; lia). specialize (W B).
    destruct (write_item m (struct_write vec_sink size item) l) as [l1 r1]. destruct (long_enough size item).
    + destruct W as (l' & E & D & N & S). destruct r1 as [[]|e|]; inversion E; subst. cbn [wrote].
      eexists. split; [reflexivity|]. split; [split; [exact D|]; split; [exact N|exact S]|].
      rewrite len_app. change (len [row_of size item]) with 1. lia.
    + destruct W as (l' & E). destruct r1 as [[]|e|]; inversion E. reflexivity.
  - pose proof (rows_written items l rows Hd Hl Hr) as W. unfold aw_write_items. cbn [aw_0].
    rewrite N.mul_add_distr_r in W. specialize (W Hb). destruct (forallb (long_enough size) items).
    + destruct W as (l' & E & D & N & S). rewrite E. cbn [wrote]. eexists. split; [reflexivity|].
      split; [split; [exact D|]; split; [exact N|exact S]|].
      rewrite len_app. unfold len. rewrite map_length. lia.
    + destruct W as (l' & E). rewrite E. reflexivity.
  - eexists. unfold aw_len. cbn [aw_0]. rewrite Hl. split; [reflexivity|]. split; [split; [exact Hd|]; split; [exact Hl|exact Hr]|lia].
  - unfold aw_get. cbn [aw_0]. rewrite Hd, get_row by (assumption || lia).
    destruct (nth_error rows (N.to_nat i)) as [row|]; [|reflexivity].
    eexists. split; [reflexivity|]. split; [split; [exact Hd|]; split; [exact Hl|exact Hr]|lia].
  - destruct Hs as [Hi Hf]. unfold aw_get_mut. cbn [aw_0]. rewrite Hd, put_row by (assumption || lia).
    destruct (i <? len rows); [|reflexivity]. cbn [bind updated]. eexists. split; [reflexivity|].
    split; [|rewrite replace_len; lia]. split; [reflexivity|]. unfold aw_len, aw_from_raw_parts. cbn [aw_0 li_from_raw_parts li_len].
    rewrite replace_len. split; [exact Hl|]. apply replace_sized; assumption.
  - unfold aw_iter, arr_items. cbn [aw_0]. rewrite Hd, chunks_rows by assumption.
    eexists. split; [reflexivity|]. split; [split; [exact Hd|]; split; [exact Hl|exact Hr]|lia].
  - unfold aw_iter_mut. cbn [aw_0]. rewrite Hd, put_rows by assumption. cbn [bind updated]. eexists. split; [reflexivity|].
    split; [|rewrite count_after; lia]. split; [reflexivity|]. unfold aw_len, aw_from_raw_parts. cbn [aw_0 li_from_raw_parts li_len].
    rewrite count_after. split; [exact Hl|]. apply rows_after; assumption.
Qed.

Theorem table_history : forall cs a rows, holds_rows size a rows -> Forall (sane m size) cs ->
  len rows * size + total size cs < 2 ^ 64 ->
  fst (history (called m size) cs a) = fst (history (on_table size) cs rows) /\
  match snd (history (called m size) cs a), snd (history (on_table size) cs rows) with
  | Some a', Some rows' => holds_rows size a' rows'
  | None, None => True
  | _, _ => False
  end.
Proof.
  induction cs as [|c cs IH]; intros a rows Ha Hs Hb; cbn [history total] in *.
  - split; [reflexivity|exact Ha].
  - inversion Hs as [|? ? Hc Hcs]; subst. assert (Hb1 : len rows * size + adds size c < 2 ^ 64) by lia.
    pose proof (one_call c a rows Ha Hc Hb1) as O. destruct (on_table size c rows) as [[x rows']|].
    + destruct O as (a' & -> & Ha' & Hn). specialize (IH a' rows' Ha' Hcs). rewrite Hn in IH. specialize (IH ltac:(lia)).
      destruct (history (called m size) cs a') as [xs e], (history (on_table size) cs rows') as [ys e']. cbn [fst snd] in *.
      destruct IH as [-> IH]. split; [reflexivity|exact IH].
    + rewrite O. split; reflexivity.
Qed.

Theorem table_parts : forall data n, n * size < 2 ^ 64 ->
  (exists a rows, aw_from_parts m size data n = Ok (Some a) /\ holds_rows size a rows /\ data = concat rows /\ n = len rows) \/
  (aw_from_parts m size data n = Ok None /\ ~ exists rows, sized size rows /\ data = concat rows /\ n = len rows).
Proof.
  intros data n Hn. unfold aw_from_parts, arr_from_parts. rewrite umul_fit by exact Hn. cbn [bind].
  destruct (N.eqb_spec (len data) (n * size)) as [E|E].
  - left. destruct (chunks_spec rerror size data n Hsize E) as (ws & Hw & Lw & Nw).
    assert (R : exists rows, sized size rows /\ data = concat rows /\ n = len rows).
    { clear - E Hsize. assert (Hs : forall k d, len d = N.of_nat k * size ->
        exists rows : list bytes, sized size rows /\ d = concat rows /\ length rows = k).
      { induction k as [|k IH]; intros d Hd.
        - destruct d; [|unfold len in Hd; cbn [length] in Hd; lia]. exists []. repeat split; constructor.
        - rewrite Nat2N.inj_succ, N.mul_succ_l in Hd. unfold len in Hd.
          destruct (IH (skipn (N.to_nat size) d)) as (rows & H1 & H2 & H3); [unfold len; rewrite skipn_length; lia|].
          exists (firstn (N.to_nat size) d :: rows). split; [constructor; [unfold len; rewrite firstn_length; lia|exact H1]|].
          cbn [concat length]. rewrite <- H2, firstn_skipn. auto. }
      destruct (Hs (N.to_nat n) data) as (rows & H1 & H2 & H3); [rewrite N2Nat.id; exact E|].
      exists rows. unfold len. repeat split; auto. lia. }
    destruct R as (rows & H1 & H2 & H3). eexists. exists rows. split; [reflexivity|].
    split; [|split; assumption]. split; [exact H2|]. split; [exact H3|exact H1].
  - right. split; [reflexivity|]. intros (rows & H1 & -> & ->). apply E. apply sized_len. exact H1.
Qed.

End Size.

Theorem table_sent : forall m size a rows e ty r, holds_rows size a rows -> len rows < 2 ^ (8 * N.of_nat (get_byte_size ty)) ->
  N.of_nat (get_byte_size ty) + len rows * size + len r < 2 ^ 64 ->
  let sent := (num_bytes e (get_byte_size ty) (len rows) ++ concat rows)%list in
  (forall s, listing_write vec_sink (order_of e) (get_byte_size ty) (li_data (aw_to_ref a)) (li_len (aw_to_ref a)) s =
     ((s ++ sent)%list, Ok tt)) /\
  exists data n, array_from_slice m (value_reader e ty) size (sent ++ r) = Ok (len sent, (data, n)) /\
    holds_rows size (aw_from_array (li_from_raw_parts data n)) rows.
Proof.
  intros m size [l] rows e ty r (Hd & Hl & Hr) Hn Hb sent. unfold aw_len in Hl. unfold aw_to_ref, li_to_ref. cbn [aw_0 li_from_raw_parts li_data li_len] in *.
  rewrite Hd, Hl. assert (Hm : len rows mod tmod (get_byte_size ty) = len rows) by (apply N.mod_small; exact Hn).
  assert (Hw : forall s, listing_write vec_sink (order_of e) (get_byte_size ty) (concat rows) (len rows) s = ((s ++ sent)%list, Ok tt)).
  { intro s. rewrite prefix_written, Hm. reflexivity. }
  split; [exact Hw|]. exists (concat rows), (len rows). split.
  - apply (array_length_exact m e ty size (concat rows) (len rows) r sent); [apply sized_len; exact Hr| apply (Hw []) | |exact Hn].
    unfold sent. rewrite !len_app, (sized_len _ _ Hr). unfold len at 1. rewrite num_bytes_length. lia.
  - split; [reflexivity|]. split; [reflexivity|exact Hr].
Qed.
Theorem table_is_sent : forall m size a rows e ty r, holds_rows size a rows ->
  len rows < 2 ^ (8 * N.of_nat (get_byte_size ty)) -> N.of_nat (get_byte_size ty) + len rows * size + len r < 2 ^ 64 ->
  exists prefix, number e (get_byte_size ty) (len rows) prefix /\
  let sent := (prefix ++ concat rows)%list in
  (forall s, listing_write vec_sink (order_of e) (get_byte_size ty) (li_data (aw_to_ref a)) (li_len (aw_to_ref a)) s =
     ((s ++ sent)%list, Ok tt)) /\
  exists data n, array_from_slice m (value_reader e ty) size (sent ++ r) = Ok (len sent, (data, n)) /\
    holds_rows size (aw_from_array (li_from_raw_parts data n)) rows.
Proof.
  intros m size a rows e ty r Ha Hn Hb. exists (num_bytes e (get_byte_size ty) (len rows)). split.
  - apply number_iff. split; [exact Hn|reflexivity].
  - exact (table_sent m size a rows e ty r Ha Hn Hb).
Qed.

(** ** Beyond the table *)
Lemma far_index : exists a rows i, holds_rows 4 a rows /\ len rows < i /\
  aw_get Release 4 i a = Ok [1; 2; 3; 4] /\ aw_get Debug 4 i a = Panic.
Proof.
  exists (aw_from_raw_parts [1; 2; 3; 4] 1), [[1; 2; 3; 4]], (2 ^ 62). repeat split; try (vm_compute; reflexivity).
  repeat constructor.
Qed.
Lemma empty_rows : forall m i, i < 2 ^ 64 ->
  holds_rows 0 (aw_new []) [] /\ aw_get m 0 i (aw_new []) = Ok [] /\ aw_iter 0 (aw_new []) = Panic.
Proof.
  intros m i Hi. split; [repeat split; constructor|]. split; [|reflexivity]. unfold aw_get, arr_item.
  rewrite umul_fit by lia. cbn [bind]. rewrite N.mul_0_r, uadd_fit by lia. reflexivity.
Qed.
Lemma table_new : forall size, holds_rows size (aw_new []) [].
Proof. intro size. repeat split. constructor. Qed.

Theorem index_exact : forall size a rows i, size < 2 ^ 64 -> holds_rows size a rows -> len rows * size < 2 ^ 64 ->
  aw_get Release size i a =
  let offset := (i * size) mod 2 ^ 64 in
  if offset + size <=? len rows * size then Ok (window (concat rows) offset (offset + size)) else Panic.
Proof.
  intros size [l] rows i Hs (Hd & Hl & Hr) Hb. cbn [aw_0] in Hd. unfold aw_get, arr_item. cbn [aw_0]. rewrite Hd.
  pose proof (sized_len _ _ Hr) as L.
  assert (U : umul (E:=rerror) Release i size = Ok ((i * size) mod 2 ^ 64)).
  { unfold umul. destruct (N.ltb_spec (i * size) usize_mod) as [H|H]; [rewrite N.mod_small by exact H; reflexivity|reflexivity]. }
  rewrite U. cbn [bind]. cbv zeta. set (o := (i * size) mod 2 ^ 64).
  assert (Ho : o < 2 ^ 64) by (apply N.mod_lt; lia). clearbody o. clear U.
  destruct (N.ltb_spec (o + size) (2 ^ 64)) as [B|B].
  - rewrite uadd_fit by exact B. cbn [bind]. destruct (N.leb_spec (o + size) (len rows * size)) as [C|C].
    + rewrite slice_ok by lia. reflexivity.
    + apply beyond. rewrite L. exact C.
  - assert (V : uadd (E:=rerror) Release o size = Ok (o + size - 2 ^ 64)).
    { unfold uadd. destruct (N.ltb_spec (o + size) usize_mod) as [H|H]; [unfold usize_mod in H; lia|]. unfold overflow. f_equal.
      unfold usize_mod. symmetry. apply (N.mod_unique _ _ 1); lia. }
    rewrite V. cbn [bind]. destruct (N.leb_spec (o + size) (len rows * size)) as [C|C]; [lia|].
    unfold slice. destruct (N.leb_spec o (o + size - 2 ^ 64)); [lia|]. reflexivity.
Qed.
