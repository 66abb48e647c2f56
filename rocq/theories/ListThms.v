(** Lists, arrays and strings of the runtime. *)

From Coq Require Import Arith NArith ZArith List Bool Lia ZifyBool ZifyN ZifyNat.
From Verif Require Import Base Schema Codec Compiler Access Bits BitsFacts CodecFacts StructFacts ArrayThms BEThms
  Utf8 SpecUtf8 Utf8Thms Runtime Gen SpecWire SpecOffsets MsgFacts WriteThms ReadThms SoundThms TotalThms OffsetThms.
Import ListNotations.
Local Open Scope N_scope.

(** ** Building a list *)

Lemma write_item_ok : forall m x v b l, encodes m x v b -> li_len l + 1 < 2 ^ 64 ->
  write_item m (write_vec m x v) l = ({| li_data := li_data l ++ b; li_len := li_len l + 1 |}, Ok tt).
Proof.
  intros m x v b l He Hn. unfold write_item. rewrite (write_vec_encodes _ _ _ _ _ He).
  rewrite uadd_fit by exact Hn. reflexivity.
Qed.

Theorem write_items_ok : forall m x vs bs, Forall2 (encodes m x) vs bs -> forall l,
  li_len l + len vs < 2 ^ 64 ->
  write_items m (map (write_vec m x) vs) l
  = ({| li_data := li_data l ++ concat bs; li_len := li_len l + len vs |}, Ok tt).
Proof.
  intros m x vs bs H. induction H as [|v b vs bs Hv _ IH]; intros l Hn; cbn [map write_items concat].
  - change (len (@nil value)) with 0. rewrite N.add_0_r, app_nil_r. destruct l; reflexivity.
  - assert (Hl : len (v :: vs) = 1 + len vs) by (unfold len; cbn [length]; lia). rewrite Hl in *.
    rewrite (write_item_ok m x v b l Hv) by lia. rewrite IH by (cbn [li_len]; lia). cbn [li_len li_data].
    rewrite <- app_assoc. f_equal. f_equal. lia.
Qed.
Theorem list_to_ref : forall m x vs bs, Forall2 (encodes m x) vs bs -> len vs < 2 ^ 64 ->
  exists l, write_items m (map (write_vec m x) vs) (li_new []) = (l, Ok tt) /\
    li_data (li_to_ref l) = concat bs /\ li_len (li_to_ref l) = len vs.
Proof.
  intros m x vs bs H Hl. eexists. split; [apply (write_items_ok m x vs bs H (li_new [])); exact Hl|]. split; reflexivity.
Qed.

Lemma usub1 : forall E m n, 0 < n -> usub (E:=E) m n 1 = Ok (n - 1).
Proof. intros E m n H. unfold usub. replace (1 <=? n) with true by lia. reflexivity. Qed.

(** Iterating encodings. *)
Theorem iterate_encodings : forall m emb x vs bs, self_delimiting emb x -> Forall2 (encodes_lax m x) vs bs ->
  forall s k, len (concat bs ++ s) < 2 ^ 64 -> (length vs <= k)%nat ->
  iter_take m (read_msg m emb x) k (concat bs ++ s, len vs) =
  Ok (map Ok vs, (s, 0)).
Proof.
  intros m emb x vs bs Hsd H. induction H as [|v b vs bs Hv _ IH]; intros s k Hl Hk.
  - cbn [map concat app]. destruct k; reflexivity.
  - destruct k as [|k]; [cbn [length] in Hk; lia|]. cbn [map concat iter_take].
    assert (Hlen : len (v :: vs) = 1 + len vs) by (unfold len; cbn [length]; lia). rewrite Hlen.
    cbn [concat] in Hl. unfold iter_next. replace (1 + len vs =? 0) with false by lia. rewrite <- app_assoc.
    rewrite !len_app in Hl.
    rewrite (roundtrip_suffix m emb x v b _ Hsd Hv) by (rewrite !len_app; lia).
    rewrite slice_from_app. cbn [bind]. rewrite usub1 by lia. cbn [bind].
    replace (1 + len vs - 1) with (len vs) by lia.
    rewrite IH; [reflexivity|rewrite len_app; lia|cbn [length] in Hk; lia].
Qed.

(** Iterating the data of a list that was read item by item (not [Unsized]). *)
Lemma iterate_loop : forall A m (item : reader A) data c t r, bounded item -> local item -> len data < 2 ^ 64 ->
  t <= len data -> list_loop m item data c t = Ok r ->
  exists vs, length vs = c /\ forall k, (c <= k)%nat ->
    iter_take m item k (window data t r, N.of_nat c) = Ok (map Ok vs, ([], 0)).
Proof.
  intros A m item data. induction c as [|c IH]; intros t r Hb Hloc Hl Ht H; cbn [list_loop] in H.
  - inversion H; subst. exists []. split; [reflexivity|]. intros k _. unfold window. rewrite N.sub_diag. cbn [firstn N.to_nat].
    destruct k; reflexivity.
  - apply bind_ok in H. destruct H as (d & Hd & H). apply slice_from_inv in Hd. destruct Hd as (_ & ->).
    apply bind_ok in H. destruct H as ([n v] & Hn & H).
    pose proof (Hb (skipn (N.to_nat t) data) n v) as Hnb. rewrite len_skipn in Hnb. specialize (Hnb ltac:(lia) Hn).
    apply bind_ok in H. destruct H as (t' & Ht' & H). apply uadd_inv in Ht'; [|lia]. subst t'.
    pose proof H as H0. apply list_loop_bound in H0; [|assumption..|lia].
    destruct (IH (t + n) r Hb Hloc Hl ltac:(lia) H) as (vs & Hvs & Hk). exists (v :: vs).
    split; [cbn [length]; lia|]. intros [|k] Hle; [lia|]. cbn [iter_take]. unfold iter_next at 1.
    replace (N.of_nat (S c) =? 0) with false by lia.
    assert (Hw : len (window data t r) = r - t).
    { unfold window, len in *. rewrite firstn_length, skipn_length. lia. }
    unfold window at 1. rewrite (Hloc _ n v (r - t)); [|rewrite len_skipn; lia|exact Hn|lia|rewrite len_skipn; lia].
    rewrite slice_from_ok by lia. cbn [bind]. rewrite usub1 by lia. cbn [bind].
    replace (skipn (N.to_nat n) (window data t r)) with (window data (t + n) r).
    2:{ unfold window. rewrite skipn_firstn_comm, skipn_add. f_equal; [lia|]. f_equal. lia. }
    replace (N.of_nat (S c) - 1) with (N.of_nat c) by lia. rewrite Hk by lia. reflexivity.
Qed.

(** C34: a list decoded by walking it can be iterated to its end. *)
Theorem decoded_list_iterates : forall m emb endi prev ty x b k data n,
  len b < 2 ^ 64 ->
  read_ty m emb true endi prev (TList ty x) b = Ok (k, VListing data n) ->
  exists vs, len vs = n /\ forall c, n <= N.of_nat c ->
    iter_take m (read_msg m emb x) c (data, n) = Ok (map Ok vs, ([], 0)).
Proof.
  intros m emb endi prev ty x b k data n Hl E. rewrite read_ty_list in E. apply rmap_ok in E.
  destruct E as ([d c] & E & Hv). cbn [fst snd] in Hv. inversion Hv; subst d c. clear Hv. unfold list_from_slice in E.
  apply bind_ok in E. destruct E as ([sz c] & Hc & E). apply value_reader_size in Hc.
  apply bind_ok in E. destruct E as (body & Hd & E). apply slice_from_inv in Hd. destruct Hd as (_ & ->).
  apply bind_ok in E. destruct E as (t & Ht & E). pose proof Ht as Ht0.
  assert (Hbd : bounded (read_msg m emb x)) by (intros ? ? ?; apply read_bounded).
  apply list_loop_bound in Ht0; [|exact Hbd|rewrite len_skipn; lia|lia]. rewrite len_skipn in Ht0.
  apply bind_ok in E. destruct E as (q & Hq & E). apply uadd_inv in Hq; [|lia]. subst q.
  apply bind_ok in E. destruct E as (d & Hd & E). apply slice_inv in Hd. destruct Hd as (_ & _ & ->).
  apply bind_ok in E. destruct E as (s & _ & E). inversion E; subst.
  apply iterate_loop in Ht; [|exact Hbd|apply read_local|rewrite len_skipn; lia|lia].
  destruct Ht as (vs & Hvs & Hk). exists vs. split; [unfold len; lia|]. intros c Hc'.
  specialize (Hk c ltac:(lia)). unfold window in Hk. rewrite N.sub_0_r in Hk. cbn [N.to_nat skipn] in Hk.
  rewrite N2Nat.id in Hk. replace (sz + t - sz) with t by lia. exact Hk.
Qed.

(** At most [len] successful results, for any list. *)
Fixpoint oks {A} (l : list (rres A)) : N :=
  match l with [] => 0 | Ok _ :: r => 1 + oks r | _ :: r => oks r end.

Theorem iterate_oks : forall A m (item : reader A) k data n rs s, bounded item -> len data < 2 ^ 64 ->
  iter_take m item k (data, n) = Ok (rs, s) -> oks rs + snd s = n /\ len rs <= N.of_nat k.
Proof.
  intros A m item. induction k as [|k IH]; intros data n rs s Hb Hl H; cbn [iter_take] in H.
  - inversion H; subst. cbn. unfold len. cbn. lia.
  - apply bind_ok in H. destruct H as ([o s'] & Ho & H). unfold iter_next in Ho.
    destruct (n =? 0) eqn:C.
    + inversion Ho; subst. inversion H; subst. cbn. unfold len; cbn. lia.
    + destruct (item data) as [[sz v]|e|] eqn:E; [| |discriminate].
      * apply Hb in E; [|exact Hl]. rewrite slice_from_ok in Ho by exact E. cbn [bind] in Ho.
        rewrite usub1 in Ho by lia. cbn [bind] in Ho. inversion Ho; subst.
        apply bind_ok in H. destruct H as ([rs' s'] & H1 & H). inversion H; subst.
        apply IH in H1; [|exact Hb|rewrite len_skipn; lia]. cbn [oks]. unfold len in *. cbn [length]. lia.
      * inversion Ho; subst. apply bind_ok in H. destruct H as ([rs' s'] & H1 & H). inversion H; subst.
        apply IH in H1; [|assumption..]. cbn [oks]. unfold len in *. cbn [length]. lia.
Qed.

(** A malformed item is reported on every further call. *)
Theorem iterate_stuck : forall A m (item : reader A) data n e, 0 < n -> item data = Err e ->
  forall k, iter_take m item k (data, n) = Ok (repeat (Err e) k, (data, n)).
Proof.
  intros A m item data n e Hn He. induction k as [|k IH]; [reflexivity|]. cbn [iter_take repeat]. unfold iter_next.
  replace (n =? 0) with false by lia. rewrite He. cbn [bind]. rewrite IH. reflexivity.
Qed.

(** C35: what a failed [write_item] leaves behind. *)
Theorem failed_write_item : forall m x v l l' e, write_item m (write_vec m x v) l = (l', Err e) ->
  li_len l' = li_len l /\ exists p, li_data l' = li_data l ++ p.
Proof.
  intros m x v l l' e H. unfold write_item in H. destruct (write_msg_traced m x v) as (cs & r & Hf).
  unfold write_vec in H. rewrite (Hf bytes vec_sink), feed_vec in H. destruct r as [u|e'|].
  - unfold uadd in H. destruct (li_len l + 1 <? usize_mod); [inversion H|]. destruct m; inversion H.
  - inversion H; subst. cbn. split; [reflexivity|]. eauto.
  - inversion H.
Qed.

Theorem failed_write_item_keeps : forall m emb x v l' e vs bs, self_delimiting emb x ->
  Forall2 (encodes m x) vs bs ->
  write_item m (write_vec m x v) {| li_data := concat bs; li_len := len vs |} = (l', Err e) ->
  len (li_data l') < 2 ^ 64 -> exists s, forall k, (length vs <= k)%nat ->
  iter_take m (read_msg m emb x) k (li_iter l') = Ok (map Ok vs, (s, 0)).
Proof.
  intros m emb x v l' e vs bs Hsd Hf Hw Hl. apply failed_write_item in Hw. destruct Hw as (Hn & p & Hd). cbn in Hn, Hd.
  exists p. intros k Hk. unfold li_iter. rewrite Hn, Hd in *. apply iterate_encodings; try assumption.
  clear - Hf. induction Hf; constructor; [apply encodes_is_lax; assumption|assumption].
Qed.

(** ** Arrays *)

(** C36 *)
Theorem arr_from_parts_spec : forall E m size data n, n * size < 2 ^ 64 ->
  arr_from_parts (E:=E) m size data n =
  Ok (if len data =? n * size then Some {| li_data := data; li_len := n |} else None).
Proof. intros E m size data n H. unfold arr_from_parts. rewrite umul_fit by exact H. reflexivity. Qed.

Theorem arr_item_spec : forall E m size data n i, len data = n * size -> len data < 2 ^ 64 -> i < n ->
  arr_item (E:=E) m size data i = Ok (window data (i * size) ((i + 1) * size)) /\
  len (window data (i * size) ((i + 1) * size)) = size.
Proof.
  intros E m size data n i Hd Hl Hi. assert (Hle : (i + 1) * size <= n * size) by (apply N.mul_le_mono_r; lia).
  unfold arr_item. rewrite umul_fit by lia. cbn [bind]. rewrite uadd_fit by lia. cbn [bind].
  replace (i * size + size) with ((i + 1) * size) by lia. unfold slice, window.
  replace ((i * size <=? (i + 1) * size) && ((i + 1) * size <=? len data)) with true by lia.
  split; [reflexivity|]. unfold len in *. rewrite firstn_length, skipn_length. lia.
Qed.

Lemma window_split : forall (b : bytes) lo hi, lo <= hi -> hi <= len b ->
  b = firstn (N.to_nat lo) b ++ window b lo hi ++ skipn (N.to_nat hi) b.
Proof.
  intros b lo hi H1 H2. unfold window. rewrite <- (firstn_skipn (N.to_nat lo) b) at 1. f_equal.
  rewrite <- (firstn_skipn (N.to_nat (hi - lo)) (skipn (N.to_nat lo) b)) at 1. f_equal. rewrite skipn_add. f_equal. lia.
Qed.

Theorem arr_item_mut_spec : forall E m size data n i (f : bytes -> outcome E bytes) w, len data = n * size ->
  len data < 2 ^ 64 -> i < n -> f (window data (i * size) ((i + 1) * size)) = Ok w -> len w = size ->
  exists data', arr_item_mut m size data i f = Ok data' /\ len data' = len data /\
    window data' (i * size) ((i + 1) * size) = w /\
    forall j, j < n -> j <> i ->
      window data' (j * size) ((j + 1) * size) = window data (j * size) ((j + 1) * size).
Proof.
  intros E m size data n i f w Hd Hl Hi Hf Hw.
  assert (Hle : (i + 1) * size <= n * size) by (apply N.mul_le_mono_r; lia).
  unfold arr_item_mut. rewrite umul_fit by lia. cbn [bind]. rewrite uadd_fit by lia. cbn [bind].
  replace (i * size + size) with ((i + 1) * size) by lia. unfold update_slice, slice.
  replace ((i * size <=? (i + 1) * size) && ((i + 1) * size <=? len data)) with true by lia. cbn [bind].
  change (firstn (N.to_nat ((i + 1) * size - i * size)) (skipn (N.to_nat (i * size)) data))
    with (window data (i * size) ((i + 1) * size)).
  rewrite Hf. cbn [bind]. eexists. split; [reflexivity|]. unfold splice.
  set (a := firstn (N.to_nat (i * size)) data).
  replace (N.to_nat (i * size) + length w)%nat with (N.to_nat ((i + 1) * size)) by (unfold len in Hw; lia).
  set (c := skipn (N.to_nat ((i + 1) * size)) data).
  assert (Ha : len a = i * size) by (unfold a; apply len_firstn'; lia).
  assert (Hc : len c = n * size - (i + 1) * size) by (unfold c; rewrite len_skipn; lia).
  assert (Hlen : len (a ++ w ++ c) = len data) by (rewrite !len_app; lia).
  split; [exact Hlen|]. split.
  - unfold window. replace ((i + 1) * size - i * size) with (len w) by lia. rewrite <- Ha.
    rewrite skipn_len_app. apply firstn_len_app.
  - intros j Hj Hne. destruct (N.lt_ge_cases j i) as [Hji|Hji].
    + assert (Hjl : (j + 1) * size <= i * size) by (apply N.mul_le_mono_r; lia).
      transitivity (window a (j * size) ((j + 1) * size)).
      * unfold window. rewrite skipn_app, firstn_app.
        rewrite skipn_length. unfold len in *.
        replace (N.to_nat ((j + 1) * size - j * size) - (length a - N.to_nat (j * size)))%nat with O by lia.
        cbn [firstn]. apply app_nil_r.
      * unfold a. rewrite window_skip by lia. reflexivity.
    + assert (Hjl : (i + 1) * size <= j * size) by (apply N.mul_le_mono_r; lia).
      unfold window. f_equal. rewrite app_assoc.
      rewrite skipn_app. unfold len in *. rewrite skipn_all2 by (rewrite app_length; lia). cbn [app].
      unfold c. rewrite skipn_add, app_length. f_equal. lia.
Qed.

Lemma chunks_spec : forall E size (data : bytes) n, 0 < size -> len data = n * size ->
  exists ws, chunks (E:=E) size data = Ok ws /\ len ws = n /\
    forall i, i < n -> nth_error ws (N.to_nat i) =
      Some (firstn (N.to_nat size) (skipn (N.to_nat (i * size)) data)).
Proof.
  intros E size data n Hs Hd. unfold chunks. replace (size =? 0) with false by lia.
  destruct (len data <=? size) eqn:C.
  - destruct data as [|x data].
    + exists []. split; [reflexivity|]. assert (n = 0) by (change (len (@nil N)) with 0 in Hd; nia). subst n.
      split; [reflexivity|]. intros; lia.
    + assert (0 < len (x :: data)) by (unfold len; cbn [length]; lia).
      assert (n = 1) by nia. subst n. eexists. split; [reflexivity|]. split; [reflexivity|].
      intros i Hi. assert (i = 0) by lia. subst i. cbn [N.to_nat nth_error].
      rewrite N.mul_0_l. cbn [N.to_nat skipn]. rewrite firstn_all2; [reflexivity|]. unfold len in *. lia.
  - eexists. split; [reflexivity|].
    destruct (chunks_aux_spec (N.to_nat size) (N.to_nat n) (length data) data) as (H1 & H2);
      [lia|unfold len in *; nia|lia|].
    split; [unfold len; rewrite H1; lia|]. intros i Hi. rewrite H2 by lia. rewrite N2Nat.inj_mul. reflexivity.
Qed.

Theorem arr_items_spec : forall E size data n, 0 < size -> len data = n * size ->
  exists ws, arr_items (E:=E) size data = Ok ws /\ len ws = n /\
    forall i, i < n -> nth_error ws (N.to_nat i) = Some (window data (i * size) ((i + 1) * size)).
Proof.
  intros E size data n Hs Hd. unfold arr_items. destruct (chunks_spec E size data n Hs Hd) as (ws & Hw & Hl & Hn).
  exists ws. split; [exact Hw|]. split; [exact Hl|]. intros i Hi. etransitivity; [exact (Hn i Hi)|].
  unfold window. do 2 f_equal. lia.
Qed.

(** ** Length prefixes *)

(** C37: the prefix that is written. *)
Theorem prefix_written : forall e sz (data : bytes) n s,
  listing_write vec_sink (order_of e) sz data n s = (s ++ num_bytes e sz (n mod tmod sz) ++ data, Ok tt).
Proof.
  intros e sz data n s. unfold listing_write, wseq, value_write, put. cbn [vec_sink write_all].
  rewrite <- app_assoc. unfold from_usize. reflexivity.
Qed.

(** ** Strings *)

(** C40 *)
Theorem nts_roundtrip : forall m s r, is_utf8 s -> len (s ++ 0 :: r) < 2 ^ 64 ->
  (nts_from_slice m (s ++ 0 :: r) = Ok (len s + 1, s) <-> no_nul s).
Proof.
  intros m s r Hu Hl. split.
  - intro H. unfold nts_from_slice in H. destruct (find_zero 0 (s ++ 0 :: r)) as [p|] eqn:F; [|discriminate].
    apply find_zero_spec in F. rewrite N.sub_0_r in F. destruct F as (_ & Hp & Hnn & _).
    apply bind_ok in H. destruct H as (d & Hd & H). apply slice_inv in Hd. destruct Hd as (_ & _ & ->).
    apply bind_ok in H. destruct H as (t & Ht & H). apply str_inv in Ht. destruct Ht as (-> & _).
    apply bind_ok in H. destruct H as (q & Hq & H). inversion H as [[Hqq Hs]].
    rewrite N.sub_0_r. exact Hnn.
  - intro Hn. unfold nts_from_slice. rewrite find_zero_app by exact Hn. rewrite N.add_0_l, slice_prefix. cbn [bind].
    rewrite (str_ok _ Hu). cbn [bind]. rewrite !len_app in Hl.
    assert (len (0 :: r) = 1 + len r) by (unfold len; cbn [length]; lia). rewrite uadd_fit by lia. reflexivity.
Qed.

(** C41 *)
Theorem nts_decode : forall m s r, no_nul s -> len (s ++ 0 :: r) < 2 ^ 64 ->
  (is_utf8 s -> nts_from_slice m (s ++ 0 :: r) = Ok (len s + 1, s)) /\
  (~ is_utf8 s -> nts_from_slice m (s ++ 0 :: r) = Err InvalidUtf8).
Proof.
  intros m s r Hn Hl. unfold nts_from_slice. rewrite find_zero_app by exact Hn. rewrite N.add_0_l, slice_prefix. cbn [bind].
  assert (H1 : len (0 :: r) = 1 + len r) by (unfold len; cbn [length]; lia). rewrite len_app, H1 in Hl. split; intro Hu.
  - rewrite (str_ok _ Hu). cbn [bind]. rewrite uadd_fit by lia. reflexivity.
  - unfold str_from_utf8. destruct (from_utf8 s) eqn:F; [|reflexivity]. apply utf8_iff in F. contradiction.
Qed.

Theorem varchar_decode : forall m e ty p s r, number e (get_byte_size ty) (len s) p -> len (p ++ s ++ r) < 2 ^ 64 ->
  (is_utf8 s -> varchar_from_slice m (value_reader e ty) (p ++ s ++ r) = Ok (len p + len s, s)) /\
  (~ is_utf8 s -> varchar_from_slice m (value_reader e ty) (p ++ s ++ r) = Err InvalidUtf8).
Proof.
  intros m e ty p s r Hp Hl. unfold varchar_from_slice. rewrite (value_reader_app _ _ _ _ _ Hp). cbn [bind].
  rewrite <- (number_len _ _ _ _ Hp). rewrite !len_app in Hl. rewrite uadd_fit by lia. cbn [bind].
  rewrite slice_middle. cbn [bind]. split; intro Hu.
  - rewrite (str_ok _ Hu). cbn [bind]. rewrite uadd_fit by lia. reflexivity.
  - unfold str_from_utf8. destruct (from_utf8 s) eqn:F; [|reflexivity]. apply utf8_iff in F. contradiction.
Qed.
