(** What a successful or failed reading tells about the input. *)

From Coq Require Import Arith NArith ZArith List Bool Lia ZifyBool ZifyN ZifyNat.
From Verif Require Import Base Schema Codec Compiler Access Bits BitsFacts CodecFacts StructFacts ArrayThms BEThms
  Utf8 SpecUtf8 Utf8Thms Runtime Gen SpecWire MsgFacts WriteThms ReadThms.
Import ListNotations.
Local Open Scope N_scope.

(** ** Sizes *)

Definition bounded {A} (r : reader A) : Prop :=
  forall b n v, len b < 2 ^ 64 -> r b = Ok (n, v) -> n <= len b.

Lemma rmap_ok : forall A B (f : A -> B) r b n v, rmap f r b = Ok (n, v) -> exists a, r b = Ok (n, a) /\ v = f a.
Proof.
  intros A B f r b n v H. unfold rmap in H. apply bind_ok in H. destruct H as ([k a] & Ha & H).
  inversion H; subst. exists a. auto.
Qed.

Lemma bounded_rmap : forall A B (f : A -> B) r, bounded r -> bounded (rmap f r).
Proof. intros A B f r H b n v Hl E. apply rmap_ok in E. destruct E as (a & E & _). eapply H; eauto. Qed.

Lemma bounded_value : forall e ty, bounded (value_reader e ty).
Proof. intros e ty b n v _ H. apply value_reader_size in H. lia. Qed.

Lemma find_zero_spec : forall b i p, find_zero i b = Some p -> i <= p /\ p - i < len b /\
  no_nul (firstn (N.to_nat (p - i)) b) /\ nth_error b (N.to_nat (p - i)) = Some 0.
Proof.
  induction b as [|x b IH]; intros i p H; [discriminate|]. cbn [find_zero] in H.
  destruct (N.eqb_spec x 0) as [E|E].
  - inversion H; subst. rewrite N.sub_diag. unfold len. cbn. split; [lia|]. split; [lia|]. split; [constructor|reflexivity].
  - apply IH in H. destruct H as (H1 & H2 & H3 & H4).
    replace (N.to_nat (p - i)) with (S (N.to_nat (p - (i + 1)))) by lia.
    split; [lia|]. split; [unfold len in *; cbn [length]; lia|]. split; [constructor; assumption|exact H4].
Qed.

Lemma find_zero_none : forall b i, find_zero i b = None -> no_nul b.
Proof.
  induction b as [|x b IH]; intros i H; [constructor|]. cbn [find_zero] in H.
  destruct (N.eqb_spec x 0) as [E|E]; [discriminate|]. constructor; [exact E|]. eapply IH; eauto.
Qed.

Lemma str_inv : forall b s, str_from_utf8 b = Ok s -> s = b /\ is_utf8 b.
Proof.
  intros b s H. unfold str_from_utf8 in H. destruct (from_utf8 b) eqn:E; inversion H; subst.
  split; [reflexivity|]. apply utf8_iff. exact E.
Qed.

Lemma list_loop_bound : forall A m (item : reader A) data n t r, bounded item -> len data < 2 ^ 64 -> t <= len data ->
  list_loop m item data n t = Ok r -> t <= r /\ r <= len data.
Proof.
  intros A m item data. induction n as [|n IH]; intros t r Hb Hl Ht H; cbn [list_loop] in H.
  { inversion H; subst. lia. }
  apply bind_ok in H. destruct H as (d & Hd & H). apply slice_from_inv in Hd. destruct Hd as (_ & ->).
  apply bind_ok in H. destruct H as ([k v] & Hk & H). apply Hb in Hk; [|rewrite len_skipn; lia].
  rewrite len_skipn in Hk. apply bind_ok in H. destruct H as (t' & Ht' & H).
  apply uadd_inv in Ht'; [|lia]. subst t'. apply IH in H; [lia|assumption..|lia].
Qed.

Lemma bounded_ref : forall m emb r, (forall y, r = RMessage y -> bounded (read_msg m emb y)) ->
  bounded (read_ref m emb r).
Proof.
  intros m emb [s|x] H; [|apply (H x eq_refl)]. apply bounded_rmap. intros b n v Hl E.
  unfold struct_from_slice in E. destruct (len b <? s_byte_size s) eqn:C; [discriminate|].
  apply bind_ok in E. destruct E as (d & _ & E). inversion E; subst. lia.
Qed.

Lemma bounded_ty : forall m emb e endi prev t, (forall y, inside t y -> bounded (read_msg m emb y)) ->
  bounded (read_ty m emb e endi prev t).
Proof.
  intros m emb e endi prev t H. destruct t as [ty|r| |ty|ty st|u on idx|ty x|].
  - apply bounded_rmap, bounded_value.
  - rewrite read_ty_ref. apply bounded_ref. intros y ->. apply H. constructor.
  - apply bounded_rmap. intros b n v Hl E. unfold nts_from_slice in E.
    destruct (find_zero 0 b) as [p|] eqn:F; [|discriminate]. apply find_zero_spec in F. rewrite N.sub_0_r in F.
    apply bind_ok in E. destruct E as (d & Hd & E). apply slice_inv in Hd. destruct Hd as (_ & Hp & ->).
    apply bind_ok in E. destruct E as (s & Hs & E). apply str_inv in Hs. destruct Hs as (-> & _).
    apply bind_ok in E. destruct E as (k & Hk & E). inversion E; subst.
    apply uadd_inv in Hk; unfold len in *; rewrite firstn_length, skipn_length in *; lia.
  - apply bounded_rmap. intros b n v Hl E. unfold varchar_from_slice in E.
    apply bind_ok in E. destruct E as ([k c] & Hk & E). apply value_reader_size in Hk.
    apply bind_ok in E. destruct E as (q & Hq & E).
    apply bind_ok in E. destruct E as (d & Hd & E). apply slice_inv in Hd. destruct Hd as (H1 & H2 & ->).
    apply bind_ok in E. destruct E as (s & Hs & E). apply str_inv in Hs. destruct Hs as (-> & _).
    apply bind_ok in E. destruct E as (t & Ht & E). inversion E; subst.
    apply uadd_inv in Ht; unfold len in *; rewrite firstn_length, skipn_length in *; lia.
  - apply bounded_rmap. intros b n v Hl E. unfold array_from_slice in E.
    apply bind_ok in E. destruct E as ([k c] & Hk & E). apply bind_ok in E. destruct E as (q & Hq & E).
    apply bind_ok in E. destruct E as (t & Ht & E). destruct (len b <? t) eqn:C; [discriminate|].
    apply bind_ok in E. destruct E as (d & Hd & E). inversion E; subst. lia.
  - rewrite read_ty_union. intros b n v Hl E. rewrite read_union_eq in E.
    apply bind_ok in E. destruct E as (disc & _ & E).
    destruct (find_case disc 0 (u_cases u)) as [[i c]|] eqn:F; [|discriminate]. apply find_case_in in F.
    destruct F as (Hin & _). destruct (uc_item c) as [r|] eqn:Er.
    + apply bind_ok in E. destruct E as ([k w] & Hk & E). inversion E; subst.
      eapply (bounded_ref m emb r); [|exact Hl|exact Hk]. intros y ->. apply H. econstructor; eauto.
    + inversion E; subst. lia.
  - rewrite read_ty_list. apply bounded_rmap. destruct e.
    + intros b n v Hl E. unfold list_from_slice in E.
      apply bind_ok in E. destruct E as ([k c] & Hk & E). apply value_reader_size in Hk.
      apply bind_ok in E. destruct E as (data & Hd & E). apply slice_from_inv in Hd. destruct Hd as (Hk2 & ->).
      apply bind_ok in E. destruct E as (t & Ht & E).
      apply list_loop_bound in Ht; [|apply H; constructor|rewrite len_skipn; lia|lia].
      rewrite len_skipn in Ht.
      apply bind_ok in E. destruct E as (q & Hq & E). apply bind_ok in E. destruct E as (d & _ & E).
      apply bind_ok in E. destruct E as (sz & Hs & E). inversion E; subst. apply uadd_inv in Hs; lia.
    + intros b n v Hl E. unfold unsized_from_slice in E. apply bind_ok in E. destruct E as ([k c] & Hk & E).
      apply bind_ok in E. destruct E as (d & _ & E). inversion E; subst. lia.
  - apply bounded_rmap. intros b n v Hl E. inversion E; subst. lia.
Qed.

Lemma bounded_optional : forall m opt r, bounded r -> bounded (read_optional m opt r).
Proof.
  intros m opt r H. unfold read_optional. destruct opt; [|exact H]. apply bounded_rmap.
  intros b n v Hl E. unfold optional_from_slice in E. destruct (len b <? 1) eqn:C; [discriminate|].
  apply bind_ok in E. destruct E as (fl & _ & E). destruct (0 <? fl).
  - apply bind_ok in E. destruct E as (d & Hd & E). apply slice_from_inv in Hd. destruct Hd as (_ & ->).
    apply bind_ok in E. destruct E as ([k w] & Hk & E). apply H in Hk; [|rewrite len_skipn; lia].
    rewrite len_skipn in Hk. apply bind_ok in E. destruct E as (q & Hq & E). inversion E; subst.
    apply uadd_inv in Hq; lia.
  - inversion E; subst. lia.
Qed.

Lemma bounded_fields : forall m emb e b fs off prev n vs,
  (forall g y, In g fs -> inside (mf_ty g) y -> bounded (read_msg m emb y)) ->
  len b < 2 ^ 64 -> off <= len b -> read_fields m emb e b fs off prev = Ok (n, vs) -> off <= n /\ n <= len b.
Proof.
  intros m emb e b. induction fs as [|[nm ty opt s endi] fs IH]; intros off prev n vs H Hl Ho E; cbn [read_fields] in E.
  { inversion E; subst. lia. }
  apply bind_ok in E. destruct E as (d & Hd & E). apply slice_from_inv in Hd. destruct Hd as (_ & ->).
  apply bind_ok in E. destruct E as ([k v] & Hk & E).
  assert (Hb : k <= len (skipn (N.to_nat off) b)).
  { eapply bounded_optional; [apply bounded_ty| |exact Hk].
    - intros y Hy. apply (H (MkMField nm ty opt s endi)); [left; reflexivity|exact Hy].
    - rewrite len_skipn; lia. }
  rewrite len_skipn in Hb. apply bind_ok in E. destruct E as (off' & Hoff & E). apply uadd_inv in Hoff; [|lia].
  apply IH in E; [lia| |lia|lia]. intros g y Hg. apply (H g y). right. exact Hg.
Qed.

(** C25 *)
Theorem read_bounded : forall m emb x b n v, len b < 2 ^ 64 -> read_msg m emb x b = Ok (n, v) -> n <= len b.
Proof.
  intros m emb. apply (message_ind_inside (fun x => bounded (read_msg m emb x))). intros x IH b n v Hl E.
  rewrite read_msg_eq in E. apply bind_ok in E. destruct E as ([k vs] & Hk & E). inversion E; subst.
  apply bounded_fields in Hk; [lia|exact IH|exact Hl|lia].
Qed.

(** ** Soundness *)

Definition sound {A} (r : reader A) (enc : A -> bytes -> Prop) : Prop :=
  forall b n v, len b < 2 ^ 64 -> bytes_ok b -> r b = Ok (n, v) ->
    n <= len b /\ enc v (firstn (N.to_nat n) b).

Definition lax : N -> Prop := fun _ => True.

Lemma firstn_plus : forall A (b : list A) i j, firstn (i + j) b = firstn i b ++ firstn j (skipn i b).
Proof. intros A b i. revert b. induction i as [|i IH]; intros [|x b] j; cbn; rewrite ?firstn_nil; try reflexivity. rewrite IH. reflexivity. Qed.

Lemma sound_ref : forall m emb r, (forall y, r = RMessage y -> sound (read_msg m emb y) (enc_msg m lax y)) ->
  sound (read_ref m emb r) (enc_ref m lax r).
Proof.
  intros m emb [s|x] H; [|apply (H x eq_refl)]. intros b n v Hl Hb E. cbn [read_ref] in E. apply rmap_ok in E.
  destruct E as (d & E & ->). unfold struct_from_slice in E. destruct (len b <? s_byte_size s) eqn:C; [discriminate|].
  apply bind_ok in E. destruct E as (d' & Hd & E). inversion E; subst. apply slice_inv in Hd.
  destruct Hd as (_ & Hn & ->). split; [lia|]. cbn [enc_ref]. rewrite N.sub_0_r. cbn [N.to_nat skipn].
  split; [|split; [apply bytes_ok_firstn; exact Hb|reflexivity]].
  rewrite len_firstn; unfold len in *; lia.
Qed.

Lemma list_loop_sound : forall A m (item : reader A) enc data n t r, sound item enc -> len data < 2 ^ 64 ->
  bytes_ok data -> t <= len data -> list_loop m item data n t = Ok r ->
  t <= r /\ r <= len data /\ exists items chunks, Forall2 enc items chunks /\ length items = n /\
    firstn (N.to_nat (r - t)) (skipn (N.to_nat t) data) = concat chunks.
Proof.
  intros A m item enc data. induction n as [|n IH]; intros t r Hs Hl Hb Ht H; cbn [list_loop] in H.
  { inversion H; subst. split; [lia|]. split; [lia|]. exists [], []. rewrite N.sub_diag. cbn. auto. }
  apply bind_ok in H. destruct H as (d & Hd & H). apply slice_from_inv in Hd. destruct Hd as (_ & ->).
  apply bind_ok in H. destruct H as ([k v] & Hk & H).
  apply Hs in Hk; [|rewrite len_skipn; lia|apply bytes_ok_skipn; exact Hb].
  destruct Hk as (Hk & He). rewrite len_skipn in Hk. apply bind_ok in H. destruct H as (t' & Ht' & H).
  apply uadd_inv in Ht'; [|lia]. subst t'. apply IH in H; [|assumption..|lia].
  destruct H as (H1 & H2 & items & chunks & Hf & Hn & Hc). split; [lia|]. split; [lia|].
  exists (v :: items), (firstn (N.to_nat k) (skipn (N.to_nat t) data) :: chunks).
  split; [constructor; assumption|]. split; [cbn [length]; lia|]. cbn [concat]. rewrite <- Hc.
  replace (N.to_nat (r - t)) with (N.to_nat k + N.to_nat (r - (t + k)))%nat by lia. rewrite firstn_plus. f_equal.
  rewrite ArrayThms.skipn_add. f_equal. f_equal. lia.
Qed.

Lemma number_bound : forall e ty n p, number e (get_byte_size ty) n p -> n < 2 ^ 64.
Proof.
  intros e ty n p H. apply number_iff in H. destruct H as (H & _). eapply N.lt_le_trans; [exact H|].
  unfold tmod. apply N.pow_le_mono_r; [lia|]. pose proof (byte_size_8 ty). lia.
Qed.

Lemma wrap_lt : forall M a b, a < M -> b < M -> M <= a + b -> (a + b) mod M < a.
Proof.
  intros M a b Ha Hb H. assert (G : a + b - M = (a + b) mod M) by (apply (N.mod_unique _ _ 1); lia).
  rewrite <- G. lia.
Qed.

Lemma uadd_release : forall E m a b r, uadd (E:=E) m a b = Ok r -> a < 2 ^ 64 -> b < 2 ^ 64 ->
  r = a + b \/ (r < a /\ m = Release).
Proof.
  intros E m a b r H Ha Hb. unfold uadd in H. destruct (N.ltb_spec (a + b) usize_mod) as [C|C].
  - left. inversion H. reflexivity.
  - destruct m; [discriminate|]. unfold overflow in H.
    assert (Hr : r = (a + b) mod usize_mod) by congruence. rewrite Hr. right. split; [|reflexivity].
    apply wrap_lt; assumption.
Qed.

Lemma umul_small : forall E m a b r, umul (E:=E) m a b = Ok r -> (m = Debug \/ a * b < 2 ^ 64) -> r = a * b.
Proof.
  intros E m a b r H Hc. unfold umul in H. destruct (N.ltb_spec (a * b) usize_mod) as [C|C].
  - inversion H. reflexivity.
  - destruct m; [discriminate|]. destruct Hc as [Hc|Hc]; [discriminate|].
    exfalso. exact (N.lt_irrefl _ (N.lt_le_trans _ _ _ Hc C)).
Qed.

Lemma sound_ty : forall m emb e endi prev t,
  (forall y, inside t y -> sound (read_msg m emb y) (enc_msg m lax y)) ->
  match t with
  | TList _ _ => e = true
  | TArray ty s => m = Debug \/ tmod (get_byte_size ty) * s_byte_size s <= 2 ^ 64
  | _ => True
  end ->
  sound (read_ty m emb e endi prev t) (enc_ty m lax endi prev t).
Proof.
  intros m emb e endi prev t H Hg. destruct t as [ty|r| |ty|ty st|u on idx|ty x|]; intros b n v Hl Hb E.
  - cbn [read_ty] in E. apply rmap_ok in E. destruct E as (a & E & ->).
    apply value_reader_ok in E; [|exact Hb]. destruct E as (-> & Hn & Hnum). split; [exact Hn|].
    cbn [enc_ty]. rewrite Nat2N.id. exact Hnum.
  - rewrite read_ty_ref in E. eapply (sound_ref m emb r); [|exact Hl|exact Hb|exact E].
    intros y ->. apply H. constructor.
  - cbn [read_ty] in E. apply rmap_ok in E. destruct E as (a & E & ->). unfold nts_from_slice in E.
    destruct (find_zero 0 b) as [p|] eqn:F; [|discriminate]. apply find_zero_spec in F. rewrite N.sub_0_r in F.
    destruct F as (_ & Hp & Hnn & Hz).
    apply bind_ok in E. destruct E as (d & Hd & E). apply slice_inv in Hd. destruct Hd as (_ & _ & ->).
    apply bind_ok in E. destruct E as (s & Hs & E). apply str_inv in Hs. destruct Hs as (-> & Hu).
    rewrite N.sub_0_r in *. cbn [N.to_nat skipn] in *.
    apply bind_ok in E. destruct E as (k & Hk & E). inversion E; subst.
    rewrite len_firstn in Hk by (unfold len in *; lia). apply uadd_inv in Hk; [|lia]. subst n.
    split; [lia|]. cbn [enc_ty]. split; [exact Hu|]. split; [exact Hnn|].
    replace (N.to_nat (N.of_nat (N.to_nat p) + 1)) with (N.to_nat p + 1)%nat by lia.
    rewrite firstn_plus. f_equal. clear - Hz. revert b Hz. induction (N.to_nat p) as [|q IH]; intros [|y b] Hz; try discriminate.
    + cbn in Hz. inversion Hz. reflexivity.
    + cbn [skipn]. apply IH. exact Hz.
  - cbn [read_ty] in E. apply rmap_ok in E. destruct E as (a & E & ->). unfold varchar_from_slice in E.
    apply bind_ok in E. destruct E as ([k c] & Hk & E). apply value_reader_ok in Hk; [|exact Hb].
    destruct Hk as (-> & Hk & Hnum). pose proof (number_bound _ _ _ _ Hnum) as Hc.
    apply bind_ok in E. destruct E as (q & Hq & E).
    apply bind_ok in E. destruct E as (d & Hd & E). apply slice_inv in Hd. destruct Hd as (H1 & H2 & ->).
    apply uadd_release in Hq; [|lia..]. destruct Hq as [-> | (Hq & _)]; [|lia].
    apply bind_ok in E. destruct E as (s & Hs & E). apply str_inv in Hs. destruct Hs as (-> & Hu).
    replace (N.of_nat (get_byte_size ty) + c - N.of_nat (get_byte_size ty)) with c in * by lia.
    rewrite Nat2N.id in *.
    assert (Hls : len (firstn (N.to_nat c) (skipn (get_byte_size ty) b)) = c).
    { unfold len in *. rewrite firstn_length, skipn_length. lia. }
    apply bind_ok in E. destruct E as (t & Ht & E). inversion E; subst. rewrite Hls in Ht.
    apply uadd_inv in Ht; [|lia]. subst n. split; [lia|]. cbn [enc_ty]. split; [exact Hu|].
    rewrite Hls. exists (firstn (get_byte_size ty) b). split; [exact Hnum|].
    replace (N.to_nat (N.of_nat (get_byte_size ty) + c)) with (get_byte_size ty + N.to_nat c)%nat by lia.
    apply firstn_plus.
  - cbn [read_ty] in E. apply rmap_ok in E. destruct E as (a & E & ->). unfold array_from_slice in E.
    apply bind_ok in E. destruct E as ([k c] & Hk & E). apply value_reader_ok in Hk; [|exact Hb].
    destruct Hk as (-> & Hk & Hnum). apply bind_ok in E. destruct E as (q & Hq & E).
    apply umul_small in Hq.
    2:{ destruct Hg as [Hg|Hg]; [left; exact Hg|].
        destruct (N.eq_dec (s_byte_size st) 0) as [Z|Z]; [right; rewrite Z, N.mul_0_r; lia|].
        right. eapply N.lt_le_trans; [|exact Hg]. apply number_iff in Hnum. destruct Hnum as (Hnum & _).
        apply N.mul_lt_mono_pos_r; lia. }
    apply bind_ok in E. destruct E as (t & Ht & E). destruct (len b <? t) eqn:C; [discriminate|].
    apply bind_ok in E. destruct E as (d & Hd & E). inversion E; subst. apply slice_inv in Hd.
    destruct Hd as (H1 & H2 & ->).
    assert (Hq64 : c * s_byte_size st < 2 ^ 64).
    { unfold uadd in Ht.
      destruct (N.lt_ge_cases (c * s_byte_size st) (2 ^ 64)) as [L|L]; [exact L|].
      destruct Hg as [Hg|Hg].
      - subst m. destruct (N.ltb_spec (N.of_nat (get_byte_size ty) + c * s_byte_size st) usize_mod) as [D|D]; [|discriminate].
        exfalso. apply (N.lt_irrefl (2 ^ 64)). eapply N.le_lt_trans; [|exact D]. lia.
      - exfalso. apply number_iff in Hnum. destruct Hnum as (Hnum & _).
        destruct (N.eq_dec (s_byte_size st) 0) as [Z|Z]; [rewrite Z, N.mul_0_r in L; lia|].
        assert (c * s_byte_size st < tmod (get_byte_size ty) * s_byte_size st) by (apply N.mul_lt_mono_pos_r; lia). lia. }
    apply uadd_release in Ht; [|lia..]. destruct Ht as [-> | (Ht & _)]; [|lia].
    split; [lia|]. cbn [enc_ty fst snd].
    replace (N.of_nat (get_byte_size ty) + c * s_byte_size st - N.of_nat (get_byte_size ty)) with (c * s_byte_size st) by lia.
    rewrite Nat2N.id. split; [unfold len in *; rewrite firstn_length, skipn_length; lia|].
    split; [apply bytes_ok_firstn, bytes_ok_skipn, Hb|]. exists (firstn (get_byte_size ty) b). split; [exact Hnum|].
    replace (N.to_nat (N.of_nat (get_byte_size ty) + c * s_byte_size st))
      with (get_byte_size ty + N.to_nat (c * s_byte_size st))%nat by lia.
    apply firstn_plus.
  - rewrite read_ty_union, read_union_eq in E. apply bind_ok in E. destruct E as (disc & Hd & E).
    unfold read_discriminant in Hd. destruct (nth_error prev idx) as [[| data | | | | | |]|] eqn:En; try discriminate.
    destruct (find_case disc 0 (u_cases u)) as [[i c]|] eqn:F; [|discriminate].
    pose proof (find_case_in _ _ _ _ _ F) as (Hin & _).
    assert (G : forall it p, enc_item m lax (uc_item c) it p -> enc_ty m lax endi prev (TUnion u on idx) (VUnion i it) p).
    { intros it p Hit. cbn [enc_ty]. apply enc_union_iff. exists data, disc, c. rewrite En. auto. }
    destruct (uc_item c) as [r|] eqn:Er.
    + apply bind_ok in E. destruct E as ([k w] & Hk & E). inversion E; subst.
      apply (sound_ref m emb r) in Hk; [|intros y ->; apply H; econstructor; eauto|exact Hl|exact Hb].
      destruct Hk as (Hn & Hr). split; [exact Hn|]. apply G. exact Hr.
    + inversion E; subst. split; [lia|]. apply G. reflexivity.
  - subst e. rewrite read_ty_list in E. apply rmap_ok in E. destruct E as (a & E & ->). unfold list_from_slice in E.
    apply bind_ok in E. destruct E as ([k c] & Hk & E). apply value_reader_ok in Hk; [|exact Hb].
    destruct Hk as (-> & Hk & Hnum).
    apply bind_ok in E. destruct E as (data & Hd & E). apply slice_from_inv in Hd. destruct Hd as (_ & ->).
    apply bind_ok in E. destruct E as (t & Ht & E).
    eapply list_loop_sound in Ht; [|apply H; constructor|rewrite len_skipn; lia|apply bytes_ok_skipn; exact Hb|lia].
    destruct Ht as (_ & Ht & items & chunks & Hf & Hn & Hc). rewrite len_skipn in Ht.
    rewrite N.sub_0_r in Hc. cbn [N.to_nat skipn] in Hc. rewrite Nat2N.id in *.
    apply bind_ok in E. destruct E as (q & Hq & E). apply uadd_inv in Hq; [|lia]. subst q.
    apply bind_ok in E. destruct E as (d & Hd & E). apply slice_inv in Hd. destruct Hd as (_ & _ & ->).
    apply bind_ok in E. destruct E as (sz & Hs & E). inversion E; subst. apply uadd_inv in Hs; [|lia]. subst n.
    split; [lia|]. cbn [enc_ty fst snd].
    exists (firstn (get_byte_size ty) b), items, chunks. split; [exact Hnum|].
    split; [unfold len; lia|]. split; [exact Hf|].
    replace (N.of_nat (get_byte_size ty) + t - N.of_nat (get_byte_size ty)) with t by lia. rewrite Nat2N.id.
    split; [exact Hc|].
    replace (N.to_nat (t + N.of_nat (get_byte_size ty))) with (get_byte_size ty + N.to_nat t)%nat by lia.
    apply firstn_plus.
  - cbn [read_ty] in E. apply rmap_ok in E. destruct E as (a & E & ->). inversion E; subst.
    split; [lia|]. cbn [enc_ty]. unfold len. rewrite Nat2N.id, firstn_all. auto.
Qed.

Lemma nth_error_0 : forall (b : bytes) x, nth_error b 0 = Some x -> exists r, b = x :: r.
Proof. intros [|y r] x H; inversion H; subst. eauto. Qed.

Lemma sound_optional : forall m opt r enc, sound r enc -> sound (read_optional m opt r) (enc_optional lax opt enc).
Proof.
  intros m opt r enc H. unfold read_optional, enc_optional. destruct opt; [|exact H].
  intros b n v Hl Hb E. apply rmap_ok in E. destruct E as (a & E & ->). unfold optional_from_slice in E.
  destruct (len b <? 1) eqn:C; [discriminate|].
  apply bind_ok in E. destruct E as (fl & Hf & E). unfold unwrap in Hf.
  destruct (nth_error b 0) as [fl'|] eqn:Eb; [|discriminate]. inversion Hf; subst fl'. clear Hf.
  apply nth_error_0 in Eb. destruct Eb as (b' & ->). inversion Hb as [|x1 x2 Hfl Hb']; subst.
  destruct (0 <? fl) eqn:F.
  - apply bind_ok in E. destruct E as (d & Hd & E). apply slice_from_inv in Hd. destruct Hd as (_ & ->).
    change (skipn (N.to_nat 1) (fl :: b')) with b' in E.
    apply bind_ok in E. destruct E as ([k w] & Hk & E).
    assert (Hl' : len (fl :: b') = 1 + len b') by (unfold len; cbn [length]; lia).
    apply H in Hk; [|lia|exact Hb']. destruct Hk as (Hk & He).
    apply bind_ok in E. destruct E as (q & Hq & E). inversion E; subst. apply uadd_inv in Hq; [|lia]. subst n.
    split; [lia|]. exists fl, (firstn (N.to_nat k) b'). split; [lia|]. split; [exact I|]. split; [|exact He].
    replace (N.to_nat (k + 1)) with (S (N.to_nat k)) by lia. reflexivity.
  - inversion E; subst. split; [unfold len; cbn [length]; lia|]. replace fl with 0 by lia. reflexivity.
Qed.

Lemma sound_fields : forall m emb e b fs off prev n vs,
  (forall g y, In g fs -> inside (mf_ty g) y -> sound (read_msg m emb y) (enc_msg m lax y)) ->
  (forall g, In g fs -> match mf_ty g with
    | TList _ _ => e = true
    | TArray ty s => m = Debug \/ tmod (get_byte_size ty) * s_byte_size s <= 2 ^ 64
    | _ => True end) ->
  len b < 2 ^ 64 -> bytes_ok b -> off <= len b -> read_fields m emb e b fs off prev = Ok (n, vs) ->
  off <= n /\ n <= len b /\ exists rest, vs = prev ++ rest /\
    enc_fields m lax fs prev rest (firstn (N.to_nat (n - off)) (skipn (N.to_nat off) b)).
Proof.
  intros m emb e b. induction fs as [|[nm ty opt s endi] fs IH]; intros off prev n vs H Hg Hl Hb Ho E; cbn [read_fields] in E.
  { inversion E; subst. split; [lia|]. split; [lia|]. exists []. rewrite app_nil_r. split; [reflexivity|].
    rewrite N.sub_diag. reflexivity. }
  apply bind_ok in E. destruct E as (d & Hd & E). apply slice_from_inv in Hd. destruct Hd as (_ & ->).
  apply bind_ok in E. destruct E as ([k v] & Hk & E).
  eapply sound_optional in Hk.
  2:{ apply sound_ty.
      - intros y Hy. apply (H (MkMField nm ty opt s endi)); [left; reflexivity|exact Hy].
      - apply (Hg (MkMField nm ty opt s endi)). left. reflexivity. }
  2:{ rewrite len_skipn; lia. }
  2:{ apply bytes_ok_skipn; exact Hb. }
  destruct Hk as (Hk & He). rewrite len_skipn in Hk.
  apply bind_ok in E. destruct E as (off' & Hoff & E). apply uadd_inv in Hoff; [|lia]. subst off'.
  apply IH in E; [| | |exact Hl|exact Hb|lia].
  2:{ intros g y Hgi. apply (H g y). right. exact Hgi. }
  2:{ intros g Hgi. apply (Hg g). right. exact Hgi. }
  destruct E as (H1 & H2 & rest & -> & Hr). split; [lia|]. split; [lia|]. exists (v :: rest).
  split; [rewrite <- app_assoc; reflexivity|]. cbn [enc_fields mf_optional mf_endi mf_ty].
  exists (firstn (N.to_nat k) (skipn (N.to_nat off) b)), (firstn (N.to_nat (n - (off + k))) (skipn (N.to_nat (off + k)) b)).
  split; [|split; [exact He|exact Hr]].
  replace (N.to_nat (n - off)) with (N.to_nat k + N.to_nat (n - (off + k)))%nat by lia. rewrite firstn_plus. f_equal.
  rewrite ArrayThms.skipn_add. f_equal. f_equal. lia.
Qed.

(** C24 *)
Theorem read_sound : forall m emb x, checked_lengths m emb x -> forall b n v,
  len b < 2 ^ 64 -> bytes_ok b -> read_msg m emb x b = Ok (n, v) ->
  n <= len b /\ encodes_lax m x v (firstn (N.to_nat n) b).
Proof.
  intros m emb. apply (message_ind_inside (fun x => checked_lengths m emb x -> sound (read_msg m emb x) (enc_msg m lax x))).
  intros x IH Hc b n v Hl Hb E. rewrite read_msg_eq in E. apply bind_ok in E. destruct E as ([k vs] & Hk & E).
  inversion E; subst. apply sound_fields in Hk; [| | |exact Hl|exact Hb|lia].
  - destruct Hk as (_ & Hn & rest & -> & Hr). split; [exact Hn|]. cbn [app]. apply enc_msg_eq.
    rewrite N.sub_0_r in Hr. exact Hr.
  - intros g y Hg Hy. apply (IH g y Hg Hy). intros e f Hp. apply Hc. eapply part_deep; eauto.
  - intros g Hg. exact (Hc _ g (part_here _ _ _ _ Hg eq_refl)).
Qed.
