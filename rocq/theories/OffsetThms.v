(** Readers depend only on the bytes they report as read; the reader with
    offsets agrees with the plain one. *)

From Coq Require Import Arith NArith ZArith List Bool Lia ZifyBool ZifyN ZifyNat.
From Verif Require Import Base Schema Codec Compiler Access Bits BitsFacts CodecFacts StructFacts ArrayThms BEThms
  Utf8 SpecUtf8 Utf8Thms Runtime Gen SpecWire SpecOffsets MsgFacts WriteThms ReadThms SoundThms TotalThms.
Import ListNotations.
Local Open Scope N_scope.

(** ** Locality *)

Definition local {A} (r : reader A) : Prop := forall b k v n, len b < 2 ^ 64 -> r b = Ok (k, v) ->
  k <= n -> n <= len b -> r (firstn (N.to_nat n) b) = Ok (k, v).

Lemma local_rmap : forall A B (f : A -> B) r, local r -> local (rmap f r).
Proof.
  intros A B f r H b k v n Hl E Hk Hn. apply rmap_ok in E. destruct E as (a & E & ->). unfold rmap.
  rewrite (H b k a n Hl E Hk Hn). reflexivity.
Qed.

Lemma len_firstn' : forall (b : bytes) n, n <= len b -> len (firstn (N.to_nat n) b) = n.
Proof. intros b n H. unfold len in *. rewrite firstn_length. lia. Qed.

Lemma slice_firstn : forall E (b : bytes) lo hi n, hi <= n -> n <= len b ->
  slice (E:=E) (firstn (N.to_nat n) b) lo hi = slice b lo hi.
Proof.
  intros E b lo hi n H1 H2. unfold slice. rewrite len_firstn' by exact H2.
  replace (hi <=? n) with true by lia. replace (hi <=? len b) with true by lia. rewrite !andb_true_r.
  destruct (lo <=? hi) eqn:C; [|reflexivity]. rewrite skipn_firstn_comm, firstn_firstn.
  f_equal. f_equal. lia.
Qed.

Lemma slice_from_firstn : forall E (b : bytes) lo n, lo <= n -> n <= len b ->
  slice_from (E:=E) (firstn (N.to_nat n) b) lo = Ok (firstn (N.to_nat (n - lo)) (skipn (N.to_nat lo) b)).
Proof.
  intros E b lo n H1 H2. rewrite slice_from_ok by (rewrite len_firstn'; lia).
  rewrite skipn_firstn_comm. f_equal. f_equal. lia.
Qed.

Lemma local_value : forall e ty, local (value_reader e ty).
Proof.
  intros e ty b k v n Hl E Hk Hn. unfold value_reader, value_from_slice in *.
  destruct (len b <? N.of_nat (get_byte_size ty)) eqn:C; [discriminate|].
  apply bind_ok in E. destruct E as (w & Hw & E). inversion E; subst.
  rewrite len_firstn' by exact Hn. replace (n <? N.of_nat (get_byte_size ty)) with false by lia.
  unfold read_bytes in *. rewrite firstn_length.
  destruct (length b <? get_byte_size ty)%nat eqn:C2; [discriminate|].
  replace (Nat.min (N.to_nat n) (length b) <? get_byte_size ty)%nat with false by (unfold len in *; lia).
  rewrite firstn_firstn. replace (Nat.min (get_byte_size ty) (N.to_nat n)) with (get_byte_size ty) by lia.
  rewrite Hw. reflexivity.
Qed.

Lemma local_ref : forall m emb r, (forall y, r = RMessage y -> local (read_msg m emb y)) -> local (read_ref m emb r).
Proof.
  intros m emb [s|x] H; [|apply (H x eq_refl)]. apply local_rmap. intros b k v n Hl E Hk Hn.
  unfold struct_from_slice in *. destruct (len b <? s_byte_size s) eqn:C; [discriminate|].
  apply bind_ok in E. destruct E as (d & Hd & E). inversion E; subst. rewrite len_firstn' by exact Hn.
  replace (n <? s_byte_size s) with false by lia. rewrite slice_firstn by lia. rewrite Hd. reflexivity.
Qed.

Lemma find_zero_firstn : forall b i p n, find_zero i b = Some p -> (N.to_nat (p - i) < n)%nat ->
  find_zero i (firstn n b) = Some p.
Proof.
  induction b as [|x b IH]; intros i p n H Hn; [discriminate|]. destruct n as [|n]; [lia|]. cbn [firstn find_zero] in *.
  destruct (x =? 0); [exact H|]. apply IH; [exact H|]. apply find_zero_spec in H. lia.
Qed.

Lemma list_loop_local : forall A m (item : reader A) data c t r n, bounded item -> local item -> len data < 2 ^ 64 ->
  t <= len data -> list_loop m item data c t = Ok r -> r <= n -> n <= len data ->
  list_loop m item (firstn (N.to_nat n) data) c t = Ok r.
Proof.
  intros A m item data. induction c as [|c IH]; intros t r n Hb Hloc Hl Ht H Hr Hn; cbn [list_loop] in *; [exact H|].
  apply bind_ok in H. destruct H as (d & Hd & H). apply slice_from_inv in Hd. destruct Hd as (_ & ->).
  apply bind_ok in H. destruct H as ([k v] & Hk & H).
  pose proof (Hb (skipn (N.to_nat t) data) k v) as Hkb. rewrite len_skipn in Hkb. specialize (Hkb ltac:(lia) Hk).
  apply bind_ok in H. destruct H as (t' & Ht' & H). apply uadd_inv in Ht'; [|lia]. subst t'.
  assert (Hrr : t + k <= r) by (eapply list_loop_bound in H; [apply H|assumption..|lia]).
  rewrite slice_from_firstn by lia. cbn [bind].
  rewrite (Hloc _ k v (n - t)); [|rewrite len_skipn; lia|exact Hk|lia|rewrite len_skipn; lia].
  cbn [bind]. rewrite uadd_fit by lia. cbn [bind]. apply IH; try assumption. lia.
Qed.

Lemma local_ty : forall m emb e endi prev t, (forall y, inside t y -> local (read_msg m emb y)) ->
  local (read_ty m emb e endi prev t).
Proof.
  intros m emb e endi prev t H. destruct t as [ty|r| |ty|ty st|u on idx|ty x|].
  - apply local_rmap, local_value.
  - rewrite read_ty_ref. apply local_ref. intros y ->. apply H. constructor.
  - apply local_rmap. intros b k v n Hl E Hk Hn. unfold nts_from_slice in *.
    destruct (find_zero 0 b) as [p|] eqn:F; [|discriminate]. pose proof (find_zero_spec _ _ _ F) as Fs.
    rewrite N.sub_0_r in Fs. destruct Fs as (_ & Hp & _).
    apply bind_ok in E. destruct E as (d & Hd & E). pose proof Hd as Hd0. apply slice_inv in Hd. destruct Hd as (_ & _ & Hdd).
    apply bind_ok in E. destruct E as (s & Hs & E). pose proof Hs as Hs0. apply str_inv in Hs. destruct Hs as (-> & _).
    assert (Hld : len d = p).
    { rewrite Hdd. unfold len in *. rewrite firstn_length, skipn_length. lia. }
    apply bind_ok in E. destruct E as (q & Hq & E). inversion E; subst v q. rewrite Hld in Hq.
    pose proof Hq as Hq0. apply uadd_inv in Hq; [|lia].
    rewrite (find_zero_firstn b 0 p) by (exact F || lia). rewrite slice_firstn by lia. rewrite Hd0. cbn [bind].
    rewrite Hs0. cbn [bind]. rewrite Hld, Hq0. reflexivity.
  - apply local_rmap. intros b k v n Hl E Hk Hn. unfold varchar_from_slice in *.
    apply bind_ok in E. destruct E as ([c sz] & Hc & E). pose proof (value_reader_size _ _ _ _ _ Hc) as Hcs.
    apply bind_ok in E. destruct E as (q & Hq & E).
    apply bind_ok in E. destruct E as (d & Hd & E). pose proof Hd as Hd0. apply slice_inv in Hd. destruct Hd as (H1 & H2 & Hdd).
    apply bind_ok in E. destruct E as (s & Hs & E). pose proof Hs as Hs0. apply str_inv in Hs. destruct Hs as (-> & _).
    assert (Hld : len d = q - c).
    { rewrite Hdd. unfold len in *. rewrite firstn_length, skipn_length. lia. }
    apply bind_ok in E. destruct E as (t & Ht & E). inversion E; subst v t.
    pose proof Ht as Ht0. apply uadd_inv in Ht; [|lia].
    rewrite (local_value endi ty b c sz n Hl Hc) by lia. cbn [bind]. rewrite Hq. cbn [bind].
    rewrite slice_firstn by lia. rewrite Hd0. cbn [bind]. rewrite Hs0. cbn [bind]. rewrite Ht0. reflexivity.
  - apply local_rmap. intros b k v n Hl E Hk Hn. unfold array_from_slice in *.
    apply bind_ok in E. destruct E as ([c sz] & Hc & E). pose proof (value_reader_size _ _ _ _ _ Hc) as Hcs.
    apply bind_ok in E. destruct E as (q & Hq & E). apply bind_ok in E. destruct E as (t & Ht & E).
    destruct (len b <? t) eqn:C; [discriminate|]. apply bind_ok in E. destruct E as (d & Hd & E).
    inversion E; subst k v. pose proof Hd as Hd0. apply slice_inv in Hd. destruct Hd as (H1 & _ & _).
    rewrite (local_value endi ty b c sz n Hl Hc) by lia. cbn [bind]. rewrite Hq. cbn [bind]. rewrite Ht. cbn [bind].
    rewrite len_firstn' by exact Hn. replace (n <? t) with false by lia. rewrite slice_firstn by lia.
    rewrite Hd0. reflexivity.
  - rewrite read_ty_union. intros b k v n Hl E Hk Hn. rewrite read_union_eq in *.
    apply bind_ok in E. destruct E as (disc & Hd & E). rewrite Hd. cbn [bind].
    destruct (find_case disc 0 (u_cases u)) as [[i c]|] eqn:F; [|discriminate]. apply find_case_in in F.
    destruct F as (Hin & _). destruct (uc_item c) as [r|] eqn:Er; [|exact E].
    apply bind_ok in E. destruct E as ([k' w] & Hk' & E). inversion E; subst k' v.
    rewrite (local_ref m emb r) with (k := k) (v := w); [reflexivity| |assumption..].
    intros y ->. apply H. econstructor; eauto.
  - rewrite read_ty_list. apply local_rmap. destruct e.
    + intros b k v n Hl E Hk Hn. unfold list_from_slice in *.
      apply bind_ok in E. destruct E as ([c sz] & Hc & E). pose proof (value_reader_size _ _ _ _ _ Hc) as Hcs.
      apply bind_ok in E. destruct E as (data & Hd & E). apply slice_from_inv in Hd. destruct Hd as (_ & ->).
      apply bind_ok in E. destruct E as (t & Ht & E). pose proof Ht as Ht0.
      assert (Hbd : bounded (read_msg m emb x)) by (intros ? ? ?; apply read_bounded).
      apply list_loop_bound in Ht; [|exact Hbd|rewrite len_skipn; lia|lia]. rewrite len_skipn in Ht.
      apply bind_ok in E. destruct E as (q & Hq & E). pose proof Hq as Hq0. apply uadd_inv in Hq; [|lia].
      apply bind_ok in E. destruct E as (d & Hd & E). apply bind_ok in E. destruct E as (s & Hs & E).
      inversion E; subst k v. pose proof Hs as Hs0. apply uadd_inv in Hs; [|lia].
      rewrite (local_value endi ty b c sz n Hl Hc) by lia. cbn [bind]. rewrite slice_from_firstn by lia. cbn [bind].
      rewrite (list_loop_local _ m (read_msg m emb x) _ _ 0 t); [|exact Hbd|apply H; constructor|rewrite len_skipn; lia|lia|exact Ht0|lia|rewrite len_skipn; lia].
      cbn [bind]. rewrite Hq0. cbn [bind]. rewrite slice_firstn by lia. rewrite Hd. cbn [bind]. rewrite Hs0. reflexivity.
    + intros b k v n Hl E Hk Hn. unfold unsized_from_slice in *.
      apply bind_ok in E. destruct E as ([c sz] & Hc & E). pose proof (value_reader_size _ _ _ _ _ Hc) as Hcs.
      apply bind_ok in E. destruct E as (d & Hd & E). inversion E; subst k v.
      assert (n = len b) by lia. subst n.
      replace (firstn (N.to_nat (len b)) b) with b by (unfold len; rewrite Nat2N.id, firstn_all; reflexivity).
      rewrite Hc. cbn [bind]. rewrite Hd. reflexivity.
  - apply local_rmap. intros b k v n Hl E Hk Hn. unfold buffer_from_slice in *. inversion E; subst.
    assert (n = len v) by lia. subst n. unfold len. rewrite Nat2N.id, firstn_all. reflexivity.
Qed.

Lemma local_optional : forall m opt r, bounded r -> local r -> local (read_optional m opt r).
Proof.
  intros m opt r Hbd H. unfold read_optional. destruct opt; [|exact H]. apply local_rmap.
  intros b k v n Hl E Hk Hn. unfold optional_from_slice in *. destruct (len b <? 1) eqn:C; [discriminate|].
  destruct b as [|fl b]; [discriminate|]. cbn [nth_error unwrap bind] in E. rewrite len_firstn' by exact Hn.
  assert (Hl' : len (fl :: b) = 1 + len b) by (unfold len; cbn [length]; lia).
  destruct (0 <? fl) eqn:F.
  - rewrite slice_from_ok in E by lia. cbn [bind] in E. change (skipn (N.to_nat 1) (fl :: b)) with b in E.
    apply bind_ok in E. destruct E as ([c w] & Hc & E). pose proof Hc as Hc0. apply Hbd in Hc; [|lia].
    apply bind_ok in E. destruct E as (q & Hq & E). pose proof Hq as Hq0. apply uadd_inv in Hq; [|lia].
    inversion E; subst k v. replace (n <? 1) with false by lia.
    replace (N.to_nat n) with (S (N.to_nat (n - 1))) by lia. cbn [firstn nth_error unwrap bind]. rewrite F.
    rewrite slice_from_ok by (unfold len; cbn [length]; lia). cbn [bind].
    change (skipn (N.to_nat 1) (fl :: firstn (N.to_nat (n - 1)) b)) with (firstn (N.to_nat (n - 1)) b).
    rewrite (H b c w (n - 1)) by (assumption || lia). cbn [bind]. rewrite Hq0. reflexivity.
  - inversion E; subst k v. replace (n <? 1) with false by lia.
    replace (N.to_nat n) with (S (N.to_nat (n - 1))) by lia. cbn [firstn nth_error unwrap bind]. rewrite F. reflexivity.
Qed.

Lemma local_fields : forall m emb e b fs off prev k vs n,
  (forall g y, In g fs -> inside (mf_ty g) y -> local (read_msg m emb y)) ->
  len b < 2 ^ 64 -> off <= len b -> read_fields m emb e b fs off prev = Ok (k, vs) -> k <= n -> n <= len b ->
  read_fields m emb e (firstn (N.to_nat n) b) fs off prev = Ok (k, vs).
Proof.
  intros m emb e b. induction fs as [|[nm ty opt s endi] fs IH]; intros off prev k vs n H Hl Ho E Hk Hn; cbn [read_fields] in *.
  { exact E. }
  apply bind_ok in E. destruct E as (d & Hd & E). apply slice_from_inv in Hd. destruct Hd as (_ & ->).
  apply bind_ok in E. destruct E as ([c v] & Hc & E).
  assert (Hbt : bounded (read_ty m emb e endi prev ty)) by (apply bounded_ty; intros y _ ? ? ?; apply read_bounded).
  assert (Hcb : c <= len (skipn (N.to_nat off) b)).
  { eapply bounded_optional; [exact Hbt| |exact Hc]. rewrite len_skipn; lia. }
  rewrite len_skipn in Hcb. apply bind_ok in E. destruct E as (off' & Hoff & E). apply uadd_inv in Hoff; [|lia]. subst off'.
  assert (Hoc : off + c <= k) by (eapply bounded_fields in E; [apply E| |exact Hl|lia]; intros; intros ? ? ?; apply read_bounded).
  rewrite slice_from_firstn by lia. cbn [bind].
  rewrite (local_optional m opt _ Hbt) with (k := c) (v := v);
    [| |rewrite len_skipn; lia|exact Hc|lia|rewrite len_skipn; lia].
  2:{ apply local_ty. intros y Hy. apply (H (MkMField nm ty opt s endi)); [left; reflexivity|exact Hy]. }
  cbn [bind]. rewrite uadd_fit by lia. cbn [bind]. apply IH; try assumption; [|lia].
  intros g y Hg. apply (H g y). right. exact Hg.
Qed.

Theorem read_local : forall m emb x, local (read_msg m emb x).
Proof.
  intros m emb. apply (message_ind_inside (fun x => local (read_msg m emb x))). intros x IH b k v n Hl E Hk Hn.
  rewrite read_msg_eq in *. apply bind_ok in E. destruct E as ([c vs] & Hc & E). inversion E; subst.
  rewrite (local_fields m emb _ b _ 0 [] k vs n IH Hl) by (assumption || lia). reflexivity.
Qed.

(** ** Offsets *)

(** The statement of one field in the reader with offsets. *)
Definition read_field_offsets m emb e prev (f : mfield) (d : bytes) : rres (N * (value * option offsets)) :=
  match mf_ty f with
  | TRef (RMessage y) =>
      if mf_optional f then
        '(n, (v, o)) <- optional_from_slice_with_offsets m (read_msg_offsets m emb y) d ;;
        Ok (n, (VOpt v, o))
      else '(n, (v, o)) <- read_msg_offsets m emb y d ;; Ok (n, (v, Some o))
  | _ =>
      '(n, v) <- read_optional m (mf_optional f) (read_ty m emb e (mf_endi f) prev (mf_ty f)) d ;;
      Ok (n, (v, None))
  end.

Fixpoint read_fields_offsets m emb e (b : bytes) (fs : list mfield) (byte_offset : N) (prev : list value)
  (offs : list (N * N * option offsets)) : rres (N * (value * offsets)) :=
  match fs with
  | [] => Ok (byte_offset, (VMsg prev, MkOffsets offs))
  | f :: r =>
      d <- slice_from b byte_offset ;;
      '(n, (v, nested)) <- read_field_offsets m emb e prev f d ;;
      end_ <- uadd m byte_offset n ;;
      read_fields_offsets m emb e b r end_ (prev ++ [v]) (offs ++ [(byte_offset, end_, nested)])
  end.

Definition offsets_go (m : mode) (emb : N -> bool) (id : N) (b : bytes) :=
  fix go (fs : list mfield) (byte_offset : N) (prev : list value) (offs : list (N * N * option offsets))
         : rres (N * (value * offsets)) :=
         match fs with
         | [] => Ok (byte_offset, (VMsg prev, MkOffsets offs))
         | MkMField _ ty opt _ endi :: r =>
             d <- slice_from b byte_offset ;;
             '(n, (v, nested)) <-
               match ty with
               | TRef (RMessage y) =>
                   if opt then
                     '(n, (v, o)) <- optional_from_slice_with_offsets m (read_msg_offsets m emb y) d ;;
                     Ok (n, (VOpt v, o))
                   else '(n, (v, o)) <- read_msg_offsets m emb y d ;; Ok (n, (v, Some o))
               | _ =>
                   '(n, v) <- read_optional m opt (read_ty m emb (emb id) endi prev ty) d ;;
                   Ok (n, (v, None))
               end ;;
             end_ <- uadd m byte_offset n ;;
             go r end_ (prev ++ [v]) (offs ++ [(byte_offset, end_, nested)])
         end.

Lemma read_msg_offsets_eq : forall m emb x b,
  read_msg_offsets m emb x b = read_fields_offsets m emb (emb (m_id x)) b (m_fields x) 0 [] [].
Proof.
  intros m emb [id name fs sz] b.
  change (read_msg_offsets m emb (MkMessage id name fs sz) b) with (offsets_go m emb id b fs 0 [] []).
  cbn [m_id m_fields]. generalize 0 (@nil value) (@nil (N * N * option offsets)).
  induction fs as [|[n ty opt s e] fs IH]; intros off prev offs; [reflexivity|].
  cbn [read_fields_offsets offsets_go]. destruct (slice_from b off) as [d|e'|]; [|reflexivity..]. cbn [bind].
  unfold read_field_offsets at 1. cbn [mf_ty mf_optional mf_endi].
  match goal with |- bind ?a _ = bind ?c _ => change c with a; destruct a as [[k [v o]]|e'|]; [|reflexivity..] end.
  cbn [bind]. destruct (uadd m off k) as [off'|e'|]; [|reflexivity..]. cbn [bind]. apply IH.
Qed.

(** Agreement of a plain result and one with offsets. *)
Definition agree {A O} (x : rres (N * A)) (y : rres (N * (A * O))) (ok : N -> A -> O -> Prop) : Prop :=
  match x with
  | Ok (n, v) => exists o, y = Ok (n, (v, o)) /\ ok n v o
  | Err e => y = Err e
  | Panic => y = Panic
  end.

Definition offsets_agree m emb x : Prop := forall b, len b < 2 ^ 64 ->
  agree (read_msg m emb x b) (read_msg_offsets m emb x b)
        (fun n v o => describes m emb x (firstn (N.to_nat n) b) v o).

Lemma offsets_field : forall m emb e prev f d, len d < 2 ^ 64 ->
  (forall y, inside (mf_ty f) y -> offsets_agree m emb y) ->
  agree (read_optional m (mf_optional f) (read_ty m emb e (mf_endi f) prev (mf_ty f)) d)
        (read_field_offsets m emb e prev f d)
        (fun n v o => describes_nested m emb (mf_ty f) (mf_optional f) (firstn (N.to_nat n) d) v o).
Proof.
  intros m emb e prev f d Hl H. unfold read_field_offsets.
  assert (Hother : (forall y, mf_ty f <> TRef (RMessage y)) ->
    agree (read_optional m (mf_optional f) (read_ty m emb e (mf_endi f) prev (mf_ty f)) d)
      ('(n, v) <- read_optional m (mf_optional f) (read_ty m emb e (mf_endi f) prev (mf_ty f)) d ;; Ok (n, (v, None)))
      (fun n v o => describes_nested m emb (mf_ty f) (mf_optional f) (firstn (N.to_nat n) d) v o)).
  { intro Hn. unfold agree.
    destruct (read_optional m (mf_optional f) (read_ty m emb e (mf_endi f) prev (mf_ty f)) d) as [[n v]|er|]; cbn [bind]; try reflexivity.
    exists None. split; [reflexivity|]. apply nested_none. exact Hn. }
  destruct (mf_ty f) as [ty|[st|y]| |ty|ty st|u on idx|ty x|] eqn:Et; try (apply Hother; intros; discriminate).
  clear Hother. rewrite read_ty_ref, read_ref_msg. destruct (mf_optional f).
  - cbn [read_optional]. unfold rmap, optional_from_slice, optional_from_slice_with_offsets.
    destruct (len d <? 1) eqn:C; [reflexivity|]. destruct d as [|fl d]; [discriminate|]. cbn [nth_error unwrap bind].
    destruct (0 <? fl) eqn:F.
    + rewrite slice_from_ok by lia. cbn [bind]. change (skipn (N.to_nat 1) (fl :: d)) with d.
      assert (Hl' : len (fl :: d) = 1 + len d) by (unfold len; cbn [length]; lia).
      pose proof (H y (in_ref y) d ltac:(lia)) as G. unfold agree in G.
      destruct (read_msg m emb y d) as [[k v]|er|] eqn:Er; cbn [bind].
      * destruct G as (o & -> & Hd). cbn [bind]. assert (Hk : k <= len d) by (eapply read_bounded; [|exact Er]; lia).
        rewrite uadd_fit by lia. cbn [bind]. exists (Some o). split; [reflexivity|].
        replace (N.to_nat (k + 1)) with (S (N.to_nat k)) by lia. cbn [firstn]. apply nested_optional. exact Hd.
      * rewrite G. reflexivity.
      * rewrite G. reflexivity.
    + cbn [bind]. exists None. split; [reflexivity|]. apply nested_absent.
  - cbn [read_optional]. pose proof (H y (in_ref y) d Hl) as G. unfold agree in *.
    destruct (read_msg m emb y d) as [[k v]|er|] eqn:Er.
    + destruct G as (o & -> & Hd). cbn [bind]. exists (Some o). split; [reflexivity|]. apply nested_message. exact Hd.
    + rewrite G. reflexivity.
    + rewrite G. reflexivity.
Qed.

Lemma window_skip : forall b lo hi n, lo <= hi -> hi <= n ->
  window (firstn (N.to_nat n) b) lo hi = firstn (N.to_nat (hi - lo)) (skipn (N.to_nat lo) b).
Proof.
  intros b lo hi n H1 H2. unfold window. rewrite skipn_firstn_comm, firstn_firstn. f_equal. lia.
Qed.

Lemma offsets_fields : forall m emb e b, len b < 2 ^ 64 -> forall fs off prev offs,
  (forall g y, In g fs -> inside (mf_ty g) y -> offsets_agree m emb y) -> off <= len b ->
  match read_fields m emb e b fs off prev with
  | Ok (n, vs) => exists rest l, vs = prev ++ rest /\
      read_fields_offsets m emb e b fs off prev offs = Ok (n, (VMsg vs, MkOffsets (offs ++ l))) /\
      describes_fields m emb e (firstn (N.to_nat n) b) fs off prev rest l
  | Err er => read_fields_offsets m emb e b fs off prev offs = Err er
  | Panic => read_fields_offsets m emb e b fs off prev offs = Panic
  end.
Proof.
  intros m emb e b Hl. induction fs as [|f fs IH]; intros off prev offs H Ho.
  { cbn [read_fields read_fields_offsets]. exists [], []. rewrite !app_nil_r. split; [reflexivity|]. split; [reflexivity|].
    rewrite <- (len_firstn' b off Ho) at 2. constructor. }
  assert (Eq : read_fields m emb e b (f :: fs) off prev =
    (d <- slice_from b off ;;
     '(n, v) <- read_optional m (mf_optional f) (read_ty m emb e (mf_endi f) prev (mf_ty f)) d ;;
     off <- uadd m off n ;; read_fields m emb e b fs off (prev ++ [v]))) by (destruct f; reflexivity).
  rewrite Eq. clear Eq. cbn [read_fields_offsets]. rewrite slice_from_ok by exact Ho. cbn [bind].
  set (d := skipn (N.to_nat off) b) in *. assert (Hld : len d = len b - off) by (unfold d; rewrite len_skipn; lia).
  pose proof (offsets_field m emb e prev f d ltac:(lia) (fun y Hy => H f y (or_introl eq_refl) Hy)) as G. unfold agree in G.
  destruct (read_optional m (mf_optional f) (read_ty m emb e (mf_endi f) prev (mf_ty f)) d) as [[k v]|er|] eqn:Er; cbn [bind].
  2:{ rewrite G. reflexivity. }
  2:{ rewrite G. reflexivity. }
  destruct G as (nested & -> & Hd). cbn [bind].
  assert (Hbt : bounded (read_ty m emb e (mf_endi f) prev (mf_ty f))) by (apply bounded_ty; intros y _ ? ? ?; apply read_bounded).
  assert (Hk : k <= len d) by (eapply bounded_optional; [exact Hbt| |exact Er]; lia).
  rewrite uadd_fit by lia. cbn [bind].
  specialize (IH (off + k) (prev ++ [v]) (offs ++ [(off, off + k, nested)])
               (fun g y Hg Hy => H g y (or_intror Hg) Hy) ltac:(lia)).
  destruct (read_fields m emb e b fs (off + k) (prev ++ [v])) as [[n vs]|er|] eqn:Ef; [|exact IH..].
  destruct IH as (rest & l & -> & E & Hf).
  assert (Hn : off + k <= n /\ n <= len b).
  { eapply bounded_fields in Ef; [exact Ef| |exact Hl|lia]. intros; intros ? ? ?; apply read_bounded. }
  exists (v :: rest), ((off, off + k, nested) :: l). split; [rewrite <- app_assoc; reflexivity|].
  split; [rewrite E, <- !app_assoc; reflexivity|].
  assert (Hw : window (firstn (N.to_nat n) b) off (off + k) = firstn (N.to_nat k) d).
  { rewrite window_skip by lia. unfold d. f_equal. lia. }
  constructor.
  - lia.
  - rewrite len_firstn'; lia.
  - rewrite Hw. replace (off + k - off) with k by lia.
    apply (local_optional m (mf_optional f) _ Hbt); [apply local_ty; intros; apply read_local|lia|exact Er|lia|lia].
  - rewrite Hw. exact Hd.
  - exact Hf.
Qed.

(** C29 *)
Theorem offsets_correct : forall m emb x, offsets_agree m emb x.
Proof.
  intros m emb. apply (message_ind_inside (offsets_agree m emb)). intros x IH b Hl. unfold agree.
  rewrite read_msg_eq, read_msg_offsets_eq.
  pose proof (offsets_fields m emb (emb (m_id x)) b Hl (m_fields x) 0 [] [] IH ltac:(lia)) as G.
  destruct (read_fields m emb (emb (m_id x)) b (m_fields x) 0 []) as [[n vs]|er|]; cbn [bind]; [|exact G..].
  destruct G as (rest & l & -> & E & Hd). cbn [app] in *. exists (MkOffsets l). split; [exact E|]. constructor. exact Hd.
Qed.
