(** No panic, and truncated input. *)

From Coq Require Import Arith NArith ZArith List Bool Lia ZifyBool ZifyN ZifyNat.
From Verif Require Import Base Schema Codec Compiler Access Bits BitsFacts CodecFacts StructFacts ArrayThms BEThms
  Utf8 SpecUtf8 Utf8Thms Runtime Gen SpecWire MsgFacts WriteThms ReadThms SoundThms.
Import ListNotations.
Local Open Scope N_scope.

(** ** No panic *)

Definition no_panic {A} (r : reader A) : Prop := forall b, len b < 2 ^ 64 -> bytes_ok b -> r b <> Panic.

Lemma bind_no_panic : forall E A B (x : outcome E A) (k : A -> outcome E B),
  x <> Panic -> (forall a, x = Ok a -> k a <> Panic) -> bind x k <> Panic.
Proof. intros E A B [a|e|] k Hx Hk; cbn [bind]; [apply Hk; reflexivity|discriminate|congruence]. Qed.

Lemma no_panic_rmap : forall A B (f : A -> B) r, no_panic r -> no_panic (rmap f r).
Proof.
  intros A B f r H b Hl Hb. unfold rmap. apply bind_no_panic; [apply H; assumption|]. intros [n a] _. discriminate.
Qed.

Lemma no_panic_value : forall e ty, no_panic (value_reader e ty).
Proof. intros e ty b _ _. destruct (value_reader_cases e ty b) as [-> | (n & ->)]; discriminate. Qed.

Lemma no_panic_struct : forall n, no_panic (struct_from_slice n).
Proof.
  intros n b _ _. unfold struct_from_slice. destruct (len b <? n) eqn:C; [discriminate|].
  unfold slice. replace ((0 <=? n) && (n <=? len b)) with true by lia. discriminate.
Qed.

Lemma no_panic_ref : forall m emb r, (forall y, r = RMessage y -> no_panic (read_msg m emb y)) ->
  no_panic (read_ref m emb r).
Proof. intros m emb [s|x] H; [|apply (H x eq_refl)]. apply no_panic_rmap, no_panic_struct. Qed.

Lemma list_loop_no_panic : forall A m (item : reader A) data n t, bounded item -> no_panic item ->
  len data < 2 ^ 64 -> bytes_ok data -> t <= len data -> list_loop m item data n t <> Panic.
Proof.
  intros A m item data. induction n as [|n IH]; intros t Hb Hp Hl Hok Ht; cbn [list_loop]; [discriminate|].
  rewrite slice_from_ok by exact Ht. cbn [bind]. apply bind_no_panic.
  - apply Hp; [rewrite len_skipn; lia|apply bytes_ok_skipn; exact Hok].
  - intros [k v] Hk. apply Hb in Hk; [|rewrite len_skipn; lia]. rewrite len_skipn in Hk.
    rewrite uadd_fit by lia. cbn [bind]. apply IH; try assumption. lia.
Qed.

Lemma Forall2_nth_error_l : forall A B (R : A -> B -> Prop) l l' i a, Forall2 R l l' -> nth_error l i = Some a ->
  exists b, nth_error l' i = Some b /\ R a b.
Proof.
  intros A B R l l' i a H. revert i. induction H as [|x y l l' Hx _ IH]; intros [|i] E; try discriminate.
  - inversion E; subst. exists y. auto.
  - apply IH. exact E.
Qed.

(** The member read for a mandatory structure field is a value of it. *)
Definition shape (g : mfield) (v : value) : Prop := forall s, mf_ty g = TRef (RStruct s) -> mf_optional g = false ->
  exists data, v = VStruct data /\ len data = s_byte_size s /\ bytes_ok data.

Lemma no_panic_ty : forall m emb e endi prev t,
  (forall y, inside t y -> no_panic (read_msg m emb y)) ->
  match t with
  | TVarcharString _ => False
  | TArray ty s => tmod (get_byte_size ty) * s_byte_size s + 8 <= 2 ^ 64
  | TUnion u _ idx => exists d, read_discriminant m (u_disc u) (nth_error prev idx) = Ok d
  | _ => True
  end ->
  no_panic (read_ty m emb e endi prev t).
Proof.
  intros m emb e endi prev t H Hg. destruct t as [ty|r| |ty|ty st|u on idx|ty x|].
  - apply no_panic_rmap, no_panic_value.
  - rewrite read_ty_ref. apply no_panic_ref. intros y ->. apply H. constructor.
  - apply no_panic_rmap. intros b Hl Hb. unfold nts_from_slice.
    destruct (find_zero 0 b) as [p|] eqn:F; [|discriminate]. apply find_zero_spec in F. rewrite N.sub_0_r in F.
    destruct F as (_ & Hp & _). unfold slice. replace ((0 <=? p) && (p <=? len b)) with true by lia. cbn [bind].
    apply bind_no_panic.
    + unfold str_from_utf8. destruct (from_utf8 _); discriminate.
    + intros s Hs. apply str_inv in Hs. destruct Hs as (-> & _).
      rewrite uadd_fit; [discriminate|]. rewrite N.sub_0_r. cbn [N.to_nat skipn].
      rewrite len_firstn by (unfold len in *; lia). lia.
  - contradiction.
  - apply no_panic_rmap. intros b Hl Hb. unfold array_from_slice.
    apply bind_no_panic; [apply no_panic_value; assumption|]. intros [k c] Hk.
    apply value_reader_ok in Hk; [|exact Hb]. destruct Hk as (-> & Hk & Hnum). apply number_iff in Hnum.
    destruct Hnum as (Hnum & _). pose proof (byte_size_8 ty) as H8.
    assert (Hm : c * s_byte_size st + 8 <= 2 ^ 64).
    { assert (c * s_byte_size st <= tmod (get_byte_size ty) * s_byte_size st) by (apply N.mul_le_mono_r; lia). lia. }
    rewrite umul_fit by lia. cbn [bind].
    destruct (N.lt_ge_cases (N.of_nat (get_byte_size ty) + c * s_byte_size st) (2 ^ 64)) as [L|L].
    + rewrite uadd_fit by exact L. cbn [bind].
      destruct (len b <? N.of_nat (get_byte_size ty) + c * s_byte_size st) eqn:C; [discriminate|].
      unfold slice.
      replace ((N.of_nat (get_byte_size ty) <=? N.of_nat (get_byte_size ty) + c * s_byte_size st) &&
               (N.of_nat (get_byte_size ty) + c * s_byte_size st <=? len b)) with true by lia. discriminate.
    + exfalso. assert (8 < 2 ^ 64) by reflexivity.
      destruct (N.eq_dec (c * s_byte_size st) 0) as [Z|Z]; [lia|].
      assert (c * s_byte_size st < tmod (get_byte_size ty) * s_byte_size st).
      { apply N.mul_lt_mono_pos_r; [|exact Hnum]. destruct (s_byte_size st); [rewrite N.mul_0_r in Z; lia|lia]. }
      lia.
  - rewrite read_ty_union. intros b Hl Hb. rewrite read_union_eq. destruct Hg as (d & ->). cbn [bind].
    destruct (find_case d 0 (u_cases u)) as [[i c]|] eqn:F; [|discriminate]. apply find_case_in in F.
    destruct F as (Hin & _). destruct (uc_item c) as [r|] eqn:Er; [|discriminate].
    apply bind_no_panic; [|intros [k w] _; discriminate].
    apply no_panic_ref; [|assumption..]. intros y ->. apply H. econstructor; eauto.
  - rewrite read_ty_list. apply no_panic_rmap. destruct e; intros b Hl Hb.
    + unfold list_from_slice. apply bind_no_panic; [apply no_panic_value; assumption|]. intros [k c] Hk.
      apply value_reader_size in Hk. rewrite slice_from_ok by lia. cbn [bind].
      assert (Hbd : bounded (read_msg m emb x)) by (intros ? ? ?; apply read_bounded).
      apply bind_no_panic.
      { apply list_loop_no_panic; [exact Hbd|apply H; constructor|rewrite len_skipn; lia|apply bytes_ok_skipn; exact Hb|lia]. }
      intros t Ht. apply list_loop_bound in Ht; [|exact Hbd|rewrite len_skipn; lia|lia]. rewrite len_skipn in Ht.
      rewrite uadd_fit by lia. cbn [bind]. unfold slice.
      replace ((k <=? k + t) && (k + t <=? len b)) with true by lia. cbn [bind]. rewrite uadd_fit by lia. discriminate.
    + unfold unsized_from_slice. apply bind_no_panic; [apply no_panic_value; assumption|]. intros [k c] Hk.
      apply value_reader_size in Hk. rewrite slice_from_ok by lia. discriminate.
  - apply no_panic_rmap. intros b _ _. discriminate.
Qed.

Lemma no_panic_optional : forall m opt r, bounded r -> no_panic r -> no_panic (read_optional m opt r).
Proof.
  intros m opt r Hbd H. unfold read_optional. destruct opt; [|exact H]. apply no_panic_rmap.
  intros b Hl Hb. unfold optional_from_slice. destruct (len b <? 1) eqn:C; [discriminate|].
  destruct b as [|fl b]; [discriminate|]. cbn [nth_error unwrap bind]. destruct (0 <? fl); [|discriminate].
  rewrite slice_from_ok by lia. cbn [bind]. change (skipn (N.to_nat 1) (fl :: b)) with b.
  assert (Hl' : len (fl :: b) = 1 + len b) by (unfold len; cbn [length]; lia).
  inversion Hb; subst. apply bind_no_panic; [apply H; [lia|assumption]|]. intros [k v] Hk. apply Hbd in Hk; [|lia].
  rewrite uadd_fit by lia. discriminate.
Qed.

Lemma shape_read : forall m emb e prev g b n v, bytes_ok b ->
  read_optional m (mf_optional g) (read_ty m emb e (mf_endi g) prev (mf_ty g)) b = Ok (n, v) -> shape g v.
Proof.
  intros m emb e prev g b n v Hb H s Ht Ho. rewrite Ht, Ho in H. cbn [read_optional] in H.
  rewrite read_ty_ref in H. cbn [read_ref] in H. apply rmap_ok in H. destruct H as (d & H & ->).
  unfold struct_from_slice in H. destruct (len b <? s_byte_size s) eqn:C; [discriminate|].
  apply bind_ok in H. destruct H as (d' & Hd & H). inversion H; subst. apply slice_inv in Hd.
  destruct Hd as (_ & _ & ->). eexists. split; [reflexivity|]. cbn [N.to_nat skipn]. rewrite N.sub_0_r.
  split; [|apply bytes_ok_firstn; exact Hb]. rewrite len_firstn; unfold len in *; lia.
Qed.

Lemma no_panic_fields : forall m emb e b,
  len b < 2 ^ 64 -> bytes_ok b -> forall fs l off prev,
  (forall g y, In g fs -> inside (mf_ty g) y -> no_panic (read_msg m emb y)) ->
  (forall g, In g fs -> match mf_ty g with
    | TVarcharString _ => False
    | TArray ty s => tmod (get_byte_size ty) * s_byte_size s + 8 <= 2 ^ 64
    | _ => True end) ->
  (forall l' f r u on idx, l ++ fs = l' ++ f :: r -> mf_ty f = TUnion u on idx ->
    exists g s, nth_error l' idx = Some g /\ mf_ty g = TRef (RStruct s) /\ mf_optional g = false /\
      forall data, len data = s_byte_size s -> bytes_ok data ->
        exists d, path_get (E:=rerror) m (d_root (u_disc u)) (d_index_list (u_disc u)) data = Ok d) ->
  Forall2 shape l prev -> off <= len b -> read_fields m emb e b fs off prev <> Panic.
Proof.
  intros m emb e b Hl Hb. induction fs as [|[nm ty opt s endi] fs IH]; intros l off prev H Hg Hu Hsh Ho; cbn [read_fields].
  { discriminate. }
  rewrite slice_from_ok by exact Ho. cbn [bind].
  assert (Hbd : bounded (read_optional m opt (read_ty m emb e endi prev ty))).
  { apply bounded_optional, bounded_ty. intros y _ ? ? ?. apply read_bounded. }
  apply bind_no_panic.
  - apply no_panic_optional.
    + apply bounded_ty. intros y _ ? ? ?. apply read_bounded.
    + apply no_panic_ty.
      * intros y Hy. apply (H (MkMField nm ty opt s endi)); [left; reflexivity|exact Hy].
      * specialize (Hg (MkMField nm ty opt s endi) (or_introl eq_refl)). cbn [mf_ty] in Hg.
        destruct ty as [ty|r| |ty|ty st|u on idx|ty x|]; try exact Hg.
        destruct (Hu l (MkMField nm (TUnion u on idx) opt s endi) fs u on idx eq_refl eq_refl)
          as (g & s0 & Hn & Ht & Hop & Hd).
        destruct (Forall2_nth_error_l _ _ _ _ _ _ _ Hsh Hn) as (v & Hv & Hs).
        destruct (Hs s0 Ht Hop) as (data & -> & Hlen & Hok). destruct (Hd data Hlen Hok) as (d & Hd').
        exists d. rewrite Hv. exact Hd'.
    + rewrite len_skipn; lia.
    + apply bytes_ok_skipn; exact Hb.
  - intros [k v] Hk. assert (Hkb : k <= len (skipn (N.to_nat off) b)).
    { eapply Hbd; [|exact Hk]. rewrite len_skipn; lia. } rewrite len_skipn in Hkb.
    rewrite uadd_fit by lia. cbn [bind]. apply (IH (l ++ [MkMField nm ty opt s endi])).
    + intros g y Hgi. apply (H g y). right. exact Hgi.
    + intros g Hgi. apply (Hg g). right. exact Hgi.
    + rewrite <- app_assoc. exact Hu.
    + apply Forall2_app; [exact Hsh|]. constructor; [|constructor].
      eapply (shape_read m emb e prev (MkMField nm ty opt s endi)); [|exact Hk]. apply bytes_ok_skipn; exact Hb.
    + lia.
Qed.

(** C26 *)
Theorem read_no_panic : forall m emb x, guarded_lengths emb x -> unions_linked m x ->
  forall b, len b < 2 ^ 64 -> bytes_ok b -> read_msg m emb x b <> Panic.
Proof.
  intros m emb. apply (message_ind_inside (fun x => guarded_lengths emb x -> unions_linked m x -> no_panic (read_msg m emb x))).
  intros x IH Hg Hu b Hl Hb. rewrite read_msg_eq. apply bind_no_panic; [|intros [n vs] _; discriminate].
  apply (no_panic_fields m emb _ b Hl Hb (m_fields x) [] 0 []).
  - intros g y Hgi Hy. apply (IH g y Hgi Hy).
    + intros e f Hp. apply (Hg e f). eapply part_deep; eauto.
    + intros z l f r u on idx Hz. apply Hu. eapply within_deep; eauto.
  - intros g Hgi. specialize (Hg _ g (part_here _ _ _ _ Hgi eq_refl)). exact Hg.
  - intros l' f r u on idx E. apply (Hu x l' f r u on idx (within_here x)). exact E.
  - constructor.
  - lia.
Qed.

(** ** Truncated input *)

(** [r] reports [Truncated] on every strict prefix of an encoding. *)
Definition cuts {A} (r : reader A) (enc : A -> bytes -> Prop) : Prop :=
  forall v p q, enc v (p ++ q) -> q <> [] -> len (p ++ q) < 2 ^ 64 -> r p = Err Truncated.

Lemma rmap_err : forall A B (f : A -> B) r b e, r b = Err e -> rmap f r b = Err e.
Proof. intros. unfold rmap. rewrite H. reflexivity. Qed.

Lemma app_split : forall A (p q a b : list A), p ++ q = a ++ b ->
  (exists a2, a = p ++ a2 /\ q = a2 ++ b /\ a2 <> []) \/ (exists p2, p = a ++ p2 /\ b = p2 ++ q).
Proof.
  intros A p. induction p as [|x p IH]; intros q a b E.
  - destruct a as [|y a].
    + right. exists []. auto.
    + left. exists (y :: a). cbn in *. split; [reflexivity|]. split; [exact E|discriminate].
  - destruct a as [|y a].
    + right. exists (x :: p). cbn in *. auto.
    + cbn in E. inversion E; subst. destruct (IH q a b H1) as [(a2 & -> & -> & Hn) | (p2 & -> & ->)].
      * left. exists a2. auto.
      * right. exists p2. auto.
Qed.

Lemma len_lt_app : forall (p q : bytes), q <> [] -> len p < len (p ++ q).
Proof. intros p q H. rewrite len_app. unfold len. destruct q; [congruence|]. cbn [length]. lia. Qed.

Lemma cuts_number : forall e ty, cuts (value_reader e ty) (number e (get_byte_size ty)).
Proof.
  intros e ty n p q H Hq _. apply value_reader_short. rewrite <- (number_len _ _ _ _ H). apply len_lt_app. exact Hq.
Qed.

Lemma cuts_ref : forall m emb pres r, (forall y, r = RMessage y -> cuts (read_msg m emb y) (enc_msg m pres y)) ->
  cuts (read_ref m emb r) (enc_ref m pres r).
Proof.
  intros m emb pres [s|x] H; [|apply (H x eq_refl)]. intros v p q He Hq Hl. destruct v; try contradiction.
  cbn [enc_ref] in He. destruct He as (Hs & _ & E). cbn [read_ref]. apply rmap_err. unfold struct_from_slice.
  subst data. pose proof (len_lt_app p q Hq). replace (len p <? s_byte_size s) with true by lia. reflexivity.
Qed.

Lemma list_loop_cut : forall m emb pres x items chunks, Forall2 (enc_msg m pres x) items chunks ->
  (forall s, reads m emb pres x s) -> cuts (read_msg m emb x) (enc_msg m pres x) ->
  forall pre p q, concat chunks = p ++ q -> q <> [] -> len (pre ++ p ++ q) < 2 ^ 64 ->
  list_loop m (read_msg m emb x) (pre ++ p) (length items) (len pre) = Err Truncated.
Proof.
  intros m emb pres x items chunks H Hr Hc. induction H as [|v c items chunks Hv _ IH]; intros pre p q E Hq Hl.
  { cbn in E. destruct p; [|discriminate]. destruct q; [congruence|discriminate]. }
  cbn [length list_loop]. rewrite slice_from_app. cbn [bind]. cbn [concat] in E. symmetry in E.
  rewrite !len_app in Hl.
  apply app_split in E. destruct E as [(a2 & -> & -> & Hn) | (p2 & -> & E2)].
  - rewrite (Hc v p a2 Hv Hn); [reflexivity|]. rewrite !len_app in *. lia.
  - rewrite !len_app in Hl. rewrite (Hr p2 v c Hv) by (rewrite len_app; lia). cbn [bind]. rewrite uadd_fit by lia. cbn [bind].
    rewrite app_assoc, <- len_app. apply (IH (pre ++ c) p2 q E2 Hq). rewrite !len_app. lia.
Qed.

Lemma no_nul_app : forall a b, no_nul (a ++ b) -> no_nul a.
Proof. intros a b H. apply Forall_app in H. apply H. Qed.

Lemma find_zero_clean : forall s i, no_nul s -> find_zero i s = None.
Proof.
  induction s as [|x s IH]; intros i H; [reflexivity|]. inversion H; subst. cbn [find_zero].
  destruct (N.eqb_spec x 0); [contradiction|]. apply IH. assumption.
Qed.

Lemma cuts_ty : forall m emb pres e endi prev t,
  (forall y, inside t y -> cuts (read_msg m emb y) (enc_msg m pres y)) ->
  (forall y, inside t y -> forall s, reads m emb pres y s) ->
  match t with
  | TVarcharString _ | TPayload => False
  | TList _ _ => e = true
  | _ => True
  end ->
  cuts (read_ty m emb e endi prev t) (enc_ty m pres endi prev t).
Proof.
  intros m emb pres e endi prev t H Hrd Hg. destruct t as [ty|r| |ty|ty st|u on idx|ty x|]; intros v p q He Hq Hl.
  - destruct v; try contradiction. cbn [read_ty]. apply rmap_err. cbn [enc_ty] in He.
    apply (cuts_number endi ty n p q); assumption.
  - rewrite read_ty_ref. apply (cuts_ref m emb pres r) with (v := v) (q := q); try assumption.
    intros y ->. apply H. constructor.
  - destruct v; try contradiction. cbn [enc_ty] in He. destruct He as (_ & Hn & E). cbn [read_ty]. apply rmap_err.
    unfold nts_from_slice. rewrite find_zero_clean; [reflexivity|].
    apply app_split in E. destruct E as [(a2 & -> & _) | (p2 & -> & E2)]; [apply no_nul_app in Hn; exact Hn|].
    destruct p2 as [|z p2]; [rewrite app_nil_r; exact Hn|]. inversion E2. destruct p2; [|discriminate].
    cbn in *. destruct q; [congruence|discriminate].
  - contradiction.
  - destruct v; try contradiction. cbn [enc_ty] in He. destruct He as (Hd & _ & p0 & Hp & E). cbn [read_ty]. apply rmap_err.
    unfold array_from_slice. pose proof E as E0.
    apply app_split in E. destruct E as [(a2 & -> & _ & Hn) | (p2 & -> & E2)].
    + rewrite (cuts_number endi ty n p a2 Hp Hn); [reflexivity|]. rewrite E0 in Hl. rewrite !len_app in *. lia.
    + rewrite (value_reader_app _ _ _ _ _ Hp). cbn [bind]. rewrite <- (number_len _ _ _ _ Hp).
      rewrite !len_app in Hl. pose proof (len_lt_app p2 q Hq) as Hlt. rewrite <- E2 in Hlt.
      assert (Hdl : len data = len p2 + len q) by (rewrite E2, len_app; reflexivity).
      rewrite umul_fit by lia. cbn [bind]. rewrite uadd_fit by lia. cbn [bind]. rewrite len_app.
      replace (len p0 + len p2 <? len p0 + n * s_byte_size st) with true by lia. reflexivity.
  - destruct v; try contradiction. cbn [enc_ty] in He. apply enc_union_iff in He.
    destruct He as (data & disc & c & Hon & Hgt & Hc & Hi). rewrite read_ty_union, read_union_eq, Hon.
    cbn [read_discriminant]. rewrite Hgt. cbn [bind]. rewrite Hc. apply find_case_in in Hc. destruct Hc as (Hin & _).
    unfold enc_item in Hi. destruct (uc_item c) as [r|] eqn:Er; destruct item as [x|]; try contradiction.
    + rewrite (cuts_ref m emb pres r) with (v := x) (q := q); try assumption; [reflexivity|].
      intros y ->. apply H. econstructor; eauto.
    + destruct p; [|discriminate]. cbn in Hi. congruence.
  - subst e. destruct v; try contradiction. cbn [enc_ty] in He.
    destruct He as (p0 & items & chunks & Hp & Hn & Hf & Hd & E). rewrite read_ty_list. apply rmap_err.
    unfold list_from_slice. pose proof E as E0.
    apply app_split in E. destruct E as [(a2 & -> & _ & Hn2) | (p2 & -> & E2)].
    + rewrite (cuts_number endi ty n p a2 Hp Hn2); [reflexivity|]. rewrite E0 in Hl. rewrite !len_app in *. lia.
    + rewrite (value_reader_app _ _ _ _ _ Hp). cbn [bind]. rewrite <- (number_len _ _ _ _ Hp).
      rewrite slice_from_app. cbn [bind]. subst n. replace (N.to_nat (len items)) with (length items) by (unfold len; lia).
      assert (G : list_loop m (read_msg m emb x) ([] ++ p2) (length items) (len (@nil N)) = Err Truncated).
      { eapply (list_loop_cut m emb pres x items chunks Hf); [apply Hrd; constructor|apply H; constructor| |exact Hq|].
        - rewrite <- Hd. exact E2.
        - cbn [app]. rewrite !len_app in *. lia. }
      cbn [app] in G. change (len (@nil N)) with 0 in G. rewrite G. reflexivity.
  - contradiction.
Qed.

Lemma cuts_optional : forall m pres opt r enc, cuts r enc -> cuts (read_optional m opt r) (enc_optional pres opt enc).
Proof.
  intros m pres opt r enc H. unfold read_optional, enc_optional. destruct opt; [|exact H].
  intros v p q He Hq Hl. apply rmap_err. unfold optional_from_slice. destruct v; try contradiction.
  destruct p as [|fl p]; [reflexivity|]. destruct o as [x|].
  - destruct He as (n & b' & Hn & _ & E & He). cbn [app] in E. inversion E; subst.
    replace (len (n :: p) <? 1) with false by (unfold len; cbn [length]; lia). cbn [nth_error unwrap bind].
    replace (0 <? n) with true by lia. rewrite slice_from_ok by (unfold len; cbn [length]; lia). cbn [bind].
    change (skipn (N.to_nat 1) (n :: p)) with p. rewrite (H x p q He Hq); [reflexivity|].
    unfold len in *. cbn [app length] in Hl. lia.
  - exfalso. cbn in He. destruct p; [|discriminate]. destruct q; [congruence|discriminate].
Qed.

Lemma cuts_fields : forall m emb pres e fs prev rest pre p q,
  (forall g, In g fs -> forall s, reads_field m emb pres e g s) ->
  (forall g prev, In g fs -> cuts (read_ty m emb e (mf_endi g) prev (mf_ty g)) (enc_ty m pres (mf_endi g) prev (mf_ty g))) ->
  enc_fields m pres fs prev rest (p ++ q) -> q <> [] -> len (pre ++ p ++ q) < 2 ^ 64 ->
  read_fields m emb e (pre ++ p) fs (len pre) prev = Err Truncated.
Proof.
  intros m emb pres e. induction fs as [|[nm ty opt s endi] fs IH]; intros prev rest pre p q Hr Hc He Hq Hl.
  { destruct rest; [|contradiction]. cbn in He. destruct p; [|discriminate]. cbn in He. congruence. }
  destruct rest as [|y rest]; [contradiction|]. cbn [enc_fields mf_optional mf_endi mf_ty] in He.
  destruct He as (b1 & b2 & E & H1 & H2). cbn [read_fields]. rewrite slice_from_app. cbn [bind].
  rewrite !len_app in Hl.
  pose proof (Hc (MkMField nm ty opt s endi) prev (or_introl eq_refl)) as Hc0. cbn [mf_endi mf_ty] in Hc0.
  apply app_split in E. destruct E as [(a2 & -> & -> & Hn) | (p2 & -> & ->)].
  - rewrite (cuts_optional m pres opt _ _ Hc0 y p a2 H1 Hn); [reflexivity|]. rewrite !len_app in *. lia.
  - rewrite !len_app in Hl.
    pose proof (Hr (MkMField nm ty opt s endi) (or_introl eq_refl) p2 prev y b1 H1) as G.
    cbn [mf_endi mf_ty mf_optional] in G. rewrite G by (rewrite len_app; lia). cbn [bind].
    rewrite uadd_fit by lia. cbn [bind]. rewrite app_assoc, <- len_app.
    apply (IH (prev ++ [y]) rest (pre ++ b1) p2 q).
    + intros g Hg. apply Hr. right. exact Hg.
    + intros g pv Hg. apply Hc. right. exact Hg.
    + exact H2.
    + exact Hq.
    + rewrite !len_app. lia.
Qed.

(** C27 *)
Definition no_varchar (emb : N -> bool) (x : message) : Prop :=
  forall e f ty, part emb x e f -> mf_ty f <> TVarcharString ty.

Theorem truncated : forall m emb pres x, self_delimiting emb x -> no_varchar emb x ->
  cuts (read_msg m emb x) (enc_msg m pres x).
Proof.
  intros m emb pres. apply (message_ind_inside (fun x => self_delimiting emb x -> no_varchar emb x ->
    cuts (read_msg m emb x) (enc_msg m pres x))).
  intros x IH Hsd Hnv v p q He Hq Hl. apply enc_msg_inv in He. destruct He as (vs & -> & He). rewrite read_msg_eq.
  assert (Hin : forall g y, In g (m_fields x) -> inside (mf_ty g) y -> self_delimiting emb y)
    by (intros; eapply self_delimiting_inside; eauto).
  assert (G : read_fields m emb (emb (m_id x)) ([] ++ p) (m_fields x) (len (@nil N)) [] = Err Truncated).
  { apply (cuts_fields m emb pres _ _ [] vs [] p q).
    - intros g Hg s. pose proof (Hsd _ g (part_here _ _ _ _ Hg eq_refl)) as Hp. apply reads_field_intro.
      + intros y Hy _. apply self_delimiting_reads. eapply Hin; eauto.
      + intros ty y E. rewrite E in Hp. split; [|congruence]. intros _ s0. apply self_delimiting_reads.
        apply (Hin g y Hg). rewrite E. constructor.
      + intro E. rewrite E in Hp. contradiction.
    - intros g prev Hg. pose proof (Hsd _ g (part_here _ _ _ _ Hg eq_refl)) as Hp. apply cuts_ty.
      + intros y Hy. apply (IH g y Hg Hy); [eapply Hin; eauto|]. intros e f ty Hpt. apply (Hnv e f ty). eapply part_deep; eauto.
      + intros y Hy s. apply self_delimiting_reads. eapply Hin; eauto.
      + destruct (mf_ty g) as [| | |ty| | | |] eqn:Et; try exact Hp.
        exact (Hnv _ g ty (part_here _ _ _ _ Hg eq_refl) Et).
    - exact He.
    - exact Hq.
    - exact Hl. }
  cbn [app] in G. change (len (@nil N)) with 0 in G. rewrite G. reflexivity.
Qed.
