(** The writer sends exactly what SpecEncode says, for C79. *)

From Coq Require Import Arith NArith ZArith List Bool Lia ZifyBool ZifyN ZifyNat.
From Verif Require Import Base Schema Codec Compiler Access Bits BitsFacts CodecFacts StructFacts ArrayThms BEThms
  Runtime Gen SpecWire SpecUnion MsgFacts WriteThms SpecDecode DecodeThms SpecEncode.
Import ListNotations.
Local Open Scope N_scope.

Definition gives (f : forall St, sink St -> wr St) (p : bytes) (r : rres unit) : Prop :=
  exists cs, follows f cs r /\ concat cs = p.

Lemma gives_emits : forall f p, emits f p -> gives f p (Ok tt).
Proof. intros f p H. exact H. Qed.
Lemma gives_unique : forall f p r p' r', gives f p r -> gives f p' r' -> p = p' /\ r = r'.
Proof.
  intros f p r p' r' (cs & Hf & <-) (ds & Hg & <-). pose proof (Hf bytes vec_sink []) as H1.
  pose proof (Hg bytes vec_sink []) as H2. rewrite feed_vec in H1, H2. rewrite H1 in H2. inversion H2. auto.
Qed.
Lemma gives_ext : forall f g p r, (forall St (w : sink St) s, f St w s = g St w s) -> gives g p r -> gives f p r.
Proof. intros f g p r H (cs & Hg & Hc). exists cs. split; [|exact Hc]. intros St w s. rewrite H. apply Hg. Qed.
Lemma gives_panic : gives (fun St w => wpanic) [] Panic.
Proof. exists []. split; [|reflexivity]. intros St w s. reflexivity. Qed.
Lemma gives_fail : forall e, gives (fun St w => wfail e) [] (Err e).
Proof. intro e. exists []. split; [|reflexivity]. intros St w s. reflexivity. Qed.
Lemma gives_seq : forall f g a b r, gives f a (Ok tt) -> gives g b r -> gives (fun St w => wseq (f St w) (g St w)) (a ++ b) r.
Proof.
  intros f g a b r (cs & Hf & Hc) (ds & Hg & Hd). exists (cs ++ ds). split; [apply follows_seq; assumption|].
  rewrite concat_app, Hc, Hd. reflexivity.
Qed.
Lemma gives_seq_fail : forall f g a r, r <> Ok tt -> gives f a r -> gives (fun St w => wseq (f St w) (g St w)) a r.
Proof. intros f g a r Hr (cs & Hf & Hc). exists cs. split; [apply follows_seq_fail; assumption|exact Hc]. Qed.

Lemma gives_prefix : forall e sz n p, number e sz (n mod 256 ^ N.of_nat sz) p ->
  gives (fun St w => value_write w (order_of e) sz (from_usize sz n)) p (Ok tt).
Proof.
  intros e sz n p H. apply gives_emits. unfold from_usize, tmod. apply emits_number.
  replace (2 ^ (8 * N.of_nat sz)) with (256 ^ N.of_nat sz); [exact H|]. rewrite N.pow_mul_r. reflexivity.
Qed.

Lemma no_items : forall u, union_has_items (u_cases u) = false <-> forall c, In c (u_cases u) -> uc_item c = None.
Proof.
  intro u. unfold union_has_items. split.
  - intros H c Hc. destruct (uc_item c) eqn:E; [|reflexivity]. exfalso.
    assert (G : existsb (fun c => match uc_item c with Some _ => true | None => false end) (u_cases u) = true).
    { apply existsb_exists. exists c. rewrite E. auto. } congruence.
  - intro H. destruct (existsb _ _) eqn:E; [|reflexivity]. apply existsb_exists in E. destruct E as (c & Hc & E).
    rewrite (H c Hc) in E. discriminate.
Qed.
Lemma some_item : forall u c, In c (u_cases u) -> uc_item c <> None -> union_has_items (u_cases u) = true.
Proof.
  intros u c Hc Hn. destruct (union_has_items (u_cases u)) eqn:E; [reflexivity|].
  destruct Hn. exact (proj1 (no_items u) E c Hc).
Qed.
Lemma has_item : forall u, union_has_items (u_cases u) = true -> exists c, In c (u_cases u) /\ uc_item c <> None.
Proof.
  intros u H. unfold union_has_items in H. apply existsb_exists in H. destruct H as (c & Hc & H). exists c. split; [exact Hc|].
  destruct (uc_item c); [discriminate|discriminate].
Qed.

Section Sends.
Variable m : mode.

Lemma disc_cases : forall u on, (exists data d, on = Some (VStruct data) /\ discriminant m u data d /\
    read_discriminant m (u_disc u) on = Ok d) \/
  ((forall data d, on = Some (VStruct data) -> ~ discriminant m u data d) /\ read_discriminant m (u_disc u) on = Panic).
Proof.
  intros u on. unfold read_discriminant, discriminant. destruct on as [[| data | | | | | |]|];
    try (right; split; [intros; discriminate|reflexivity]).
  destruct (path_get m (d_root (u_disc u)) (d_index_list (u_disc u)) data) as [d|er|] eqn:P.
  - left. exists data, d. auto.
  - exfalso. exact (path_get_quiet m _ _ _ er P).
  - right. split; [|reflexivity]. intros data' d E. inversion E; subst. congruence.
Qed.

Definition right_for (y : message) : Prop := forall v p r, sends m y v p r -> gives (fun St w => write_msg m w y v) p r.

Lemma sends_item_right : forall t, (forall y, t = RMessage y -> right_for y) ->
  forall v p r, sends_item m t v p r -> gives (fun St w => write_ref m w t v) p r.
Proof.
  intros t H v p r Hs. inversion Hs; subst.
  - eapply (gives_ext _ (fun St w => put w p)); [|apply gives_emits, emits_put].
    intros St w s0. cbn [write_ref]. unfold struct_write, wlet, slice.
    replace ((0 <=? s_byte_size s) && (s_byte_size s <=? len (p ++ rest))) with true by (rewrite len_app; lia).
    rewrite N.sub_0_r. cbn [N.to_nat skipn]. rewrite <- H0, firstn_len_app. reflexivity.
  - eapply (gives_ext _ (fun St w => wpanic)); [|apply gives_panic].
    intros St w s0. cbn [write_ref]. unfold struct_write, wlet, slice.
    replace ((0 <=? s_byte_size s) && (s_byte_size s <=? len data)) with false by lia. reflexivity.
  - apply (H y eq_refl). assumption.
Qed.

Lemma union_right : forall u on k item disc, on = Ok disc -> forall all i, read_discriminant m (u_disc u) (nth_error all i) = on ->
  union_has_items (u_cases u) = true -> forall c, nth_error (u_cases u) k = Some c ->
  forall St (w : sink St) s, write_union m w u (nth_error all i) (VUnion k item) s = write_arm m w disc c item s.
Proof.
  intros u on k item disc Hon all i Hd Hi c Hc St w s. rewrite write_union_eq, Hi, Hd, Hon, Hc. reflexivity.
Qed.

Lemma sends_content_right : forall t, (forall y, inside t y -> right_for y) ->
  forall endi all v p r, sends_content m endi all t v p r -> gives (fun St w => write_ty m w endi all t v) p r.
Proof.
  intros t H endi all v p r Hs. inversion Hs; subst.
  - apply gives_emits. apply (emits_number _ _ _ _ H0).
  - change (gives (fun St w => write_ref m w t0 v) p r). apply sends_item_right; [|assumption].
    intros y ->. apply H. constructor.
  - apply (gives_seq (fun St w => put w s) (fun St w => put w [0])); apply gives_emits, emits_put.
  - apply (gives_seq (fun St w => value_write w _ _ _) (fun St w => put w s)); [apply gives_prefix; assumption|apply gives_emits, emits_put].
  - apply (gives_seq (fun St w => value_write w _ _ _) (fun St w => put w data)); [apply gives_prefix; assumption|apply gives_emits, emits_put].
  - apply (gives_seq (fun St w => value_write w _ _ _) (fun St w => put w data)); [apply gives_prefix; assumption|apply gives_emits, emits_put].
  - apply gives_emits, emits_put.
  - change (gives (fun St w => write_union m w u (nth_error all i) (VUnion k None)) [] (Ok tt)).
    eapply (gives_ext _ (fun St w => wdone)); [|apply gives_emits, emits_done].
    intros St w s. rewrite write_union_eq. rewrite (proj2 (no_items u) H0). reflexivity.
  - change (gives (fun St w => write_union m w u (nth_error all i) (VUnion k None)) [] (Ok tt)).
    eapply (gives_ext _ (fun St w => write_arm m w d c None)).
    + intros St w s. eapply union_right; [reflexivity| |eapply some_item; eassumption|eassumption].
      unfold read_discriminant. rewrite H2. assumption.
    + unfold write_arm. rewrite H5. apply gives_emits, emits_done.
  - change (gives (fun St w => write_union m w u (nth_error all i) (VUnion k (Some v0))) p r).
    assert (Hin : In c (u_cases u)) by (eapply nth_error_In; eassumption).
    eapply (gives_ext _ (fun St w => write_arm m w (uc_case c) c (Some v0))).
    + intros St w s. eapply union_right; [reflexivity| |eapply some_item; [exact Hin|congruence]|eassumption].
      unfold read_discriminant. rewrite H0. assumption.
    + unfold write_arm. rewrite H3, N.eqb_refl. apply sends_item_right; [|assumption].
      intros y ->. apply H. econstructor; eassumption.
  - change (gives (fun St w => write_union m w u (nth_error all i) (VUnion k (Some v0))) [] (Err (InvalidUnionDiscriminant d))).
    assert (Hin : In c (u_cases u)) by (eapply nth_error_In; eassumption).
    eapply (gives_ext _ (fun St w => write_arm m w d c (Some v0))).
    + intros St w s. eapply union_right; [reflexivity| |eapply some_item; [exact Hin|congruence]|eassumption].
      unfold read_discriminant. rewrite H0. assumption.
    + unfold write_arm. rewrite H4. destruct (N.eqb_spec d (uc_case c)); [congruence|]. apply gives_fail.
  - change (gives (fun St w => write_union m w u (nth_error all i) (VUnion k v0)) [] Panic).
    eapply (gives_ext _ (fun St w => wpanic)); [|apply gives_panic].
    intros St w s. rewrite write_union_eq, (some_item u c) by assumption.
    destruct (disc_cases u (nth_error all i)) as [(data & d & Hat & Hd & _)|(_ & ->)]; [|reflexivity].
    exfalso. eapply H2; eassumption.
Qed.

Lemma sends_member_right : forall all f, (forall y, inside (mf_ty f) y -> right_for y) ->
  forall v p r, sends_member m all f v p r ->
  gives (fun St w => write_optional w (mf_optional f) (write_ty m w (mf_endi f) all (mf_ty f)) v) p r.
Proof.
  intros all f H v p r Hs. inversion Hs; subst; unfold write_optional;
    match goal with X : mf_optional f = _ |- _ => rewrite X end.
  - apply sends_content_right; assumption.
  - apply gives_emits, emits_put.
  - apply (gives_seq (fun St w => put w [1]) (fun St w => write_ty m w (mf_endi f) all (mf_ty f) v0) [1]);
      [apply gives_emits, emits_put|]. apply sends_content_right; assumption.
Qed.

Lemma sends_members_right : forall all fs, (forall g y, In g fs -> inside (mf_ty g) y -> right_for y) ->
  forall vs p r, sends_members m all fs vs p r -> gives (fun St w => write_fields m w all fs vs) p r.
Proof.
  intros all. induction fs as [|f fs IH]; intros H vs p r Hs; inversion Hs; subst.
  - apply gives_emits, emits_done.
  - match goal with X : sends_member _ _ _ _ _ _ |- _ => apply sends_member_right in X; [|intros y; apply (H f y); left; reflexivity]; rename X into Hm end.
    match goal with X : sends_members _ _ _ _ _ _ |- _ => apply IH in X; [|intros g y Hg; apply (H g y); right; exact Hg]; rename X into Hr end.
    destruct f as [nm ty opt sz endi]. exact (gives_seq _ _ _ _ _ Hm Hr).
  - match goal with X : sends_member _ _ _ _ _ _ |- _ => apply sends_member_right in X; [|intros y; apply (H f y); left; reflexivity]; rename X into Hm end.
    destruct f as [nm ty opt sz endi].
    match goal with X : _ <> Ok tt |- _ => exact (gives_seq_fail _ (fun St w => write_fields m w all fs vs0) _ _ X Hm) end.
Qed.

Theorem sends_right : forall x, right_for x.
Proof.
  apply (message_ind_inside right_for). intros x IH v p r Hs. inversion Hs; subst.
  eapply (gives_ext _ (fun St w => write_fields m w vs (m_fields x) vs)).
  - intros St w s. rewrite write_msg_eq. reflexivity.
  - apply sends_members_right; assumption.
Qed.

(** ** Every value of the type has its result *)

Definition total_for (y : message) : Prop := forall v, has_type y v -> exists p r, sends m y v p r.

Lemma item_total : forall t, (forall y, t = RMessage y -> total_for y) ->
  forall v, item_typed t v -> exists p r, sends_item m t v p r.
Proof.
  intros t H v Hv. inversion Hv; subst.
  - destruct (N.le_gt_cases (s_byte_size s) (len data)) as [Hl|Hl].
    + destruct (take_prefix (fun _ => false) data (s_byte_size s) Hl) as (d & q & -> & Hd). exists d, (Ok tt). constructor. exact Hd.
    + exists [], Panic. constructor. exact Hl.
  - destruct (H y eq_refl v H0) as (p & r & Hp). exists p, r. constructor. exact Hp.
Qed.

Lemma number_exists : forall e sz n, n < 256 ^ N.of_nat sz -> exists p, number e sz n p.
Proof.
  intros e sz n Hn. exists (num_bytes e sz n). apply number_iff. split; [|reflexivity].
  unfold tmod. rewrite N.pow_mul_r. exact Hn.
Qed.
Lemma prefix_exists : forall e sz n, exists p, number e sz (n mod 256 ^ N.of_nat sz) p.
Proof. intros. apply number_exists. apply N.mod_upper_bound. apply N.pow_nonzero. discriminate. Qed.

Lemma content_total : forall t, (forall y, inside t y -> total_for y) ->
  forall endi all v, content_typed t v -> exists p r, sends_content m endi all t v p r.
Proof.
  intros t H endi all v Hv. inversion Hv; subst.
  - destruct (number_exists endi (get_byte_size ty) n H0) as (p & Hp). eexists _, _. constructor. exact Hp.
  - destruct (item_total t0 (fun y E => H y ltac:(subst; constructor)) v H0) as (p & r & Hp). eexists _, _. constructor. exact Hp.
  - eexists _, _. constructor.
  - destruct (prefix_exists endi (get_byte_size ty) (len s)) as (p & Hp). eexists _, _. constructor. exact Hp.
  - destruct (prefix_exists endi (get_byte_size ty) n) as (p & Hp). eexists _, _. constructor. exact Hp.
  - destruct (union_has_items (u_cases u)) eqn:E.
    + destruct (has_item u E) as (c' & Hc' & Hn).
      destruct (disc_cases u (nth_error all i)) as [(data & d & Hat & Hd & _)|(Hno & _)].
      * eexists _, _. eapply case_sent; eassumption.
      * eexists _, _. eapply case_stuck; eassumption.
    + eexists _, _. apply nothing_sent. exact (proj1 (no_items u) E).
  - assert (Hin : In c (u_cases u)) by (eapply nth_error_In; eassumption).
    destruct (disc_cases u (nth_error all i)) as [(data & d & Hat & Hd & _)|(Hno & _)].
    + destruct (N.eq_dec d (uc_case c)) as [->|Hne].
      * destruct (item_total t0) with (v := v0) as (p & r & Hp);
          [intros y ->; apply H; econstructor; eassumption|assumption|].
        eexists _, _. eapply case_item_sent; eassumption.
      * eexists _, _. eapply case_mismatch; eassumption.
    + eexists _, _. eapply case_stuck; [exact Hin|congruence|exact Hno].
  - destruct (prefix_exists endi (get_byte_size ty) n) as (p & Hp). eexists _, _. constructor. exact Hp.
  - eexists _, _. constructor.
Qed.

Lemma member_total : forall all f, (forall y, inside (mf_ty f) y -> total_for y) ->
  forall v, member_typed f v -> exists p r, sends_member m all f v p r.
Proof.
  intros all f H v Hv. inversion Hv; subst.
  - destruct (content_total (mf_ty f) H (mf_endi f) all v) as (p & r & Hp); [assumption|]. eexists _, _. apply mandatory_sent; eassumption.
  - eexists _, _. apply absent_sent. assumption.
  - destruct (content_total (mf_ty f) H (mf_endi f) all v0) as (p & r & Hp); [assumption|]. eexists _, _. apply present_sent; eassumption.
Qed.

Lemma members_total : forall all fs vs, Forall2 member_typed fs vs ->
  (forall g y, In g fs -> inside (mf_ty g) y -> total_for y) -> exists p r, sends_members m all fs vs p r.
Proof.
  intros all fs vs HF. induction HF as [|f v fs vs Hv HF IH]; intro H.
  - eexists _, _. constructor.
  - destruct (member_total all f (fun y => H f y (or_introl eq_refl)) v Hv) as (p & r & Hp).
    destruct IH as (q & r' & Hq); [intros g y Hg; apply (H g y); right; exact Hg|].
    destruct r as [[]|e|].
    + eexists _, _. eapply member_sent; eassumption.
    + eexists _, _. eapply member_ends; [exact Hp|discriminate].
    + eexists _, _. eapply member_ends; [exact Hp|discriminate].
Qed.

Theorem sends_total : forall x, total_for x.
Proof.
  apply (message_ind_inside total_for). intros x IH v Hv. inversion Hv; subst.
  destruct (members_total vs (m_fields x) vs H IH) as (p & r & Hp). exists p, r. constructor. exact Hp.
Qed.

End Sends.

Theorem encode_exact : forall m x v, has_type x v -> forall p r,
  sends m x v p r <-> forall s, write_vec m x v s = (s ++ p, r).
Proof.
  intros m x v Hv p r. split.
  - intros H s. destruct (sends_right m x v p r H) as (cs & Hf & <-). unfold write_vec. rewrite (Hf bytes vec_sink s). apply feed_vec.
  - intro H. destruct (sends_total m x v Hv) as (p' & r' & Hs).
    destruct (sends_right m x v p' r' Hs) as (cs & Hf & Hc). specialize (H []). unfold write_vec in H.
    rewrite (Hf bytes vec_sink []), feed_vec, Hc in H. inversion H; subst. exact Hs.
Qed.

Theorem encode_anywhere : forall m x v p r St (w : sink St) received s s' q, honest w received ->
  sends m x v p r -> write_msg m w x v s = (s', q) ->
  (q = r /\ received s' = received s ++ p) \/
  (exists e s1 c, q = Err e /\ write_all w s1 c = (s', Err e) /\ exists p1 p2, p = p1 ++ p2 /\ received s' = received s ++ p1).
Proof.
  intros m x v p r St w rc s s' q Hh Hs H. destruct (sends_right m x v p r Hs) as (cs & Hf & <-).
  rewrite Hf in H. destruct (feed_honest _ _ _ Hh _ _ _ _ _ H) as [(-> & Hr) | (e & a & c & d & -> & Hw & -> & p1 & p2 & Hpq & Hr)].
  - left. auto.
  - right. exists e, a, c. split; [reflexivity|]. split; [exact Hw|]. exists p1, p2. auto.
Qed.

Theorem encode_size : forall m x v p r, sends m x v p r -> len p < 2 ^ 64 ->
  size_of_msg m x v = match r with Ok _ => Ok (len p) | Err e => Err e | Panic => Panic end.
Proof.
  intros m x v p r Hs Hl. destruct (sends_right m x v p r Hs) as (cs & Hf & <-).
  unfold size_of_msg, size_of. rewrite (Hf N (counter_sink m) 0), feed_counter by (rewrite N.add_0_l; exact Hl).
  destruct r; reflexivity.
Qed.

(** ** Values that have an encoding, and values that were read, have the type *)

Lemma number_fits : forall e sz n p, number e sz n p -> n < 256 ^ N.of_nat sz.
Proof.
  intros e sz n p H. apply number_iff in H. destruct H as (H & _). unfold tmod in H. rewrite N.pow_mul_r in H. exact H.
Qed.

Lemma decoded_typed : forall m emb x b c v r, decodes m emb x b (Found c v r) -> has_type x v.
Proof.
  intros m emb. apply (message_ind_inside (fun x => forall b c v r, decodes m emb x b (Found c v r) -> has_type x v)).
  intros x IH b c v r H. inversion H; subst. constructor.
  match goal with X : members _ _ _ _ _ _ _ |- _ => rename X into HM end. clear H.
  remember (m_fields x) as fs eqn:E. clear E. revert IH HM. generalize (@nil value) (emb (m_id x)). intros prev e IH HM.
  revert prev b c vs r HM. induction fs as [|f fs IHf]; intros prev b c vs r HM; inversion HM; subst; [constructor|].
  constructor; [|eapply IHf; [intros g y Hg; apply (IH g y); right; exact Hg|eassumption]].
  specialize (fun y => IH f y (or_introl eq_refl)).
  assert (HT : forall t b c v r, (forall y, t = RMessage y -> inside (mf_ty f) y) ->
      target m emb t b (Found c v r) -> item_typed t v).
  { intros t bb cc vv rr Hin Ht. inversion Ht; subst; constructor. eapply IH; [apply Hin; reflexivity|eassumption]. }
  assert (HC : forall b c v r, content m emb e (mf_endi f) prev (mf_ty f) b (Found c v r) -> content_typed (mf_ty f) v).
  { intros bb cc vv rr Hc. inversion Hc; subst;
      match goal with X : _ = mf_ty f |- _ => symmetry in X; rename X into Et; rewrite Et in * end.
    - constructor. eapply number_fits; eassumption.
    - constructor. eapply HT; [|eassumption]. intros y ->. constructor.
    - constructor.
    - constructor.
    - constructor.
    - match goal with X : first_case _ _ _ _ |- _ => destruct X as (Hn & _ & _) end. eapply case_typed; [exact Hn|assumption|reflexivity].
    - match goal with X : first_case _ _ _ _ |- _ => destruct X as (Hn & _ & _) end. eapply case_item_typed; [exact Hn|eassumption|].
      eapply HT; [|eassumption]. intros y ->. econstructor; [eapply nth_error_In; exact Hn|eassumption].
    - constructor.
    - constructor.
    - constructor. }
  match goal with X : member _ _ _ _ _ _ _ |- _ => inversion X; subst end.
  - apply mandatory_typed; [assumption|]. eapply HC; eassumption.
  - apply absent_typed; assumption.
  - apply present_typed; [assumption|]. eapply HC; eassumption.
Qed.

Theorem read_typed : forall m emb x b n v, len b < 2 ^ 64 -> bytes_ok b -> read_msg m emb x b = Ok (n, v) -> has_type x v.
Proof.
  intros m emb x b n v Hl Hb H. destruct (decode_exact m emb x b Hl Hb) as (HO & _ & _).
  apply HO in H. destruct H as (c & r & _ & _ & H). eapply decoded_typed; exact H.
Qed.

Theorem encodes_sent : forall m x v b, encodes m x v b -> has_type x v /\ sends m x v b (Ok tt).
Proof.
  intros m x v b H. assert (HT : has_type x v).
  { revert x v b H. apply (message_ind_inside (fun x => forall v b, encodes m x v b -> has_type x v)).
    intros x IH v b H. apply enc_msg_inv in H. destruct H as (vs & -> & H). constructor.
    remember (m_fields x) as fs eqn:E. clear E. revert IH H. generalize (@nil value). intros prev IH H.
    revert prev b vs H. induction fs as [|f fs IHf]; intros prev b vs H; (destruct vs as [|v vs]; [|]); try contradiction; [constructor|].
    cbn [enc_fields] in H. destruct H as (b1 & b2 & -> & H1 & H2).
    constructor; [|eapply IHf; [intros g y Hg; apply (IH g y); right; exact Hg|eassumption]].
    specialize (fun y => IH f y (or_introl eq_refl)).
    assert (HR : forall t v b, (forall y, t = RMessage y -> inside (mf_ty f) y) -> enc_ref m (fun p => p = 1) t v b -> item_typed t v).
    { intros [s|y] v0 b0 Hin Ht; [destruct v0; try contradiction; constructor|constructor].
      eapply IH; [apply Hin; reflexivity|exact Ht]. }
    assert (HC : forall v b, enc_ty m (fun p => p = 1) (mf_endi f) prev (mf_ty f) v b -> content_typed (mf_ty f) v).
    { intros v0 b0 Hc. destruct (mf_ty f) as [ty|t| |ty|ty s|u on i|ty y|] eqn:Et; cbn [enc_ty] in Hc.
      - destruct v0; try contradiction. constructor. eapply number_fits; eassumption.
      - constructor. eapply HR; [|exact Hc]. intros y ->. constructor.
      - destruct v0; try contradiction. constructor.
      - destruct v0; try contradiction. constructor.
      - destruct v0; try contradiction. constructor.
      - destruct v0; try contradiction. apply enc_union_iff in Hc. destruct Hc as (data & d & c & _ & _ & Hc & Hi).
        apply find_case_in in Hc. destruct Hc as (Hin & _ & _ & Hn). rewrite Nat.sub_0_r in Hn. unfold enc_item in Hi.
        destruct (uc_item c) as [t|] eqn:Ei; destruct item as [z|]; try contradiction.
        + eapply case_item_typed; [exact Hn|exact Ei|]. eapply HR; [|exact Hi]. intros y ->. econstructor; eassumption.
        + eapply case_typed; [exact Hn|exact Ei|reflexivity].
      - destruct v0; try contradiction. constructor.
      - destruct v0; try contradiction. constructor. }
    unfold enc_optional in H1. destruct (mf_optional f) eqn:Eo.
    - destruct v; try contradiction. destruct o as [z|].
      + destruct H1 as (p & b' & _ & _ & _ & H1). apply present_typed; [exact Eo|]. eapply HC; exact H1.
      + apply absent_typed; exact Eo.
    - apply mandatory_typed; [exact Eo|]. eapply HC; exact H1. }
  split; [exact HT|]. apply encode_exact; [exact HT|]. intro s. apply write_vec_encodes. exact H.
Qed.
