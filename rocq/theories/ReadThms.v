(** Reading back what was written. *)

From Coq Require Import Arith NArith ZArith List Bool Lia ZifyBool ZifyN ZifyNat.
From Verif Require Import Base Schema Codec Compiler Access Bits BitsFacts CodecFacts StructFacts BEThms
  Utf8 SpecUtf8 Utf8Thms Runtime Gen SpecWire MsgFacts WriteThms.
Import ListNotations.
Local Open Scope N_scope.

(** ** Encodings read in front of a suffix *)

(** Every encoding of [x] followed by [s] is read back. *)
Definition reads (m : mode) (emb : N -> bool) (pres : N -> Prop) (x : message) (s : bytes) : Prop :=
  forall v b, enc_msg m pres x v b -> len (b ++ s) < 2 ^ 64 -> read_msg m emb x (b ++ s) = Ok (len b, v).

Lemma find_zero_app : forall s r i, no_nul s -> find_zero i (s ++ 0 :: r) = Some (i + len s).
Proof.
  induction s as [|x s IH]; intros r i H.
  - cbn. unfold len. cbn. f_equal. lia.
  - inversion H; subst. cbn [app find_zero]. destruct (N.eqb_spec x 0); [contradiction|].
    rewrite IH by assumption. f_equal. unfold len. cbn [length]. lia.
Qed.

Lemma slice_prefix : forall E (a b : bytes), slice (E:=E) (a ++ b) 0 (len a) = Ok a.
Proof.
  intros E a b. unfold slice. rewrite len_app. replace ((0 <=? len a) && (len a <=? len a + len b)) with true by lia.
  rewrite N.sub_0_r. cbn [N.to_nat skipn]. rewrite firstn_len_app. reflexivity.
Qed.

Lemma slice_middle : forall E (a b c : bytes), slice (E:=E) (a ++ b ++ c) (len a) (len a + len b) = Ok b.
Proof.
  intros E a b c. unfold slice. rewrite !len_app.
  replace ((len a <=? len a + len b) && (len a + len b <=? len a + (len b + len c))) with true by lia.
  replace (len a + len b - len a) with (len b) by lia. rewrite skipn_len_app, firstn_len_app. reflexivity.
Qed.

Lemma slice_from_app : forall E (a b : bytes), slice_from (E:=E) (a ++ b) (len a) = Ok b.
Proof.
  intros E a b. rewrite slice_from_ok by (rewrite len_app; lia). rewrite skipn_len_app. reflexivity.
Qed.

Lemma number_len : forall e sz n p, number e sz n p -> len p = N.of_nat sz.
Proof. intros e sz n p H. unfold len. rewrite (number_length _ _ _ _ H). reflexivity. Qed.

Lemma str_ok : forall s, is_utf8 s -> str_from_utf8 s = Ok s.
Proof. intros s H. unfold str_from_utf8. apply utf8_iff in H. rewrite H. reflexivity. Qed.

Lemma list_loop_app : forall m emb pres x items chunks, Forall2 (enc_msg m pres x) items chunks ->
  (forall s, reads m emb pres x s) -> forall pre s, len (pre ++ concat chunks ++ s) < 2 ^ 64 ->
  list_loop m (read_msg m emb x) (pre ++ concat chunks ++ s) (length items) (len pre)
  = Ok (len pre + len (concat chunks)).
Proof.
  intros m emb pres x items chunks H Hr. induction H as [|v c items chunks Hv _ IH]; intros pre s Hl.
  { cbn [length list_loop concat]. change (len (@nil N)) with 0. rewrite N.add_0_r. reflexivity. }
  cbn [length list_loop concat]. rewrite slice_from_app. cbn [bind]. rewrite <- app_assoc.
  cbn [concat] in Hl. rewrite !len_app in Hl.
  rewrite (Hr _ v c Hv) by (rewrite !len_app; lia). cbn [bind].
  rewrite uadd_fit by lia. cbn [bind]. rewrite (app_assoc pre), <- (len_app pre).
  rewrite IH by (rewrite !len_app; lia). rewrite !len_app. f_equal. lia.
Qed.

Lemma reads_ref : forall m emb pres r s v b,
  (forall y, r = RMessage y -> reads m emb pres y s) ->
  enc_ref m pres r v b -> len (b ++ s) < 2 ^ 64 -> read_ref m emb r (b ++ s) = Ok (len b, v).
Proof.
  intros m emb pres [st|x] s v b H He Hl.
  - destruct v; try contradiction. cbn [enc_ref] in He. destruct He as (Hs & _ & ->).
    cbn [read_ref]. unfold rmap, struct_from_slice. rewrite len_app, <- Hs.
    replace (len data + len s <? len data) with false by lia. rewrite slice_prefix. reflexivity.
  - apply (H x eq_refl); assumption.
Qed.

Lemma read_ty_union : forall m emb e endi prev u on idx,
  read_ty m emb e endi prev (TUnion u on idx) = read_union m emb u (nth_error prev idx).
Proof. reflexivity. Qed.
Lemma read_ty_ref : forall m emb e endi prev r, read_ty m emb e endi prev (TRef r) = read_ref m emb r.
Proof. reflexivity. Qed.
Lemma read_ty_list : forall m emb e endi prev ty x,
  read_ty m emb e endi prev (TList ty x) =
  rmap (fun p => VListing (fst p) (snd p))
    (if e then list_from_slice m (value_reader endi ty) (read_msg m emb x)
     else unsized_from_slice (value_reader endi ty)).
Proof. reflexivity. Qed.
Lemma read_ref_msg : forall m emb x, read_ref m emb (RMessage x) = read_msg m emb x.
Proof. reflexivity. Qed.

Lemma reads_ty : forall m emb pres e endi prev t s v b,
  (forall y, inside t y -> (forall ty, t <> TList ty y) -> reads m emb pres y s) ->
  (forall ty y, t = TList ty y -> (e = true -> forall s, reads m emb pres y s) /\ (e = false -> s = [])) ->
  (t = TPayload -> s = []) ->
  enc_ty m pres endi prev t v b -> len (b ++ s) < 2 ^ 64 ->
  read_ty m emb e endi prev t (b ++ s) = Ok (len b, v).
Proof.
  intros m emb pres e endi prev t s v b H HL HP He Hl.
  destruct t as [ty|r| |ty|ty st|u on idx|ty x|].
  - destruct v; try contradiction. cbn [enc_ty] in He. cbn [read_ty]. unfold rmap.
    rewrite (value_reader_app _ _ _ _ s He). cbn [bind]. rewrite (number_len _ _ _ _ He). reflexivity.
  - rewrite read_ty_ref. apply (reads_ref m emb pres); [|exact He|exact Hl].
    intros y ->. apply H; [constructor|]. discriminate.
  - destruct v; try contradiction. cbn [enc_ty] in He. destruct He as (Hu & Hn & ->).
    cbn [read_ty]. unfold rmap, nts_from_slice. rewrite <- app_assoc. cbn [app].
    rewrite find_zero_app by exact Hn. rewrite N.add_0_l, slice_prefix. cbn [bind].
    rewrite (str_ok _ Hu). cbn [bind]. rewrite !len_app in *. change (len [0]) with 1 in *.
    rewrite uadd_fit by lia. reflexivity.
  - destruct v; try contradiction. cbn [enc_ty] in He. destruct He as (Hu & p & Hp & ->).
    cbn [read_ty]. unfold rmap, varchar_from_slice. rewrite <- app_assoc.
    rewrite (value_reader_app _ _ _ _ _ Hp). cbn [bind]. rewrite <- (number_len _ _ _ _ Hp).
    rewrite !len_app in *. rewrite uadd_fit by lia. cbn [bind]. rewrite slice_middle. cbn [bind].
    rewrite (str_ok _ Hu). cbn [bind]. rewrite uadd_fit by lia. reflexivity.
  - destruct v; try contradiction. cbn [enc_ty] in He. destruct He as (Hd & _ & p & Hp & ->).
    cbn [read_ty]. unfold rmap, array_from_slice. rewrite <- app_assoc.
    rewrite (value_reader_app _ _ _ _ _ Hp). cbn [bind]. rewrite <- (number_len _ _ _ _ Hp).
    rewrite !len_app in *. rewrite umul_fit by lia. cbn [bind]. rewrite <- Hd. rewrite uadd_fit by lia. cbn [bind].
    replace (len p + (len data + len s) <? len p + len data) with false by lia.
    rewrite slice_middle. reflexivity.
  - destruct v; try contradiction. cbn [enc_ty] in He. apply enc_union_iff in He.
    destruct He as (data & disc & c & Hon & Hg & Hc & Hi). rewrite read_ty_union, read_union_eq, Hon.
    cbn [read_discriminant]. rewrite Hg. cbn [bind]. rewrite Hc. apply find_case_in in Hc. destruct Hc as (Hin & _).
    unfold enc_item in Hi. destruct (uc_item c) as [r|] eqn:Er; destruct item as [x|]; try contradiction.
    + rewrite (reads_ref m emb pres r s x b); [reflexivity| |exact Hi|exact Hl].
      intros y ->. apply H; [econstructor; eauto|]. discriminate.
    + subst b. reflexivity.
  - destruct v; try contradiction. cbn [enc_ty] in He.
    destruct He as (p & items & chunks & Hp & Hn & Hf & Hd & ->).
    rewrite read_ty_list. unfold rmap. rewrite <- app_assoc. rewrite !len_app in Hl.
    destruct (HL ty x eq_refl) as (Hr & Hnil). destruct e.
    + unfold list_from_slice. rewrite (value_reader_app _ _ _ _ _ Hp). cbn [bind].
      rewrite <- (number_len _ _ _ _ Hp). rewrite slice_from_app. cbn [bind].
      subst data n. replace (N.to_nat (len items)) with (length items) by (unfold len; lia).
      pose proof (list_loop_app m emb pres x items chunks Hf (Hr eq_refl) [] s) as G. cbn [app] in G.
      change (len (@nil N)) with 0 in G. rewrite G by (rewrite len_app; lia). clear G. cbn [bind].
      rewrite N.add_0_l, uadd_fit by lia. cbn [bind]. rewrite slice_middle. cbn [bind].
      rewrite uadd_fit by lia. cbn [bind fst snd]. rewrite len_app, N.add_comm. reflexivity.
    + rewrite (Hnil eq_refl). rewrite app_nil_r. unfold unsized_from_slice.
      rewrite (value_reader_app _ _ _ _ _ Hp). cbn [bind]. rewrite <- (number_len _ _ _ _ Hp).
      rewrite slice_from_app. reflexivity.
  - destruct v; try contradiction. cbn [enc_ty] in He. destruct He as (_ & ->).
    rewrite (HP eq_refl), app_nil_r. reflexivity.
Qed.

Lemma reads_optional : forall m pres opt (r : reader value) (g : value -> bytes -> Prop) s v b,
  (forall v b, g v b -> len (b ++ s) < 2 ^ 64 -> r (b ++ s) = Ok (len b, v)) ->
  enc_optional pres opt g v b -> len (b ++ s) < 2 ^ 64 ->
  read_optional m opt r (b ++ s) = Ok (len b, v).
Proof.
  intros m pres opt r g s v b H He Hl. unfold enc_optional, read_optional in *.
  destruct opt; [|apply H; assumption]. destruct v; try contradiction. unfold rmap, optional_from_slice.
  destruct o as [x|].
  - destruct He as (p & b' & Hp & _ & -> & Hg). cbn [app] in *. change (p :: b') with ([p] ++ b') in *.
    change (p :: b' ++ s) with ([p] ++ (b' ++ s)) in *. rewrite !len_app in *. change (len [p]) with 1 in *.
    replace (1 + (len b' + len s) <? 1) with false by lia. cbn [app nth_error unwrap bind].
    replace (0 <? p) with true by lia. change (p :: b' ++ s) with ([p] ++ (b' ++ s)).
    rewrite (slice_from_app _ [p]). cbn [bind]. rewrite (H x b' Hg) by (rewrite len_app; lia). cbn [bind].
    rewrite uadd_fit by lia. cbn [bind]. rewrite N.add_comm. reflexivity.
  - subst b. cbn [app] in *. change (0 :: s) with ([0] ++ s) in *. rewrite len_app. change (len [0]) with 1.
    replace (1 + len s <? 1) with false by lia. reflexivity.
Qed.

(** A field is read in front of [s]. *)
Definition reads_field m emb pres (e : bool) (f : mfield) (s : bytes) : Prop :=
  forall prev v b, enc_optional pres (mf_optional f) (enc_ty m pres (mf_endi f) prev (mf_ty f)) v b ->
    len (b ++ s) < 2 ^ 64 ->
    read_optional m (mf_optional f) (read_ty m emb e (mf_endi f) prev (mf_ty f)) (b ++ s) = Ok (len b, v).

Lemma reads_fields : forall m emb pres e s fs,
  (forall l f r, fs = l ++ f :: r -> r <> [] -> forall s, reads_field m emb pres e f s) ->
  (forall r f, fs = r ++ [f] -> reads_field m emb pres e f s) ->
  forall prev rest pre b, enc_fields m pres fs prev rest b -> len (pre ++ b ++ s) < 2 ^ 64 ->
  read_fields m emb e (pre ++ b ++ s) fs (len pre) prev = Ok (len pre + len b, prev ++ rest).
Proof.
  intros m emb pres e s. induction fs as [|[n ty opt sz endi] fs IH]; intros Hall Hlast prev rest pre b He Hl.
  { destruct rest; [|contradiction]. cbn in He. subst b. cbn [read_fields]. change (len (@nil N)) with 0.
    rewrite N.add_0_r, app_nil_r. reflexivity. }
  destruct rest as [|y rest]; [contradiction|]. cbn [enc_fields mf_optional mf_endi mf_ty] in He.
  destruct He as (b1 & b2 & -> & H1 & H2). cbn [read_fields]. rewrite slice_from_app. cbn [bind].
  rewrite !len_app in Hl. rewrite <- app_assoc.
  assert (Hf : read_optional m opt (read_ty m emb e endi prev ty) (b1 ++ b2 ++ s) = Ok (len b1, y)).
  { destruct fs as [|g fs].
    - assert (G : reads_field m emb pres e (MkMField n ty opt sz endi) s) by (apply (Hlast [] _); reflexivity).
      destruct rest; [|contradiction]. cbn in H2. subst b2. cbn [app].
      apply G; [exact H1|]. rewrite len_app. lia.
    - assert (G : reads_field m emb pres e (MkMField n ty opt sz endi) (b2 ++ s)).
      { apply (Hall [] _ (g :: fs)); [reflexivity|discriminate]. }
      apply G; [exact H1|]. rewrite !len_app. lia. }
  rewrite Hf. cbn [bind]. rewrite uadd_fit by lia. cbn [bind]. rewrite (app_assoc pre), <- len_app.
  rewrite (IH) with (rest := rest).
  - rewrite !len_app, <- app_assoc. cbn [app]. f_equal. f_equal. lia.
  - intros l f r E Hr. apply (Hall (MkMField n ty opt sz endi :: l) f r); [rewrite E; reflexivity|exact Hr].
  - intros r f E. apply (Hlast (MkMField n ty opt sz endi :: r) f). rewrite E. reflexivity.
  - exact H2.
  - rewrite !len_app. lia.
Qed.

Lemma reads_msg : forall m emb pres x s,
  (forall l f r, m_fields x = l ++ f :: r -> r <> [] -> forall s, reads_field m emb pres (emb (m_id x)) f s) ->
  (forall r f, m_fields x = r ++ [f] -> reads_field m emb pres (emb (m_id x)) f s) ->
  reads m emb pres x s.
Proof.
  intros m emb pres x s Hall Hlast v b He Hl. apply enc_msg_inv in He. destruct He as (vs & -> & He).
  rewrite read_msg_eq.
  pose proof (reads_fields m emb pres _ s _ Hall Hlast [] vs [] b He Hl) as G. cbn [app] in G.
  change (len (@nil N)) with 0 in G. rewrite G. reflexivity.
Qed.

Lemma reads_field_intro : forall m emb pres e f s,
  (forall y, inside (mf_ty f) y -> (forall ty, mf_ty f <> TList ty y) -> reads m emb pres y s) ->
  (forall ty y, mf_ty f = TList ty y -> (e = true -> forall s, reads m emb pres y s) /\ (e = false -> s = [])) ->
  (mf_ty f = TPayload -> s = []) -> reads_field m emb pres e f s.
Proof.
  intros m emb pres e f s H1 H2 H3 prev v b He Hl.
  apply (reads_optional m pres _ _ (enc_ty m pres (mf_endi f) prev (mf_ty f))); [|exact He|exact Hl].
  intros v' b' He' Hl'. apply (reads_ty m emb pres); assumption.
Qed.

Lemma self_delimiting_inside : forall emb x g y, self_delimiting emb x -> In g (m_fields x) -> inside (mf_ty g) y ->
  self_delimiting emb y.
Proof. intros emb x g y H Hg Hy e f Hp. apply (H e f). eapply part_deep; eauto. Qed.

Theorem self_delimiting_reads : forall m emb pres x, self_delimiting emb x -> forall s, reads m emb pres x s.
Proof.
  intros m emb pres. apply (message_ind_inside (fun x => self_delimiting emb x -> forall s, reads m emb pres x s)).
  intros x IH Hsd s.
  assert (G : forall f s, In f (m_fields x) -> reads_field m emb pres (emb (m_id x)) f s).
  { intros f s' Hf. pose proof (Hsd _ f (part_here _ _ _ _ Hf eq_refl)) as Hp.
    apply reads_field_intro.
    - intros y Hy _. apply (IH f y Hf Hy). eapply self_delimiting_inside; eauto.
    - intros ty y E. rewrite E in Hp. split.
      + intros _ s0. apply (IH f y Hf).
        * rewrite E. constructor.
        * eapply self_delimiting_inside; [exact Hsd|exact Hf|rewrite E; constructor].
      + congruence.
    - intro E. rewrite E in Hp. contradiction. }
  apply reads_msg.
  - intros l f r E _ s'. apply G. rewrite E. apply in_elt.
  - intros r f E. apply G. rewrite E. apply in_elt.
Qed.

Theorem readable_reads : forall m emb pres x, readable emb x -> reads m emb pres x [].
Proof.
  intros m emb pres x H. induction H as [x Hlist Hlast IH Hmid].
  apply reads_msg.
  - intros l f r E Hr s. destruct (Hmid l f r E Hr) as (Hp & Hsd). apply reads_field_intro.
    + intros y Hy _. apply self_delimiting_reads, Hsd, Hy.
    + intros ty y Et. rewrite Et in Hp. split; [|congruence]. intros _ s0. apply self_delimiting_reads, Hsd.
      rewrite Et. constructor.
    + intro Et. rewrite Et in Hp. contradiction.
  - intros r f E. apply reads_field_intro.
    + intros y Hy Hn. apply (IH r f y E Hy Hn).
    + intros ty y Et. split; [|reflexivity]. intros He s. apply self_delimiting_reads.
      exact (Hlist r f ty y E Et He).
    + reflexivity.
Qed.

(** C23 *)
Theorem roundtrip_suffix : forall m emb x v b s, self_delimiting emb x -> encodes_lax m x v b ->
  len (b ++ s) < 2 ^ 64 -> read_msg m emb x (b ++ s) = Ok (len b, v).
Proof. intros m emb x v b s Hs. apply self_delimiting_reads. exact Hs. Qed.

Theorem roundtrip_whole : forall m emb x v b, readable emb x -> encodes_lax m x v b ->
  len b < 2 ^ 64 -> read_msg m emb x b = Ok (len b, v).
Proof.
  intros m emb x v b Hr He Hl. pose proof (readable_reads m emb _ x Hr v b He) as G. rewrite app_nil_r in G.
  apply G. exact Hl.
Qed.

(** Both formats: what the writer produces is in particular an encoding in the
    lax sense. *)
Lemma enc_optional_mono : forall (p q : N -> Prop) opt (f g : value -> bytes -> Prop) v b,
  (forall n, p n -> q n) -> (forall v b, f v b -> g v b) ->
  enc_optional p opt f v b -> enc_optional q opt g v b.
Proof.
  intros p q opt f g v b Hpq Hfg H. unfold enc_optional in *. destruct opt; [|apply Hfg, H].
  destruct v; try contradiction. destruct o as [x|]; [|exact H].
  destruct H as (n & b' & Hn & Hp & -> & Hf). exists n, b'. split; [exact Hn|]. split; [apply Hpq, Hp|].
  split; [reflexivity|]. apply Hfg, Hf.
Qed.

Lemma enc_mono : forall m (p q : N -> Prop), (forall n, p n -> q n) ->
  forall x v b, enc_msg m p x v b -> enc_msg m q x v b.
Proof.
  intros m p q Hpq.
  apply (message_ind_inside (fun x => forall v b, enc_msg m p x v b -> enc_msg m q x v b)).
  intros x IH v b He. apply enc_msg_inv in He. destruct He as (vs & -> & He). apply enc_msg_eq.
  revert IH He. generalize (@nil value). revert vs b. induction (m_fields x) as [|f fs IHf]; intros vs b prev IH He.
  { exact He. }
  destruct vs as [|y vs]; [contradiction|]. cbn [enc_fields] in *. destruct He as (b1 & b2 & -> & H1 & H2).
  exists b1, b2. split; [reflexivity|]. split.
  - eapply enc_optional_mono; [exact Hpq| |exact H1]. intros v b He.
    assert (Href : forall r v b, (forall y, r = RMessage y -> inside (mf_ty f) y) ->
      enc_ref m p r v b -> enc_ref m q r v b).
    { intros [s|z] v' b' Hz Hr; [exact Hr|]. cbn [enc_ref] in *. apply (IH f z); [left; reflexivity|apply Hz; reflexivity|exact Hr]. }
    destruct (mf_ty f) as [ty|r| |ty|ty st|u on idx|ty z|] eqn:Et; try exact He.
    + cbn [enc_ty] in *. apply Href; [|exact He]. intros z ->. constructor.
    + destruct v; try contradiction. cbn [enc_ty] in *. apply enc_union_iff in He. apply enc_union_iff.
      destruct He as (data & disc & c & Hon & Hg & Hc & Hi). exists data, disc, c.
      repeat (split; [assumption|]). apply find_case_in in Hc. destruct Hc as (Hin & _).
      unfold enc_item in *. destruct (uc_item c) as [r|] eqn:Er; destruct item as [w|]; try contradiction; [|exact Hi].
      apply Href; [|exact Hi]. intros z ->. econstructor; eauto.
    + destruct v; try contradiction. cbn [enc_ty] in *.
      destruct He as (n0 & items & chunks & Hp & Hn & Hf & Hd & ->). exists n0, items, chunks.
      repeat (split; [assumption|]). split; [|auto]. clear - Hf IH Et. induction Hf as [|i c items chunks Hi _ IHl]; constructor.
      * apply (IH f z); [left; reflexivity|rewrite Et; constructor|exact Hi].
      * exact IHl.
  - apply IHf; [|exact H2]. intros g z Hg. apply (IH g z). right. exact Hg.
Qed.

Theorem encodes_is_lax : forall m x v b, encodes m x v b -> encodes_lax m x v b.
Proof. intros m x v b. apply enc_mono. trivial. Qed.

(** C28 *)
Theorem uniquely_decodable : forall m emb x v b s v' b' s', self_delimiting emb x ->
  encodes_lax m x v b -> encodes_lax m x v' b' -> len (b ++ s) < 2 ^ 64 -> b ++ s = b' ++ s' ->
  v = v' /\ b = b' /\ s = s'.
Proof.
  intros m emb x v b s v' b' s' Hsd He He' Hl E.
  pose proof (roundtrip_suffix m emb x v b s Hsd He Hl) as R.
  rewrite E in R, Hl. rewrite (roundtrip_suffix m emb x v' b' s' Hsd He' Hl) in R. inversion R as [[Hn Hv]].
  split; [reflexivity|]. unfold len in Hn.
  assert (Hb : b = b').
  { pose proof (f_equal (firstn (length b)) E) as F. rewrite firstn_app, firstn_all, Nat.sub_diag in F. cbn [firstn] in F.
    rewrite app_nil_r in F. replace (length b) with (length b') in F by lia.
    rewrite firstn_app, firstn_all, Nat.sub_diag in F. cbn [firstn] in F. rewrite app_nil_r in F. exact F. }
  split; [exact Hb|]. subst b'. apply app_inv_head in E. exact E.
Qed.
