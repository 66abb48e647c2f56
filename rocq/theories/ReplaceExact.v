(** When exactly a member can be replaced in place, for C72. *)

From Coq Require Import Arith NArith ZArith List Bool Lia ZifyBool ZifyN ZifyNat.
From Verif Require Import Base Schema Codec Compiler Access Bits BitsFacts CodecFacts StructFacts ArrayThms BEThms
  Runtime Gen SpecWire SpecUnion SpecOffsets SpecExact SpecStream MsgFacts WriteThms SoundThms OffsetThms SpecDecode DecodeThms
  ReencodeThms ExactThms FinalThms OpenThms StreamThms ReplaceThms SpecSwallow SpecReplace SwallowThms EncodeThms.
Import ListNotations.
Local Open Scope N_scope.

Lemma swallows_first : forall m emb x i vs,
  swallows m emb (first_members i x) (VMsg (firstn i vs)) <->
  exists j g u, (j < i)%nat /\ nth_error (m_fields x) j = Some g /\ nth_error vs j = Some u /\ swallows_member m emb (emb (m_id x)) g u.
Proof.
  intros m emb x i vs. split.
  - intro H. inversion H as [? ? j g u Hg Hu S]; subst. cbn [first_members m_fields m_id] in *.
    assert (Hj : (j < i)%nat). { assert (X : (j < length (firstn i vs))%nat) by (apply nth_error_Some; congruence). rewrite firstn_length in X. lia. }
    exists j, g, u. split; [exact Hj|].
    assert (N1 : forall A (l : list A), nth_error (firstn i l) j = nth_error l j).
    { intros A l. rewrite <- (firstn_skipn i l) at 2. destruct (le_lt_dec (length l) j) as [L|L].
      - rewrite (proj2 (nth_error_None _ _)) by (rewrite firstn_length; lia). symmetry. apply nth_error_None. rewrite firstn_skipn. exact L.
      - rewrite nth_error_app1; [reflexivity|rewrite firstn_length; lia]. }
    rewrite <- (N1 _ (m_fields x)), <- (N1 _ vs). auto.
  - intros (j & g & u & Hj & Hg & Hu & S). eapply swallows_some with (i := j); [| |exact S]; cbn [first_members m_fields].
    + rewrite <- Hg. rewrite <- (firstn_skipn i (m_fields x)) at 2. rewrite nth_error_app1; [reflexivity|].
      assert (j < length (m_fields x))%nat by (apply nth_error_Some; congruence). rewrite firstn_length. lia.
    + rewrite <- Hu. rewrite <- (firstn_skipn i vs) at 2. rewrite nth_error_app1; [reflexivity|].
      assert (j < length vs)%nat by (apply nth_error_Some; congruence). rewrite firstn_length. lia.
Qed.

Lemma members_count : forall m emb e fs prev b c vs r, members m emb e prev fs b (Found c vs r) -> length vs = length fs.
Proof.
  intros m emb e. induction fs as [|f fs IH]; intros prev b c vs r H; inversion H; subst; [reflexivity|]. cbn [length]. f_equal. eapply IH. eassumption.
Qed.

Lemma read_count : forall m emb x b n vs, len b < 2 ^ 64 -> bytes_ok b -> read_msg m emb x b = Ok (n, VMsg vs) -> length vs = length (m_fields x).
Proof.
  intros m emb x b n vs Hl Hb H. apply (decode_exact m emb x b Hl Hb) in H. destruct H as (c & r & _ & _ & D). inversion D; subst.
  eapply members_count. eassumption.
Qed.

(** A value tells how many bytes it was read from. *)
Lemma read_length : forall m emb x b b' n n' v, len b < 2 ^ 64 -> bytes_ok b -> len b' < 2 ^ 64 -> bytes_ok b' ->
  read_msg m emb x b = Ok (n, v) -> read_msg m emb x b' = Ok (n', v) -> n = n'.
Proof.
  intros m emb x b b' n n' v Hl Hb Hl' Hb' H H'.
  destruct (reencode m emb x b n v Hl Hb H) as (_ & _ & S & _). destruct (reencode m emb x b' n' v Hl' Hb' H') as (_ & _ & S' & _). congruence.
Qed.

Lemma members_head : forall m emb e prev f fs b c ws r, members m emb e prev (f :: fs) b (Found c ws r) ->
  exists c1 v1 r1 vs, ws = v1 :: vs /\ member m emb e prev f b (Found c1 v1 r1).
Proof. intros m emb e prev f fs b c ws r H. inversion H; subst. eauto 8. Qed.

Lemma clear_member : forall m emb prev x f v w q, enc_member m prev f v w -> fine w ->
  (clear m emb (emb (m_id x)) f v w q <->
   (q <> [] -> ~ swallows_member m emb (emb (m_id x)) f v) /\ ~ unreadable_member m emb x f v w).
Proof.
  intros m emb prev x f v w q E Hw. unfold clear, list_whole. split.
  - intros (A & B & C). split; [exact A|]. intros [y z p c H1 H2 H3 H4|ty y data n H1 H2 H3 H4]; [exact (B y z p c H1 H2 H3 H4)|].
    apply H4. eapply C; eassumption.
  - intros (A & B). split; [exact A|]. split.
    + intros y z p c H1 H2 H3 H4. apply B. eapply unreadable_content; eassumption.
    + intros ty y data n H1 H2 H3.
      destruct (items_dec m emb y (N.to_nat n) data) as [G|G]; [|exact G|exfalso; apply B; eapply unreadable_items; eassumption].
      eapply list_data_fine; eassumption.
Qed.

Lemma swallowed_first : forall m emb x i vs,
  swallows m emb (first_members i x) (VMsg (firstn i vs)) <-> swallowed_before m emb x vs i.
Proof. intros m emb x i vs. apply swallows_first. Qed.

Theorem replace_iff : forall m emb x b n vs l i f lo hi nested v w, len b < 2 ^ 64 -> bytes_ok b -> bytes_ok w ->
  read_msg_offsets m emb x b = Ok (n, (VMsg vs, MkOffsets l)) ->
  nth_error (m_fields x) i = Some f -> nth_error l i = Some (lo, hi, nested) ->
  encodes_member m f i vs v w -> same_discriminants m x i vs v ->
  let q := skipn (N.to_nat hi) b in let b' := firstn (N.to_nat lo) b ++ w ++ q in
  len b' < 2 ^ 64 ->
  let known := (w ++ q <> [] -> ~ swallowed_before m emb x vs i) /\ (q <> [] -> ~ swallows_member m emb (emb (m_id x)) f v) /\
    ~ unreadable_member m emb x f v w in
  (known -> read_msg m emb x b' = Ok (n - (hi - lo) + len w, VMsg (with_member i v vs))) /\
  (~ known -> forall n', read_msg m emb x b' <> Ok (n', VMsg (with_member i v vs))).
Proof.
  intros m emb x b n vs l i f lo hi nested v w Hl Hb Hw Ho Hf Hi E Hs q b' Hl' known.
  destruct (offsets_at _ _ _ _ _ _ _ _ _ _ _ _ Hl Ho Hf Hi) as (Hlo & Hhi & Hy & R1 & _ & _).
  destruct (nth_error vs i) as [y|] eqn:Ey; [clear Hy|destruct Hy; reflexivity].
  set (p := firstn (N.to_nat lo) b) in *.
  assert (Hlp : len p = lo) by (apply len_firstn'; lia).
  assert (Hbp : bytes_ok p) by (unfold p; rewrite <- (firstn_skipn (N.to_nat lo) b) in Hb; apply bytes_ok_parts in Hb; tauto).
  assert (Hbq : bytes_ok q) by (unfold q; rewrite <- (firstn_skipn (N.to_nat hi) b) in Hb; apply bytes_ok_parts in Hb; tauto).
  assert (Hb' : bytes_ok b') by (apply bytes_ok_parts; split; [exact Hbp|apply bytes_ok_parts; auto]).
  assert (Hfine : fine (w ++ q)).
  { split; [|apply bytes_ok_parts; auto]. unfold b' in Hl'. rewrite len_app in Hl'. lia. }
  assert (Rp : read_msg m emb (first_members i x) p = Ok (lo, VMsg (firstn i vs))).
  { apply EvolveThms.read_prefix; [exact Hl|exact R1|lia|lia]. }
  assert (HS : read_msg m emb (first_members i x) b' = Ok (lo, VMsg (firstn i vs)) <->
    (w ++ q <> [] -> ~ swallowed_before m emb x vs i)).
  { destruct (list_eq_dec N.eq_dec (w ++ q) []) as [Z|Z].
    - split; [intros _ G; contradiction|intros _]. unfold b'. rewrite Z, app_nil_r. exact Rp.
    - transitivity (~ swallows m emb (first_members i x) (VMsg (firstn i vs))).
      + apply read_final_all; [exact Hl'|exact Hb'|exact Z|exact Rp].
      + rewrite swallowed_first. tauto. }
  pose proof (member_legible m emb f (fun y _ => encoding_legible m emb y) (emb (m_id x)) (firstn i vs) v w q E Hfine) as ML.
  rewrite (clear_member m emb (firstn i vs) x f v w q E (proj1 (fine_app _ _ Hfine))) in ML.
  split.
  - intros (A & B). eapply replace_any_at; try eassumption; [apply HS; exact A|apply ML; exact B].
  - intros Hn n' R. apply Hn. destruct (extended_exact m emb (first_members i x) x (skipn i (m_fields x)) b' (first_members_fields i x) eq_refl Hl' Hb')
      as (_ & _ & X3 & _).
    destruct (X3 _ _ R) as (n1 & vs1 & ws & E1 & Ev & _).
    assert (Li : (i < length vs)%nat) by (apply nth_error_Some; congruence).
    assert (Lf : (i < length (m_fields x))%nat) by (apply nth_error_Some; congruence).
    assert (L1 : length vs1 = i).
    { apply read_count in E1; [|exact Hl'|exact Hb']. rewrite E1. cbn [first_members m_fields]. rewrite firstn_length. lia. }
    assert (Evs : vs1 = firstn i vs).
    { assert (X : vs1 ++ ws = firstn i vs ++ v :: skipn (S i) vs) by (unfold with_member in Ev; congruence).
      apply (f_equal (firstn i)) in X. rewrite !firstn_app, L1, firstn_length in X.
      replace (i - i)%nat with 0%nat in X by lia. replace (i - Nat.min i (length vs))%nat with 0%nat in X by lia.
      cbn [firstn] in X. rewrite !app_nil_r, firstn_firstn, Nat.min_id in X. rewrite firstn_all2 in X by lia. exact X. }
    subst vs1. assert (n1 = lo) by (eapply read_length; [exact Hl'|exact Hb'| | |exact E1|exact Rp]; [rewrite Hlp; lia|exact Hbp]). subst n1.
    split; [apply HS; exact E1|]. apply ML.
    destruct (replace_exact_at m emb x b n vs l i f lo hi nested w Hl Hb Hw Ho Hf Hi Hl' E1) as (Y & _).
    apply Y in R. destruct R as (c & ws' & r & Eq & _ & Ev' & M). fold q in Eq, M.
    rewrite (skipn_cons _ _ _ _ Hf) in M. apply members_head in M. destruct M as (c1 & v1 & r1 & vs2 & -> & W).
    assert (Z : firstn i vs ++ v :: skipn (S i) vs = firstn i vs ++ v1 :: vs2) by (unfold with_member in Ev'; congruence).
    apply app_inv_head in Z. inversion Z. subst v1.
    pose proof (member_sized m emb f (fun y _ => decodes_sized m emb y) _ _ _ _ _ _ _ _ W E) as Hl1.
    pose proof (member_parted m emb f (fun y _ => decodes_parted m emb y) _ _ _ _ _ _ W) as Hr.
    destruct (app_unique _ _ _ _ Hl1 (eq_sym Hr)) as (-> & ->). exact W.
Qed.
