(** Unions (C32). *)

From Coq Require Import Arith NArith ZArith List Bool Lia ZifyBool ZifyN ZifyNat.
From Verif Require Import Base Schema Codec Compiler Access Bits BitsFacts CodecFacts SpecStruct StructFacts
  NestedThms ArrayThms Runtime Gen SpecWire MsgFacts WriteThms ReadThms SoundThms TotalThms SpecUnion.
Import ListNotations.
Local Open Scope N_scope.

Lemma find_case_first : forall disc cs i k c, find_case disc i cs = Some (k, c) ->
  (i <= k)%nat /\ nth_error cs (k - i) = Some c /\ uc_case c = disc /\
  forall j c', (j < k - i)%nat -> nth_error cs j = Some c' -> uc_case c' <> disc.
Proof.
  intros disc. induction cs as [|x cs IH]; intros i k c H; [discriminate|]. cbn [find_case] in H.
  destruct (N.eqb_spec disc (uc_case x)) as [E|E].
  - inversion H; subst. rewrite Nat.sub_diag. split; [lia|]. split; [reflexivity|]. split; [reflexivity|].
    intros j c' Hj. lia.
  - apply IH in H. destruct H as (Hle & Hn & Hd & Hj). replace (k - i)%nat with (S (k - S i)) by lia.
    split; [lia|]. split; [exact Hn|]. split; [exact Hd|]. intros [|j] c' Hlt Hc; cbn in Hc.
    + inversion Hc; subst. congruence.
    + apply (Hj j); [lia|exact Hc].
Qed.

Lemma first_find_case : forall disc cs i k c, nth_error cs k = Some c -> uc_case c = disc ->
  (forall j c', (j < k)%nat -> nth_error cs j = Some c' -> uc_case c' <> disc) ->
  find_case disc i cs = Some ((i + k)%nat, c).
Proof.
  intros disc. induction cs as [|x cs IH]; intros i k c Hn Hc Hj; [destruct k; discriminate|]. cbn [find_case].
  destruct k as [|k]; cbn in Hn.
  - inversion Hn; subst. rewrite N.eqb_refl. f_equal. f_equal. lia.
  - destruct (N.eqb_spec disc (uc_case x)) as [E|E].
    + exfalso. apply (Hj O x); [lia|reflexivity|congruence].
    + rewrite (IH (S i) k c Hn Hc); [f_equal; f_equal; lia|]. intros j c' Hlt Hcj. apply (Hj (S j)); [lia|exact Hcj].
Qed.

Lemma find_case_none : forall disc cs i, (forall c, In c cs -> uc_case c <> disc) -> find_case disc i cs = None.
Proof.
  intros disc. induction cs as [|x cs IH]; intros i H; [reflexivity|]. cbn [find_case].
  destruct (N.eqb_spec disc (uc_case x)) as [E|E]; [exfalso; apply (H x); [left; reflexivity|congruence]|].
  apply IH. intros c Hc. apply H. right. exact Hc.
Qed.
Lemma find_case_none_inv : forall disc cs i, find_case disc i cs = None -> forall c, In c cs -> uc_case c <> disc.
Proof.
  intros disc. induction cs as [|x cs IH]; intros i H c Hc; [contradiction|]. cbn [find_case] in H.
  destruct (N.eqb_spec disc (uc_case x)) as [E|E]; [discriminate|]. destruct Hc as [<-|Hc]; [congruence|eauto].
Qed.

(** Reading follows the discriminant. *)
Theorem union_read : forall m emb u data d b, discriminant m u data d ->
  (forall k c, first_case u d k c ->
     read_union m emb u (Some (VStruct data)) b =
     match uc_item c with
     | None => Ok (0, VUnion k None)
     | Some t => '(n, v) <- read_ref m emb t b ;; Ok (n, VUnion k (Some v))
     end) /\
  ((forall c, In c (u_cases u) -> uc_case c <> d) ->
     read_union m emb u (Some (VStruct data)) b = Err (InvalidUnionDiscriminant d)).
Proof.
  intros m emb u data d b Hd. unfold discriminant in Hd. split.
  - intros k c (Hn & Hc & Hj). rewrite read_union_eq. cbn [read_discriminant]. rewrite Hd. cbn [bind].
    rewrite (first_find_case d _ 0 k c Hn Hc Hj). reflexivity.
  - intros Hno. rewrite read_union_eq. cbn [read_discriminant]. rewrite Hd. cbn [bind].
    rewrite (find_case_none _ _ _ Hno). reflexivity.
Qed.

(** In a decoded message, too. *)
Lemma read_fields_nth : forall m emb e b fs off prev n vs,
  read_fields m emb e b fs off prev = Ok (n, vs) ->
  exists new, vs = prev ++ new /\ length new = length fs /\
    forall k f, nth_error fs k = Some f -> exists v d j, nth_error new k = Some v /\
      read_optional m (mf_optional f) (read_ty m emb e (mf_endi f) (prev ++ firstn k new) (mf_ty f)) d = Ok (j, v).
Proof.
  intros m emb e b. induction fs as [|[nm ty opt sz en] fs IH]; intros off prev n vs H; cbn [read_fields] in H.
  - inversion H; subst. exists []. rewrite app_nil_r. split; [reflexivity|]. split; [reflexivity|].
    intros [|k] f Hf; discriminate.
  - apply bind_ok in H. destruct H as (d & _ & H). apply bind_ok in H. destruct H as ([j v] & Hv & H).
    apply bind_ok in H. destruct H as (off' & _ & H). apply IH in H. destruct H as (new & -> & Hl & Hk).
    exists (v :: new). rewrite <- app_assoc. split; [reflexivity|]. split; [cbn [length]; lia|].
    intros [|k] f Hf; cbn [nth_error] in Hf.
    + inversion Hf; subst f. exists v, d, j. cbn [nth_error mf_optional mf_endi mf_ty firstn]. rewrite app_nil_r. auto.
    + destruct (Hk k f Hf) as (v' & d' & j' & Hn & Hr). exists v', d', j'. split; [exact Hn|].
      cbn [firstn]. rewrite <- app_assoc in Hr. exact Hr.
Qed.

Lemma nth_firstn_app : forall {A} k i (l : list A) x, nth_error (firstn k l) i = Some x -> nth_error l i = Some x.
Proof.
  intros A. induction k as [|k IH]; intros i l x H; [destruct i; discriminate|].
  destruct l as [|a l]; [destruct i; discriminate|]. destruct i as [|i]; [exact H|]. exact (IH i l x H).
Qed.

Theorem message_union_read : forall m emb x b n vs k f u on i,
  read_msg m emb x b = Ok (n, VMsg vs) ->
  nth_error (m_fields x) k = Some f -> mf_ty f = TUnion u on i -> mf_optional f = false ->
  exists data d j c item, nth_error vs i = Some (VStruct data) /\ discriminant m u data d /\
    first_case u d j c /\ nth_error vs k = Some (VUnion j item) /\ (item = None <-> uc_item c = None).
Proof.
  intros m emb x b n vs k f u on i H Hk Ht Ho. rewrite read_msg_eq in H. apply bind_ok in H.
  destruct H as ([n' vs'] & H & E). inversion E; subst n' vs'. clear E.
  apply read_fields_nth in H. destruct H as (new & -> & _ & H). destruct (H k f Hk) as (v & d & j & Hv & Hr).
  cbn [app] in *. rewrite Ho, Ht in Hr. cbn [read_optional] in Hr. rewrite read_ty_union in Hr.
  rewrite read_union_eq in Hr. apply bind_ok in Hr. destruct Hr as (disc & Hd & Hr).
  destruct (nth_error (firstn k new) i) as [on'|] eqn:Hon; [|discriminate Hd].
  apply nth_firstn_app in Hon. destruct on' as [|data| | | | | |]; cbn [read_discriminant] in Hd; try discriminate Hd.
  destruct (find_case disc 0 (u_cases u)) as [[q c]|] eqn:Hf; [|discriminate].
  apply find_case_first in Hf. rewrite Nat.sub_0_r in Hf. destruct Hf as (_ & Hq & Hc & Hj).
  destruct (uc_item c) as [t|] eqn:Et.
  - apply bind_ok in Hr. destruct Hr as ([sz w] & _ & Hr). inversion Hr; subst v.
    exists data, disc, q, c, (Some w). repeat split; auto; intro; congruence.
  - inversion Hr; subst v. exists data, disc, q, c, None. repeat split; auto.
Qed.

(** Writing a case that has an item fails unless the discriminant is its number. *)
Theorem union_write_mismatch : forall m St (w : sink St) u data d k c t x s,
  discriminant m u data d -> nth_error (u_cases u) k = Some c -> uc_item c = Some t -> uc_case c <> d ->
  write_union m w u (Some (VStruct data)) (VUnion k (Some x)) s = (s, Err (InvalidUnionDiscriminant d)).
Proof.
  intros m St w u data d k c t x s Hd Hk Ht Hc. rewrite write_union_eq.
  assert (Hh : union_has_items (u_cases u) = true).
  { unfold union_has_items. apply existsb_exists. exists c. split; [eapply nth_error_In; eauto|]. rewrite Ht. reflexivity. }
  rewrite Hh. unfold wlet. cbn [read_discriminant]. unfold discriminant in Hd. rewrite Hd, Hk. unfold write_arm. rewrite Ht.
  replace (d =? uc_case c) with false by (symmetry; apply N.eqb_neq; congruence). reflexivity.
Qed.

(** A case without item is written whatever the discriminant. *)
Theorem union_write_empty : forall m St (w : sink St) u data d k c s,
  discriminant m u data d -> nth_error (u_cases u) k = Some c -> uc_item c = None ->
  write_union m w u (Some (VStruct data)) (VUnion k None) s = (s, Ok tt).
Proof.
  intros m St w u data d k c s Hd Hk Ht. rewrite write_union_eq. destruct (union_has_items (u_cases u)); [|reflexivity].
  unfold wlet. cbn [read_discriminant]. unfold discriminant in Hd. rewrite Hd, Hk. unfold write_arm. rewrite Ht. reflexivity.
Qed.

(** Writing and reading a case with the right discriminant. *)
Theorem union_roundtrip : forall m u data k c item b,
  discriminant m u data (uc_case c) -> first_case u (uc_case c) k c -> encodes_case m c item b ->
  (forall s, write_union m vec_sink u (Some (VStruct data)) (VUnion k item) s = (s ++ b, Ok tt)) /\
  forall emb r, case_delimited emb c -> len (b ++ r) < 2 ^ 64 ->
    read_union m emb u (Some (VStruct data)) (b ++ r) = Ok (len b, VUnion k item).
Proof.
  intros m u data k c item b Hd Hf He. split.
  - intro s. destruct Hf as (Hk & _ & _). unfold encodes_case in He. destruct (uc_item c) as [t|] eqn:Et.
    + assert (Hh : union_has_items (u_cases u) = true).
      { unfold union_has_items. apply existsb_exists. exists c. split; [eapply nth_error_In; eauto|]. rewrite Et. reflexivity. }
      rewrite write_union_eq, Hh. unfold wlet. cbn [read_discriminant]. unfold discriminant in Hd. rewrite Hd, Hk.
      unfold write_arm. rewrite Et.
      destruct t as [st|x]; destruct item as [v|]; try contradiction; rewrite N.eqb_refl.
      * destruct v as [|dd| | | | | |]; try contradiction. destruct He as (Hl & _ & ->).
        cbn [write_ref]. unfold struct_write, wlet, slice. rewrite Hl.
        replace ((0 <=? s_byte_size st) && (s_byte_size st <=? s_byte_size st)) with true by lia.
        unfold put. cbn. rewrite N.sub_0_r. rewrite firstn_all2; [reflexivity|]. unfold len in Hl. lia.
      * cbn [write_ref]. apply write_vec_encodes. exact He.
    + destruct item; [contradiction|]. subst b. rewrite app_nil_r. eapply union_write_empty; eauto.
  - intros emb r Hsd Hl. destruct (union_read m emb u data _ (b ++ r) Hd) as (Hr & _). rewrite (Hr k c Hf). clear Hr.
    unfold encodes_case in He. destruct (uc_item c) as [[st|x]|] eqn:Et; destruct item as [v|]; try contradiction.
    + destruct v as [|dd| | | | | |]; try contradiction. destruct He as (Hld & _ & ->).
      cbn [read_ref]. unfold rmap, struct_from_slice. rewrite <- Hld.
      rewrite !len_app. replace (len dd + len r <? len dd) with false by lia.
      unfold slice. rewrite len_app. replace ((0 <=? len dd) && (len dd <=? len dd + len r)) with true by lia.
      cbn [bind N.to_nat skipn]. rewrite N.sub_0_r, firstn_len_app. reflexivity.
    + rewrite read_ref_msg. rewrite (roundtrip_suffix m emb x v b r); auto. apply encodes_is_lax. exact He.
    + subst b. reflexivity.
Qed.

(** [set_discriminant] stores the number of the case. *)
Lemma is_field_value_bits : forall buf o w v v', (forall j, j < w -> bit_at buf (o + j) = N.testbit v' j) ->
  is_field_value buf o w v -> v' < 2 ^ w -> v = v'.
Proof.
  intros buf o w v v' H Hv Hlt. apply N.bits_inj. intro j. rewrite Hv. destruct (N.ltb_spec j w); cbn [andb].
  - apply H. assumption.
  - symmetry. destruct (N.eq_dec v' 0) as [->|Hz]; [apply N.bits_0|].
    apply N.bits_above_log2. apply N.log2_lt_pow2 in Hlt; lia.
Qed.

Lemma set_discriminant_ok : forall m u k c o w data,
  struct_ok (d_root (u_disc u)) ->
  path_at (d_root (u_disc u)) (d_index_list (u_disc u)) o w ->
  path_bytes_aligned (d_root (u_disc u)) (d_index_list (u_disc u)) -> 0 < w <= 64 -> addressable o w ->
  nth_error (u_cases u) k = Some c -> uc_case c < 2 ^ w ->
  len data = s_byte_size (d_root (u_disc u)) -> bytes_ok data ->
  exists data', set_discriminant m u k data = Ok data' /\ len data' = len data /\ bytes_ok data' /\
    discriminant m u data' (uc_case c) /\
    forall t, ~ (o <= t < o + w) -> bit_at data' t = bit_at data t.
Proof.
  intros m u k c o w data Hs Hp Hal Hw Ha Hk Hc Hl Hok.
  destruct (path_set_correct (E:=rerror) m (uc_case c) _ _ o w data Hs Hp Hal Hw Ha) as (data' & Hset & U1 & U2 & U3);
    [lia|assumption|].
  exists data'. unfold set_discriminant. rewrite Hk. cbn [unwrap bind].
  assert (Hlen : len data' = len data) by (unfold len in *; lia).
  split; [exact Hset|]. split; [exact Hlen|]. split; [exact U2|]. split.
  - destruct (path_get_correct (E:=rerror) m _ _ o w data' Hs Hp Hal Hw Ha) as (v & Hv & Hfv); [lia|assumption|].
    unfold discriminant. rewrite Hv. f_equal. eapply is_field_value_bits; [|exact Hfv|exact Hc].
    intros j Hj. rewrite U3. replace ((o <=? o + j) && (o + j <? o + w)) with true by lia. f_equal. lia.
  - intros t Ht. rewrite U3. replace ((o <=? t) && (t <? o + w)) with false by lia. reflexivity.
Qed.

Theorem set_discriminant_correct : forall mc m structs name u k c o w data,
  built mc structs -> sget name structs = Some (d_root (u_disc u)) ->
  path_at (d_root (u_disc u)) (d_index_list (u_disc u)) o w ->
  path_bytes_aligned (d_root (u_disc u)) (d_index_list (u_disc u)) -> 0 < w <= 64 -> addressable o w ->
  nth_error (u_cases u) k = Some c -> uc_case c < 2 ^ w ->
  len data = s_byte_size (d_root (u_disc u)) -> bytes_ok data ->
  exists data', set_discriminant m u k data = Ok data' /\ len data' = len data /\ bytes_ok data' /\
    discriminant m u data' (uc_case c) /\
    forall t, ~ (o <= t < o + w) -> bit_at data' t = bit_at data t.
Proof. intros. eapply set_discriminant_ok; eauto. eapply built_ok; eauto. Qed.
