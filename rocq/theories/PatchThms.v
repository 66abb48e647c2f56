(** A structure inside a message read and changed in place, for C85. *)

From Coq Require Import Arith NArith ZArith List Bool Lia ZifyBool ZifyN ZifyNat.
From Verif Require Import Base Schema Codec Compiler Access Bits BitsFacts CodecFacts StructFacts ArrayThms BEThms
  SpecStruct StructThms Runtime Gen SpecWire SpecUnion SpecOffsets SpecExact SpecStream MsgFacts WriteThms SoundThms OffsetThms SpecDecode DecodeThms
  ReencodeThms ExactThms FinalThms OpenThms StreamThms ReplaceThms SpecPatch.
Import ListNotations.
Local Open Scope N_scope.

(** ** Lists *)

Lemma overwrite_app : forall (p old q d : bytes), len old = len d -> overwrite (p ++ old ++ q) (len p) d = p ++ d ++ q.
Proof.
  intros p old q d H. unfold overwrite. rewrite firstn_len_app. do 2 f_equal.
  rewrite app_assoc, <- H, <- len_app. apply skipn_len_app.
Qed.
Lemma window_app : forall (p c q : bytes), window (p ++ c ++ q) (len p) (len p + len c) = c.
Proof.
  intros. unfold window. rewrite skipn_len_app. replace (len p + len c - len p) with (len c) by lia. apply firstn_len_app.
Qed.
Lemma window_parts : forall (b : bytes) lo hi, lo <= hi -> hi <= len b ->
  exists p q, b = p ++ window b lo hi ++ q /\ len p = lo /\ len (window b lo hi) = hi - lo.
Proof.
  intros b lo hi H1 H2. exists (firstn (N.to_nat lo) b), (skipn (N.to_nat hi) b). split; [|split].
  - unfold window. rewrite <- (firstn_skipn (N.to_nat lo) b) at 1. f_equal.
    rewrite <- (firstn_skipn (N.to_nat (hi - lo)) (skipn (N.to_nat lo) b)) at 1. f_equal.
    rewrite skipn_add. f_equal. lia.
  - apply len_firstn'. lia.
  - unfold window. apply len_firstn'. rewrite len_skipn; lia.
Qed.
Lemma with_same : forall A (l : list A) i a, nth_error l i = Some a -> with_member i a l = l.
Proof.
  intros A l i a H. unfold with_member. rewrite <- (skipn_cons _ _ _ _ H). apply firstn_skipn.
Qed.
Lemma app_split_len : forall (c q p d r : bytes), c ++ q = p ++ d ++ r -> len p + len d <= len c ->
  exists r', c = p ++ d ++ r' /\ r = r' ++ q.
Proof.
  intros c q p d r E H. assert (Hc : c = firstn (length c) (p ++ d ++ r)).
  { rewrite <- E, firstn_app, firstn_all, Nat.sub_diag. cbn. rewrite app_nil_r. reflexivity. }
  exists (firstn (length c - length p - length d) r). assert (X : c = p ++ d ++ firstn (length c - length p - length d) r).
  { rewrite Hc at 1. unfold len in H. rewrite firstn_app, (firstn_all2 p) by lia. rewrite firstn_app, (firstn_all2 d) by lia. reflexivity. }
  split; [exact X|]. rewrite X in E. rewrite <- !app_assoc in E. apply app_inv_head in E. apply app_inv_head in E. symmetry. exact E.
Qed.
Lemma with_other : forall m x i vs w w', nth_error vs i = Some w ->
  (forall d, w <> VStruct d) -> (forall d, w' <> VStruct d) -> same_discriminants m x i vs w'.
Proof.
  intros m x i vs w w' H Hw Hw' j f u on _ _ _. rewrite H. unfold read_discriminant.
  destruct w; try reflexivity; try (destruct w'; try reflexivity; exfalso; eapply Hw'; reflexivity).
  exfalso. eapply Hw. reflexivity.
Qed.

(** ** The offsets depend on the bytes that are used only *)

Lemma local_field_offsets : forall m emb e prev f,
  (forall y, inside (mf_ty f) y -> local (read_msg_offsets m emb y)) -> local (read_field_offsets m emb e prev f).
Proof.
  intros m emb e prev f H.
  assert (HO : local (fun d => '(n, v) <- read_optional m (mf_optional f) (read_ty m emb e (mf_endi f) prev (mf_ty f)) d ;;
      Ok (n, (v, @None offsets)))).
  { intros b k v n Hl E Hk Hn. apply bind_ok in E. destruct E as ([c w] & Hc & E). inversion E; subst.
    rewrite (local_optional m (mf_optional f) (read_ty m emb e (mf_endi f) prev (mf_ty f))
      ltac:(apply bounded_ty; intros y _ ? ? ?; apply read_bounded) ltac:(apply local_ty; intros; apply read_local) b k w n Hl Hc Hk Hn).
    reflexivity. }
  unfold read_field_offsets. destruct (mf_ty f) as [ty|[st|y]| |ty|ty st|u on idx|ty x|] eqn:Et; try exact HO.
  clear HO. pose proof (H y (in_ref y)) as Hy. destruct (mf_optional f).
  - intros b k v n Hl E Hk Hn. apply bind_ok in E. destruct E as ([c [w o]] & Hc & E). inversion E; subst k v.
    assert (X : optional_from_slice_with_offsets m (read_msg_offsets m emb y) (firstn (N.to_nat n) b) = Ok (c, (w, o)));
      [|rewrite X; reflexivity].
    clear E. unfold optional_from_slice_with_offsets in *. destruct (len b <? 1) eqn:C; [discriminate|].
    destruct b as [|fl b]; [discriminate|]. cbn [nth_error unwrap bind] in Hc. rewrite len_firstn' by exact Hn.
    assert (Hl' : len (fl :: b) = 1 + len b) by (unfold len; cbn [length]; lia).
    destruct (0 <? fl) eqn:F.
    + rewrite slice_from_ok in Hc by lia. cbn [bind] in Hc. change (skipn (N.to_nat 1) (fl :: b)) with b in Hc.
      apply bind_ok in Hc. destruct Hc as ([c' [w' o']] & Hc & E).
      assert (Hc' : c' <= len b).
      { pose proof (offsets_correct m emb y b ltac:(lia)) as G. unfold agree in G.
        destruct (read_msg m emb y b) as [[k1 v1]|e1|] eqn:Er; [|rewrite G in Hc; discriminate..].
        destruct G as (o1 & G & _). rewrite G in Hc. inversion Hc; subst. eapply read_bounded; [|exact Er]. lia. }
      apply bind_ok in E. destruct E as (q & Hq & E). pose proof Hq as Hq0. apply uadd_inv in Hq; [|lia].
      inversion E; subst c w o. replace (n <? 1) with false by lia.
      replace (N.to_nat n) with (S (N.to_nat (n - 1))) by lia. cbn [firstn nth_error unwrap bind]. rewrite F.
      rewrite slice_from_ok by (unfold len; cbn [length]; lia). cbn [bind].
      change (skipn (N.to_nat 1) (fl :: firstn (N.to_nat (n - 1)) b)) with (firstn (N.to_nat (n - 1)) b).
      rewrite (Hy b c' (w', o') (n - 1)) by (assumption || lia). cbn [bind]. rewrite Hq0. reflexivity.
    + inversion Hc; subst c w o. replace (n <? 1) with false by lia.
      replace (N.to_nat n) with (S (N.to_nat (n - 1))) by lia. cbn [firstn nth_error unwrap bind]. rewrite F. reflexivity.
  - intros b k v n Hl E Hk Hn. apply bind_ok in E. destruct E as ([c [w o]] & Hc & E). inversion E; subst.
    rewrite (Hy b k (w, o) n Hl Hc Hk Hn). reflexivity.
Qed.

Lemma field_offsets_bounded : forall m emb e prev f d k w, len d < 2 ^ 64 -> read_field_offsets m emb e prev f d = Ok (k, w) -> k <= len d.
Proof.
  intros m emb e prev f d k w Hl E.
  pose proof (offsets_field m emb e prev f d Hl (fun y _ => offsets_correct m emb y)) as G. unfold agree in G.
  destruct (read_optional m (mf_optional f) (read_ty m emb e (mf_endi f) prev (mf_ty f)) d) as [[k1 v]|er|] eqn:Er;
    [|rewrite G in E; discriminate..].
  destruct G as (nested & G & _). rewrite G in E. inversion E; subst.
  eapply bounded_optional; [apply bounded_ty; intros y _ ? ? ?; apply read_bounded|exact Hl|exact Er].
Qed.
Lemma fields_offsets_bounded : forall m emb e b, len b < 2 ^ 64 -> forall fs off prev offs k w, off <= len b ->
  read_fields_offsets m emb e b fs off prev offs = Ok (k, w) -> off <= k /\ k <= len b.
Proof.
  intros m emb e b Hl. induction fs as [|f fs IH]; intros off prev offs k w Ho E; cbn [read_fields_offsets] in E.
  - inversion E; subst. lia.
  - rewrite slice_from_ok in E by exact Ho. cbn [bind] in E. apply bind_ok in E. destruct E as ([c [v o]] & Hc & E).
    apply field_offsets_bounded in Hc; [|rewrite len_skipn; lia]. rewrite len_skipn in Hc.
    rewrite uadd_fit in E by lia. cbn [bind] in E. apply IH in E; lia.
Qed.

Lemma local_fields_offsets : forall m emb e b fs off prev offs k w n,
  (forall g y, In g fs -> inside (mf_ty g) y -> local (read_msg_offsets m emb y)) ->
  len b < 2 ^ 64 -> off <= len b -> read_fields_offsets m emb e b fs off prev offs = Ok (k, w) -> k <= n -> n <= len b ->
  read_fields_offsets m emb e (firstn (N.to_nat n) b) fs off prev offs = Ok (k, w).
Proof.
  intros m emb e b. induction fs as [|f fs IH]; intros off prev offs k w n H Hl Ho E Hk Hn; cbn [read_fields_offsets] in *; [exact E|].
  rewrite slice_from_ok in E by exact Ho. cbn [bind] in E. apply bind_ok in E. destruct E as ([c [v o]] & Hc & E).
  pose proof Hc as Hcb. apply field_offsets_bounded in Hcb; [|rewrite len_skipn; lia]. rewrite len_skipn in Hcb.
  rewrite uadd_fit in E by lia. cbn [bind] in E. pose proof (fields_offsets_bounded _ _ _ _ Hl _ (off + c) _ _ _ _ ltac:(lia) E) as (Hoc & _).
  rewrite slice_from_firstn by lia. cbn [bind].
  rewrite (local_field_offsets m emb e prev f) with (k := c) (v := (v, o));
    [| |rewrite len_skipn; lia|exact Hc|lia|rewrite len_skipn; lia].
  2:{ intros y Hy. apply (H f y); [left; reflexivity|exact Hy]. }
  cbn [bind]. rewrite uadd_fit by lia. cbn [bind]. apply IH; try assumption; [|lia].
  intros g y Hg. apply (H g y). right. exact Hg.
Qed.

Theorem offsets_local : forall m emb x, local (read_msg_offsets m emb x).
Proof.
  intros m emb. apply (message_ind_inside (fun x => local (read_msg_offsets m emb x))). intros x IH b k v n Hl E Hk Hn.
  rewrite read_msg_offsets_eq in *. apply local_fields_offsets; try assumption; lia.
Qed.

(** ** One member *)

Lemma offsets_step : forall m emb e b, len b < 2 ^ 64 -> forall fs off prev offs n vs os i f, off <= len b ->
  read_fields_offsets m emb e b fs off prev offs = Ok (n, (VMsg vs, MkOffsets os)) -> nth_error fs i = Some f ->
  exists lo hi nested w, nth_error os (length offs + i) = Some (lo, hi, nested) /\ nth_error vs (length prev + i) = Some w /\
    read_field_offsets m emb e (firstn (length prev + i) vs) f (skipn (N.to_nat lo) b) = Ok (hi - lo, (w, nested)) /\
    lo <= hi /\ hi <= n /\ n <= len b.
Proof.
  intros m emb e b Hl. induction fs as [|g fs IH]; intros off prev offs n vs os i f Ho H Hf; [destruct i; discriminate|].
  cbn [read_fields_offsets] in H. rewrite slice_from_ok in H by exact Ho. cbn [bind] in H.
  apply bind_ok in H. destruct H as ([k [v nested]] & Hk & H).
  pose proof Hk as Hkb. apply field_offsets_bounded in Hkb; [|rewrite len_skipn; lia]. rewrite len_skipn in Hkb.
  rewrite uadd_fit in H by lia. cbn [bind] in H. destruct i as [|i].
  - cbn [nth_error] in Hf. injection Hf as ->.
    pose proof (fields_offsets_bounded _ _ _ _ Hl _ (off + k) _ _ _ _ ltac:(lia) H) as (Hn1 & Hn2).
    pose proof (offsets_fields m emb e b Hl fs (off + k) (prev ++ [v]) (offs ++ [(off, off + k, nested)])
      (fun _ y _ _ => offsets_correct m emb y) ltac:(lia)) as F.
    destruct (read_fields m emb e b fs (off + k) (prev ++ [v])) as [[n1 vs1]|er|]; [|rewrite F in H; discriminate..].
    destruct F as (rest & l & -> & F & _). rewrite F in H. inversion H; subst.
    exists off, (off + k), nested, v. rewrite !Nat.add_0_r, <- !app_assoc.
    split; [rewrite nth_error_app2, Nat.sub_diag by reflexivity; reflexivity|].
    split; [rewrite nth_error_app2, Nat.sub_diag by reflexivity; reflexivity|].
    split; [|lia]. rewrite firstn_app, firstn_all, Nat.sub_diag. cbn [firstn]. rewrite app_nil_r.
    replace (off + k - off) with k by lia. exact Hk.
  - cbn [nth_error] in Hf. destruct (IH (off + k) _ _ _ _ _ _ _ ltac:(lia) H Hf) as (lo & hi & ne & w & H1 & H2 & H3 & H4).
    rewrite !app_length in *. cbn [length] in *. exists lo, hi, ne, w.
    replace (length offs + S i)%nat with (length offs + 1 + i)%nat by lia.
    replace (length prev + S i)%nat with (length prev + 1 + i)%nat by lia. auto.
Qed.

Lemma tells_found : forall A (D : bytes -> found A -> Prop) r c q v, tells D r -> len (c ++ q) < 2 ^ 64 -> bytes_ok (c ++ q) ->
  (r (c ++ q) = Ok (len c, v) -> D (c ++ q) (Found c v q)).
Proof. intros A D r c q v H Hl Hb E. apply (H _ Hl Hb). rewrite E. symmetry. apply as_found_app. reflexivity. Qed.

Lemma member_at : forall m emb x b n vs l i f lo hi nested w, len b < 2 ^ 64 -> bytes_ok b ->
  read_msg_offsets m emb x b = Ok (n, (VMsg vs, MkOffsets l)) ->
  nth_error (m_fields x) i = Some f -> nth_error vs i = Some w -> nth_error l i = Some (lo, hi, nested) ->
  let e := emb (m_id x) in let prev := firstn i vs in
  exists p c q, b = p ++ c ++ q /\ lo = len p /\ hi = len p + len c /\ len p + len c <= n /\
    member m emb e prev f (c ++ q) (Found c w q) /\ read_field_offsets m emb e prev f (c ++ q) = Ok (len c, (w, nested)) /\
    forall c' w', c <> [] -> len c' = len c -> bytes_ok c' -> member m emb e prev f (c' ++ q) (Found c' w' q) ->
      same_discriminants m x i vs w' -> read_msg m emb x (p ++ c' ++ q) = Ok (n, VMsg (with_member i w' vs)).
Proof.
  intros m emb x b n vs l i f lo hi nested w Hl Hb Ho Hf Hw Hi e prev. pose proof Ho as Ho0. rewrite read_msg_offsets_eq in Ho0.
  destruct (offsets_step m emb _ b Hl _ _ _ _ _ _ _ _ _ (N.le_0_l _) Ho0 Hf) as (lo' & hi' & ne & w' & H1 & H2 & H3 & H4 & H5 & H6).
  cbn [length Nat.add] in *. rewrite Hi in H1. rewrite Hw in H2. inversion H1; inversion H2; subst lo' hi' ne w'. clear H1 H2 Ho0.
  fold prev e in H3. destruct (window_parts b lo hi H4 ltac:(lia)) as (p & q & Eb & Hp & Hc). set (c := window b lo hi) in *. clearbody c.
  assert (Hsk : skipn (N.to_nat lo) b = c ++ q) by (rewrite Eb, <- Hp; apply skipn_len_app). rewrite Hsk in H3.
  replace (hi - lo) with (len c) in H3 by exact Hc.
  assert (Hlq : len (c ++ q) < 2 ^ 64) by (rewrite Eb, !len_app in Hl; rewrite len_app; lia).
  assert (Hbq : bytes_ok (c ++ q)) by (rewrite Eb in Hb; apply bytes_ok_parts in Hb; apply Hb).
  exists p, c, q. split; [exact Eb|]. split; [auto|]. split; [lia|]. split; [lia|]. split; [|split; [exact H3|]].
  - pose proof (offsets_field m emb e prev f (c ++ q) Hlq (fun y _ => offsets_correct m emb y)) as G. unfold agree in G.
    destruct (read_optional m (mf_optional f) (read_ty m emb e (mf_endi f) prev (mf_ty f)) (c ++ q)) as [[k1 v]|er|] eqn:Er;
      [|rewrite G in H3; discriminate..].
    destruct G as (ne & G & _). rewrite G in H3. inversion H3; subst.
    eapply tells_found; [apply tells_member; intros; apply tells_message|exact Hlq|exact Hbq|exact Er].
  - intros c' w' Hne Hc' Hbc HM Hs.
    assert (Hq : skipn (N.to_nat hi) b = q).
    { rewrite Eb, app_assoc. replace hi with (len (p ++ c)) by (rewrite len_app; lia). apply skipn_len_app. }
    assert (Hfp : firstn (N.to_nat lo) b = p) by (rewrite Eb, <- Hp; apply firstn_len_app).
    assert (Hlen : len (p ++ c' ++ q) < 2 ^ 64) by (rewrite Eb, !len_app in Hl; rewrite !len_app; lia).
    destruct (replace_any m emb x b n vs l i f lo hi nested w' c' Hl Hb Hbc Ho Hf Hi) as (_ & _ & R).
    + rewrite Hq, Hfp. exact Hlen.
    + left. rewrite Eb, !len_app. destruct c; [congruence|]. unfold len in *. cbn [length] in *. lia.
    + rewrite Hq. exact HM.
    + exact Hs.
    + rewrite Hq, Hfp in R. rewrite R. do 2 f_equal. lia.
Qed.

Lemma member_hold : forall m emb e prev f c u q, member m emb e prev f (c ++ q) (Found c (hold f u) q) ->
  exists pre c0, c = pre ++ c0 /\ len pre = presence f /\ content m emb e (mf_endi f) prev (mf_ty f) (c0 ++ q) (Found c0 u q) /\
    forall c1 u1, content m emb e (mf_endi f) prev (mf_ty f) (c1 ++ q) (Found c1 u1 q) ->
      member m emb e prev f ((pre ++ c1) ++ q) (Found (pre ++ c1) (hold f u1) q).
Proof.
  intros m emb e prev f c u q H. unfold hold, presence in *. destruct (mf_optional f) eqn:Ho; inversion H; subst; try congruence.
  - match goal with X : content _ _ _ _ _ _ ?b0 (Found ?p0 _ _), A : 0 < ?a0 |- _ => exists [a0], p0 end.
    match goal with E0 : _ :: _ = (_ :: _) ++ _ |- _ => cbn [app] in E0; injection E0 as -> end.
    split; [reflexivity|]. split; [reflexivity|]. split; [assumption|].
    intros c1 u1 X. cbn [app]. apply member_present; assumption.
  - exists [], c. cbn [app]. split; [reflexivity|]. split; [reflexivity|].
    split; [assumption|]. intros c1 u1 X. apply member_plain; assumption.
Qed.
Lemma hold_struct : forall f u, (forall d, u <> VStruct d) -> forall d, hold f u <> VStruct d.
Proof. intros f u H d. unfold hold. destruct (mf_optional f); [discriminate|apply H]. Qed.

(** ** One item of a list *)

Lemma decodes_nil : forall m emb x b c v r, decodes m emb x b (Found c v r) -> b = c ++ r.
Proof. intros. eapply decodes_parted; eassumption. Qed.

Lemma items_S : forall m emb y n b c r, items m emb y (S n) b (Found c tt r) ->
  exists p v r1 q, c = p ++ q /\ decodes m emb y b (Found p v r1) /\ items m emb y n r1 (Found q tt r).
Proof. intros m emb y n b c r H. inversion H; subst. eauto 8. Qed.

Lemma items_at : forall m emb y k n all q used rest, (k < n)%nat -> len (all ++ q) < 2 ^ 64 -> bytes_ok (all ++ q) ->
  items m emb y n (all ++ q) (Found all tt q) -> items m emb y k all (Found used tt rest) ->
  all = used ++ rest /\ exists c v r, rest = c ++ r /\ decodes m emb y (c ++ r ++ q) (Found c v (r ++ q)) /\
    forall c' v', c <> [] -> len c' = len c -> decodes m emb y (c' ++ r ++ q) (Found c' v' (r ++ q)) ->
      items m emb y n ((used ++ c' ++ r) ++ q) (Found (used ++ c' ++ r) tt q).
Proof.
  intros m emb y. induction k as [|k IH]; intros [|n] all q used rest Hk Hl Hb H X; try lia;
    apply items_S in H; destruct H as (p2 & v2 & r2 & q2 & E2 & D2 & I2).
  - inversion X; subst used rest. split; [reflexivity|].
    pose proof (items_parted _ _ _ _ _ _ _ I2) as E. exists p2, v2, q2.
    split; [exact E2|]. subst r2. split; [rewrite E2, <- app_assoc in D2; exact D2|].
    intros c' v' _ _ D. cbn [app]. rewrite <- app_assoc. eapply items_next; eassumption.
  - apply items_S in X. destruct X as (p1 & v1 & r1 & q1 & E1 & D1 & I1).
    pose proof (decodes_nil _ _ _ _ _ _ _ D2) as G2. pose proof (decodes_nil _ _ _ _ _ _ _ D1) as G1.
    assert (Hl1 : len all < 2 ^ 64) by (rewrite len_app in Hl; lia).
    assert (Hb1 : bytes_ok all) by (apply bytes_ok_parts in Hb; apply Hb).
    assert (E : p2 = p1 /\ r2 = r1 ++ q).
    { assert (R2 : read_msg m emb y (all ++ q) = Ok (len p2, v2)) by (apply (decode_exact m emb y _ Hl Hb); exists p2, r2; auto).
      assert (R1 : read_msg m emb y all = Ok (len p1, v1)) by (apply (decode_exact m emb y _ Hl1 Hb1); exists p1, r1; auto).
      assert (L2 : len p2 <= len all) by (rewrite E2, len_app; lia).
      pose proof (read_local m emb y (all ++ q) _ _ (len all) Hl R2 L2 ltac:(rewrite len_app; lia)) as R3.
      rewrite firstn_len_app in R3. rewrite R3 in R1. assert (L : len p1 = len p2) by congruence.
      rewrite G1, <- app_assoc in G2. apply len_split in G2; [|auto]. destruct G2 as (-> & <-). auto. }
    destruct E as (-> & ->). rewrite G1 in E2. apply app_inv_head in E2. subst q2.
    destruct (IH n r1 q q1 rest ltac:(lia)) as (Er & c & v0 & r & Ec & HD & HP); [| |exact I2|exact I1|].
    + rewrite G1, <- app_assoc, len_app in Hl. lia.
    + rewrite G1, <- app_assoc in Hb. apply bytes_ok_parts in Hb. apply Hb.
    + split; [rewrite G1, Er, E1, app_assoc; reflexivity|]. exists c, v0, r. split; [exact Ec|]. split; [exact HD|].
      intros c' v' Hne Hc' D'. subst used. rewrite <- (app_assoc p1). rewrite <- (app_assoc p1). eapply items_next.
      * eapply decodes_movable; [exact D2|]. rewrite Er, Ec. destruct c; [congruence|]. intro E0. exfalso.
        apply (f_equal (@length _)) in E0. repeat rewrite app_length in E0. cbn [length] in E0. lia.
      * eapply HP; eassumption.
Qed.

(** ** A structure in a message *)

Definition found_at m emb x (b : bytes) (n : N) (v : value) pos (s : structure) data again free : Prop :=
  exists p q, b = p ++ data ++ q /\ pos = len p /\ len data = s_byte_size s /\ len p + len data <= n /\ again data = v /\
    forall d, len d = len data -> bytes_ok d -> free d -> read_msg m emb x (p ++ d ++ q) = Ok (n, again d).

Lemma not_nil : forall (c : bytes), 0 < len c -> c <> [].
Proof. intros [|a c] H; [cbn in H; lia|discriminate]. Qed.
Lemma bytes_ok_between : forall p c q d : bytes, bytes_ok (p ++ c ++ q) -> bytes_ok d -> bytes_ok (p ++ d ++ q).
Proof.
  intros p c q d H Hd. apply bytes_ok_parts in H. destruct H as (H1 & H2). apply bytes_ok_parts in H2. destruct H2 as (_ & H2).
  apply bytes_ok_parts. split; [exact H1|]. apply bytes_ok_parts. split; assumption.
Qed.

Lemma content_at : forall m emb x b n vs l i f lo hi nested u, len b < 2 ^ 64 -> bytes_ok b ->
  read_msg_offsets m emb x b = Ok (n, (VMsg vs, MkOffsets l)) ->
  nth_error (m_fields x) i = Some f -> nth_error vs i = Some (hold f u) -> nth_error l i = Some (lo, hi, nested) ->
  let e := emb (m_id x) in let prev := firstn i vs in
  exists p pre c q, b = (p ++ pre) ++ c ++ q /\ lo = len p /\ len pre = presence f /\ hi = len (p ++ pre) + len c /\ hi <= n /\
    content m emb e (mf_endi f) prev (mf_ty f) (c ++ q) (Found c u q) /\
    read_field_offsets m emb e prev f ((pre ++ c) ++ q) = Ok (len (pre ++ c), (hold f u, nested)) /\
    forall c' u', c <> [] -> len c' = len c -> bytes_ok c' -> content m emb e (mf_endi f) prev (mf_ty f) (c' ++ q) (Found c' u' q) ->
      same_discriminants m x i vs (hold f u') -> read_msg m emb x ((p ++ pre) ++ c' ++ q) = Ok (n, VMsg (with_member i (hold f u') vs)).
Proof.
  intros m emb x b n vs l i f lo hi nested u Hl Hb Ho Hf Hv Hi e prev.
  destruct (member_at m emb x b n vs l i f lo hi nested _ Hl Hb Ho Hf Hv Hi) as (p & c & q & Eb & Elo & Ehi & Hn & HM & HR & HP).
  destruct (member_hold _ _ _ _ _ _ _ _ HM) as (pre & c0 & -> & Hpre & HC & HM').
  exists p, pre, c0, q. rewrite len_app in *. split; [rewrite Eb, <- !app_assoc; reflexivity|]. split; [exact Elo|]. split; [exact Hpre|].
  split; [lia|]. split; [lia|]. split; [exact HC|]. split; [rewrite len_app; exact HR|].
  intros c' u' Hne Hc' Hbc HC' Hsd. replace ((p ++ pre) ++ c' ++ q) with (p ++ (pre ++ c') ++ q) by (rewrite <- !app_assoc; reflexivity).
  apply HP; [|rewrite !len_app; lia| |apply HM'; exact HC'|exact Hsd].
  - intro E. apply app_eq_nil in E. apply Hne. apply E.
  - apply bytes_ok_parts. split; [|exact Hbc]. rewrite Eb in Hb. apply bytes_ok_parts in Hb. destruct Hb as (_ & Hb).
    apply bytes_ok_parts in Hb. destruct Hb as (Hb & _). apply bytes_ok_parts in Hb. apply Hb.
Qed.

Lemma offsets_read : forall m emb y b n v, len b < 2 ^ 64 ->
  (exists o, read_msg_offsets m emb y b = Ok (n, (v, o))) <-> read_msg m emb y b = Ok (n, v).
Proof.
  intros m emb y b n v Hl. pose proof (offsets_correct m emb y b Hl) as G. unfold agree in G. split.
  - intros (o & H). destruct (read_msg m emb y b) as [[k1 v1]|e|]; [|rewrite G in H; discriminate..].
    destruct G as (o1 & G & _). rewrite G in H. inversion H; subst. reflexivity.
  - intro H. rewrite H in G. destruct G as (o & G & _). eauto.
Qed.
Lemma offsets_inner : forall m emb e prev f y z o pre c q, mf_ty f = TRef (RMessage y) -> len pre = presence f ->
  read_field_offsets m emb e prev f ((pre ++ c) ++ q) = Ok (len (pre ++ c), (hold f z, Some o)) -> len (pre ++ c) < 2 ^ 64 ->
  len ((pre ++ c) ++ q) < 2 ^ 64 -> read_msg_offsets m emb y (c ++ q) = Ok (len c, (z, o)).
Proof.
  intros m emb e prev f y z o pre c q Ht Hpre H Hl Hl2. unfold read_field_offsets in H. rewrite Ht in H. unfold hold, presence in *.
  destruct (mf_optional f).
  - destruct pre as [|a [|a' pre]]; try (unfold len in Hpre; cbn [length] in Hpre; lia). cbn [app] in *.
    apply bind_ok in H. destruct H as ([k [v o1]] & H & E). inversion E; subst. clear E. unfold optional_from_slice_with_offsets in H.
    assert (Hl' : forall r : bytes, len (a :: r) = 1 + len r) by (intro r; unfold len; cbn [length]; lia). rewrite !Hl' in *.
    replace (1 + len (c ++ q) <? 1) with false in H by lia. cbn [nth_error unwrap bind] in H. destruct (0 <? a); [|discriminate].
    rewrite slice_from_ok in H by (rewrite Hl'; lia). cbn [bind] in H. change (skipn (N.to_nat 1) (a :: c ++ q)) with (c ++ q) in H.
    apply bind_ok in H. destruct H as ([k [v o2]] & H & E). apply bind_ok in E. destruct E as (k' & Hk & E).
    assert (Ek : k' = 1 + len c) by congruence. assert (Ev : v = z /\ o2 = o) by (split; congruence). destruct Ev as (-> & ->). subst k'.
    assert (Hk1 : k <= len (c ++ q)).
    { eapply read_bounded; [|apply offsets_read; [|eexists; exact H]]; lia. }
    apply uadd_inv in Hk; [|lia]. rewrite H. do 2 f_equal. lia.
  - destruct pre; [|unfold len in Hpre; cbn [length] in Hpre; lia]. cbn [app] in *.
    apply bind_ok in H. destruct H as ([k [v o1]] & H & E). inversion E; subst. exact H.
Qed.
Lemma read_found : forall m emb y c q v, len (c ++ q) < 2 ^ 64 -> bytes_ok (c ++ q) -> read_msg m emb y (c ++ q) = Ok (len c, v) ->
  decodes m emb y (c ++ q) (Found c v q).
Proof. intros m emb y c q v Hl Hb H. eapply tells_found; [apply tells_message|exact Hl|exact Hb|exact H]. Qed.
Lemma again_message : forall m emb x v o pos s data again free, structure_at m emb x v o pos s data again free ->
  (forall d d', again d <> VStruct d') /\ (forall d', v <> VStruct d').
Proof. intros m emb x v o pos s data again free H. inversion H; subst; split; discriminate. Qed.

Theorem patched : forall m emb x v o pos s data again free, structure_at m emb x v o pos s data again free ->
  0 < s_byte_size s -> forall b n, len b < 2 ^ 64 -> bytes_ok b -> read_msg_offsets m emb x b = Ok (n, (v, o)) ->
  found_at m emb x b n v pos s data again free.
Proof.
  intros m emb x v o pos s data again free H Hs.
  induction H as [x vs l i f s data lo hi nested Hf Hv Hi Ht
    |x vs l i f u on j k cs s data lo hi nested Hf Hv Hi Ht Hk Hcs
    |x vs l i f ty s all n k lo hi nested Hf Hv Hi Ht Hk
    |x vs l i f y z o pos s data again free lo hi Hf Hv Hi Ht H IH
    |x vs l i f ty y all n k used rest cc z o pos s data again free lo hi nested Hf Hv Hi Ht Hk HI HR0 H IH]; intros b n' Hl Hb Ho;
    destruct (content_at m emb x b n' vs l i f _ _ _ _ Hl Hb Ho Hf Hv Hi) as (p & pre & c & q & Eb & Elo & Hpre & Ehi & Hn & HC & HR & HP);
    pose proof (with_same _ _ _ _ Hv) as Hsame; rewrite Ht in HC, HP;
    assert (Hlc : len (c ++ q) < 2 ^ 64) by (rewrite Eb, len_app in Hl; lia);
    assert (Hbc : bytes_ok (c ++ q)) by (rewrite Eb in Hb; apply bytes_ok_parts in Hb; apply Hb).
  - assert (Hd : c = data /\ len data = s_byte_size s).
    { inversion HC; subst. match goal with T : target _ _ _ _ _ |- _ => inversion T; subst; auto end. }
    destruct Hd as (-> & Hd). exists (p ++ pre), q. split; [exact Eb|]. split; [lia|]. split; [exact Hd|]. split; [lia|].
    split; [f_equal; exact Hsame|]. intros d Hd' Hbd Hfree.
    apply HP; [apply not_nil; lia|exact Hd'|exact Hbd| |exact Hfree]. constructor. constructor. lia.
  - assert (Hd : c = data /\ len data = s_byte_size s /\ exists dt d, nth_error (firstn i vs) j = Some (VStruct dt) /\
      discriminant m u dt d /\ first_case u d k cs).
    { inversion HC; subst; try discriminate.
      match goal with K : first_case u ?d0 k ?c0, I0 : uc_item ?c0 = Some ?t0, T : target _ _ ?t0 _ _ |- _ =>
        assert (E : c0 = cs) by (destruct K as (K & _); congruence); subst c0; rewrite Hcs in I0; injection I0 as <-; inversion T; subst end.
      eauto 8. }
    destruct Hd as (-> & Hd & dt & dd & X1 & X2 & X3). exists (p ++ pre), q. split; [exact Eb|]. split; [lia|]. split; [exact Hd|]. split; [lia|].
    split; [f_equal; exact Hsame|]. intros d Hd' Hbd _.
    apply HP; [apply not_nil; lia|exact Hd'|exact Hbd| |eapply with_other; [exact Hv|apply hold_struct; discriminate|apply hold_struct; discriminate]].
    eapply union_case; [exact X1|exact X2|exact X3|exact Hcs|]. constructor. lia.
  - set (lo1 := k * s_byte_size s) in *. set (hi1 := (k + 1) * s_byte_size s) in *.
    assert (Eh : hi1 = lo1 + s_byte_size s) by (unfold hi1, lo1; lia).
    destruct (window_parts all lo1 hi1 ltac:(lia) Hk) as (p1 & q1 & Eall & Hp1 & Hw).
    assert (Hd : exists pn, c = pn ++ all /\ number (mf_endi f) (get_byte_size ty) n pn /\ extent m n (s_byte_size s) = Some (len all)).
    { inversion HC; subst. eauto. }
    destruct Hd as (pn & -> & X1 & X2). exists (p ++ pre ++ pn ++ p1), (q1 ++ q).
    set (data := window all lo1 hi1) in *. clearbody data. split; [rewrite Eb, Eall, <- !app_assoc; reflexivity|].
    assert (Hla : len all = len p1 + len data + len q1) by (rewrite Eall, !len_app; lia).
    rewrite !len_app in *. split; [lia|]. split; [lia|]. split; [lia|]. split.
    { f_equal. rewrite <- Hsame at 2. do 2 f_equal. rewrite Eall at 1. rewrite <- Hp1, overwrite_app by reflexivity. rewrite <- Eall. reflexivity. }
    intros d Hd' Hbd _.
    replace ((p ++ pre ++ pn ++ p1) ++ d ++ q1 ++ q) with ((p ++ pre) ++ (pn ++ p1 ++ d ++ q1) ++ q) by (rewrite <- !app_assoc; reflexivity).
    replace (overwrite all lo1 d) with (p1 ++ d ++ q1) by (rewrite Eall, <- Hp1; symmetry; apply overwrite_app; auto).
    apply HP; [| | | |eapply with_other; [exact Hv|apply hold_struct; discriminate|apply hold_struct; discriminate]].
    + apply not_nil. rewrite len_app. lia.
    + rewrite !len_app. lia.
    + apply bytes_ok_parts in Hbc. destruct Hbc as (Hbc & _). rewrite Eall in Hbc. rewrite app_assoc in *. eapply bytes_ok_between; eassumption.
    + rewrite <- app_assoc. apply array_there; [exact X1|]. rewrite X2, !len_app. f_equal. lia.
  - assert (HD : decodes m emb y (c ++ q) (Found c z q)).
    { inversion HC; subst. match goal with T : target _ _ _ _ _ |- _ => inversion T; subst; assumption end. }
    assert (HO : read_msg_offsets m emb y (c ++ q) = Ok (len c, (z, o))).
    { rewrite Eb, <- app_assoc, (app_assoc pre), len_app in Hl.
      eapply offsets_inner; [exact Ht|exact Hpre|exact HR|rewrite len_app in Hl; lia|lia]. }
    destruct (IH Hs (c ++ q) (len c) Hlc Hbc HO) as (p1 & q1 & E1 & -> & H1 & H2 & H3 & H4).
    destruct (app_split_len _ _ _ _ _ E1 H2) as (q2 & -> & ->).
    exists (p ++ pre ++ p1), (q2 ++ q). split; [rewrite Eb, <- !app_assoc; reflexivity|].
    rewrite !len_app in *. split; [lia|]. split; [exact H1|]. split; [lia|]. split; [rewrite H3; f_equal; exact Hsame|].
    intros d Hd' Hbd Hfree. specialize (H4 d Hd' Hbd Hfree).
    replace ((p ++ pre ++ p1) ++ d ++ q2 ++ q) with ((p ++ pre) ++ (p1 ++ d ++ q2) ++ q) by (rewrite <- !app_assoc; reflexivity).
    assert (Hbp : bytes_ok (p1 ++ d ++ q2)) by (apply bytes_ok_parts in Hbc; eapply bytes_ok_between; [apply Hbc|exact Hbd]).
    apply HP; [apply not_nil; rewrite !len_app; lia|rewrite !len_app; lia|exact Hbp| |eapply with_other; [exact Hv|apply hold_struct|apply hold_struct]].
    + constructor. constructor. apply read_found; [| |rewrite !len_app, Hd'; rewrite <- !app_assoc; exact H4].
      * rewrite !len_app in *. lia.
      * apply bytes_ok_parts. split; [exact Hbp|]. apply bytes_ok_parts in Hbc. apply Hbc.
    + apply (again_message _ _ _ _ _ _ _ _ _ _ H).
    + apply (again_message _ _ _ _ _ _ _ _ _ _ H).
  - assert (Hd : exists pn, c = pn ++ all /\ number (mf_endi f) (get_byte_size ty) n pn /\
      ((emb (m_id x) = true /\ items m emb y (N.to_nat n) (all ++ q) (Found all tt q)) \/ (emb (m_id x) = false /\ q = []))).
    { inversion HC; subst; eauto 6. }
    destruct Hd as (pn & -> & X1 & X2).
    assert (Hla : len (all ++ q) < 2 ^ 64) by (rewrite <- app_assoc, len_app in Hlc; lia).
    assert (Hba : bytes_ok (all ++ q)) by (rewrite <- app_assoc in Hbc; apply bytes_ok_parts in Hbc; apply Hbc).
    pose proof (items_parted _ _ _ _ _ _ _ HI) as Eall.
    assert (Hlr : len (rest ++ q) < 2 ^ 64) by (rewrite Eall, <- app_assoc, len_app in Hla; lia).
    assert (Hbr : bytes_ok (rest ++ q)) by (rewrite Eall, <- app_assoc in Hba; apply bytes_ok_parts in Hba; apply Hba).
    assert (Hnew : exists p1 q1, rest = p1 ++ data ++ q1 /\ pos = len p1 /\ len data = s_byte_size s /\ again data = z /\
      forall d, len d = len data -> bytes_ok d -> free d ->
        content m emb (emb (m_id x)) (mf_endi f) (firstn i vs) (TList ty y) ((pn ++ used ++ p1 ++ d ++ q1) ++ q)
          (Found (pn ++ used ++ p1 ++ d ++ q1) (VListing (used ++ p1 ++ d ++ q1) n) q)).
    { destruct X2 as [(Ee & X2)|(Ee & ->)].
      - destruct (items_at _ _ _ _ _ _ _ _ _ Hk Hla Hba X2 HI) as (_ & c & v & r & Er & HD & HU). subst rest.
        assert (RC : read_msg m emb y ((c ++ r) ++ q) = Ok (len c, v)).
        { apply (decode_exact m emb y _ Hlr Hbr). exists c, (r ++ q). rewrite <- app_assoc. auto. }
        apply offsets_read in RC; [|exact Hlr]. destruct RC as (oc & RC).
        pose proof (offsets_local m emb y _ _ _ (len (c ++ r)) Hlr RC ltac:(rewrite len_app; lia) ltac:(rewrite (len_app (c ++ r)); lia)) as R1.
        rewrite firstn_len_app, HR0 in R1. inversion R1; subst cc v oc. clear R1.
        destruct (IH Hs _ _ Hlr Hbr RC) as (p1 & q1 & E1 & Hpos & H1 & H2 & H3 & H4).
        rewrite <- app_assoc in E1. destruct (app_split_len _ _ _ _ _ E1 H2) as (q2 & -> & ->).
        exists p1, (q2 ++ r). split; [rewrite <- !app_assoc; reflexivity|]. split; [exact Hpos|]. split; [exact H1|]. split; [exact H3|].
        intros d Hd' Hbd Hfree. specialize (H4 d Hd' Hbd Hfree). rewrite Ee. rewrite <- (app_assoc pn). apply list_walked; [exact X1|].
        replace (used ++ p1 ++ d ++ q2 ++ r) with (used ++ (p1 ++ d ++ q2) ++ r) by (rewrite <- !app_assoc; reflexivity).
        eapply HU; [apply not_nil; rewrite !len_app; lia|rewrite !len_app; lia|].
        apply read_found.
        + rewrite !len_app in *. lia.
        + rewrite <- !app_assoc in *. eapply bytes_ok_between; eassumption.
        + rewrite <- !app_assoc. rewrite H4. do 2 f_equal. rewrite !len_app. lia.
      - rewrite app_nil_r in Hlr, Hbr. destruct (IH Hs _ _ Hlr Hbr HR0) as (p1 & q1 & E1 & Hpos & H1 & H2 & H3 & H4).
        exists p1, q1. split; [exact E1|]. split; [exact Hpos|]. split; [exact H1|]. split; [exact H3|].
        intros d Hd' Hbd Hfree. rewrite Ee, app_nil_r. apply list_unwalked. exact X1. }
    destruct Hnew as (p1 & q1 & Er & -> & H1 & H3 & H4). subst rest. subst all.
    exists (p ++ pre ++ pn ++ used ++ p1), (q1 ++ q). split; [rewrite Eb, <- !app_assoc; reflexivity|].
    rewrite !len_app in *. split; [lia|]. split; [exact H1|]. split; [lia|].
    assert (Eo : forall d, len d = len data -> overwrite (used ++ p1 ++ data ++ q1) (len used + len p1) d = used ++ p1 ++ d ++ q1).
    { intros d Hd'. rewrite <- len_app, (app_assoc used), overwrite_app by auto. rewrite <- app_assoc. reflexivity. }
    split; [rewrite Eo by reflexivity; f_equal; exact Hsame|]. intros d Hd' Hbd Hfree. rewrite Eo by exact Hd'.
    replace ((p ++ pre ++ pn ++ used ++ p1) ++ d ++ q1 ++ q) with ((p ++ pre) ++ (pn ++ used ++ p1 ++ d ++ q1) ++ q) by (rewrite <- !app_assoc; reflexivity).
    apply HP; [| | |apply H4; assumption|eapply with_other; [exact Hv|apply hold_struct; discriminate|apply hold_struct; discriminate]].
    + apply not_nil. rewrite !len_app. lia.
    + rewrite !len_app. lia.
    + apply bytes_ok_parts in Hbc. destruct Hbc as (Hbc & _).
      replace (pn ++ used ++ p1 ++ d ++ q1) with ((pn ++ used ++ p1) ++ d ++ q1) by (rewrite <- !app_assoc; reflexivity).
      replace (pn ++ used ++ p1 ++ data ++ q1) with ((pn ++ used ++ p1) ++ data ++ q1) in Hbc by (rewrite <- !app_assoc; reflexivity).
      eapply bytes_ok_between; eassumption.
Qed.

(** ** The results *)

Theorem structure_in_place : forall m emb x b n v o pos s data again free, len b < 2 ^ 64 -> bytes_ok b ->
  read_msg_offsets m emb x b = Ok (n, (v, o)) -> structure_at m emb x v o pos s data again free -> 0 < s_byte_size s ->
  pos + s_byte_size s <= n /\ n <= len b /\ window b pos (pos + s_byte_size s) = data /\ again data = v /\
  forall d, len d = s_byte_size s -> bytes_ok d -> free d ->
    len (overwrite b pos d) = len b /\ read_msg m emb x (overwrite b pos d) = Ok (n, again d).
Proof.
  intros m emb x b n v o pos s data again free Hl Hb Ho H Hs.
  destruct (patched m emb x v o pos s data again free H Hs b n Hl Hb Ho) as (p & q & -> & -> & Hd & Hn & Ha & HP).
  split; [lia|]. split.
  { apply (read_bounded m emb x (p ++ data ++ q) n v Hl). apply offsets_read; [exact Hl|eauto]. }
  split; [rewrite <- Hd; apply window_app|]. split; [exact Ha|].
  intros d Hd' Hbd Hf. rewrite overwrite_app by lia. split; [rewrite !len_app; lia|]. apply HP; [lia|exact Hbd|exact Hf].
Qed.

Lemma value_in : forall p data q o w r, o + w <= 8 * len data ->
  is_field_value data o w r -> is_field_value (p ++ data ++ q) (8 * len p + o) w r.
Proof.
  intros p data q o w r H V j. rewrite V. destruct (N.ltb_spec j w) as [L|L]; [|reflexivity]. cbn [andb].
  rewrite bit_at_app. replace (8 * len p + o + j <? 8 * len p) with false by lia.
  rewrite bit_at_app. replace (8 * len p + o + j - 8 * len p) with (o + j) by lia.
  replace (o + j <? 8 * len data) with true by lia. reflexivity.
Qed.
Lemma update_in : forall p data data' q o w v, o + w <= 8 * len data -> bytes_ok (p ++ data ++ q) ->
  is_field_update data o w v data' -> is_field_update (p ++ data ++ q) (8 * len p + o) w v (p ++ data' ++ q).
Proof.
  intros p data data' q o w v H Hb (U1 & U2 & U3). split; [rewrite !app_length; lia|]. split; [eapply bytes_ok_between; eassumption|].
  assert (El : len data' = len data) by (unfold len; lia).
  intro i. rewrite !bit_at_app, El. destruct (N.ltb_spec i (8 * len p)) as [L|L].
  - replace (8 * len p + o <=? i) with false by lia. reflexivity.
  - destruct (N.ltb_spec (i - 8 * len p) (8 * len data)) as [L2|L2].
    + rewrite U3. replace (o <=? i - 8 * len p) with (8 * len p + o <=? i) by lia.
      replace (i - 8 * len p <? o + w) with (i <? 8 * len p + o + w) by lia.
      replace (i - 8 * len p - o) with (i - (8 * len p + o)) by lia. reflexivity.
    + replace (i <? 8 * len p + o + w) with false by lia. rewrite andb_false_r. reflexivity.
Qed.

Lemma declared_fits : forall mc enums structs id d s i f o w, structure_from_model mc Little enums structs id d = Ok s ->
  no_overflow mc structs d -> nth_error (s_fields s) i = Some (FFixed f) -> declared_at structs d i o w -> 0 < w ->
  o + w <= 8 * s_byte_size s /\ 0 < s_byte_size s.
Proof.
  intros mc enums structs id d s i f o w H Hno Hf Hat Hw.
  destruct (fixed_in_structure mc enums structs id d s i (FFixed f) o w H Hno Hf Hat) as (_ & X & _).
  apply structure_layout in H. destruct H as (_ & _ & _ & Hb & _). rewrite Hb. unfold ceil8.
  pose proof (N.div_mod (s_bit_size s + 7) 8 ltac:(lia)). pose proof (N.mod_lt (s_bit_size s + 7) 8 ltac:(lia)). lia.
Qed.

Theorem field_in_place : forall E mc m emb enums structs id dd s i f fo w x b n v o pos data again free,
  structure_from_model mc Little enums structs id dd = Ok s -> no_overflow mc structs dd ->
  nth_error (s_fields s) i = Some (FFixed f) -> declared_at structs dd i fo w -> 0 < w <= 64 -> addressable fo w ->
  len b < 2 ^ 64 -> bytes_ok b ->
  read_msg_offsets m emb x b = Ok (n, (v, o)) -> structure_at m emb x v o pos s data again free ->
  (exists r, get_raw (E:=E) m f data = Ok r /\ is_field_value b (8 * pos + fo) w r) /\
  (forall r, exists data', set_raw (E:=E) m f data r = Ok data' /\
     is_field_update b (8 * pos + fo) w r (overwrite b pos data') /\
     (free data' -> read_msg m emb x (overwrite b pos data') = Ok (n, again data'))).
Proof.
  intros E mc m emb enums structs id dd s i f fo w x b n v o pos data again free Hc Hno Hf Hat Hw Ha Hl Hb Ho H.
  destruct (declared_fits _ _ _ _ _ _ _ _ _ _ Hc Hno Hf Hat ltac:(lia)) as (Hfit & Hs).
  destruct (patched m emb x v o pos s data again free H Hs b n Hl Hb Ho) as (p & q & -> & -> & Hd & Hn & _ & HP).
  assert (Hbd : bytes_ok data) by (apply bytes_ok_parts in Hb; destruct Hb as (_ & Hb); apply bytes_ok_parts in Hb; apply Hb).
  split.
  - destruct (@get_raw_exact E mc m enums structs id dd s i f fo w data Hc Hno Hf Hat Hw Ha ltac:(lia) Hbd) as (r & R & V).
    exists r. split; [exact R|]. apply value_in; [lia|exact V].
  - intro r. destruct (@set_raw_exact E mc m enums structs id dd s i f fo w data r Hc Hno Hf Hat Hw Ha ltac:(lia) Hbd) as (data' & R & U).
    exists data'. assert (El : len data' = len data) by (destruct U as (U & _); unfold len; lia).
    split; [exact R|]. rewrite overwrite_app by auto. split; [apply update_in; [lia|exact Hb|exact U]|].
    intro Hfr. apply HP; [exact El|apply U|exact Hfr].
Qed.
