(** Iterating lists: the exact results, for C33 and C34; failed items, for C35. *)

From Coq Require Import Arith NArith ZArith List Bool Lia ZifyBool ZifyN ZifyNat.
From Verif Require Import Base Schema Codec Compiler Access Bits BitsFacts CodecFacts StructFacts ArrayThms BEThms
  Runtime Gen SpecWire SpecUnion MsgFacts WriteThms SoundThms ListThms ReadThms SpecDecode DecodeThms SpecEncode EncodeThms SpecIterate.
Import ListNotations.
Local Open Scope N_scope.

Lemma stuck_take : forall A m (item : reader A) data n e, 0 < n -> item data = Err e ->
  forall k, iter_take m item k (data, n) = Ok (repeat (Err e) k, (data, n)).
Proof.
  intros A m item data n e Hn He. induction k as [|k IH]; [reflexivity|]. cbn [iter_take]. unfold iter_next.
  destruct (N.eqb_spec n 0); [lia|]. rewrite He. cbn [bind]. rewrite IH. reflexivity.
Qed.

Theorem iterate_exact : forall m emb y k data n, len data < 2 ^ 64 -> bytes_ok data -> n < 2 ^ 64 -> forall o,
  iterates m emb y data n k o <->
  o = match iter_take m (read_msg m emb y) k (data, n) with Ok rs => Some rs | Err _ => None | Panic => None end.
Proof.
  intros m emb y. induction k as [|k IH]; intros data n Hl Hb Hn o.
  { cbn [iter_take]. split; intro H; [inversion H; reflexivity|subst o; constructor]. }
  destruct (N.eq_dec n 0) as [-> | Hn0].
  { cbn [iter_take iter_next N.eqb bind]. split; intro H; [inversion H; subst; try lia; reflexivity|subst o; constructor]. }
  destruct (decode_exact m emb y data Hl Hb) as (HO & HE & HP).
  destruct (decode_deterministic m emb y data Hl Hb) as (o0 & Ho0 & Hu).
  destruct (read_msg m emb y data) as [[sz v]|e|] eqn:R.
  - destruct (proj1 (HO sz v) eq_refl) as (c & r & E & Hs & Hd). apply Hu in Hd as Hu0. subst o0.
    assert (Hl' : len r < 2 ^ 64) by (rewrite E, len_app in Hl; lia).
    assert (Hb' : bytes_ok r) by (rewrite E in Hb; unfold bytes_ok in *; rewrite Forall_app in Hb; apply Hb).
    specialize (IH r (n - 1) Hl' Hb' ltac:(lia)). cbn [iter_take]. unfold iter_next. destruct (N.eqb_spec n 0); [lia|].
    rewrite R. rewrite Hs. rewrite E at 2. rewrite slice_from_app. cbn [bind]. unfold usub. replace (1 <=? n) with true by lia. cbn [bind].
    split; intro H.
    + inversion H; subst; try lia.
      * match goal with X : decodes _ _ _ _ (Found _ _ _) |- _ => apply Hu in X; inversion X; subst end.
        match goal with X : iterates _ _ _ _ ?q _ _ |- _ => replace (q + 1 - 1) with q in * by lia; apply IH in X end.
        match goal with X : Some _ = match ?t with _ => _ end |- _ => destruct t as [[rs' s']|e|]; try discriminate end.
        match goal with X : Some _ = Some _ |- _ => inversion X; subst end. reflexivity.
      * match goal with X : decodes _ _ _ _ (Found _ _ _) |- _ => apply Hu in X; inversion X; subst end.
        match goal with X : iterates _ _ _ _ ?q _ _ |- _ => replace (q + 1 - 1) with q in * by lia; apply IH in X end.
        match goal with X : None = match ?t with _ => _ end |- _ => destruct t as [[rs' s']|e|]; try discriminate end; reflexivity.
      * match goal with X : decodes _ _ _ _ (Stops _) |- _ => apply Hu in X; discriminate X end.
      * match goal with X : decodes _ _ _ _ (Stops _) |- _ => apply Hu in X; discriminate X end.
    + subst o. replace n with (n - 1 + 1) at 1 by lia. pose proof (IH (match iter_take m (read_msg m emb y) k (r, n - 1) with Ok rs => Some rs | _ => None end)) as IH'.
      destruct (iter_take m (read_msg m emb y) k (r, n - 1)) as [[rs s]|e|]; cbn [bind].
      * eapply an_item; [exact Hd|]. apply IH'. reflexivity.
      * eapply later_panic; [exact Hd|]. apply IH'. reflexivity.
      * eapply later_panic; [exact Hd|]. apply IH'. reflexivity.
  - rewrite (stuck_take _ _ _ _ _ e) by (assumption || lia). pose proof (proj1 (HE e) eq_refl) as Hd. apply Hu in Hd as Hu0. subst o0.
    split; intro H.
    + inversion H; subst; try lia;
        match goal with X : decodes _ _ _ _ _ |- _ => apply Hu in X; try discriminate X; inversion X; subst end. reflexivity.
    + subst o. apply same_error; [lia|exact Hd].
  - assert (iter_take m (read_msg m emb y) (S k) (data, n) = Panic) as ->.
    { cbn [iter_take]. unfold iter_next. destruct (N.eqb_spec n 0); [lia|]. rewrite R. reflexivity. }
    pose proof (proj1 HP eq_refl) as Hd. apply Hu in Hd as Hu0. subst o0. split; intro H.
    + inversion H; subst; try lia;
        match goal with X : decodes _ _ _ _ _ |- _ => apply Hu in X; try discriminate X; inversion X; subst end. reflexivity.
    + subst o. apply now_panic; [lia|exact Hd].
Qed.

Theorem iterate_never_fails : forall m emb y k data n e, iter_take m (read_msg m emb y) k (data, n) <> Err e.
Proof.
  intros m emb y. induction k as [|k IH]; intros data n e; cbn [iter_take]; [discriminate|].
  unfold iter_next. destruct (n =? 0); [discriminate|]. destruct (read_msg m emb y data) as [[sz v]|er|]; cbn [bind].
  - unfold slice_from. destruct (sz <=? len data); cbn [bind]; [|discriminate].
    unfold usub, overflow. destruct (1 <=? n); [|destruct m]; cbn [bind]; try discriminate;
      match goal with |- context [iter_take _ _ k (?d, ?q)] => specialize (IH d q); destruct (iter_take _ (read_msg _ emb y) k (d, q)) as [[? ?]|e2|] eqn:T end;
      cbn [bind]; try discriminate; intro X; inversion X; subst; exact (IH e T).
  - specialize (IH data n). destruct (iter_take _ _ k _) as [[? ?]|e'|]; cbn [bind]; [discriminate| |discriminate]. intro X. apply (IH e). congruence.
  - discriminate.
Qed.

Theorem item_exact : forall m x v p r (l : listing bytes), sends m x v p r ->
  write_item m (write_vec m x v) l =
  match r with
  | Ok _ => match uadd m (li_len l) 1 with
            | Ok n => ({| li_data := li_data l ++ p; li_len := n |}, Ok tt)
            | Err e => ({| li_data := li_data l ++ p; li_len := li_len l |}, Err e)
            | Panic => ({| li_data := li_data l ++ p; li_len := li_len l |}, Panic)
            end
  | Err e => ({| li_data := li_data l ++ p; li_len := li_len l |}, Err e)
  | Panic => ({| li_data := li_data l ++ p; li_len := li_len l |}, Panic)
  end.
Proof.
  intros m x v p r l H. unfold write_item. destruct (sends_right m x v p r H) as (cs & Hf & <-). unfold write_vec.
  rewrite (Hf bytes vec_sink (li_data l)), feed_vec. destruct r; reflexivity.
Qed.

Theorem item_unchanged : forall m x v (l : listing bytes) e, has_type x v ->
  (write_item m (write_vec m x v) l = (l, Err e) <-> sends m x v [] (Err e)).
Proof.
  intros m x v [d n] e Hv. destruct (sends_total m x v Hv) as (p & r & Hs). rewrite (item_exact _ _ _ _ _ _ Hs). cbn [li_data li_len].
  assert (Hu : forall p' r', sends m x v p' r' -> p' = p /\ r' = r).
  { intros p' r' H'. pose proof (proj1 (encode_exact m x v Hv p r) Hs []) as H1.
    pose proof (proj1 (encode_exact m x v Hv p' r') H' []) as H2. rewrite H1 in H2. inversion H2. auto. }
  split; intro H.
  - destruct r as [[]|e'|].
    + unfold uadd, overflow in H. destruct (_ <? _), m; discriminate.
    + inversion H as [[Hd He]]. assert (p = []).
      { apply (f_equal (@length N)) in Hd. rewrite app_length in Hd. destruct p; [reflexivity|cbn in Hd; lia]. }
      subst. exact Hs.
    + discriminate.
  - apply Hu in H. destruct H as [<- <-]. rewrite app_nil_r. reflexivity.
Qed.

Theorem iterate_all : forall m emb y k data n, len data < 2 ^ 64 -> bytes_ok data -> n < 2 ^ 64 ->
  (forall rs s, iter_take m (read_msg m emb y) k (data, n) = Ok (rs, s) <-> iterates m emb y data n k (Some (rs, s))) /\
  (iter_take m (read_msg m emb y) k (data, n) = Panic <-> iterates m emb y data n k None) /\
  forall e, iter_take m (read_msg m emb y) k (data, n) <> Err e.
Proof.
  intros m emb y k data n Hl Hb Hn. pose proof (iterate_exact m emb y k data n Hl Hb Hn) as H.
  pose proof (iterate_never_fails m emb y k data n) as He. split; [|split; [|exact He]].
  - intros rs s. split; intro X.
    + apply H. rewrite X. reflexivity.
    + apply H in X. destruct (iter_take m (read_msg m emb y) k (data, n)) as [[? ?]|e|]; try discriminate. inversion X. reflexivity.
  - split; intro X.
    + apply H. rewrite X. reflexivity.
    + apply H in X. destruct (iter_take m (read_msg m emb y) k (data, n)) as [[? ?]|e|] eqn:T; try discriminate; [|reflexivity].
      destruct (He e T).
Qed.

Theorem item_result : forall m x v p r l, sends m x v p r -> li_len l + 1 < 2 ^ 64 ->
  write_item m (write_vec m x v) l =
  ({| li_data := li_data l ++ p; li_len := match r with Ok _ => li_len l + 1 | Err _ | Panic => li_len l end |}, r).
Proof.
  intros m x v p r l H Hn. rewrite (item_exact m x v p r l H). destruct r as [[]|e|]; [|reflexivity|reflexivity].
  rewrite uadd_fit by exact Hn. reflexivity.
Qed.
