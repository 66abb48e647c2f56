(** Which compiled messages can be read back (C38), flattened structures (C39),
    messages without optional fields (C24). *)

From Coq Require Import Arith NArith ZArith List Bool Lia ZifyBool ZifyN ZifyNat.
From Verif Require Import Base Schema Codec Compiler Access SpecComp SpecStruct StructFacts StructThms ViewThms ArrayThms CompFacts CompThms
  Runtime Gen SpecWire MsgFacts WriteThms ReadThms SpecReadable.
Import ListNotations.
Local Open Scope N_scope.

Lemma part_open : forall emb x e f, part emb x e f ->
  (forall g, In g (m_fields x) -> ~ open_ended (mf_ty g)) -> ~ open_ended (mf_ty f).
Proof.
  intros emb x e f H. induction H as [x e f Hf He|x e f g y Hg Hy Hp IH]; intro Hno; [auto|]. apply IH.
  intros h Hh Ho. inversion Hy as [y0 E|ty y0 E|u on i c y0 Hc Hi E]; subst; apply (Hno g Hg); rewrite <- E.
  - eapply oe_message; eauto.
  - constructor.
  - eapply oe_union; eauto.
Qed.

Lemma closed_self_delimiting : forall emb x, (forall g, In g (m_fields x) -> ~ open_ended (mf_ty g)) ->
  self_delimiting emb x.
Proof.
  intros emb x H e f Hp. apply (part_open _ _ _ _ Hp) in H. destruct (mf_ty f); auto; exfalso; apply H; constructor.
Qed.

Theorem tidy_readable : forall emb x, tidy x -> readable emb x.
Proof.
  intros emb. apply (message_ind_inside (fun x => tidy x -> readable emb x)). intros x IH (H1 & H2). constructor.
  - intros r f ty y E Et _. apply closed_self_delimiting. intros g Hg. eapply H2; [constructor| |exact Et|exact Hg].
    rewrite E. apply in_or_app. right. left. reflexivity.
  - intros r f y E Hy _. assert (Hf : In f (m_fields x)) by (rewrite E; apply in_or_app; right; left; reflexivity).
    apply (IH f y Hf Hy). split.
    + intros z l g q Hz. apply H1. eapply within_deep; eauto.
    + intros z g ty t h Hz. apply H2. eapply within_deep; eauto.
  - intros l f r E Hr. pose proof (H1 x l f r (within_here x) E Hr) as Hno. split.
    + destruct (mf_ty f); auto; exfalso; apply Hno; constructor.
    + intros y Hy. apply closed_self_delimiting. intros g Hg Ho. apply Hno.
      inversion Hy as [y0 E'|ty y0 E'|u on i c y0 Hc Hi E']; subst.
      * eapply oe_message; eauto.
      * constructor.
      * eapply oe_union; eauto.
Qed.

(** ** C24: without optional fields decoding is strict *)

Lemma enc_no_optional : forall m (p q : N -> Prop) emb x, no_optional emb x ->
  forall v b, enc_msg m p x v b -> enc_msg m q x v b.
Proof.
  intros m p q emb.
  apply (message_ind_inside (fun x => no_optional emb x -> forall v b, enc_msg m p x v b -> enc_msg m q x v b)).
  intros x IH Hno v b He. apply enc_msg_inv in He. destruct He as (vs & -> & He). apply enc_msg_eq.
  assert (IH' : forall f y, In f (m_fields x) -> inside (mf_ty f) y -> forall v b, enc_msg m p y v b -> enc_msg m q y v b).
  { intros f y Hf Hy. apply (IH f y Hf Hy). intros e g Hg. apply (Hno e g). eapply part_deep; eauto. }
  assert (Ho : forall f, In f (m_fields x) -> mf_optional f = false).
  { intros f Hf. apply (Hno (emb (m_id x)) f). constructor; auto. }
  clear IH Hno. revert IH' Ho He. generalize (@nil value). revert vs b.
  induction (m_fields x) as [|f fs IHf]; intros vs b prev IH Ho He.
  { exact He. }
  destruct vs as [|y vs]; [contradiction|]. cbn [enc_fields] in *. destruct He as (b1 & b2 & -> & H1 & H2).
  exists b1, b2. split; [reflexivity|]. split.
  - rewrite (Ho f (or_introl eq_refl)) in *. cbn [enc_optional] in *. rename y into v. rename H1 into He.
    assert (Href : forall r v b, (forall y, r = RMessage y -> inside (mf_ty f) y) ->
      enc_ref m p r v b -> enc_ref m q r v b).
    { intros [s|z] v' b' Hz Hr; [exact Hr|]. cbn [enc_ref] in *. apply (IH f z); [left; reflexivity|apply Hz; reflexivity|exact Hr]. }
    destruct (mf_ty f) as [ty|r| |ty|ty st|u on idx|ty z|] eqn:Et; try exact He.
    + cbn [enc_ty] in *. apply Href; [|exact He]. intros z ->. constructor.
    + destruct v; try contradiction. cbn [enc_ty] in *. apply enc_union_iff in He. apply enc_union_iff.
      destruct He as (data & disc & c & Hon & Hg & Hc & Hi). exists data, disc, c.
      repeat (split; [assumption|]). apply find_case_in in Hc. destruct Hc as (Hin & _).
      unfold enc_item in *. destruct (uc_item c) as [r|] eqn:Er; destruct item as [w|]; try contradiction; [|exact Hi].
      apply Href; [|exact Hi]. intros z ->. econstructor; eauto.
    + destruct v; try contradiction. cbn [enc_ty] in *.
      destruct He as (n0 & items & chunks & Hp & Hn & Hf & Hd & ->). exists n0, items, chunks.
      repeat (split; [assumption|]). split; [|auto]. clear - Hf IH Et. induction Hf as [|i c items chunks Hi _ IHl]; constructor.
      * apply (IH f z); [left; reflexivity|rewrite Et; constructor|exact Hi].
      * exact IHl.
  - apply IHf; [| |exact H2]; intros; [|apply Ho; right; assumption]. eapply IH; [right|..]; eassumption.
Qed.

Theorem no_optional_strict : forall m emb x v b, no_optional emb x -> encodes_lax m x v b -> encodes m x v b.
Proof. intros m emb x v b H. apply (enc_no_optional _ _ _ emb). exact H. Qed.

(** ** C39 *)

Lemma flattened_shape : forall s f, flattened s = Some f -> s_fields s = [FFixed f].
Proof.
  intros s f H. unfold flattened in H. destruct (s_fields s) as [|[g|g|? ? ?] [|? ?]]; try discriminate.
  destruct (_ && _); inversion H; subst. reflexivity.
Qed.

Theorem flattened_size : forall m enums structs id d s f,
  structure_from_model m Little enums structs id d = Ok s -> flattened s = Some f -> regular s ->
  N.of_nat (get_byte_size (ff_ty f)) = s_byte_size s.
Proof.
  intros m enums structs id d s f H Hf Hr.
  assert (Htr : is_transmute (ff_view f) = true).
  { unfold flattened in Hf. destruct (s_fields s) as [|[g|g|? ? ?] [|? ?]]; try discriminate.
    destruct (is_transmute (ff_view g)) eqn:E; [|discriminate]. cbn [andb] in Hf.
    destruct (_ =? 0); inversion Hf; subst. exact E. }
  apply flattened_shape in Hf. specialize (Hr f Hf).
  unfold structure_from_model in H. apply bind_ok in H. destruct H as ((fs & off) & H & E). inversion E; subst s. clear E.
  cbn [s_fields s_bit_size s_byte_size] in *. subst fs. destruct (ss_fields d) as [|df [|df2 l]]; cbn [fields_from_model] in H.
  - inversion H.
  - apply bind_ok in H. destruct H as ((g & o) & Hg & H). cbn in H. inversion H; subst g o. clear H.
    pose proof (field_from_model_layout _ _ _ _ _ _ _ _ Hg) as (w & Hw & _ & Hoff).
    apply scalar_shape in Hg. destruct Hg as (b & Hb & Hty & Hv & Hal).
    destruct Hr as [(Hfb & ->)|(Hfb & Hsz)]; [rewrite Hfb; reflexivity|].
    assert (Hnb : get_simple_type (sf_info df) <> Boolean).
    { intro E. unfold fixed_from_model in Hty. rewrite Hb in Hty. cbn [ok_or bind] in Hty. rewrite E in Hty.
      cbn [simple_eqb] in Hty. inversion Hty. congruence. }
    pose proof (fixed_ok_bits _ _ _ Hty Hb Hnb) as Hbits.
    assert (Hdb : w = b * match sf_array_len df with Some n => n | None => 1 end).
    { unfold declared_bits in Hw. destruct (sf_info df); cbn in Hb; inversion Hb; subst; inversion Hw; reflexivity. }
    assert (Hw64 : w <= 64) by (destruct (sf_array_len df) as [n|]; nia).
    destruct Hoff as (-> & _). { right. unfold usize_mod. lia. }
    assert (Ew : w = b) by (destruct (sf_array_len df) as [n|]; nia). clear Hdb Hw Hw64. subst w. rewrite N.add_0_l in *.
    assert (Hfl : get_simple_type (sf_info df) = Float -> b = 32 \/ b = 64).
    { intro E. rewrite E in Hv. unfold view_from_model in Hv. destruct (sf_view df) as [[?|? ?|?]|].
      - discriminate.
      - cbn [simple_eqb negb] in Hv. apply bind_ok in Hv. destruct Hv as (x & _ & Hv).
        apply bind_ok in Hv. destruct Hv as (y & _ & Hv). inversion Hv as [Hv']. rewrite <- Hv' in Htr. discriminate.
      - cbn [simple_eqb negb] in Hv. inversion Hv as [Hv']. rewrite <- Hv' in Htr. discriminate.
      - cbn [simple_eqb andb] in Hv. destruct (N.eqb_spec b 32); [auto|]. destruct (N.eqb_spec b 64); [auto|]. discriminate. }
    unfold fixed_from_model in Hty. rewrite Hb in Hty. cbn [ok_or bind] in Hty.
    destruct (get_simple_type (sf_info df)) eqn:Est; try congruence.
    + destruct Hsz as [-> | [-> | [-> | ->]]]; cbn in Hty; injection Hty as Ht; rewrite <- Ht; reflexivity.
    + destruct Hsz as [-> | [-> | [-> | ->]]]; cbn in Hty; injection Hty as Ht; rewrite <- Ht; reflexivity.
    + destruct (Hfl eq_refl) as [-> | ->]; cbn in Hty; injection Hty as Ht; rewrite <- Ht; reflexivity.
    + destruct Hsz as [-> | [-> | [-> | ->]]]; cbn in Hty; discriminate.
  - apply bind_ok in H. destruct H as ((g & o) & Hg & H). apply bind_ok in H. destruct H as ((gs & o') & Hgs & H).
    inversion H; subst. apply bind_ok in Hgs. destruct Hgs as ((h & o2) & _ & Hgs).
    apply bind_ok in Hgs. destruct Hgs as ((hs & o3) & _ & Hgs). inversion Hgs.
Qed.
