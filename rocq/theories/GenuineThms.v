(** Exactly which inputs that are accepted are encodings, for C24. *)

From Coq Require Import Arith NArith ZArith List Bool Lia ZifyBool ZifyN ZifyNat.
From Verif Require Import Base Schema Codec Compiler Access Bits BitsFacts CodecFacts StructFacts ArrayThms BEThms
  Runtime Gen SpecWire SpecUnion SpecExact SpecStream MsgFacts WriteThms SoundThms SpecDecode DecodeThms ReencodeThms ExactThms FinalThms
  OpenThms SpecSwallow SwallowThms SpecGenuine.
Import ListNotations.
Local Open Scope N_scope.

Section Genuine.
Variables (m : mode) (emb : N -> bool).

Lemma first_find : forall u disc k c, first_case u disc k c -> find_case disc 0 (u_cases u) = Some (k, c).
Proof.
  intros u disc k c (Hk & Hc & Hf).
  assert (G : forall cs i k, nth_error cs k = Some c -> (forall j c', (j < k)%nat -> nth_error cs j = Some c' -> uc_case c' <> disc) ->
    find_case disc i cs = Some ((i + k)%nat, c)).
  { induction cs as [|a cs IH]; intros i k0 H0 H1; [destruct k0; discriminate|]. cbn [find_case]. destruct k0 as [|k0].
    - inversion H0; subst a. rewrite Hc. rewrite N.eqb_refl. f_equal. f_equal. lia.
    - destruct (N.eqb_spec disc (uc_case a)) as [E|E]; [exfalso; apply (H1 0%nat a); [lia|reflexivity|auto]|].
      rewrite (IH (S i) k0); [f_equal; f_equal; lia|exact H0|]. intros j c' Hj Hn. apply (H1 (S j) c'); [lia|exact Hn]. }
  rewrite (G _ 0%nat k Hk); [reflexivity|]. exact Hf.
Qed.

(** A value with any encoding. *)
Definition founded (x : message) : Prop := forall v b, enc_msg m any x v b -> genuine m x v.
Lemma member_founded : forall f, (forall y, inside (mf_ty f) y -> founded y) ->
  forall prev w b, enc_member m prev f w b -> genuine_member m f w.
Proof.
  intros f H prev w b E. destruct (member_split m (fun _ => false) prev f w b E) as [(Eo & -> & ->)|(u & c & p & Hu & Eb & Hp & Hh & _)].
  - constructor; [..|intros y z [Hq Hd|un on i k c0 Hq Hd Hk Hi]]; unfold held; try (intros; rewrite Eo in *; discriminate); unfold held in Hd; rewrite Eo in Hd; discriminate.
  - assert (HU : forall u', held f w u' -> u' = u).
    { intros u' Hu'. unfold held in *. destruct (mf_optional f); congruence. }
    constructor.
    + intros ty y data n Et Hd. apply HU in Hd. subst u. rewrite Et in Hu. cbn [enc_ty] in Hu.
      destruct Hu as (q & it & ch & _ & Hn & HF & Hc & _). exists it, ch. auto.
    + intros ty s data n Et Hd. apply HU in Hd. subst u. rewrite Et in Hu. cbn [enc_ty] in Hu. apply Hu.
    + intros y z [Et Hd|un on i k c0 Et Hd Hk Hi]; apply HU in Hd; subst u; rewrite Et in Hu; cbn [enc_ty enc_ref] in Hu.
      * eapply H; [rewrite Et; constructor|exact Hu].
      * apply enc_union_iff in Hu. destruct Hu as (dt & di & c' & _ & _ & F & I). apply find_case_in in F. destruct F as (_ & _ & _ & F).
        rewrite Nat.sub_0_r in F. assert (c' = c0) by congruence. subst c'. rewrite Hi in I. cbn [enc_item enc_ref] in I.
        eapply H; [rewrite Et; econstructor; [eapply nth_error_In; exact Hk|exact Hi]|exact I].
Qed.
Theorem all_founded : forall x, founded x.
Proof.
  apply (message_ind_inside founded). intros x IH v b E. pose proof E as E'. apply enc_msg_inv in E'. destruct E' as (vs & -> & _).
  apply enc_msg_eq in E. constructor. intros i f w Hi Hw. destruct (nth_error_split _ _ Hi) as (l & r & Ef & Hl).
  rewrite Ef in E. apply enc_fields_parts in E. destruct E as (vl & vt & b1 & bt & -> & -> & E1 & E2).
  pose proof (enc_fields_length _ _ _ _ _ E1) as Hll. destruct vt as [|w' vr]; cbn [enc_fields] in E2; [contradiction|].
  destruct E2 as (b2 & b3 & -> & E2 & _). rewrite nth_error_app2 in Hw by lia. replace (i - length vl)%nat with 0%nat in Hw by lia. inversion Hw; subst w'.
  eapply member_founded; [|exact E2]. intros y. apply IH. rewrite Ef. apply in_elt.
Qed.

(** What was read is an encoding if it is genuine. *)
Definition complete (x : message) : Prop := forall b c v r, bytes_ok b -> decodes m emb x b (Found c v r) -> genuine m x v -> enc_msg m any x v c.
Lemma bytes_split : forall a b, bytes_ok (a ++ b) -> bytes_ok a /\ bytes_ok b.
Proof. intros a b H. unfold bytes_ok in *. rewrite Forall_app in H. exact H. Qed.
Lemma content_complete : forall f, (forall y, inside (mf_ty f) y -> complete y) -> mf_optional f = false ->
  forall e endi prev b c v r, bytes_ok b -> content m emb e endi prev (mf_ty f) b (Found c v r) -> genuine_member m f v ->
  enc_ty m any endi prev (mf_ty f) v c.
Proof.
  intros f H Ho e endi prev b c v r Hb X G. inversion G as [f' w' GL GA GH]; subst f' w'.
  assert (Hheld : held f v v) by (unfold held; rewrite Ho; reflexivity).
  destruct (mf_ty f) as [ty|[st|y]| |ty|ty st|u on idx|ty y|] eqn:Et; inversion X; subst; cbn [enc_ty enc_ref].
  - assumption.
  - match goal with Z : target _ _ _ _ _ |- _ => inversion Z; subst end. apply bytes_split in Hb. tauto.
  - match goal with Z : target _ _ _ _ _ |- _ => inversion Z; subst end. eapply H; [constructor|exact Hb|eassumption|].
    apply GH. apply holds_message; assumption.
  - auto.
  - eauto.
  - apply bytes_split in Hb. destruct Hb as (_ & Hb). apply bytes_split in Hb. destruct Hb as (Hb & _).
    split; [eapply GA; [reflexivity|exact Hheld]|]. split; [exact Hb|]. eauto.
  - apply enc_union_iff. match goal with Z : first_case _ _ _ _ |- _ => apply first_find in Z end.
    do 3 eexists. split; [eassumption|]. split; [eassumption|]. split; [eassumption|].
    match goal with Z : uc_item _ = None |- _ => rewrite Z end. reflexivity.
  - match goal with Z : first_case _ _ _ _ |- _ => pose proof Z as Hn; destruct Hn as (Hn & _); apply first_find in Z end.
    apply enc_union_iff. do 3 eexists. split; [eassumption|]. split; [eassumption|]. split; [eassumption|].
    match goal with Z : uc_item _ = Some _ |- _ => rewrite Z; rename Z into Hi end. cbn [enc_item].
    match goal with Z : target _ _ _ _ _ |- _ => inversion Z; subst end; cbn [enc_ref].
    + apply bytes_split in Hb. tauto.
    + eapply H; [econstructor; [eapply nth_error_In; exact Hn|exact Hi]|exact Hb|eassumption|].
      apply GH. eapply holds_case; [exact Et|exact Hheld|exact Hn|exact Hi].
  - destruct (GL _ _ _ _ eq_refl Hheld) as (it & ch & Hl & HF & Hc). do 3 eexists. split; [eassumption|]. split; [exact Hl|]. split; [exact HF|]. split; [exact Hc|reflexivity].
  - destruct (GL _ _ _ _ eq_refl Hheld) as (it & ch & Hl & HF & Hc). do 3 eexists. split; [eassumption|]. split; [exact Hl|]. split; [exact HF|]. split; [exact Hc|reflexivity].
  - auto.
Qed.
Lemma genuine_mandatory : forall f u, mf_optional f = true -> genuine_member m f (VOpt (Some u)) -> genuine_member m (mandatory f) u.
Proof.
  intros f u Ho G. inversion G as [f' w' GL GA GH]; subst f' w'.
  assert (Et : mf_ty (mandatory f) = mf_ty f) by (destruct f; reflexivity).
  assert (Hh : forall z, held (mandatory f) u z -> held f (VOpt (Some u)) z).
  { intros z. unfold held. rewrite Ho. replace (mf_optional (mandatory f)) with false by (destruct f; reflexivity). intros ->. reflexivity. }
  constructor; rewrite ?Et.
  - intros ty y data n E Hd. eapply GL; [exact E|apply Hh; exact Hd].
  - intros ty s data n E Hd. eapply GA; [exact E|apply Hh; exact Hd].
  - intros y z X. apply GH. apply holds_mandatory; assumption.
Qed.
Lemma member_complete : forall f, (forall y, inside (mf_ty f) y -> complete y) ->
  forall e prev b c v r, bytes_ok b -> member m emb e prev f b (Found c v r) -> genuine_member m f v -> enc_member m prev f v c.
Proof.
  intros f H e prev b c v r Hb X G. unfold enc_member, enc_optional. inversion X; subst;
    match goal with O : mf_optional f = _ |- _ => rewrite O; rename O into Ho end.
  - eapply content_complete; eassumption.
  - reflexivity.
  - inversion Hb; subst. eexists. eexists. split; [|split; [exact I|split; [reflexivity|]]]; [lia|].
    assert (Et : mf_ty (mandatory f) = mf_ty f) by (destruct f; reflexivity). rewrite <- Et.
    eapply content_complete; [rewrite Et; exact H|destruct f; reflexivity| |rewrite Et; eassumption|apply genuine_mandatory; assumption]. assumption.
Qed.
Lemma members_complete : forall fs, (forall g y, In g fs -> inside (mf_ty g) y -> complete y) ->
  forall e prev b c vs r, bytes_ok b -> members m emb e prev fs b (Found c vs r) ->
  (forall i f w, nth_error fs i = Some f -> nth_error vs i = Some w -> genuine_member m f w) -> enc_fields m any fs prev vs c.
Proof.
  induction fs as [|f fs IH]; intros H e prev b c vs r Hb X G; inversion X; subst; cbn [enc_fields]; [reflexivity|].
  match goal with Z : member _ _ _ _ _ _ (Found ?p ?v ?r1) |- _ => exists p; pose proof Z as HP; apply member_parted in HP; [|intros; apply decodes_parted] end.
  subst b. apply bytes_split in Hb. destruct Hb as (Hb1 & Hb2).
  eexists. split; [reflexivity|]. split.
  - eapply member_complete; [intros y; apply (H f y); left; reflexivity| |eassumption|apply (G 0%nat); reflexivity]. apply Forall_app; split; assumption.
  - eapply IH; [intros g y Hg; apply (H g y); right; exact Hg|exact Hb2|eassumption|]. intros i g w Hg Hw. apply (G (S i) g w Hg Hw).
Qed.
Theorem decodes_complete : forall x, complete x.
Proof.
  apply (message_ind_inside complete). intros x IH b c v r Hb X G. inversion X; subst. inversion G; subst. apply enc_msg_eq.
  eapply members_complete; eassumption.
Qed.
End Genuine.

Theorem accepted_encoding : forall m emb x b n v, len b < 2 ^ 64 -> bytes_ok b -> read_msg m emb x b = Ok (n, v) ->
  (encodes_lax m x v (firstn (N.to_nat n) b) <-> genuine m x v) /\ ((exists b', encodes_lax m x v b') <-> genuine m x v).
Proof.
  intros m emb x b n v Hl Hb H. destruct (decode_exact m emb x b Hl Hb) as (HO & _ & _). apply HO in H.
  destruct H as (c & r & -> & -> & X). rewrite firstn_len_app.
  assert (A : genuine m x v -> encodes_lax m x v c) by (intro G; exact (decodes_complete m emb x _ _ _ _ Hb X G)).
  assert (B : forall b', encodes_lax m x v b' -> genuine m x v) by (intros b' E; exact (all_founded m x v b' E)).
  split; split; eauto. intros (b' & E). eauto.
Qed.
