(** Readers with different marks, for C70 and C83. *)

From Coq Require Import Arith NArith ZArith List Bool Lia ZifyBool ZifyN ZifyNat.
From Verif Require Import Base Schema Codec Compiler Access Bits BitsFacts CodecFacts StructFacts ArrayThms BEThms
  Runtime Gen SpecWire SpecUnion SpecExact SpecStream MsgFacts WriteThms SoundThms SpecDecode DecodeThms ReencodeThms ExactThms FinalThms
  OpenThms SpecSwallow SwallowThms SpecWalk.
Import ListNotations.
Local Open Scope N_scope.

Section Walk.
Variables (m : mode) (emb emb' : N -> bool).
Hypothesis more : forall id, emb id = true -> emb' id = true.

(** ** What leaves bytes is read alike *)

Definition stays (x : message) : Prop := forall b c v r, decodes m emb x b (Found c v r) -> r <> [] -> decodes m emb' x b (Found c v r).
Lemma items_stay : forall y, stays y -> forall k b c r, items m emb y k b (Found c tt r) -> r <> [] -> items m emb' y k b (Found c tt r).
Proof.
  intros y H. induction k as [|k IH]; intros b c r X Hr; inversion X; subst; [constructor|].
  match goal with Z : items _ _ _ _ _ _ |- _ => pose proof (items_parted _ _ _ _ _ _ _ Z) as HP; apply IH in Z; [|exact Hr] end.
  eapply items_next; [|eassumption]. apply H; [eassumption|]. subst. intro E. apply app_eq_nil in E. tauto.
Qed.
Lemma target_stays : forall t, (forall y, t = RMessage y -> stays y) ->
  forall b c v r, target m emb t b (Found c v r) -> r <> [] -> target m emb' t b (Found c v r).
Proof. intros t H b c v r X Hr. inversion X; subst; [constructor; assumption|]. constructor. eapply H; [reflexivity|eassumption|exact Hr]. Qed.
Lemma content_stays : forall t, (forall y, inside t y -> stays y) -> forall e e', (e = true -> e' = true) ->
  forall endi prev b c v r, content m emb e endi prev t b (Found c v r) -> r <> [] -> content m emb' e' endi prev t b (Found c v r).
Proof.
  intros t H e e' He endi prev b c v r X Hr. inversion X; subst; try (econstructor; eassumption); try congruence.
  - constructor. eapply target_stays; [|eassumption|exact Hr]. intros y ->. apply H. constructor.
  - match goal with Z : first_case _ _ _ _ |- _ => pose proof Z as Hn; destruct Hn as (Hn & _) end.
    eapply union_case; try eassumption. eapply target_stays; [|eassumption|exact Hr]. intros y ->. apply H.
    econstructor; [eapply nth_error_In; exact Hn|eassumption].
  - rewrite He by reflexivity. apply list_walked; [assumption|]. apply items_stay; [apply H; constructor|assumption|exact Hr].
Qed.
Lemma member_stays : forall f, (forall y, inside (mf_ty f) y -> stays y) -> forall e e', (e = true -> e' = true) ->
  forall prev b c v r, member m emb e prev f b (Found c v r) -> r <> [] -> member m emb' e' prev f b (Found c v r).
Proof.
  intros f H e e' He prev b c v r X Hr. inversion X; subst.
  - apply member_plain; [assumption|]. eapply content_stays; eassumption.
  - apply member_absent. assumption.
  - apply member_present; try assumption. eapply content_stays; eassumption.
Qed.
Lemma members_stay : forall fs, (forall g y, In g fs -> inside (mf_ty g) y -> stays y) -> forall e e', (e = true -> e' = true) ->
  forall prev b c vs r, members m emb e prev fs b (Found c vs r) -> r <> [] -> members m emb' e' prev fs b (Found c vs r).
Proof.
  induction fs as [|f fs IH]; intros H e e' He prev b c vs r X Hr; inversion X; subst; [constructor|].
  match goal with Z : members _ _ _ _ _ _ _ |- _ => pose proof Z as HP; apply members_parted in HP; [|intros; apply decodes_parted] end.
  eapply members_next; [eapply member_stays; [intros y; apply (H f y); left; reflexivity|exact He|eassumption|]|].
  - subst. intro E. apply app_eq_nil in E. tauto.
  - eapply IH; try eassumption. intros g y Hg. apply (H g y). right. exact Hg.
Qed.
Theorem decodes_stays : forall x, stays x.
Proof.
  apply (message_ind_inside stays). intros x IH b c v r X Hr. inversion X; subst. constructor.
  eapply members_stay; [exact IH|apply more|eassumption|exact Hr].
Qed.

(** ** What can be walked is read alike *)

Definition walks (x : message) : Prop := forall b c v r, decodes m emb x b (Found c v r) -> walkable m emb' x v -> decodes m emb' x b (Found c v r).
Lemma content_walks : forall f, (forall y, inside (mf_ty f) y -> walks y) -> mf_optional f = false -> forall e e', (e = true -> e' = true) ->
  forall endi prev b c v r, content m emb e endi prev (mf_ty f) b (Found c v r) -> walkable_member m emb' e' f v ->
  content m emb' e' endi prev (mf_ty f) b (Found c v r).
Proof.
  intros f H Ho e e' He endi prev b c v r X G. inversion G as [? f' w' GL GH]; subst.
  assert (Hheld : held f v v) by (unfold held; rewrite Ho; reflexivity).
  destruct (mf_ty f) as [ty|[st|y]| |ty|ty st|u on idx|ty y|] eqn:Et; inversion X; subst; try (econstructor; eassumption).
  - match goal with Z : target _ _ _ _ _ |- _ => inversion Z; subst end. constructor. constructor. assumption.
  - match goal with Z : target _ _ _ _ _ |- _ => inversion Z; subst end. constructor. constructor. eapply H; [constructor|eassumption|].
    apply GH. apply holds_message; assumption.
  - match goal with Z : first_case _ _ _ _ |- _ => pose proof Z as Hn; destruct Hn as (Hn & _) end.
    eapply union_case; try eassumption.
    match goal with Z : target _ _ _ _ _ |- _ => inversion Z; subst end; constructor; [assumption|].
    match goal with Z : uc_item _ = Some _ |- _ => rename Z into Hi end.
    eapply H; [econstructor; [eapply nth_error_In; exact Hn|exact Hi]|eassumption|].
    apply GH. eapply holds_case; [exact Et|exact Hheld|exact Hn|exact Hi].
  - rewrite (He eq_refl) in *. apply list_walked; [assumption|]. destruct r as [|r0 r].
    + rewrite app_nil_r. eapply GL; [reflexivity|reflexivity|exact Hheld].
    + apply items_stay; [apply decodes_stays|assumption|discriminate].
  - destruct e'; [|econstructor; eassumption]. pose proof (GL _ _ _ _ eq_refl eq_refl Hheld) as L.
    match goal with Z : number _ _ _ _ |- _ => pose proof (list_walked m emb' endi prev ty y _ _ data [] Z) as W end.
    rewrite app_nil_r in W. exact (W L).
Qed.
Lemma walkable_mandatory : forall e f u, mf_optional f = true -> walkable_member m emb' e f (VOpt (Some u)) -> walkable_member m emb' e (mandatory f) u.
Proof.
  intros e f u Ho G. inversion G as [? f' w' GL GH]; subst.
  assert (Et : mf_ty (mandatory f) = mf_ty f) by (destruct f; reflexivity).
  constructor; rewrite ?Et.
  - intros ty y data n E1 E2 Hd. eapply GL; [exact E1|exact E2|]. unfold held in *. rewrite Ho.
    replace (mf_optional (mandatory f)) with false in Hd by (destruct f; reflexivity). subst. reflexivity.
  - intros y z X. apply GH. apply holds_mandatory; assumption.
Qed.
Lemma member_walks : forall f, (forall y, inside (mf_ty f) y -> walks y) -> forall e e', (e = true -> e' = true) ->
  forall prev b c v r, member m emb e prev f b (Found c v r) -> walkable_member m emb' e' f v -> member m emb' e' prev f b (Found c v r).
Proof.
  intros f H e e' He prev b c v r X G. inversion X; subst.
  - apply member_plain; [assumption|]. eapply content_walks; eassumption.
  - apply member_absent. assumption.
  - apply member_present; try assumption.
    assert (Et : mf_ty (mandatory f) = mf_ty f) by (destruct f; reflexivity). rewrite <- Et.
    eapply content_walks; [rewrite Et; exact H|destruct f; reflexivity|exact He|rewrite Et; eassumption|apply walkable_mandatory; assumption].
Qed.
Lemma members_walk : forall fs, (forall g y, In g fs -> inside (mf_ty g) y -> walks y) -> forall e e', (e = true -> e' = true) ->
  forall prev b c vs r, members m emb e prev fs b (Found c vs r) ->
  (forall i f w, nth_error fs i = Some f -> nth_error vs i = Some w -> walkable_member m emb' e' f w) ->
  members m emb' e' prev fs b (Found c vs r).
Proof.
  induction fs as [|f fs IH]; intros H e e' He prev b c vs r X G; inversion X; subst; [constructor|].
  eapply members_next.
  - eapply member_walks; [intros y; apply (H f y); left; reflexivity|exact He|eassumption|apply (G 0%nat); reflexivity].
  - eapply IH; [intros g y Hg; apply (H g y); right; exact Hg|exact He|eassumption|]. intros i g w Hg Hw. apply (G (S i) g w Hg Hw).
Qed.
Theorem decodes_walks : forall x, walks x.
Proof.
  apply (message_ind_inside walks). intros x IH b c v r X G. inversion X; subst. inversion G; subst. constructor.
  eapply members_walk; [exact IH|apply more|eassumption|assumption].
Qed.
End Walk.

(** ** What was read can be walked *)

Section Walked.
Variables (m : mode) (emb : N -> bool).
Definition walked (x : message) : Prop := forall b c v r, decodes m emb x b (Found c v r) -> walkable m emb x v.
Lemma content_walked : forall f, (forall y, inside (mf_ty f) y -> walked y) -> mf_optional f = false ->
  forall e endi prev b c v r, content m emb e endi prev (mf_ty f) b (Found c v r) -> walkable_member m emb e f v.
Proof.
  intros f H Ho e endi prev b c v r X.
  assert (HU : forall u, held f v u -> v = u) by (unfold held; rewrite Ho; auto).
  constructor.
  - intros ty y data n -> Et Hd. apply HU in Hd. subst v. rewrite Et in X. inversion X; subst.
    match goal with Z : items _ _ _ _ _ _ |- _ => eapply items_movable in Z; [|apply decodes_movable|reflexivity]; rewrite app_nil_r in Z; exact Z end.
  - intros y z [Et Hd|un on i k c0 Et Hd Hk Hi]; apply HU in Hd; subst v; rewrite Et in X; inversion X; subst.
    + match goal with Z : target _ _ _ _ _ |- _ => inversion Z; subst end. eapply H; [rewrite Et; constructor|eassumption].
    + match goal with Z : first_case _ _ _ _ |- _ => destruct Z as (Hn & _) end.
      assert (c1 = c0) by congruence. subst c1. assert (t = RMessage y) by congruence. subst t.
      match goal with Z : target _ _ _ _ _ |- _ => inversion Z; subst end.
      eapply H; [rewrite Et; econstructor; [eapply nth_error_In; exact Hn|exact Hi]|eassumption].
Qed.
Lemma mandatory_walkable : forall e f u, mf_optional f = true -> walkable_member m emb e (mandatory f) u -> walkable_member m emb e f (VOpt (Some u)).
Proof.
  intros e f u Ho G. inversion G as [? f' w' GL GH]; subst.
  assert (Et : mf_ty (mandatory f) = mf_ty f) by (destruct f; reflexivity).
  constructor.
  - intros ty y data n E1 E2 Hd. eapply GL; [exact E1|rewrite Et; exact E2|]. unfold held in *. rewrite Ho in Hd.
    replace (mf_optional (mandatory f)) with false by (destruct f; reflexivity). congruence.
  - intros y z X. apply GH. apply holds_mandatory; assumption.
Qed.
Lemma member_walked : forall f, (forall y, inside (mf_ty f) y -> walked y) ->
  forall e prev b c v r, member m emb e prev f b (Found c v r) -> walkable_member m emb e f v.
Proof.
  intros f H e prev b c v r X. inversion X; subst.
  - eapply content_walked; eassumption.
  - match goal with O : mf_optional f = _ |- _ => rename O into Ho end.
    constructor; [|intros y z [Hq Hd|un on i k c0 Hq Hd Hk Hi]]; unfold held; try (intros; rewrite Ho in *; discriminate); unfold held in Hd; rewrite Ho in Hd; discriminate.
  - apply mandatory_walkable; [assumption|].
    assert (Et : mf_ty (mandatory f) = mf_ty f) by (destruct f; reflexivity).
    eapply content_walked; [rewrite Et; exact H|destruct f; reflexivity|rewrite Et; eassumption].
Qed.
Lemma members_walked : forall fs, (forall g y, In g fs -> inside (mf_ty g) y -> walked y) ->
  forall e prev b c vs r, members m emb e prev fs b (Found c vs r) ->
  forall i f w, nth_error fs i = Some f -> nth_error vs i = Some w -> walkable_member m emb e f w.
Proof.
  induction fs as [|g fs IH]; intros H e prev b c vs r X i f w Hf Hw; [destruct i; discriminate|].
  inversion X; subst. destruct i as [|i].
  - inversion Hf; inversion Hw; subst. eapply member_walked; [intros y; apply (H f y); left; reflexivity|eassumption].
  - eapply IH; [intros g' y Hg; apply (H g' y); right; exact Hg|eassumption|exact Hf|exact Hw].
Qed.
Theorem decodes_walked : forall x, walked x.
Proof.
  apply (message_ind_inside walked). intros x IH b c v r X. inversion X; subst. constructor. eapply members_walked; eassumption.
Qed.
End Walked.

Theorem read_left_alike : forall m emb emb' x b n v, (forall id, emb id = true -> emb' id = true) -> len b < 2 ^ 64 -> bytes_ok b ->
  read_msg m emb x b = Ok (n, v) -> n < len b -> read_msg m emb' x b = Ok (n, v).
Proof.
  intros m emb emb' x b n v He Hl Hb H Hn. apply (decode_exact m emb x b Hl Hb) in H. apply (decode_exact m emb' x b Hl Hb).
  destruct H as (c & r & E & En & X). exists c, r. split; [exact E|]. split; [exact En|].
  eapply decodes_stays; [exact He|exact X|]. intros ->. rewrite app_nil_r in E. subst. lia.
Qed.
Theorem read_alike_exact : forall m emb emb' x b n v, (forall id, emb id = true -> emb' id = true) -> len b < 2 ^ 64 -> bytes_ok b ->
  read_msg m emb x b = Ok (n, v) -> (read_msg m emb' x b = Ok (n, v) <-> walkable m emb' x v).
Proof.
  intros m emb emb' x b n v He Hl Hb H. apply (decode_exact m emb x b Hl Hb) in H. destruct H as (c & r & E & En & X).
  rewrite (proj1 (decode_exact m emb' x b Hl Hb)). split.
  - intros (c' & r' & _ & _ & Y). eapply decodes_walked. exact Y.
  - intro G. exists c, r. split; [exact E|]. split; [exact En|]. eapply decodes_walks; [exact He|exact X|exact G].
Qed.
