(** Which values end where they end, and which encodings are read back, for every message. *)

From Coq Require Import Arith NArith ZArith List Bool Lia ZifyBool ZifyN ZifyNat.
From Verif Require Import Base Schema Codec Compiler Access Bits BitsFacts CodecFacts StructFacts ArrayThms BEThms
  Runtime Gen SpecWire SpecUnion SpecExact SpecStream MsgFacts WriteThms SoundThms SpecDecode DecodeThms ReencodeThms ExactThms FinalThms
  OpenThms SpecSwallow ListThms ReadThms.
Import ListNotations.
Local Open Scope N_scope.

Definition fine (b : bytes) : Prop := len b < 2 ^ 64 /\ bytes_ok b.
Lemma fine_app : forall a b, fine (a ++ b) -> fine a /\ fine b.
Proof.
  intros a b (Hl & Hb). rewrite len_app in Hl. apply Forall_app in Hb. destruct Hb. repeat split; try assumption; lia.
Qed.

Section Swallow.
Variables (m : mode) (emb : N -> bool).

Lemma decodes_unique : forall x b o o', fine b -> decodes m emb x b o -> decodes m emb x b o' -> o = o'.
Proof.
  intros x b o o' (Hl & Hb) H H'. destruct (decode_deterministic m emb x b Hl Hb) as (o1 & _ & U).
  rewrite (U _ H), (U _ H'). reflexivity.
Qed.

(** The items of a list can be looked at one by one. *)
Lemma items_unique : forall y k b o o', fine b -> items m emb y k b o -> items m emb y k b o' -> o = o'.
Proof.
  intros y k b o o' (Hl & Hb) H H'.
  pose proof (loop_tells m emb y b (tells_message m emb y) Hl Hb k 0 ltac:(lia)) as T. rewrite skipn_O in T.
  apply T in H. apply T in H'. congruence.
Qed.
Lemma items_first : forall y n k b c r, items m emb y n b (Found c tt r) -> (k < n)%nat ->
  exists used item z rest, items m emb y k b (Found used tt (item ++ rest)) /\ decodes m emb y (item ++ rest) (Found item z rest) /\
    c ++ r = used ++ item ++ rest /\ exists more, rest = more ++ r /\ c = used ++ item ++ more.
Proof.
  intros y. induction n as [|n IH]; intros k b c r X Hk; [lia|]. inversion X; subst.
  match goal with Y : decodes _ _ _ _ (Found ?p' ?v' ?r') |- _ => rename Y into D; rename p' into p1; rename v' into z1; rename r' into r1 end.
  match goal with Y : items _ _ _ _ r1 _ |- _ => rename Y into I end.
  pose proof (decodes_parted m emb y _ _ _ _ D) as ->. pose proof (items_parted m emb y _ _ _ _ I) as ->.
  destruct k as [|k].
  - exists [], p1, z1, (q ++ r). split; [constructor|]. split; [exact D|]. split; [rewrite <- app_assoc; reflexivity|]. exists q. auto.
  - destruct (IH k _ _ _ I ltac:(lia)) as (used & item & z & rest & H1 & H2 & H3 & more & H4 & H5).
    exists (p1 ++ used), item, z, rest. split; [eapply items_next; [exact D|exact H1]|]. split; [exact H2|].
    split; [rewrite <- !app_assoc, H3; reflexivity|]. exists more. split; [exact H4|]. rewrite <- app_assoc, H5. reflexivity.
Qed.

(** ** What swallows uses all the input *)
Definition hungry (x : message) : Prop := forall b c v r, fine b -> decodes m emb x b (Found c v r) -> swallows m emb x v -> r = [].
Lemma list_hungry : forall y, hungry y -> forall n data r k used rest item z left, fine (data ++ r) ->
  items m emb y n (data ++ r) (Found data tt r) -> (k < n)%nat ->
  items m emb y k data (Found used tt rest) -> decodes m emb y rest (Found item z left) -> swallows m emb y z -> r = [].
Proof.
  intros y Hy n data r k used rest item z left Hf X Hk I D S.
  destruct (items_first _ _ _ _ _ _ X Hk) as (used' & item' & z' & rest' & I' & D' & E & more & -> & Ed).
  assert (I2 : items m emb y k data (Found used' tt (item' ++ more))).
  { rewrite Ed, app_assoc, <- app_assoc. eapply items_movable; [apply decodes_movable|exact I'|].
    intro Z. apply app_eq_nil in Z. destruct Z as (-> & Z). apply app_eq_nil in Z. destruct Z as (-> & _). reflexivity. }
  destruct (fine_app _ _ Hf) as (Fd & _).
  pose proof (items_unique _ _ _ _ _ Fd I I2) as U. inversion U; subst used rest.
  assert (D2 : decodes m emb y (item' ++ more) (Found item' z' more)).
  { eapply decodes_movable; [exact D'|]. intro Z. apply app_eq_nil in Z. apply Z. }
  rewrite Ed in Fd. destruct (fine_app _ _ Fd) as (_ & Fd2).
  pose proof (decodes_unique _ _ _ _ Fd2 D D2) as U2. inversion U2; subst item z left.
  rewrite E in Hf. destruct (fine_app _ _ Hf) as (_ & Hf2).
  pose proof (Hy _ _ _ _ Hf2 D' S) as Z. apply app_eq_nil in Z. apply Z.
Qed.
Lemma content_hungry : forall t, (forall y, inside t y -> hungry y) ->
  forall e endi prev b c v r f, fine b -> mf_ty f = t -> mf_optional f = false -> content m emb e endi prev t b (Found c v r) ->
  swallows_member m emb e f v -> r = [].
Proof.
  intros t H e endi prev b c v r f Hf Ht Ho X Y.
  inversion Y as [? ? ? u Hp Hh|? ? u ty y Hp Hh|? ? ty y data n k used rest item z left Hp Hh Hk I D S|? ? ? y z Hh Hz]; subst.
  - rewrite Hp in X. inversion X; reflexivity.
  - rewrite Hp in X. inversion X; reflexivity.
  - unfold held in Hh. rewrite Ho in Hh. subst v. rewrite Hp in X. inversion X; subst.
    match goal with Z : fine (_ ++ _ ++ _) |- _ => destruct (fine_app _ _ Z) as (_ & Hf') end.
    eapply list_hungry; [apply H; rewrite Hp; constructor|exact Hf'|eassumption|exact Hk|exact I|exact D|exact S].
  - inversion Hh as [Hp Hd|u on i k c0 Hp Hd Hk Hi]; unfold held in Hd; rewrite Ho in Hd; subst v.
    + rewrite Hp in X. inversion X; subst. match goal with Z : target _ _ _ _ _ |- _ => inversion Z; subst end.
      eapply H; [rewrite Hp; constructor|exact Hf|eassumption|exact Hz].
    + rewrite Hp in X. inversion X; subst.
      match goal with Z : first_case _ _ _ _ |- _ => destruct Z as (Hn & _ & _) end.
      assert (c1 = c0) by congruence. subst c1. assert (t = RMessage y) by congruence. subst t.
      match goal with Z : target _ _ _ _ _ |- _ => inversion Z; subst end.
      eapply H; [rewrite Hp; econstructor; [eapply nth_error_In; exact Hn|exact Hi]|exact Hf|eassumption|exact Hz].
Qed.
Lemma swallows_mandatory : forall e f v, mf_optional f = true -> swallows_member m emb e f v ->
  exists u, v = VOpt (Some u) /\ swallows_member m emb e (mandatory f) u.
Proof.
  intros e [nm ty opt sz endi] v Ho Y. cbn in Ho. subst opt.
  inversion Y as [? ? ? u Hp Hh|? ? u ty' y Hp Hh|? ? ty' y data n k used rest item z left Hp Hh Hk I D S|? ? ? y z Hh Hz]; subst.
  - exists u. split; [exact Hh|]. eapply swallows_payload; [exact Hp|reflexivity].
  - exists u. split; [exact Hh|]. eapply swallows_list; [exact Hp|reflexivity].
  - exists (VListing data n). split; [exact Hh|]. eapply swallows_item; [exact Hp|reflexivity|eassumption..].
  - inversion Hh as [Hp Hd|u on i k c0 Hp Hd Hk Hi].
    + exists z. split; [exact Hd|]. eapply swallows_inside; [|exact Hz]. apply holds_message; [exact Hp|reflexivity].
    + exists (VUnion k (Some z)). split; [exact Hd|]. eapply swallows_inside; [|exact Hz]. eapply holds_case; [exact Hp|reflexivity|exact Hk|exact Hi].
Qed.
Lemma mandatory_swallows : forall e f u, mf_optional f = true -> swallows_member m emb e (mandatory f) u ->
  swallows_member m emb e f (VOpt (Some u)).
Proof.
  intros e [nm ty opt sz endi] v Ho Y. cbn in Ho. subst opt.
  inversion Y as [? ? ? u Hp Hh|? ? u ty' y Hp Hh|? ? ty' y data n k used rest item z left Hp Hh Hk I D S|? ? ? y z Hh Hz]; subst.
  - eapply swallows_payload; [exact Hp|reflexivity].
  - eapply swallows_list; [exact Hp|reflexivity].
  - cbn in Hh. subst v. eapply swallows_item; [exact Hp|reflexivity|eassumption..].
  - inversion Hh as [Hp Hd|u on i k c0 Hp Hd Hk Hi]; cbn in Hd; subst v.
    + eapply swallows_inside; [|exact Hz]. apply holds_message; [exact Hp|reflexivity].
    + eapply swallows_inside; [|exact Hz]. eapply holds_case; [exact Hp|reflexivity|exact Hk|exact Hi].
Qed.
Lemma member_hungry : forall f, (forall y, inside (mf_ty f) y -> hungry y) ->
  forall e prev b c v r, fine b -> member m emb e prev f b (Found c v r) -> swallows_member m emb e f v -> r = [].
Proof.
  intros f H e prev b c v r Hf X Y. inversion X; subst.
  - eapply content_hungry; [exact H|exact Hf|reflexivity|assumption|eassumption|exact Y].
  - apply swallows_mandatory in Y; [|assumption]. destruct Y as (u & E & _). discriminate.
  - apply swallows_mandatory in Y; [|assumption]. destruct Y as (u & E & Y). inversion E; subst.
    match goal with Z : fine (?a :: ?b) |- _ => destruct (fine_app [a] b Z) as (_ & Hf') end.
    eapply (content_hungry (mf_ty f) H e _ prev _ _ _ _ (mandatory f)); [exact Hf'|destruct f; reflexivity|destruct f; reflexivity|eassumption|exact Y].
Qed.
Lemma members_hungry : forall fs, (forall g y, In g fs -> inside (mf_ty g) y -> hungry y) ->
  forall e prev b c vs r, fine b -> members m emb e prev fs b (Found c vs r) ->
  forall i f w, nth_error fs i = Some f -> nth_error vs i = Some w -> swallows_member m emb e f w -> r = [].
Proof.
  induction fs as [|g fs IH]; intros H e prev b c vs r Hb X i f w Hf Hw Ho; [destruct i; discriminate|].
  inversion X; subst.
  match goal with Z : member _ _ _ _ _ _ (Found _ _ ?r1) |- _ => pose proof Z as HP; apply member_parted in HP; [|intros; apply decodes_parted] end.
  destruct i as [|i].
  - inversion Hf; inversion Hw; subst.
    match goal with Z : member _ _ _ _ _ _ _ |- _ => apply member_hungry in Z; [|intros y; apply (H f y); left; reflexivity|exact Hb|exact Ho]; subst end.
    match goal with Z : members _ _ _ _ _ _ _ |- _ => apply members_parted in Z; [|intros; apply decodes_parted] end.
    match goal with Z : [] = _ ++ _ |- _ => symmetry in Z; apply app_eq_nil in Z; apply Z end.
  - cbn [nth_error] in Hf, Hw. subst b. apply fine_app in Hb. destruct Hb as (_ & Hb).
    eapply IH; [|exact Hb|eassumption|exact Hf|exact Hw|exact Ho]. intros g' y Hg. apply (H g' y). right. exact Hg.
Qed.
Theorem decodes_hungry : forall x, hungry x.
Proof.
  apply (message_ind_inside hungry). intros x IH b c v r Hb X Y. inversion X; subst.
  inversion Y as [? vs' i f w Hf Hw Ho]; subst.
  eapply members_hungry; [exact IH|exact Hb|eassumption|exact Hf|exact Hw|exact Ho].
Qed.

(** ** What does not swallow ends where it ends, whatever follows *)
Definition ended (x : message) : Prop :=
  forall b c v r s, decodes m emb x b (Found c v r) -> ~ swallows m emb x v -> decodes m emb x (c ++ s) (Found c v s).
Lemma items_ended : forall y, ended y -> forall n b c r s, items m emb y n b (Found c tt r) ->
  (forall k used rest item z left, (k < n)%nat -> items m emb y k c (Found used tt rest) -> decodes m emb y rest (Found item z left) ->
     ~ swallows m emb y z) ->
  items m emb y n (c ++ s) (Found c tt s).
Proof.
  intros y Hy. induction n as [|n IH]; intros b c r s X Y; inversion X; subst; [constructor|].
  match goal with Z : decodes _ _ _ _ (Found ?p' ?v' ?r') |- _ => rename Z into D; rename p' into p1; rename v' into z1; rename r' into r1 end.
  match goal with Z : items _ _ _ _ r1 _ |- _ => rename Z into I end.
  pose proof (items_parted m emb y _ _ _ _ I) as ->.
  assert (D2 : decodes m emb y (p1 ++ q) (Found p1 z1 q)).
  { eapply decodes_movable; [exact D|]. intro Z. apply app_eq_nil in Z. apply Z. }
  rewrite <- app_assoc. eapply items_next.
  - eapply Hy; [exact D2|]. eapply (Y 0%nat); [lia|constructor|exact D2].
  - eapply IH; [exact I|]. intros k used rest item z left Hk I' D'. eapply (Y (S k)); [lia|eapply items_next; [exact D2|exact I']|exact D'].
Qed.
Lemma content_ended : forall t e, (forall y, inside t y -> ended y) ->
  forall f, mf_ty f = t -> mf_optional f = false ->
  forall endi prev b c v r s, content m emb e endi prev t b (Found c v r) -> ~ swallows_member m emb e f v ->
  content m emb e endi prev t (c ++ s) (Found c v s).
Proof.
  intros t e H f Ht Ho endi prev b c v r s X Y. inversion X; subst; unfold bytes; rewrite <- ?app_assoc;
    try (constructor; assumption).
  - constructor. match goal with Z : target _ _ _ _ _ |- _ => inversion Z; subst end; [constructor; assumption|].
    assert (Hin : inside (mf_ty f) y) by (match goal with Q : _ = mf_ty f |- _ => rewrite <- Q end; constructor).
    constructor. eapply H; [exact Hin|eassumption|].
    intro Z. apply Y. eapply swallows_inside; [|exact Z]. apply holds_message; [congruence|]. unfold held. rewrite Ho. reflexivity.
  - eapply union_empty; eassumption.
  - match goal with Z : first_case _ _ _ _ |- _ => pose proof Z as (Hn & _ & _) end.
    eapply union_case; try eassumption.
    match goal with Z : target _ _ _ _ _ |- _ => inversion Z; subst end; [constructor; assumption|].
    assert (Hin : inside (mf_ty f) y)
      by (match goal with Q : _ = mf_ty f |- _ => rewrite <- Q end; econstructor; [eapply nth_error_In; exact Hn|assumption]).
    constructor. eapply H; [exact Hin|eassumption|].
    intro Z. apply Y. eapply swallows_inside; [|exact Z]. eapply holds_case; [symmetry; eassumption|unfold held; rewrite Ho; reflexivity|exact Hn|assumption].
  - apply list_walked; [assumption|]. eapply items_ended; [apply H| |].
    + match goal with Q : _ = mf_ty f |- _ => rewrite <- Q end. constructor.
    + eassumption.
    + intros k used rest item z left Hk I D S. apply Y. eapply swallows_item; [symmetry; eassumption| |exact Hk|exact I|exact D|exact S].
      unfold held. rewrite Ho. reflexivity.
  - exfalso. apply Y. eapply swallows_list; [symmetry; eassumption|unfold held; rewrite Ho; reflexivity].
  - exfalso. apply Y. eapply swallows_payload; [symmetry; eassumption|unfold held; rewrite Ho; reflexivity].
Qed.
Lemma member_ended : forall f e, (forall y, inside (mf_ty f) y -> ended y) ->
  forall prev b c v r s, member m emb e prev f b (Found c v r) -> ~ swallows_member m emb e f v ->
  member m emb e prev f (c ++ s) (Found c v s).
Proof.
  intros f e H prev b c v r s X Y. inversion X; subst.
  - apply member_plain; [assumption|]. eapply content_ended; try eassumption; reflexivity.
  - apply member_absent. assumption.
  - cbn [app]. apply member_present; [assumption|assumption|].
    eapply (content_ended (mf_ty f) e H (mandatory f)); try eassumption; try (destruct f; reflexivity).
    intro Z. apply Y. apply mandatory_swallows; assumption.
Qed.
Lemma members_ended : forall fs e, (forall g y, In g fs -> inside (mf_ty g) y -> ended y) ->
  forall prev b c vs r s, members m emb e prev fs b (Found c vs r) ->
  (forall i f w, nth_error fs i = Some f -> nth_error vs i = Some w -> ~ swallows_member m emb e f w) ->
  members m emb e prev fs (c ++ s) (Found c vs s).
Proof.
  induction fs as [|f fs IH]; intros e H prev b c vs r s X Y; inversion X; subst; [constructor|].
  rewrite <- app_assoc. eapply members_next.
  - eapply member_ended.
    + intros y. apply (H f y). left. reflexivity.
    + eassumption.
    + apply (Y 0%nat); reflexivity.
  - eapply IH.
    + intros g y Hg. apply (H g y). right. exact Hg.
    + eassumption.
    + intros i g w Hg Hw. apply (Y (S i)); assumption.
Qed.
Theorem decodes_ended : forall x, ended x.
Proof.
  apply (message_ind_inside ended). intros x IH b c v r s X Y. inversion X; subst. constructor. eapply members_ended.
  - exact IH.
  - eassumption.
  - intros i f w Hf Hw Ho. apply Y. econstructor; eassumption.
Qed.
(** ** The encodings of a value have one length *)
Definition sized (x : message) : Prop := forall b c v r d, decodes m emb x b (Found c v r) -> enc_msg m any x v d -> length c = length d.
Lemma ref_sized : forall t, (forall y, t = RMessage y -> sized y) ->
  forall b c v r d, target m emb t b (Found c v r) -> enc_ref m any t v d -> length c = length d.
Proof.
  intros t H b c v r d X E. inversion X; subst; cbn [enc_ref] in E.
  - destruct E as (_ & _ & ->). reflexivity.
  - eapply H; [reflexivity|eassumption|exact E].
Qed.
Lemma content_sized : forall t, (forall y, inside t y -> sized y) ->
  forall e endi endi' prev prev' b c v r d, content m emb e endi prev t b (Found c v r) -> enc_ty m any endi' prev' t v d -> length c = length d.
Proof.
  intros t H e endi endi' prev prev' b c v r d X E. inversion X; subst; cbn [enc_ty] in E.
  - destruct E as (L & _). match goal with N : number _ _ _ c |- _ => destruct N as (L' & _) end. congruence.
  - eapply ref_sized; [|eassumption|exact E]. intros y ->. apply H. constructor.
  - destruct E as (_ & _ & ->). reflexivity.
  - destruct E as (_ & p' & (L & _) & ->). match goal with N : number _ _ _ _ |- _ => destruct N as (L' & _) end. rewrite !app_length. congruence.
  - destruct E as (_ & _ & p' & (L & _) & ->). match goal with N : number _ _ _ _ |- _ => destruct N as (L' & _) end. rewrite !app_length. congruence.
  - apply enc_union_iff in E. destruct E as (dt & disc & c' & _ & _ & Hf & Hi). apply find_case_in in Hf. destruct Hf as (_ & _ & _ & Hf).
    rewrite Nat.sub_0_r in Hf. match goal with Z : first_case _ _ _ _ |- _ => destruct Z as (Hn & _ & _) end.
    assert (c' = c0) by congruence. subst c'. match goal with Z : uc_item c0 = None |- _ => rewrite Z in Hi end. cbn in Hi. subst d. reflexivity.
  - apply enc_union_iff in E. destruct E as (dt & disc & c' & _ & _ & Hf & Hi). apply find_case_in in Hf. destruct Hf as (_ & _ & _ & Hf).
    rewrite Nat.sub_0_r in Hf. match goal with Z : first_case _ _ _ _ |- _ => destruct Z as (Hn & _ & _) end.
    assert (c' = c0) by congruence. subst c'. match goal with Z : uc_item c0 = Some _ |- _ => rewrite Z in Hi; rename Z into Hc end. cbn [enc_item] in Hi.
    eapply ref_sized; [|eassumption|exact Hi]. intros y ->. apply H. econstructor; [eapply nth_error_In; exact Hn|exact Hc].
  - destruct E as (p' & it & ch & (L & _) & _ & _ & _ & ->). match goal with N : number _ _ _ _ |- _ => destruct N as (L' & _) end. rewrite !app_length. congruence.
  - destruct E as (p' & it & ch & (L & _) & _ & _ & _ & ->). match goal with N : number _ _ _ _ |- _ => destruct N as (L' & _) end. rewrite !app_length. congruence.
  - destruct E as (_ & ->). reflexivity.
Qed.
Lemma member_sized : forall f, (forall y, inside (mf_ty f) y -> sized y) ->
  forall e prev prev' b c v r d, member m emb e prev f b (Found c v r) -> enc_member m prev' f v d -> length c = length d.
Proof.
  intros f H e prev prev' b c v r d X E. unfold enc_member, enc_optional in E. inversion X; subst;
    match goal with O : mf_optional f = _ |- _ => rewrite O in E end.
  - eapply content_sized; eassumption.
  - subst d. reflexivity.
  - destruct E as (p' & d' & _ & _ & -> & E). cbn [length]. f_equal. eapply content_sized; eassumption.
Qed.
Lemma members_sized : forall fs, (forall g y, In g fs -> inside (mf_ty g) y -> sized y) ->
  forall e prev prev' b c vs r d, members m emb e prev fs b (Found c vs r) -> enc_fields m any fs prev' vs d -> length c = length d.
Proof.
  induction fs as [|f fs IH]; intros H e prev prev' b c vs r d X E; inversion X; subst; cbn [enc_fields] in E; [subst d; reflexivity|].
  destruct E as (d1 & d2 & -> & E1 & E2). rewrite !app_length. f_equal.
  - eapply member_sized; [intros y; apply (H f y); left; reflexivity|eassumption|exact E1].
  - eapply IH; [intros g y Hg; apply (H g y); right; exact Hg|eassumption|exact E2].
Qed.
Theorem decodes_sized : forall x, sized x.
Proof.
  apply (message_ind_inside sized). intros x IH b c v r d X E. inversion X; subst. apply enc_msg_eq in E.
  eapply members_sized; eassumption.
Qed.

(** ** Which encodings are read back *)
Lemma items_dec : forall y n data, fine data ->
  items m emb y n data (Found data tt []) \/ ~ items m emb y n data (Found data tt []).
Proof.
  intros y n data (Hl & Hb). pose proof (loop_tells m emb y data (tells_message m emb y) Hl Hb n 0 ltac:(lia)) as T. rewrite skipn_O in T.
  destruct (list_loop m (read_msg m emb y) data n 0) as [t'|e|].
  - destruct (list_eq_dec N.eq_dec data (firstn (N.to_nat (t' - 0)) data)) as [E|E].
    + destruct (skipn (N.to_nat t') data) as [|a q] eqn:Q.
      * left. apply T. rewrite <- E. reflexivity.
      * right. intro X. apply T in X. discriminate.
    + right. intro X. apply T in X. apply E. congruence.
  - right. intro X. apply T in X. discriminate.
  - right. intro X. apply T in X. discriminate.
Qed.
Lemma find_first : forall u disc k c, find_case disc 0 (u_cases u) = Some (k, c) -> first_case u disc k c.
Proof.
  intros u disc k c H. unfold first_case.
  assert (G : forall cs i k c, find_case disc i cs = Some (k, c) -> (i <= k)%nat /\ nth_error cs (k - i) = Some c /\ uc_case c = disc /\
    forall j c', (j < k - i)%nat -> nth_error cs j = Some c' -> uc_case c' <> disc).
  { induction cs as [|a cs IH]; intros i k0 c0 H0; [discriminate|]. cbn [find_case] in H0. destruct (N.eqb_spec disc (uc_case a)) as [E|E].
    - inversion H0; subst. rewrite Nat.sub_diag. repeat split; try lia; auto.
    - apply IH in H0. destruct H0 as (H1 & H2 & H3 & H4). split; [lia|]. replace (k0 - i)%nat with (S (k0 - S i)) by lia.
      split; [exact H2|]. split; [exact H3|]. intros [|j] c' Hj Hc; cbn in Hc; [congruence|]. eapply (H4 j); [lia|exact Hc]. }
  apply G in H. rewrite Nat.sub_0_r in H. tauto.
Qed.
Lemma extent_fit : forall n s d, d = n * s -> d < 2 ^ 64 -> extent m n s = Some d.
Proof.
  intros n s d -> H. unfold extent. destruct m; [|rewrite N.mod_small by exact H; reflexivity].
  apply N.ltb_lt in H. rewrite H. reflexivity.
Qed.

Definition legible (x : message) : Prop := forall v b s, enc_msg m any x v b -> fine (b ++ s) ->
  (decodes m emb x (b ++ s) (Found b v s) <-> ~ unreadable m emb x v b /\ (s <> [] -> ~ swallows m emb x v)).
Definition list_whole (e : bool) (f : mfield) (w : value) : Prop := forall ty y data n, e = true -> mf_ty f = TList ty y ->
  held f w (VListing data n) -> items m emb y (N.to_nat n) data (Found data tt []).
Lemma nonempty_dec : forall (s : bytes), s = [] \/ s <> [].
Proof. intros []; [left; reflexivity|right; discriminate]. Qed.

Lemma content_legible : forall f, (forall y, inside (mf_ty f) y -> legible y) -> mf_optional f = false ->
  forall e endi prev v b s, enc_ty m any endi prev (mf_ty f) v b -> fine (b ++ s) ->
  (content m emb e endi prev (mf_ty f) (b ++ s) (Found b v s) <->
   (s <> [] -> ~ swallows_member m emb e f v) /\ (forall y z, holds f v y z -> ~ unreadable m emb y z b) /\ list_whole e f v).
Proof.
  intros f H Ho e endi prev v b s E Hf. assert (Hheld : forall u, held f v u <-> v = u) by (intro u; unfold held; rewrite Ho; tauto). split.
  - intro X. split; [|split].
    + intros Hs S. apply Hs. eapply content_hungry; [intros y _; apply decodes_hungry|exact Hf|reflexivity|exact Ho|exact X|exact S].
    + intros y z [Hp Hd|u on i k c0 Hp Hd Hk Hi]; apply Hheld in Hd; subst v; rewrite Hp in X, E.
      * cbn [enc_ty enc_ref] in E. inversion X; subst. match goal with Z : target _ _ _ _ _ |- _ => inversion Z; subst end.
        apply (H y ltac:(rewrite Hp; constructor) z b s E Hf). assumption.
      * cbn [enc_ty] in E. apply enc_union_iff in E. destruct E as (dt & disc & c' & _ & _ & Hc & E). apply find_case_in in Hc.
        destruct Hc as (_ & _ & _ & Hc). rewrite Nat.sub_0_r in Hc. assert (c' = c0) by congruence. subst c'. rewrite Hi in E. cbn [enc_item enc_ref] in E.
        inversion X; subst. match goal with Z : first_case _ _ _ ?c1 |- _ => destruct Z as (Hn & _ & _); assert (c1 = c0) by congruence; subst c1 end.
        assert (t = RMessage y) by congruence. subst t. match goal with Z : target _ _ _ _ _ |- _ => inversion Z; subst end.
        assert (Hin : inside (mf_ty f) y) by (rewrite Hp; econstructor; [eapply nth_error_In; exact Hk|exact Hi]).
        apply (H y Hin z b s E Hf). assumption.
    + intros ty y data n -> Hp Hd. apply Hheld in Hd. subst v. rewrite Hp in X. inversion X; subst.
      rewrite <- (app_nil_r data) at 1. eapply items_movable; [apply decodes_movable|eassumption|reflexivity].
  - intros (Hs & Hi & Hw). destruct (mf_ty f) as [ty|[st|y]| |ty|ty st|u on idx|ty y|] eqn:Et; cbn [enc_ty enc_ref] in E.
    + destruct v; try contradiction. constructor. exact E.
    + destruct v; try contradiction. destruct E as (L & _ & ->). constructor. constructor. exact L.
    + constructor. constructor. apply (H y (in_ref y) v b s E Hf). split.
      * apply Hi. apply holds_message; [exact Et|]. apply Hheld. reflexivity.
      * intros Hn S. apply (Hs Hn). eapply swallows_inside; [|exact S]. apply holds_message; [exact Et|]. apply Hheld. reflexivity.
    + destruct v; try contradiction. destruct E as (U & Z & ->). rewrite <- app_assoc. constructor; assumption.
    + destruct v; try contradiction. destruct E as (U & p & N & ->). rewrite <- app_assoc. constructor; assumption.
    + destruct v; try contradiction. destruct E as (L & _ & p & N & ->). rewrite <- app_assoc. constructor; [exact N|].
      apply extent_fit; [exact L|]. rewrite <- app_assoc in Hf. apply fine_app in Hf. destruct Hf as (_ & Hf). apply fine_app in Hf. apply Hf.
    + destruct v; try contradiction. apply enc_union_iff in E. destruct E as (dt & disc & c & Hd & Hg & Hc & E).
      apply find_first in Hc. unfold enc_item in E. destruct (uc_item c) as [t|] eqn:Er; destruct item as [z|]; try contradiction.
      * eapply union_case; [exact Hd|exact Hg|exact Hc|exact Er|]. destruct t as [st|y]; cbn [enc_ref] in E.
        { destruct z; try contradiction. destruct E as (L & _ & ->). constructor. exact L. }
        pose proof Hc as (Hn & _ & _). constructor.
        assert (Hin : inside (TUnion u on idx) y) by (econstructor; [eapply nth_error_In; exact Hn|exact Er]).
        assert (Hh : holds f (VUnion variant (Some z)) y z) by (eapply holds_case; [exact Et|apply Hheld; reflexivity|exact Hn|exact Er]).
        apply (H y Hin z b s E Hf). split; [apply Hi; exact Hh|]. intros Hne S. apply (Hs Hne). eapply swallows_inside; [exact Hh|exact S].
      * subst b. eapply union_empty; [exact Hd|exact Hg|exact Hc|exact Er].
    + destruct v; try contradiction. destruct E as (p & its & chunks & N & _ & _ & _ & ->). rewrite <- app_assoc. destruct e.
      * apply list_walked; [exact N|]. pose proof (Hw ty y _ _ eq_refl Et ltac:(apply Hheld; reflexivity)) as I.
        destruct (nonempty_dec s) as [-> | Hne]; [rewrite app_nil_r; exact I|].
        eapply items_ended; [apply decodes_ended|exact I|]. intros k used rest it z left Hk I' D S. apply (Hs Hne).
        eapply swallows_item; [exact Et|apply Hheld; reflexivity|exact Hk|exact I'|exact D|exact S].
      * destruct (nonempty_dec s) as [-> | Hne]; [rewrite app_nil_r; constructor; exact N|].
        exfalso. apply (Hs Hne). eapply swallows_list; [exact Et|apply Hheld; reflexivity].
    + destruct v; try contradiction. destruct E as (_ & ->).
      destruct (nonempty_dec s) as [-> | Hne]; [rewrite app_nil_r; constructor|].
      exfalso. apply (Hs Hne). eapply swallows_payload; [exact Et|apply Hheld; reflexivity].
Qed.
Lemma both_iff : forall A B C D : Prop, (A <-> C) -> (B <-> D) -> (A /\ B <-> C /\ D).
Proof. tauto. Qed.
Definition measured (x : message) : Prop := forall v b d, enc_msg m any x v b -> enc_msg m any x v d -> length b = length d.
Lemma enc_ref_sized : forall t, (forall y, t = RMessage y -> measured y) ->
  forall v b d, enc_ref m any t v b -> enc_ref m any t v d -> length b = length d.
Proof.
  intros [st|y] H v b d X E; cbn [enc_ref] in X, E; [|eapply (H y); eauto].
  destruct v; try contradiction. destruct X as (_ & _ & ->). destruct E as (_ & _ & ->). reflexivity.
Qed.
Lemma enc_ty_sized : forall t, (forall y, inside t y -> measured y) ->
  forall endi endi' prev prev' v b d, enc_ty m any endi prev t v b -> enc_ty m any endi' prev' t v d -> length b = length d.
Proof.
  intros [ty|t| |ty|ty st|u on idx|ty y|] H endi endi' prev prev' v b d X E; cbn [enc_ty] in X, E.
  2: { eapply enc_ref_sized; [|exact X|exact E]. intros y ->. apply H. constructor. }
  5: { destruct v; try contradiction. apply enc_union_iff in X, E. destruct X as (dt & di & c & _ & _ & F & I). destruct E as (dt' & di' & c' & _ & _ & F' & I').
    apply find_case_in in F, F'. destruct F as (_ & _ & _ & F). destruct F' as (_ & _ & _ & F'). assert (c' = c) by congruence. subst c'.
    rewrite Nat.sub_0_r in F. unfold enc_item in I, I'. destruct (uc_item c) as [t|] eqn:Et; destruct item as [z|]; try contradiction; [|congruence].
    eapply enc_ref_sized; [|exact I|exact I']. intros y ->. apply H. econstructor; [eapply nth_error_In; exact F|exact Et]. }
  all: destruct v; try contradiction.
  - destruct X as (L & _), E as (L' & _). congruence.
  - destruct X as (_ & _ & ->), E as (_ & _ & ->). reflexivity.
  - destruct X as (_ & p & (L & _) & ->), E as (_ & p' & (L' & _) & ->). rewrite !app_length. congruence.
  - destruct X as (_ & _ & p & (L & _) & ->), E as (_ & _ & p' & (L' & _) & ->). rewrite !app_length. congruence.
  - destruct X as (p & it & ch & (L & _) & _ & _ & _ & ->), E as (p' & it' & ch' & (L' & _) & _ & _ & _ & ->). rewrite !app_length. congruence.
  - destruct X as (_ & ->), E as (_ & ->). reflexivity.
Qed.
Lemma enc_member_measured : forall f, (forall y, inside (mf_ty f) y -> measured y) -> forall prev prev' w b b', enc_member m prev f w b -> enc_member m prev' f w b' -> length b = length b'.
Proof.
  intros f H prev prev' w b d X E. unfold enc_member, enc_optional in X, E. destruct (mf_optional f); [|eapply enc_ty_sized; eassumption].
  destruct w as [| | | | | | |[u|]]; try contradiction; [|congruence].
  destruct X as (p & c & _ & _ & -> & X), E as (p' & c' & _ & _ & -> & E). cbn [length]. f_equal. eapply enc_ty_sized; eassumption.
Qed.
Theorem all_measured : forall x, measured x.
Proof.
  apply (message_ind_inside measured). intros x IH v b d X E. destruct v as [| | | | | |vs|]; try (apply enc_msg_inv in X; destruct X as (? & ? & _); discriminate).
  apply enc_msg_eq in X. apply enc_msg_eq in E.
  assert (G : forall fs, (forall g y, In g fs -> inside (mf_ty g) y -> measured y) -> forall prev prev' vs b d,
    enc_fields m any fs prev vs b -> enc_fields m any fs prev' vs d -> length b = length d).
  { induction fs as [|f fs IHf]; intros H prev prev' ws c c' Y Y'; destruct ws as [|w ws]; cbn [enc_fields] in Y, Y'; try contradiction; [congruence|].
    destruct Y as (c1 & c2 & -> & Y1 & Y2), Y' as (e1 & e2 & -> & Z1 & Z2). rewrite !app_length. f_equal.
    - eapply enc_member_measured; [|exact Y1|exact Z1]. intros y; apply (H f y); left; reflexivity.
    - eapply IHf; [|exact Y2|exact Z2]. intros g y Hg; apply (H g y); right; exact Hg. }
  eapply G; eassumption.
Qed.
Lemma enc_member_sized : forall f prev prev' w b b', enc_member m prev f w b -> enc_member m prev' f w b' -> length b = length b'.
Proof. intros f. apply enc_member_measured. intros y _. apply all_measured. Qed.

(** What decides for one member, encoded as [b], with [s] behind it. *)
Definition clear (e : bool) (f : mfield) (w : value) (b s : bytes) : Prop :=
  (s <> [] -> ~ swallows_member m emb e f w) /\
  (forall y z p c, holds f w y z -> b = p ++ c -> length p = (if mf_optional f then 1 else 0)%nat -> ~ unreadable m emb y z c) /\
  list_whole e f w.
Lemma holds_mandatory : forall f u y z, mf_optional f = true -> (holds (mandatory f) u y z <-> holds f (VOpt (Some u)) y z).
Proof.
  intros [nm ty opt sz endi] u y z Ho. cbn in Ho. subst opt. split; intros [Hp Hd|un on i k c Hp Hd Hk Hi]; unfold held in Hd; cbn in Hd, Hp.
  - subst u. apply holds_message; [exact Hp|reflexivity].
  - subst u. eapply holds_case; [exact Hp|reflexivity|exact Hk|exact Hi].
  - inversion Hd; subst u. apply holds_message; [exact Hp|reflexivity].
  - inversion Hd; subst u. eapply holds_case; [exact Hp|reflexivity|exact Hk|exact Hi].
Qed.
Lemma absent_clear : forall e f b s, mf_optional f = true -> clear e f (VOpt None) b s.
Proof.
  intros e f b s Ho. split; [|split].
  - intros _ S. apply swallows_mandatory in S; [|exact Ho]. destruct S as (u & Z & _). discriminate.
  - intros y z p c [Hp Hd|un on i k c0 Hp Hd Hk Hi]; unfold held in Hd; rewrite Ho in Hd; discriminate.
  - intros ty y data n _ _ Hd. unfold held in Hd. rewrite Ho in Hd. discriminate.
Qed.
Lemma member_legible : forall f, (forall y, inside (mf_ty f) y -> legible y) ->
  forall e prev w b s, enc_member m prev f w b -> fine (b ++ s) ->
  (member m emb e prev f (b ++ s) (Found b w s) <-> clear e f w b s).
Proof.
  intros f H e prev w b s E Hf. unfold enc_member, enc_optional in E. destruct (mf_optional f) eqn:Ho.
  - destruct w as [| | | | | | |[u|]]; try contradiction.
    + destruct E as (a & c & Ha & _ & -> & E). cbn [app] in *.
      assert (Hc : fine (c ++ s)) by (apply (fine_app [a] (c ++ s) Hf)).
      assert (Et : mf_ty (mandatory f) = mf_ty f) by (destruct f; reflexivity).
      pose proof (content_legible (mandatory f) ltac:(rewrite Et; exact H) ltac:(destruct f; reflexivity) e (mf_endi f) prev u c s) as L.
      rewrite Et in L. specialize (L E Hc). transitivity (content m emb e (mf_endi f) prev (mf_ty f) (c ++ s) (Found c u s)).
      { split; intro X; [inversion X; subst; [congruence|assumption]|]. apply member_present; [exact Ho|lia|exact X]. }
      rewrite L. unfold clear. rewrite Ho. apply both_iff; [|apply both_iff].
      * split; intros G Hs S; apply (G Hs).
        { apply swallows_mandatory in S; [|exact Ho]. destruct S as (u' & Z & S). inversion Z; subst u'. exact S. }
        apply mandatory_swallows; [exact Ho|exact S].
      * split.
        { intros G y z p c' Hh Eb Hp. destruct p as [|a' [|]]; try discriminate. inversion Eb; subst. apply G. apply holds_mandatory; assumption. }
        intros G y z Hh. apply (G y z [a] c); [apply holds_mandatory; assumption|reflexivity|reflexivity].
      * unfold list_whole, held. rewrite Et, Ho. replace (mf_optional (mandatory f)) with false by (destruct f; reflexivity).
        split; intros G ty y data n He Hp Hd; eapply G; eauto; congruence.
    + subst b. split; intros _; [apply absent_clear; exact Ho|]. apply member_absent. exact Ho.
  - pose proof (content_legible f H Ho e (mf_endi f) prev w b s E Hf) as L.
    transitivity (content m emb e (mf_endi f) prev (mf_ty f) (b ++ s) (Found b w s)).
    { split; intro X; [inversion X; subst; try congruence; assumption|]. apply member_plain; [exact Ho|exact X]. }
    rewrite L. unfold clear. rewrite Ho. apply both_iff; [reflexivity|]. apply both_iff; [|reflexivity].
    split.
    + intros G y z p c Hh -> Hp. destruct p; [|discriminate]. apply G. exact Hh.
    + intros G y z Hh. apply (G y z [] b Hh); reflexivity.
Qed.
Definition all_clear (e : bool) (fs : list mfield) (prev vs : list value) (b s : bytes) : Prop :=
  forall l f r vl w vr b1 b2 b3, fs = l ++ f :: r -> vs = vl ++ w :: vr -> b = b1 ++ b2 ++ b3 ->
    enc_fields m any l prev vl b1 -> enc_member m (prev ++ vl) f w b2 -> enc_fields m any r (prev ++ vl ++ [w]) vr b3 ->
    clear e f w b2 (b3 ++ s).
Lemma members_legible : forall fs, (forall g y, In g fs -> inside (mf_ty g) y -> legible y) ->
  forall e prev vs b s, enc_fields m any fs prev vs b -> fine (b ++ s) ->
  (members m emb e prev fs (b ++ s) (Found b vs s) <-> all_clear e fs prev vs b s).
Proof.
  induction fs as [|f fs IH]; intros H e prev vs b s E Hf.
  { destruct vs; cbn [enc_fields] in E; [subst b|contradiction]. split; [|intros _; constructor].
    intros _ l f r vl w vr b1 b2 b3 Z. destruct l; discriminate. }
  destruct vs as [|v vs]; cbn [enc_fields] in E; [contradiction|]. destruct E as (d1 & d2 & -> & E1 & E2).
  rewrite <- app_assoc in *. pose proof (fine_app _ _ Hf) as (_ & Hf2).
  pose proof (member_legible f (fun y => H f y (or_introl eq_refl)) e prev v d1 (d2 ++ s) E1 Hf) as ML.
  pose proof (IH (fun g y Hg => H g y (or_intror Hg)) e (prev ++ [v]) vs d2 s E2 Hf2) as LL.
  transitivity (member m emb e prev f (d1 ++ d2 ++ s) (Found d1 v (d2 ++ s)) /\ members m emb e (prev ++ [v]) fs (d2 ++ s) (Found d2 vs s)).
  { split; [|intros (A & B); econstructor; eassumption]. intro X. inversion X; subst.
    match goal with A : member _ _ _ _ _ _ (Found ?p _ ?r), B : members _ _ _ _ _ ?r (Found ?q _ _), Z : _ = d1 ++ d2 |- _ =>
      pose proof (member_sized f (fun y _ => decodes_sized y) _ _ _ _ _ _ _ _ A E1) as Hl;
      pose proof (app_unique _ _ _ _ Hl Z) as (? & ?); subst p q;
      pose proof (members_parted m emb fs (fun g y _ _ => decodes_parted m emb y) _ _ _ _ _ _ B) as Hr; subst r; split; assumption end. }
  rewrite ML, LL. split.
  - intros (A & B) l g r vl w vr b1 b2 b3 Hl Hv Hb X1 X2 X3. destruct l as [|g' l]; inversion Hl; subst.
    + destruct vl as [|? ?]; cbn [enc_fields] in X1; [subst b1|contradiction]. cbn [app] in *. inversion Hv; subst.
      pose proof (enc_member_sized _ _ _ _ _ _ E1 X2) as Z. destruct (app_unique _ _ _ _ Z Hb) as (-> & ->). exact A.
    + destruct vl as [|v' vl]; cbn [enc_fields] in X1; [contradiction|]. destruct X1 as (c1 & c2 & -> & X1 & X1').
      cbn [app] in Hv. inversion Hv; subst. rewrite <- app_assoc in Hb.
      pose proof (enc_member_sized _ _ _ _ _ _ E1 X1) as Z. destruct (app_unique _ _ _ _ Z Hb) as (-> & ->).
      eapply (B l g r vl w vr c2 b2 b3); try reflexivity; [exact X1'| |]; rewrite <- ?app_assoc; assumption.
  - intro G. split.
    + apply (G [] f fs [] v vs [] d1 d2); try reflexivity; rewrite ?app_nil_r; assumption.
    + intros l g r vl w vr b1 b2 b3 -> -> -> X1 X2 X3. apply (G (f :: l) g r (v :: vl) w vr (d1 ++ b1) b2 b3); try reflexivity.
      * rewrite <- app_assoc. reflexivity.
      * cbn [enc_fields]. exists d1, b1. auto.
      * rewrite <- app_assoc in X2. exact X2.
      * rewrite <- app_assoc in X3. exact X3.
Qed.
Lemma list_data_fine : forall prev f w b ty y data n, enc_member m prev f w b -> fine b -> mf_ty f = TList ty y -> held f w (VListing data n) -> fine data.
Proof.
  intros prev f w b ty y data n E Hf Et Hd. unfold enc_member, enc_optional, held in *. rewrite Et in E. destruct (mf_optional f); subst w; cbn [enc_ty] in E.
  - destruct E as (a & c & _ & _ & -> & p & it & ch & _ & _ & _ & _ & ->). apply (fine_app [a]) in Hf. destruct Hf as (_ & Hf). apply fine_app in Hf. apply Hf.
  - destruct E as (p & it & ch & _ & _ & _ & _ & ->). apply fine_app in Hf. apply Hf.
Qed.
Lemma enc_fields_parts : forall l r prev vs b, enc_fields m any (l ++ r) prev vs b ->
  exists vl vr b1 b2, vs = vl ++ vr /\ b = b1 ++ b2 /\ enc_fields m any l prev vl b1 /\ enc_fields m any r (prev ++ vl) vr b2.
Proof.
  induction l as [|f l IH]; intros r prev vs b H; cbn [app] in H.
  - exists [], vs, [], b. rewrite app_nil_r. repeat split. exact H.
  - destruct vs as [|v vs]; cbn [enc_fields] in H; [contradiction|]. destruct H as (c & d & -> & H1 & H2).
    apply IH in H2. destruct H2 as (vl & vr & b1 & b2 & -> & -> & H2 & H3). exists (v :: vl), vr, (c ++ b1), b2.
    split; [reflexivity|]. split; [apply app_assoc|]. split; [exists c, b1; auto|]. rewrite <- app_assoc in H3. exact H3.
Qed.
Theorem encoding_legible : forall x, legible x.
Proof.
  apply (message_ind_inside legible). intros x IH v b s E Hf. pose proof E as E'. apply enc_msg_inv in E'. destruct E' as (vs & -> & _).
  apply enc_msg_eq in E.
  transitivity (members m emb (emb (m_id x)) [] (m_fields x) (b ++ s) (Found b vs s)).
  { split; intro X; [inversion X; subst; assumption|constructor; exact X]. }
  rewrite (members_legible (m_fields x) IH (emb (m_id x)) [] vs b s E Hf). split.
  - intro G. split.
    + intro U. inversion U; subst;
        match goal with F : m_fields x = _, A : enc_fields _ _ ?l [] ?vl ?b1, B : enc_member _ ?vl ?f ?w ?b2, C : enc_fields _ _ ?r _ ?vr ?b3 |- _ =>
          destruct (G l f r vl w vr b1 b2 b3 F eq_refl eq_refl A B C) as (G1 & G2 & G3) end.
      * apply G1; [|assumption]. match goal with Z : ?b3 <> [] |- _ => destruct b3; [congruence|discriminate] end.
      * match goal with Z : ~ items _ _ _ _ _ _ |- _ => apply Z end. eapply G3; eassumption.
      * eapply G2; [eassumption|reflexivity|eassumption|eassumption].
    + intros Hs S. inversion S as [? ? i f w Hi Hw Sw]; subst. destruct (nth_error_split _ _ Hi) as (l & r & Ef & Hl).
      rewrite Ef in E. apply enc_fields_parts in E. destruct E as (vl & vt & b1 & bt & -> & -> & E1 & E2).
      pose proof (enc_fields_length _ _ _ _ _ E1) as Hll. destruct vt as [|w' vr]; cbn [enc_fields] in E2; [contradiction|].
      destruct E2 as (b2 & b3 & -> & E2 & E3). rewrite nth_error_app2 in Hw by lia. replace (i - length vl)%nat with 0%nat in Hw by lia. inversion Hw; subst w'.
      destruct (G l f r vl w vr b1 b2 b3 Ef eq_refl eq_refl E1 E2) as (G1 & _ & _).
      { exact E3. }
      apply G1; [|exact Sw]. destruct b3; [exact Hs|discriminate].
  - intros (HU & HS) l f r vl w vr b1 b2 b3 Ef -> -> E1 E2 E3. cbn [app] in E2, E3. split; [|split].
    + intros Hn Sw. destruct (nonempty_dec b3) as [-> | Hb].
      * apply (HS Hn). econstructor; [|rewrite nth_error_app2 by reflexivity; rewrite Nat.sub_diag; reflexivity|exact Sw].
        rewrite Ef, (enc_fields_length _ _ _ _ _ E1). rewrite nth_error_app2 by reflexivity. rewrite Nat.sub_diag. reflexivity.
      * apply HU. eapply unreadable_here; eassumption.
    + intros y z p c Hh Hb Hp U. apply HU. eapply unreadable_inside; eassumption.
    + intros ty y data n He Ht Hd. destruct (items_dec y (N.to_nat n) data) as [I|I]; [|exact I|].
      * eapply list_data_fine; [exact E2| |exact Ht|exact Hd]. apply fine_app in Hf. destruct Hf as (Hf & _). apply fine_app in Hf. destruct Hf as (_ & Hf). apply fine_app in Hf. apply Hf.
      * exfalso. apply HU. eapply unreadable_list; eassumption.
Qed.
End Swallow.

Theorem read_swallows_all : forall m emb x b n v, len b < 2 ^ 64 -> bytes_ok b -> read_msg m emb x b = Ok (n, v) ->
  swallows m emb x v -> n = len b.
Proof.
  intros m emb x b n v Hl Hb H Ho. destruct (decode_exact m emb x b Hl Hb) as (HO & _ & _).
  apply HO in H. destruct H as (c & r & -> & -> & H). pose proof (decodes_hungry m emb x _ _ _ _ (conj Hl Hb) H Ho) as ->. rewrite app_nil_r. reflexivity.
Qed.
Theorem read_final_all : forall m emb x b s n v, len (b ++ s) < 2 ^ 64 -> bytes_ok (b ++ s) -> s <> [] ->
  read_msg m emb x b = Ok (n, v) -> (read_msg m emb x (b ++ s) = Ok (n, v) <-> ~ swallows m emb x v).
Proof.
  intros m emb x b s n v Hl Hb Hs H. destruct (decode_exact m emb x b) as (HO & _ & _).
  - rewrite len_app in Hl. lia.
  - eapply bytes_ok_left; exact Hb.
  - destruct (decode_exact m emb x (b ++ s) Hl Hb) as (HO' & _ & _). split.
    + intros H' Ho. pose proof (read_swallows_all _ _ _ _ _ _ Hl Hb H' Ho) as E. apply HO in H. destruct H as (c & r & -> & -> & _).
      rewrite !len_app in E. assert (len s <> 0) by (destruct s; [contradiction|unfold len; cbn; lia]). lia.
    + intro Ho. apply HO in H. destruct H as (c & r & -> & -> & H). apply HO'. exists c, (r ++ s).
      split; [rewrite app_assoc; reflexivity|]. split; [reflexivity|]. rewrite <- app_assoc.
      exact (decodes_ended m emb x _ _ _ _ (r ++ s) H Ho).
Qed.

(** Reading an encoding, alone and with bytes behind it. *)
Theorem read_encoding_all : forall m emb x v b s, encodes_lax m x v b -> len (b ++ s) < 2 ^ 64 -> bytes_ok (b ++ s) ->
  (read_msg m emb x (b ++ s) = Ok (len b, v) <-> ~ unreadable m emb x v b /\ (s <> [] -> ~ swallows m emb x v)) /\
  (forall n, read_msg m emb x (b ++ s) = Ok (n, v) -> n = len b).
Proof.
  intros m emb x v b s E Hl Hb. destruct (decode_exact m emb x (b ++ s) Hl Hb) as (HO & _ & _). split.
  - rewrite <- (encoding_legible m emb x v b s E (conj Hl Hb)). rewrite HO. split.
    + intros (c & r & Eq & El & X). assert (Hlen : length b = length c) by (unfold len in El; lia).
      destruct (app_unique _ _ _ _ Hlen Eq) as (-> & ->). exact X.
    + intro X. exists b, s. auto.
  - intros n H. apply HO in H. destruct H as (c & r & _ & -> & X). unfold len. f_equal. exact (decodes_sized m emb x _ _ _ _ _ X E).
Qed.
Theorem whole_all : forall m emb x v b, encodes_lax m x v b -> len b < 2 ^ 64 -> bytes_ok b ->
  (read_msg m emb x b = Ok (len b, v) <-> ~ unreadable m emb x v b) /\
  (unreadable m emb x v b -> forall n, read_msg m emb x b <> Ok (n, v)).
Proof.
  intros m emb x v b E Hl Hb. destruct (read_encoding_all m emb x v b []) as (H1 & H2); try (rewrite app_nil_r; assumption); [exact E|].
  rewrite app_nil_r in *. assert (G : read_msg m emb x b = Ok (len b, v) <-> ~ unreadable m emb x v b).
  { rewrite H1. split; [tauto|]. intro G. split; [exact G|congruence]. }
  split; [exact G|]. intros U n R. pose proof (H2 n R) as ->. apply G in R. contradiction.
Qed.
Theorem suffix_all : forall m emb x v b s, encodes_lax m x v b -> s <> [] -> len (b ++ s) < 2 ^ 64 -> bytes_ok (b ++ s) ->
  (read_msg m emb x (b ++ s) = Ok (len b, v) <-> ~ unreadable m emb x v b /\ ~ swallows m emb x v) /\
  (unreadable m emb x v b \/ swallows m emb x v -> forall n, read_msg m emb x (b ++ s) <> Ok (n, v)).
Proof.
  intros m emb x v b s E Hs Hl Hb. destruct (read_encoding_all m emb x v b s E Hl Hb) as (H1 & H2).
  assert (G : read_msg m emb x (b ++ s) = Ok (len b, v) <-> ~ unreadable m emb x v b /\ ~ swallows m emb x v) by (rewrite H1; tauto).
  split; [exact G|]. intros U n R. pose proof (H2 n R) as ->. apply G in R. tauto.
Qed.
Theorem stream_all : forall m emb l bs rest, Forall2 (fun xv b => encodes_lax m (fst xv) (snd xv) b) l bs ->
  len (concat bs ++ rest) < 2 ^ 64 -> bytes_ok (concat bs ++ rest) ->
  (reads_in_turn m emb (map fst l) (concat bs ++ rest) (map snd l) rest <->
   forall l1 x v l2 bs1 b bs2, l = l1 ++ (x, v) :: l2 -> bs = bs1 ++ b :: bs2 -> length bs1 = length l1 ->
     ~ unreadable m emb x v b /\ (concat bs2 ++ rest <> [] -> ~ swallows m emb x v)).
Proof.
  intros m emb l bs rest H. induction H as [|[x v] b l bs He H IH]; intros Hl Hb.
  - cbn. split; [|intros _; constructor]. intros _ l1 x v l2 bs1 b bs2 E. destruct l1; discriminate.
  - cbn [concat map fst snd] in *. rewrite <- app_assoc in Hl, Hb |- *.
    destruct (fine_app _ _ (conj Hl Hb)) as (_ & Hl' & Hb').
    specialize (IH Hl' Hb'). destruct (read_encoding_all m emb x v b (concat bs ++ rest) He Hl Hb) as (H1 & H2).
    split.
    + intro R. inversion R as [|? ? ? n ? ? ? Hr Hn R']; subst. pose proof (H2 n Hr) as ->. apply H1 in Hr.
      rewrite skipn_len_app in R'. pose proof (proj1 IH R') as R2. clear R'. rename R2 into R'. intros [|[x1 v1] l1] x0 v0 l2 bs1 b0 bs2 E1 E2 E3.
      * destruct bs1; [|discriminate]. cbn in E1, E2. inversion E1; inversion E2; subst. exact Hr.
      * destruct bs1 as [|b1 bs1]; [discriminate|]. cbn in E1, E2, E3. inversion E1; inversion E2; subst.
        eapply R'; [reflexivity|reflexivity|lia].
    + intro C. apply reads_next with (n := len b).
      * apply H1. apply (C [] x v l [] b bs); reflexivity.
      * rewrite len_app. lia.
      * rewrite skipn_len_app. apply (proj2 IH). intros l1 x0 v0 l2 bs1 b0 bs2 -> -> E3.
        apply (C ((x, v) :: l1) x0 v0 l2 (b :: bs1) b0 bs2); [reflexivity|reflexivity|cbn; lia].
Qed.

(** Iterating the encodings of values. *)
Theorem iterate_swallows : forall m emb x vs bs, Forall2 (encodes_lax m x) vs bs ->
  forall s k, len (concat bs ++ s) < 2 ^ 64 -> bytes_ok (concat bs ++ s) -> (length vs <= k)%nat ->
  (iter_take m (read_msg m emb x) k (concat bs ++ s, len vs) = Ok (map Ok vs, (s, 0)) <->
   forall vs1 v vs2 bs1 b bs2, vs = vs1 ++ v :: vs2 -> bs = bs1 ++ b :: bs2 -> length bs1 = length vs1 ->
     ~ unreadable m emb x v b /\ (concat bs2 ++ s <> [] -> ~ swallows m emb x v)).
Proof.
  intros m emb x vs bs H. induction H as [|v b vs bs He H IH]; intros s k Hl Hb Hk.
  { cbn [map concat app]. split; [|intros _; destruct k; reflexivity]. intros _ vs1 v vs2 bs1 b bs2 E. destruct vs1; discriminate. }
  destruct k as [|k]; [cbn [length] in Hk; lia|]. cbn [concat length] in *. rewrite <- app_assoc in *.
  destruct (fine_app _ _ (conj Hl Hb)) as (_ & Hl' & Hb'). specialize (IH s k Hl' Hb' ltac:(lia)).
  destruct (read_encoding_all m emb x v b (concat bs ++ s) He Hl Hb) as (H1 & H2).
  transitivity (read_msg m emb x (b ++ concat bs ++ s) = Ok (len b, v) /\
    iter_take m (read_msg m emb x) k (concat bs ++ s, len vs) = Ok (map Ok vs, (s, 0))).
  - cbn [map iter_take]. assert (Hlen : len (v :: vs) = 1 + len vs) by (unfold len; cbn [length]; lia). rewrite Hlen.
    unfold iter_next. replace (1 + len vs =? 0) with false by lia.
    assert (Hstep : forall q, usub (E:=rerror) m (1 + q) 1 = Ok q) by (intro q; unfold usub; replace (1 <=? 1 + q) with true by lia; f_equal; lia).
    split.
    + intro T. destruct (read_msg m emb x (b ++ concat bs ++ s)) as [[n w]|e|] eqn:R; cbn [bind] in T; [| |discriminate].
      * destruct (slice_from (b ++ concat bs ++ s) n) as [data'|e|] eqn:Sl; cbn [bind] in T; [|discriminate|discriminate]. rewrite Hstep in T. cbn [bind] in T.
        destruct (iter_take m (read_msg m emb x) k (data', len vs)) as [[rs st]|e|] eqn:IT; cbn [bind] in T; try discriminate.
        inversion T; subst. pose proof (H2 n eq_refl) as ->. rewrite slice_from_app in Sl. inversion Sl; subst. split; [reflexivity|exact IT].
      * destruct (iter_take m (read_msg m emb x) k (b ++ concat bs ++ s, 1 + len vs)) as [[rs st]|e'|]; cbn [bind] in T; discriminate.
    + intros (-> & T). rewrite slice_from_app. cbn [bind]. rewrite Hstep. cbn [bind]. rewrite T. reflexivity.
  - rewrite IH, H1. split.
    + intros (A & B) [|v1 vs1] v0 vs2 bs1 b0 bs2 E1 E2 E3.
      * destruct bs1; [|discriminate]. cbn in E1, E2. inversion E1; inversion E2; subst. exact A.
      * destruct bs1 as [|b1 bs1]; [discriminate|]. cbn in E1, E2, E3. inversion E1; inversion E2; subst.
        eapply B; [reflexivity|reflexivity|lia].
    + intro C. split; [apply (C [] v vs [] b bs); reflexivity|]. intros vs1 v0 vs2 bs1 b0 bs2 -> -> E3.
      apply (C (v :: vs1) v0 vs2 (b :: bs1) b0 bs2); [reflexivity|reflexivity|cbn; lia].
Qed.
