(** Which values of a grown message the old program reads, for C86. *)

From Coq Require Import Arith NArith ZArith List Bool Lia ZifyBool ZifyN ZifyNat.
From Verif Require Import Base Schema Codec Compiler Access Bits BitsFacts CodecFacts StructFacts ArrayThms BEThms
  Runtime Gen SpecWire SpecUnion SpecExact MsgFacts SoundThms OffsetThms SpecDecode DecodeThms ReencodeThms SpecSwallow SwallowThms SpecGrow GrowThms.
Import ListNotations.
Local Open Scope N_scope.

Section Grow.
Variables (m : mode) (emb emb' : N -> bool) (same : N -> N -> Prop).
Hypothesis marks_alike : forall i i', same i i' -> emb' i' = emb i.
Local Notation grown := (grown same).
Local Notation grown_field := (grown_field same).
Local Notation grown_type := (grown_type same).
Local Notation grown_ref := (grown_ref same).
Local Notation grown_union := (grown_union same).
Local Notation grown_case := (grown_case same).

Lemma decodes_grown : forall x x' b c v r, grown x x' -> fine b -> decodes m emb x b (Found c v r) -> decodes m emb' x' b (Found c v r).
Proof.
  intros x x' b c v r G (Hl & Hb) D. pose proof (decodes_parted m emb x _ _ _ _ D) as Eb.
  assert (R : read_msg m emb x b = Ok (len c, v)) by (apply (decode_exact m emb x b Hl Hb); eauto).
  destruct (proj1 (grown_alike m emb emb' same marks_alike x x' G) b) as [E|(d & E)]; [|congruence]. rewrite R in E.
  apply (decode_exact m emb' x' b Hl Hb) in E. destruct E as (c' & r' & E1 & E2 & D'). rewrite E1 in Eb.
  destruct (app_unique c' c r' r) as (-> & ->); [unfold len in E2; lia|exact Eb|]. exact D'.
Qed.
Lemma items_grown : forall y y', grown y y' -> forall n b c r, fine b -> items m emb y n b (Found c tt r) -> items m emb' y' n b (Found c tt r).
Proof.
  intros y y' G. induction n as [|n IH]; intros b c r Hf I; inversion I; subst; [constructor|].
  match goal with D : decodes _ _ _ _ (Found ?p _ ?r1) |- _ => pose proof (decodes_parted m emb y _ _ _ _ D) as E; subst b;
    eapply items_next; [eapply decodes_grown; [exact G|exact Hf|exact D]|apply IH; [apply fine_app in Hf; apply Hf|assumption]] end.
Qed.

Lemma grown_nth : forall fs fs' i f', Forall2 grown_field fs fs' -> nth_error fs' i = Some f' -> exists f, nth_error fs i = Some f /\ grown_field f f'.
Proof.
  intros fs fs' i f' F. revert i. induction F as [|f g fs fs' H F IH]; intros [|i] Hi; try discriminate; [|apply IH; exact Hi].
  inversion Hi; subst. exists f. auto.
Qed.
Lemma grown_nth' : forall fs fs' i f, Forall2 grown_field fs fs' -> nth_error fs i = Some f -> exists f', nth_error fs' i = Some f' /\ grown_field f f'.
Proof.
  intros fs fs' i f' F. revert i. induction F as [|f g fs fs' H F IH]; intros [|i] Hi; try discriminate; [|apply IH; exact Hi].
  inversion Hi; subst. exists g. auto.
Qed.
Lemma case_nth : forall cs cs' more k c, Forall2 grown_case cs cs' -> nth_error cs k = Some c ->
  exists c', nth_error (cs' ++ more) k = Some c' /\ grown_case c c'.
Proof.
  intros cs cs' more k c F. revert k. induction F as [|f g fs fs' H F IH]; intros [|k] Hi; try discriminate; [|apply IH; exact Hi].
  inversion Hi; subst. exists g. auto.
Qed.
Lemma case_number : forall c c', grown_case c c' -> uc_case c' = uc_case c.
Proof. intros c c' [|]; reflexivity. Qed.

Lemma grown_holds : forall f f' w y y' z, grown_field f f' -> holds f w y z -> holds f' w y' z -> inside (mf_ty f) y /\ grown y y'.
Proof.
  intros f f' w y y' z G H H'. destruct G as [nm t t' opt sz sz' endi G].
  assert (HD : forall u u', held (MkMField nm t opt sz endi) w u -> held (MkMField nm t' opt sz' endi) w u' -> u = u').
  { unfold held. cbn [mf_optional]. destruct opt; intros; congruence. }
  destruct H as [Et Hw|u on i k c Et Hw Hk Hi]; destruct H' as [Et' Hw'|u' on' i' k' c' Et' Hw' Hk' Hi']; cbn [mf_ty] in *; subst t t'; inversion G; subst.
  - split; [constructor|]. match goal with R : grown_ref _ _ |- _ => inversion R; subst; assumption end.
  - pose proof (HD _ _ Hw Hw') as E. inversion E; subst k'.
    match goal with R : grown_union _ _ |- _ => destruct R as [un d d' cs cs' more s1 s2 TD F] end. cbn [u_cases] in *.
    destruct (case_nth _ _ more _ _ F Hk) as (c2 & E2 & GC). assert (c2 = c') by congruence. subst c2.
    split; [econstructor; [eapply nth_error_In; exact Hk|exact Hi]|].
    destruct GC as [|nm0 n0 t t' GR]; [discriminate|]. cbn [uc_item] in *. inversion Hi; inversion Hi'; subst.
    inversion GR; subst; assumption.
Qed.
Lemma member_held : forall e prev f b c w r u, member m emb e prev f b (Found c w r) -> held f w u -> fine b ->
  exists b1 c1, fine b1 /\ content m emb e (mf_endi f) prev (mf_ty f) b1 (Found c1 u r).
Proof.
  intros e prev f b c w r u M H Hf. unfold held in H. inversion M; subst;
    match goal with O : mf_optional f = _ |- _ => rewrite O in H end.
  - subst w. eauto.
  - discriminate.
  - inversion H; subst. match goal with Z : fine (?a :: ?b) |- _ => destruct (fine_app [a] b Z) as (_ & Hf') end. eauto.
Qed.

(** ** What the old program reads has old cases only *)
Definition reads_old (x : message) : Prop := forall x' b c v r, grown x x' -> fine b -> decodes m emb x b (Found c v r) -> ~ uses_new m emb' x x' v.
Lemma list_split : forall y n data r k used rest item z left, fine (data ++ r) ->
  items m emb' y n (data ++ r) (Found data tt r) -> (k < n)%nat ->
  items m emb' y k data (Found used tt rest) -> decodes m emb' y rest (Found item z left) ->
  exists more, rest = item ++ more /\ left = more /\ data = used ++ item ++ more /\
    items m emb' y k (data ++ r) (Found used tt (item ++ more ++ r)) /\ decodes m emb' y (item ++ more ++ r) (Found item z (more ++ r)).
Proof.
  intros y n data r k used rest item z left Hf X Hk I D.
  destruct (items_first m emb' _ _ _ _ _ _ X Hk) as (used' & item' & z' & rest' & I' & D' & E & more & -> & Ed).
  assert (I2 : items m emb' y k data (Found used' tt (item' ++ more))).
  { rewrite Ed, app_assoc, <- app_assoc. eapply items_movable; [apply decodes_movable|exact I'|].
    intro Z. apply app_eq_nil in Z. destruct Z as (-> & Z). apply app_eq_nil in Z. destruct Z as (-> & _). reflexivity. }
  destruct (fine_app _ _ Hf) as (Fd & _).
  pose proof (items_unique m emb' _ _ _ _ _ Fd I I2) as U. inversion U; subst used rest.
  assert (D2 : decodes m emb' y (item' ++ more) (Found item' z' more)).
  { eapply decodes_movable; [exact D'|]. intro Z. apply app_eq_nil in Z. apply Z. }
  rewrite Ed in Fd. destruct (fine_app _ _ Fd) as (_ & Fd2).
  pose proof (decodes_unique m emb' _ _ _ _ Fd2 D D2) as U2. inversion U2; subst item z left.
  exists more. auto.
Qed.
Lemma member_old : forall f, (forall y, inside (mf_ty f) y -> reads_old y) ->
  forall e prev f' b c w r, grown_field f f' -> fine b -> member m emb e prev f b (Found c w r) -> ~ member_uses_new m emb' e f f' w.
Proof.
  intros f H e prev f' b c w r G Hf M U.
  destruct U as [e f f' w u on i k item Et Hd Hk|e f f' w y y' z Hh Hh' Hz|f f' w ty y y' data n k used rest item z left Et Et' Hd Hk I D Hz].
  - destruct (member_held _ _ _ _ _ _ _ _ M Hd Hf) as (b1 & c1 & _ & X). rewrite Et in X.
    assert (Y : exists d c0, first_case u d k c0) by (inversion X; subst; eauto).
    destruct Y as (d & c0 & Y & _). assert (Z : (k < length (u_cases u))%nat) by (apply nth_error_Some; congruence). lia.
  - destruct (grown_holds _ _ _ _ _ _ G Hh Hh') as (Hin & Gy).
    assert (X : exists b1 c1 r1, fine b1 /\ decodes m emb y b1 (Found c1 z r1)).
    { destruct Hh as [Et Hd|u on i k c0 Et Hd Hk Hi]; destruct (member_held _ _ _ _ _ _ _ _ M Hd Hf) as (b1 & c1 & F1 & X); rewrite Et in X; inversion X; subst.
      - match goal with T : target _ _ _ _ _ |- _ => inversion T; subst end. eauto 6.
      - match goal with Z : first_case _ _ _ ?c2 |- _ => destruct Z as (Hn & _ & _); assert (c2 = c0) by congruence; subst c2 end.
        assert (t = RMessage y) by congruence. subst t. match goal with T : target _ _ _ _ _ |- _ => inversion T; subst end. eauto 6. }
    destruct X as (b1 & c1 & r1 & F1 & X). exact (H y Hin y' b1 c1 z r1 Gy F1 X Hz).
  - assert (Gy : grown y y').
    { destruct G as [nm t t' opt sz sz' endi G]. cbn [mf_ty] in Et, Et'. subst t t'. inversion G; subst. assumption. }
    destruct (member_held _ _ _ _ _ _ _ _ M Hd Hf) as (b1 & c1 & F1 & X). rewrite Et in X. inversion X; subst.
    match goal with Z : fine (_ ++ _ ++ _) |- _ => destruct (fine_app _ _ Z) as (_ & F2) end.
    match goal with Z : items _ _ y _ (data ++ r) _ |- _ => rename Z into IO end.
    pose proof (items_grown _ _ Gy _ _ _ _ F2 IO) as IN.
    destruct (items_first m emb _ _ _ _ _ _ IO Hk) as (used' & item' & z' & rest' & I' & D' & E & more & -> & Ed).
    destruct (list_split y' _ _ _ _ _ _ _ _ _ F2 IN Hk I D) as (more2 & _ & _ & Ed2 & I2 & D2).
    pose proof (items_grown _ _ Gy _ _ _ _ F2 I') as I3.
    pose proof (items_unique m emb' _ _ _ _ _ F2 I2 I3) as U. inversion U as [[U1 U2]]. subst used'.
    assert (F3 : fine (item' ++ more ++ r)). { rewrite E in F2. apply fine_app in F2. apply F2. }
    rewrite U2 in D2. pose proof (decodes_unique m emb' _ _ _ _ F3 D2 (decodes_grown _ _ _ _ _ _ Gy F3 D')) as V. inversion V; subst.
    refine (H y _ y' _ _ _ _ Gy F3 D' Hz). rewrite Et. constructor.
Qed.
Lemma members_old : forall fs, (forall g y, In g fs -> inside (mf_ty g) y -> reads_old y) ->
  forall fs' e prev b c vs r, Forall2 grown_field fs fs' -> fine b -> members m emb e prev fs b (Found c vs r) ->
  forall i f f' w, nth_error fs i = Some f -> nth_error fs' i = Some f' -> nth_error vs i = Some w -> ~ member_uses_new m emb' e f f' w.
Proof.
  induction fs as [|g fs IH]; intros H fs' e prev b c vs r F Hb X i f f' w Hf Hf' Hw; [destruct i; discriminate|].
  inversion X; subst. inversion F; subst.
  match goal with Z : member _ _ _ _ _ _ (Found _ _ ?r1) |- _ => pose proof Z as HP; apply member_parted in HP; [|intros; apply decodes_parted] end.
  destruct i as [|i]; cbn [nth_error] in *.
  - inversion Hf; inversion Hf'; inversion Hw; subst. eapply member_old; [intro y; apply (H f y); left; reflexivity|eassumption|exact Hb|eassumption].
  - subst b. apply fine_app in Hb. eapply IH; [intros g0 y0 Hg0; apply (H g0 y0); right; exact Hg0|eassumption|apply Hb|eassumption|eassumption|eassumption|eassumption].
Qed.
Lemma all_old : forall x, reads_old x.
Proof.
  apply (message_ind_inside reads_old). intros x IH x' b c v r G Hf D U. destruct G as [id id' name fs fs' size size' S F]. apply marks_alike in S.
  inversion D; subst. inversion U; subst. cbn [m_fields m_id] in *. rewrite S in *. eapply members_old; eassumption.
Qed.

(** ** What the old program does not read has a new case *)
Definition stops_new (x : message) : Prop := forall x' b c v r d, grown x x' -> fine b -> decodes m emb' x' b (Found c v r) ->
  decodes m emb x b (Stops (Reports (InvalidUnionDiscriminant d))) -> uses_new m emb' x x' v.
Lemma items_new : forall y y' d, grown y y' -> forall n b c r, fine b -> items m emb' y' n b (Found c tt r) ->
  items m emb y n b (Stops (Reports (InvalidUnionDiscriminant d))) ->
  exists k used rest item z left, (k < n)%nat /\ items m emb' y' k b (Found used tt rest) /\ decodes m emb' y' rest (Found item z left) /\
    fine rest /\ decodes m emb y rest (Stops (Reports (InvalidUnionDiscriminant d))).
Proof.
  intros y y' d G. induction n as [|n IH]; intros b c r Hf I S; inversion S; subst; inversion I; subst.
  - match goal with D : decodes _ _ y' b (Found ?p ?v ?r1) |- _ => exists 0%nat, [], b, p, v, r1 end.
    repeat split; try assumption; try apply Hf; [lia|constructor].
  - match goal with D : decodes _ _ y b (Found _ _ _), D0 : decodes _ _ y' b (Found ?p0 ?v0 ?r0) |- _ =>
      pose proof (decodes_grown _ _ _ _ _ _ G Hf D) as D1;
      pose proof (decodes_unique m emb' _ _ _ _ Hf D1 D0) as U; inversion U; subst p0 v0 r0; clear D0 end.
    pose proof (decodes_parted m emb' _ _ _ _ _ D1) as E. subst b. pose proof (fine_app _ _ Hf) as (_ & Hf2).
    match goal with A : items _ _ y' n ?r0 _, B : items _ _ y n ?r0 _ |- _ => destruct (IH _ _ _ Hf2 A B) as (k & used & rest & item & z & left & Hk & Z1 & Z2 & Z3 & Z4) end.
    exists (Datatypes.S k), (p ++ used), rest, item, z, left. repeat split; try assumption; try apply Z3; [lia|]. eapply items_next; eassumption.
Qed.
Lemma content_new : forall t t', (forall y, inside t y -> stops_new y) -> grown_type t t' ->
  forall e endi prev b c w r d, fine b -> content m emb' e endi prev t' b (Found c w r) ->
  content m emb e endi prev t b (Stops (Reports (InvalidUnionDiscriminant d))) ->
  forall f f' v, mf_ty f = t -> mf_ty f' = t' -> held f v w -> held f' v w -> member_uses_new m emb' e f f' v.
Proof.
  intros t t' H G e endi prev b c w r d Hf X Y f f' v Et Et' Hv Hv'. destruct G as [ty|t t' G| | |ty s s' TS|ty y y' G|u u' on i G|]; try (inversion Y; fail).
  - inversion Y; subst. match goal with T : target _ _ _ _ (Stops _) |- _ => inversion T; subst end. inversion G; subst. inversion X; subst.
    match goal with T : target _ _ _ _ (Found _ _ _) |- _ => inversion T; subst end.
    eapply new_inside; [apply holds_message; [exact Et|exact Hv]|apply holds_message; [exact Et'|exact Hv']|].
    eapply H; [constructor|eassumption|exact Hf|eassumption|eassumption].
  - inversion Y; subst. inversion X; subst.
    match goal with A : number _ _ ?n p, B : number _ _ ?n0 ?p0, E : ?p0 ++ ?data ++ ?r1 = p ++ ?r0 |- _ =>
      destruct (number_unique _ _ _ _ _ _ _ _ B A E) as (E1 & E2 & E3); subst n0 p0 r0; clear E end.
    destruct (fine_app _ _ Hf) as (_ & F2).
    match goal with A : items _ _ y' _ _ (Found _ _ _), B : items _ _ y _ _ (Stops _) |- _ =>
      destruct (items_new _ _ _ G _ _ _ _ F2 A B) as (k & used & rest & item & z & left & Hk & Z1 & Z2 & Z3 & Z4); rename A into IN end.
    destruct (items_first m emb' _ _ _ _ _ _ IN Hk) as (used' & item' & z' & rest' & I' & D' & E & more & -> & Ed).
    pose proof (items_unique m emb' _ _ _ _ _ F2 Z1 I') as U. inversion U; subst used' rest.
    pose proof (decodes_unique m emb' _ _ _ _ Z3 Z2 D') as V. inversion V; subst item' z' left.
    eapply (new_item m emb' f f' v ty y y' data n k used (item ++ more) item z more); try eassumption.
    + rewrite Ed, app_assoc, <- app_assoc. eapply items_movable; [apply decodes_movable|exact I'|].
      intro Z. apply app_eq_nil in Z. destruct Z as (-> & Z). apply app_eq_nil in Z. destruct Z as (-> & _). reflexivity.
    + eapply decodes_movable; [exact D'|]. intro Z. apply app_eq_nil in Z. apply Z.
    + eapply H; [constructor|exact G|exact Z3|exact Z2|exact Z4].
  - destruct G as [un du du' cs cs' more s1 s2 TD F].
    assert (Q : exists data' d' k' c', nth_error prev i = Some (VStruct data') /\ discriminant m (MkUnion un du' (cs' ++ more) s2) data' d' /\
       first_case (MkUnion un du' (cs' ++ more) s2) d' k' c' /\
       ((uc_item c' = None /\ w = VUnion k' None) \/ exists t v', uc_item c' = Some t /\ target m emb' t b (Found c v' r) /\ w = VUnion k' (Some v'))).
    { inversion X; subst; do 4 eexists; (split; [eassumption|]); (split; [eassumption|]); (split; [eassumption|]); eauto 8. }
    destruct Q as (data' & d' & k' & c' & Q1 & Q2 & (Q3 & Q45) & Q6). unfold discriminant in Q2. cbn [u_disc u_cases] in Q2, Q3, Q45.
    destruct TD as (TD & _ & _ & TI). rewrite TI, (twin_path m same _ _ _ _ TD) in Q2.
    assert (Low : forall c0, nth_error cs k' = Some c0 -> uc_case c0 = d').
    { intros c0 Hc0. destruct (case_nth _ _ more _ _ F Hc0) as (c1 & E1 & GC). rewrite <- (case_number _ _ GC). destruct Q45 as (Q4 & _). congruence. }
    inversion Y; subst; match goal with A : nth_error prev i = Some (VStruct ?a), B : discriminant _ _ ?a ?b |- _ =>
      assert (data' = a) by congruence; subst a; unfold discriminant in B; cbn [u_disc] in B; assert (b = d') by congruence; subst b end; destruct Q45 as (Q4 & Q5).
    + match goal with T : target _ _ _ _ (Stops _) |- _ => inversion T; subst end.
      match goal with A : first_case _ _ ?k0 ?c0 |- _ => destruct A as (A1 & A2 & A3); cbn [u_cases] in A1, A3; rename k0 into k; rename c0 into co end.
      destruct (case_nth _ _ more _ _ F A1) as (c1 & E1 & GC). pose proof (case_number _ _ GC) as En.
      assert (k = k').
      { destruct (lt_eq_lt_dec k k') as [[L|L]|L]; [|exact L|]; exfalso.
        - apply (Q5 k c1 L E1). congruence.
        - assert (Z : (k < length cs)%nat) by (apply nth_error_Some; congruence).
          destruct (nth_error cs k') as [c0|] eqn:E0; [|apply nth_error_None in E0; lia]. apply (A3 k' c0 L E0). apply Low. reflexivity. }
      subst k'. assert (c1 = c') by congruence. subst c1.
      destruct GC as [|nm n0 t t' GR]; [discriminate|]. cbn [uc_item] in *.
      match goal with A : Some t = Some (RMessage _) |- _ => inversion A; subst t end. inversion GR; subst.
      destruct Q6 as [(Q6 & _)|(t & v' & Q6 & T & ->)]; [discriminate|]. inversion Q6; subst t. inversion T; subst.
      eapply new_inside.
      * eapply holds_case; [exact Et|exact Hv|exact A1|reflexivity].
      * eapply holds_case; [exact Et'|exact Hv'|exact Q3|reflexivity].
      * eapply H; [econstructor; [eapply nth_error_In; exact A1|reflexivity]|eassumption|exact Hf|eassumption|eassumption].
    + assert (Hk : (length cs <= k')%nat).
      { destruct (nth_error cs k') as [c0|] eqn:E0; [|apply nth_error_None; exact E0]. exfalso.
        match goal with A : forall c, In c _ -> _ |- _ => apply (A c0); [eapply nth_error_In; exact E0|apply Low; reflexivity] end. }
      destruct Q6 as [(_ & ->)|(t & v' & _ & _ & ->)]; eapply new_case; [exact Et|exact Hv|exact Hk|exact Et|exact Hv|exact Hk].
Qed.
Lemma member_new : forall f f', (forall y, inside (mf_ty f) y -> stops_new y) -> grown_field f f' ->
  forall e prev b c w r d, fine b -> member m emb' e prev f' b (Found c w r) ->
  member m emb e prev f b (Stops (Reports (InvalidUnionDiscriminant d))) -> member_uses_new m emb' e f f' w.
Proof.
  intros f f' H G e prev b c w r d Hf X Y. destruct G as [nm t t' opt sz sz' endi G]. cbn [mf_ty] in H.
  inversion Y; subst; cbn [mf_optional mf_endi mf_ty] in *; subst opt; inversion X; subst; cbn [mf_optional mf_endi mf_ty] in *; try congruence.
  - eapply content_new; try eassumption; reflexivity.
  - lia.
  - match goal with Z : fine (?a :: ?b) |- _ => destruct (fine_app [a] b Z) as (_ & Hf') end.
    eapply content_new with (w := v); try eassumption; reflexivity.
Qed.
Lemma member_grown : forall f f' e prev b c w r c' w' r', grown_field f f' -> fine b ->
  member m emb e prev f b (Found c w r) -> member m emb' e prev f' b (Found c' w' r') -> c' = c /\ w' = w /\ r' = r.
Proof.
  intros f f' e prev b c w r c' w' r' G (Hl & Hb) M M'.
  apply (tells_member m emb e prev f (fun y _ => tells_message m emb y) b Hl Hb) in M.
  apply (tells_member m emb' e prev f' (fun y _ => tells_message m emb' y) b Hl Hb) in M'.
  destruct (member_alike m emb emb' same e prev f f' (fun y _ => grown_alike m emb emb' same marks_alike y) G b) as [E|(d & E)].
  - rewrite E in M'. rewrite <- M' in M. inversion M. auto.
  - rewrite E in M. discriminate.
Qed.
Lemma members_new : forall fs, (forall g y, In g fs -> inside (mf_ty g) y -> stops_new y) ->
  forall fs' e prev b c vs r d, Forall2 grown_field fs fs' -> fine b -> members m emb' e prev fs' b (Found c vs r) ->
  members m emb e prev fs b (Stops (Reports (InvalidUnionDiscriminant d))) ->
  exists i f f' w, nth_error fs i = Some f /\ nth_error fs' i = Some f' /\ nth_error vs i = Some w /\ member_uses_new m emb' e f f' w.
Proof.
  induction fs as [|g fs IH]; intros H fs' e prev b c vs r d F Hb X Y; [inversion Y|].
  inversion F; subst. inversion X; subst. inversion Y; subst.
  - exists 0%nat. do 3 eexists. repeat split. eapply member_new; [intro y0; apply (H g y0); left; reflexivity|eassumption|exact Hb|eassumption|eassumption].
  - match goal with A : member _ _ _ _ g b (Found _ _ _), B : member _ _ _ _ y b (Found ?p1 ?v1 ?r1), G : grown_field g y |- _ =>
      destruct (member_grown _ _ _ _ _ _ _ _ _ _ _ G Hb A B) as (-> & -> & ->);
      pose proof (member_parted m emb g (fun y _ => decodes_parted m emb y) _ _ _ _ _ _ A) as E end.
    subst b. destruct (fine_app _ _ Hb) as (_ & Hb2).
    match goal with A : members _ _ _ _ fs _ (Stops _), B : members _ _ _ _ l' _ (Found _ _ _), F2 : Forall2 _ fs l' |- _ =>
      destruct (IH (fun g0 y0 Hg => H g0 y0 (or_intror Hg)) _ _ _ _ _ _ _ _ F2 Hb2 B A) as (i & f & f' & w & E1 & E2 & E3 & E4) end.
    exists (S i), f, f', w. auto.
Qed.
Lemma all_new : forall x, stops_new x.
Proof.
  apply (message_ind_inside stops_new). intros x IH x' b c v r d G Hf D S. destruct G as [id id' name fs fs' size size' Si F]. apply marks_alike in Si.
  inversion D; subst. inversion S; subst. cbn [m_fields m_id] in *. rewrite Si in *.
  match goal with A : members _ _ _ _ fs _ _, B : members _ _ _ _ fs' _ _ |- _ =>
    destruct (members_new _ IH _ _ _ _ _ _ _ _ F Hf B A) as (i & f & f' & w & E1 & E2 & E3 & E4) end.
  eapply new_member with (i := i); [exact E1|exact E2|exact E3|cbn [m_id]; rewrite Si; exact E4].
Qed.

Theorem new_reader_alike : forall x x' b, grown x x' ->
  (forall r, read_msg m emb x b = r -> (forall d, r <> Err (InvalidUnionDiscriminant d)) -> read_msg m emb' x' b = r) /\
  (forall r, read_msg_offsets m emb x b = r -> (forall d, r <> Err (InvalidUnionDiscriminant d)) -> read_msg_offsets m emb' x' b = r).
Proof.
  intros x x' b G. destruct (grown_alike m emb emb' same marks_alike x x' G) as (A & B).
  split; intros r <- H; [destruct (A b) as [E|(d & E)]|destruct (B b) as [E|(d & E)]]; try exact E; destruct (H d E).
Qed.
Theorem old_reader_exact : forall x x' b n v, grown x x' -> len b < 2 ^ 64 -> bytes_ok b -> read_msg m emb' x' b = Ok (n, v) ->
  (~ uses_new m emb' x x' v -> read_msg m emb x b = Ok (n, v)) /\
  (uses_new m emb' x x' v -> exists d, read_msg m emb x b = Err (InvalidUnionDiscriminant d)).
Proof.
  intros x x' b n v G Hl Hb R. pose proof R as D. apply (decode_exact m emb' x' b Hl Hb) in D. destruct D as (c & r & Eb & -> & D).
  destruct (proj1 (grown_alike m emb emb' same marks_alike x x' G) b) as [E|(d & E)].
  - rewrite R in E. symmetry in E. split; [intros _; exact E|]. intro U. exfalso.
    pose proof E as E'. apply (decode_exact m emb x b Hl Hb) in E'. destruct E' as (c' & r' & Eb' & Hc & D'). 
    exact (all_old x x' b c' v r' G (conj Hl Hb) D' U).
  - split; [|intros _; exists d; exact E]. intro U. exfalso. apply U.
    apply (decode_exact m emb x b Hl Hb) in E. eapply all_new; [exact G|exact (conj Hl Hb)|exact D|exact E].
Qed.
End Grow.
