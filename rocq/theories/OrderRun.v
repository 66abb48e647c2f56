(** Runs of the compiler on protocols whose definitions are in another order, for C87. *)

From Coq Require Import Arith NArith ZArith String List Bool Lia Permutation.
From Verif Require Import Base Schema Codec Compiler Access Runtime Gen Loader SpecLoader SpecRun SpecApart SpecWire SpecExact
  StructFacts CompThms MsgFacts SpecItems SpecGrow GrowThms GrowComp GrowRun CompFacts LinkThms ApartThms SpecOrder OrderThms OrderComp OrderFacts.
Import ListNotations.
Local Open Scope N_scope.
Local Notation known := SpecOrder.known.

(** ** Further numbers *)
Section Mono.
Variables (same same1 : N -> N -> Prop).
Hypothesis sub : forall i i', same i i' -> same1 i i'.
Lemma moved_mono : forall x x', moved same x x' -> moved same1 x x'.
Proof.
  fix IH 3. intros x x' [id id' name fs fs' size S F]. constructor; [apply sub, S|].
  induction F as [|f f' fs fs' H F IHF]; constructor; [|exact IHF]. destruct H as [nm t t' opt sz endi T]. constructor.
  destruct T as [ty|t t' [s s' T|y y' T]| |ty|ty s s' T|ty y y' T|u u' on i [un d d' cs cs' s1 D C]|]; constructor.
  - constructor. exact T.
  - constructor. exact (IH _ _ T).
  - exact T.
  - exact (IH _ _ T).
  - constructor; [exact D|]. induction C as [|c c' cs cs' H C IHC]; constructor; [|exact IHC].
    destruct H as [cn n|cn n t t' [s s' T|y y' T]]; constructor; constructor; [exact T|exact (IH _ _ T)].
Qed.
Lemma union_moved_mono : forall u u', moved_union same u u' -> moved_union same1 u u'.
Proof.
  intros u u' [un d d' cs cs' s1 D C]. constructor; [exact D|]. eapply Forall2_mono; [|exact C].
  intros c c' [cn n|cn n t t' [s s' T|y y' T]]; constructor; constructor; [exact T|apply moved_mono, T].
Qed.
Lemma protocol_moved_mono : forall p p', moved_protocol same p p' -> moved_protocol same1 p p'.
Proof.
  intros p p' (A1 & A2 & A3 & A4 & A5 & A6). split; [exact A1|]. split; [exact A2|]. split; [exact A3|]. split; [|split; [|exact A6]].
  - intros n x Hx. destruct (A4 n x Hx) as (x' & E & M). exists x'. split; [exact E|apply union_moved_mono, M].
  - intros n x Hx. destruct (A5 n x Hx) as (x' & E & M). exists x'. split; [exact E|apply moved_mono, M].
Qed.
End Mono.

(** ** One protocol *)
Definition moved_imports (same : N -> N -> Prop) (r r' : resolver) : Prop := forall name q, r_protocol r name = Some q ->
  exists q', r_protocol r' name = Some q' /\ moved_protocol same q q'.
Section There.
Variables (same : N -> N -> Prop) (q q' : protocol).
Hypothesis G : moved_protocol same q q'.
Lemma struct_there_moved : forall n s, struct_there q n = Some s -> exists s', struct_there q' n = Some s' /\ renumbered s s'.
Proof. destruct G as (_ & A & _). exact A. Qed.
Lemma enum_there_moved : forall n e, enum_there q n = Some e -> enum_there q' n = Some e.
Proof.
  destruct G as (_ & _ & A & _ & _ & O). intros n e H. specialize (O n). unfold enum_there, struct_there, there in *. destruct (sget n (p_structs_by_name q)); [discriminate|].
  destruct (A _ _ H) as (e' & E & <-). rewrite E in *. destruct (sget n (p_structs_by_name q')); [lia|reflexivity].
Qed.
Lemma union_there_moved : forall n u, union_there q n = Some u -> exists u', union_there q' n = Some u' /\ moved_union same u u'.
Proof.
  destruct G as (_ & _ & _ & A & _ & O). intros n e H. specialize (O n). unfold union_there, struct_there, there in *.
  destruct (sget n (p_structs_by_name q)); [discriminate|]. destruct (sget n (p_enums_by_name q)); [discriminate|].
  destruct (A _ _ H) as (e' & E & M). exists e'. split; [|exact M]. rewrite E in *.
  destruct (sget n (p_structs_by_name q')); [lia|]. destruct (sget n (p_enums_by_name q')); [lia|reflexivity].
Qed.
Lemma message_there_moved : forall n u, message_there q n = Some u -> exists u', message_there q' n = Some u' /\ moved same u u'.
Proof.
  destruct G as (_ & _ & _ & _ & A & O). intros n e H. specialize (O n). unfold message_there, struct_there, there in *.
  destruct (sget n (p_structs_by_name q)); [discriminate|]. destruct (sget n (p_enums_by_name q)); [discriminate|]. destruct (sget n (p_unions_by_name q)); [discriminate|].
  destruct (A _ _ H) as (e' & E & M). exists e'. split; [|exact M]. rewrite E in *.
  destruct (sget n (p_structs_by_name q')); [lia|]. destruct (sget n (p_enums_by_name q')); [lia|]. destruct (sget n (p_unions_by_name q')); [lia|reflexivity].
Qed.
End There.

Lemma facts_one : forall m solver d p, facts m solver d p -> NoDup (names_in_use d) -> one_meaning p.
Proof.
  intros m solver d p F D n. destruct (NoDup_parts _ _ _ _ _ _ D) as (_ & _ & _ & _ & _ & Xi & Xe & Xs & Xu). unfold there.
  destruct (in_dec string_dec n (imported_names d)) as [Hi|Hi].
  - unfold imported_names in Hi. apply in_map_iff in Hi. destruct Hi as (i & <- & Hi). destruct (f_import _ _ _ _ F i Hi) as (q & _ & -> & -> & -> & ->).
    unfold message_there, union_there, enum_there, struct_there.
    destruct (sget _ (p_structs_by_name q)); [lia|]. destruct (sget _ (p_enums_by_name q)); [lia|]. destruct (sget _ (p_unions_by_name q)); [lia|].
    destruct (sget _ (p_messages_by_name q)); lia.
  - pose proof (f_struct2 _ _ _ _ F n) as Zs. pose proof (f_enum2 _ _ _ _ F n) as Ze. pose proof (f_union2 _ _ _ _ F n) as Zu. pose proof (f_message2 _ _ _ _ F n) as Zm.
    specialize (Xe n). specialize (Xs n). specialize (Xu n).
    destruct (sget n (p_structs_by_name p)) as [a|]; [destruct (Zs a eq_refl); [|contradiction]|];
    (destruct (sget n (p_enums_by_name p)) as [b|]; [destruct (Ze b eq_refl); [|contradiction]|]);
    (destruct (sget n (p_unions_by_name p)) as [c|]; [destruct (Zu c eq_refl); [|contradiction]|]);
    (destruct (sget n (p_messages_by_name p)) as [e|]; [destruct (Zm e eq_refl); [|contradiction]|]); try lia; exfalso; tauto.
Qed.
Lemma meet_known : forall A (R : A -> A -> Prop) a a', known R a a' -> meet R a a'.
Proof. intros A R a a' K n x x' Hx Hx'. destruct (K n x Hx) as (y & E & H). congruence. Qed.

Section One.
Variables (m : mode) (same : N -> N -> Prop) (solver solver' : resolver) (d d' : sprotocol) (p p' : protocol).
Hypotheses (F : facts m solver d p) (F' : facts m solver' d' p') (D : rearranged d d') (I : moved_imports same solver solver').
Hypothesis ids : forall x x', In x (p_messages p) -> In x' (p_messages p') -> m_name x' = m_name x -> same (m_id x) (m_id x').
Lemma one_p' : one_meaning p'.
Proof. destruct D as (_ & _ & _ & _ & _ & _ & _ & N'). eapply facts_one; eassumption. Qed.
(** What is imported. *)
Lemma import_both : forall n, In n (imported_names d) -> exists q q', moved_protocol same q q' /\
  (sget n (p_structs_by_name p) = struct_there q n /\ sget n (p_enums_by_name p) = enum_there q n /\
   sget n (p_unions_by_name p) = union_there q n /\ sget n (p_messages_by_name p) = message_there q n) /\
  (sget n (p_structs_by_name p') = struct_there q' n /\ sget n (p_enums_by_name p') = enum_there q' n /\
   sget n (p_unions_by_name p') = union_there q' n /\ sget n (p_messages_by_name p') = message_there q' n).
Proof.
  intros n Hn. unfold imported_names in Hn. apply in_map_iff in Hn. destruct Hn as (i & <- & Hi).
  destruct (f_import _ _ _ _ F i Hi) as (q & Hq & A). destruct D as (_ & Di & _). destruct (f_import _ _ _ _ F' i (Di _ Hi)) as (q' & Hq' & B).
  destruct (I _ _ Hq) as (q2 & Hq2 & G). assert (q2 = q') by congruence. subst q2. exists q, q'. split; [exact G|]. split; [exact A|exact B].
Qed.
Lemma enums_known : known eq (p_enums_by_name p) (p_enums_by_name p').
Proof.
  intros n e He. destruct (f_enum2 _ _ _ _ F _ _ He) as [Hn|Hn].
  - apply in_map_iff in Hn. destruct Hn as (v & <- & Hv). destruct (f_enum _ _ _ _ F v Hv) as (e1 & E1 & C1).
    destruct D as (_ & _ & De & _). destruct (f_enum _ _ _ _ F' v (De _ Hv)) as (e2 & E2 & C2). exists e2. split; [exact E2|congruence].
  - destruct (import_both n Hn) as (q & q' & G & (_ & A & _) & (_ & B & _)). exists e. split; [|reflexivity]. rewrite B. rewrite A in He.
    eapply enum_there_moved; eassumption.
Qed.
Lemma structs_upto : forall l1 l2, sp_structs d = (l1 ++ l2)%list -> forall n s, sget n (p_structs_by_name p) = Some s -> ~ In n (map ss_name l2) ->
  exists s', sget n (p_structs_by_name p') = Some s' /\ renumbered s s'.
Proof.
  induction l1 as [|v l1 IH] using rev_ind; intros l2 E n s Hs Hn.
  - destruct (f_struct2 _ _ _ _ F _ _ Hs) as [X|X]; [rewrite E in X; contradiction|].
    destruct (import_both n X) as (q & q' & G & (A & _) & (B & _)). rewrite A in Hs. rewrite B. eapply struct_there_moved; eassumption.
  - rewrite <- app_assoc in E. cbn [app] in E. destruct (string_dec n (ss_name v)) as [->|Hv].
    2:{ apply (IH (v :: l2) E n s Hs). intros [X|X]; [congruence|contradiction]. }
    destruct (f_struct _ _ _ _ F _ _ _ E) as (Sm & id & s1 & E1 & C1 & K1). assert (s1 = s) by congruence. subst s1.
    destruct D as (_ & _ & _ & Ds & _). assert (Hv' : In v (sp_structs d')) by (apply Ds; rewrite E; apply in_or_app; right; left; reflexivity).
    apply in_split in Hv'. destruct Hv' as (k1 & k2 & E'). destruct (f_struct _ _ _ _ F' _ _ _ E') as (Sm' & id' & s' & E1' & C1' & K1').
    exists s'. split; [exact E1'|]. eapply structure_moved; [| |exact C1|exact C1'].
    + apply meet_known, enums_known.
    + intros k x x' Hx Hx'. destruct (K1 _ _ Hx) as (Hy & Hk). destruct (K1' _ _ Hx') as (Hy' & _). destruct (IH (v :: l2) E k x Hy Hk) as (z & Hz & T). congruence.
Qed.
Lemma structs_known : known renumbered (p_structs_by_name p) (p_structs_by_name p').
Proof. intros n s Hs. apply (structs_upto (sp_structs d) []); [rewrite app_nil_r; reflexivity|exact Hs|intros []]. Qed.
Lemma refs_meet : forall Mm Mm', (forall k x, sget k Mm = Some x -> exists x', sget k (p_messages_by_name p') = Some x' /\ moved same x x') ->
  (forall k x, sget k Mm' = Some x -> sget k (p_messages_by_name p') = Some x) ->
  meet_ref same (p_structs_by_name p) (p_structs_by_name p') Mm Mm'.
Proof.
  intros Mm Mm' A B n t t' H H'. unfold referenced_lookup in H, H'. pose proof (one_p' n) as O. unfold there in O.
  destruct (sget n (p_structs_by_name p)) as [s|] eqn:Es.
  - inversion H; subst. destruct (structs_known _ _ Es) as (s' & Es' & T). rewrite Es' in H'. inversion H'; subst. constructor. exact T.
  - destruct (sget n Mm) as [x|] eqn:Ex; [|discriminate]. inversion H; subst. destruct (A _ _ Ex) as (x' & Ex' & M). rewrite Ex' in O.
    destruct (sget n (p_structs_by_name p')); [lia|]. destruct (sget n Mm') as [y|] eqn:Ey; [|discriminate]. inversion H'; subst.
    rewrite (B _ _ Ey) in Ex'. inversion Ex'; subst. constructor. exact M.
Qed.
Lemma message_imported : forall n x, sget n (p_messages_by_name p) = Some x -> ~ In n (map sm_name (sp_messages d)) ->
  exists x', sget n (p_messages_by_name p') = Some x' /\ moved same x x'.
Proof.
  intros n x Hx Hn. destruct (f_message2 _ _ _ _ F _ _ Hx) as [X|X]; [contradiction|].
  destruct (import_both n X) as (q & q' & G & (_ & _ & _ & A) & (_ & _ & _ & B)). rewrite A in Hx. rewrite B. eapply message_there_moved; eassumption.
Qed.
Lemma unions_known : known (moved_union same) (p_unions_by_name p) (p_unions_by_name p').
Proof.
  intros n u Hu. destruct (f_union2 _ _ _ _ F _ _ Hu) as [Hn|Hn].
  - apply in_map_iff in Hn. destruct Hn as (v & <- & Hv). destruct (f_union _ _ _ _ F v Hv) as (Mm & u1 & E1 & C1 & K1). assert (u1 = u) by congruence. subst u1.
    destruct D as (_ & _ & _ & _ & Du & _). destruct (f_union _ _ _ _ F' v (Du _ Hv)) as (Mm' & u' & E2 & C2 & K2). exists u'. split; [exact E2|].
    eapply union_moved; [|apply refs_meet|exact C1|exact C2].
    + apply meet_known, structs_known.
    + intros k x Hx. destruct (K1 _ _ Hx) as (Hy & Hk). exact (message_imported _ _ Hy Hk).
    + intros k x Hx. apply K2, Hx.
  - destruct (import_both n Hn) as (q & q' & G & (_ & _ & A & _) & (_ & _ & B & _)). rewrite A in Hu. rewrite B. eapply union_there_moved; eassumption.
Qed.
Lemma messages_upto : forall l1 l2, sp_messages d = (l1 ++ l2)%list -> forall n x, sget n (p_messages_by_name p) = Some x -> ~ In n (map sm_name l2) ->
  exists x', sget n (p_messages_by_name p') = Some x' /\ moved same x x'.
Proof.
  induction l1 as [|v l1 IH] using rev_ind; intros l2 E n x Hx Hn.
  - apply message_imported; [exact Hx|rewrite E; exact Hn].
  - rewrite <- app_assoc in E. cbn [app] in E. destruct (string_dec n (sm_name v)) as [->|Hv].
    2:{ apply (IH (v :: l2) E n x Hx). intros [X|X]; [congruence|contradiction]. }
    destruct (f_message _ _ _ _ F _ _ _ E) as (Mm & id & x1 & mk & E1 & C1 & L1 & K1). assert (x1 = x) by congruence. subst x1.
    destruct D as (_ & _ & _ & _ & _ & Dm & _). assert (Hv' : In v (sp_messages d')) by (eapply Permutation_in; [exact Dm|]; rewrite E; apply in_or_app; right; left; reflexivity).
    apply in_split in Hv'. destruct Hv' as (k1 & k2 & E'). destruct (f_message _ _ _ _ F' _ _ _ E') as (Mm' & id' & x' & mk' & E1' & C1' & L1' & K1').
    exists x'. split; [exact E1'|]. eapply message_moved; [| | | |exact C1|exact C1'].
    + reflexivity.
    + cbn. apply refs_meet.
      * intros k y Hy. destruct (K1 _ _ Hy) as (Hz & Hk). exact (IH (v :: l2) E k y Hz Hk).
      * intros k y Hy. apply K1', Hy.
    + cbn. apply meet_known, unions_known.
    + rewrite <- (message_number _ _ _ _ _ C1), <- (message_number _ _ _ _ _ C1'). apply ids; [exact L1|exact L1'|].
      rewrite (message_name _ _ _ _ _ C1), (message_name _ _ _ _ _ C1'). reflexivity.
Qed.
Theorem one_moved : moved_protocol same p p'.
Proof.
  split; [|split; [exact structs_known|split; [exact enums_known|split; [exact unions_known|split; [|exact one_p']]]]].
  - rewrite (f_name _ _ _ _ F), (f_name _ _ _ _ F'). apply D.
  - intros n x Hx. apply (messages_upto (sp_messages d) []); [rewrite app_nil_r; reflexivity|exact Hx|intros []].
Qed.
(** Messages of the two protocols with the same name. *)
Lemma listed_both : forall x, In x (p_messages p) -> exists x', In x' (p_messages p') /\ m_name x' = m_name x /\ moved same x x'.
Proof.
  intros x Hx. destruct (f_listed _ _ _ _ F x Hx) as (Hn & Hg). destruct one_moved as (_ & _ & _ & _ & K & _).
  destruct (K _ _ Hg) as (x' & E & M). exists x'. pose proof (moved_name _ _ _ M) as Nm. split; [|split; [exact Nm|exact M]].
  apply in_map_iff in Hn. destruct Hn as (v & Ev & Hv). destruct D as (_ & _ & _ & _ & _ & Dm & _). pose proof (Permutation_in _ Dm Hv) as Hv'.
  apply in_split in Hv'. destruct Hv' as (k1 & k2 & E'). destruct (f_message _ _ _ _ F' _ _ _ E') as (Mm' & id' & y & mk' & E1' & _ & L1' & _).
  rewrite Ev in E1'. congruence.
Qed.
Lemma listed_back : forall x', In x' (p_messages p') -> exists x, In x (p_messages p) /\ m_name x' = m_name x /\ moved same x x'.
Proof.
  intros x' Hx. destruct (f_listed _ _ _ _ F' x' Hx) as (Hn & Hg).
  apply in_map_iff in Hn. destruct Hn as (v & Ev & Hv). destruct D as (_ & _ & _ & _ & _ & Dm & _). pose proof (Permutation_in _ (Permutation_sym Dm) Hv) as Hv'.
  apply in_split in Hv'. destruct Hv' as (k1 & k2 & E'). destruct (f_message _ _ _ _ F _ _ _ E') as (Mm & id & x & mk & E1 & C1 & L1 & _).
  destruct (listed_both x L1) as (x2 & L2 & N2 & M2). pose proof (message_name _ _ _ _ _ C1) as N1.
  destruct (f_listed _ _ _ _ F' x2 L2) as (_ & Hg2). assert (x2 = x') by (rewrite N2, N1, Ev in Hg2; congruence). subst x2.
  exists x. repeat split; assumption.
Qed.
End One.

(** ** One protocol after others *)
Lemma lists_moved : forall same x x' y, moved same x x' -> lists_message x y -> exists y', lists_message x' y' /\ moved same y y'.
Proof.
  intros same x x' y M (f & ty & Hf & Ht). destruct M as [id id' name fs fs' size S F]. unfold lists_message. cbn [m_fields] in *.
  induction F as [|g g' fs fs' H F IH]; [destruct Hf|]. destruct Hf as [-> | Hf].
  - destruct H as [nm t t' opt sz endi T]. cbn [mf_ty] in Ht. subst t. inversion T; subst. exists y'. split; [|assumption].
    exists (MkMField nm (TList ty y') opt sz endi), ty. split; [left; reflexivity|reflexivity].
  - destruct (IH Hf) as (y' & (g2 & ty2 & A & B) & C). exists y'. split; [|exact C]. exists g2, ty2. split; [right; exact A|exact B].
Qed.
Lemma lists_moved_back : forall same x x' y', moved same x x' -> lists_message x' y' -> exists y, lists_message x y /\ moved same y y'.
Proof.
  intros same x x' y' M (f & ty & Hf & Ht). destruct M as [id id' name fs fs' size S F]. unfold lists_message. cbn [m_fields] in *.
  induction F as [|g g' fs fs' H F IH]; [destruct Hf|]. destruct Hf as [-> | Hf].
  - destruct H as [nm t t' opt sz endi T]. cbn [mf_ty] in Ht. subst t'. inversion T; subst. exists y. split; [|assumption].
    exists (MkMField nm (TList ty y) opt sz endi), ty. split; [left; reflexivity|reflexivity].
  - destruct (IH Hf) as (y & (g2 & ty2 & A & B) & C). exists y. split; [|exact C]. exists g2, ty2. split; [right; exact A|exact B].
Qed.
Definition with_messages (same : N -> N -> Prop) (p p' : protocol) (i i' : N) : Prop := same i i' \/
  exists x x', In x (p_messages p) /\ In x' (p_messages p') /\ m_name x' = m_name x /\ m_id x = i /\ m_id x' = i'.
Theorem compile_rearranged : forall m same solver solver' w w' d d' p p' w1 w1' M M', rearranged d d' ->
  numbers_alike same w w' -> moved_imports same solver solver' -> step_inv M w (p, w1) -> step_inv M' w' (p', w1') ->
  protocol_from_model m solver w d = Ok (p, w1) -> protocol_from_model m solver' w' d' = Ok (p', w1') ->
  let same1 := with_messages same p p' in
  numbers_alike same1 w1 w1' /\ moved_protocol same1 p p' /\ forall x, In x (p_messages p) -> exists x', In x' (p_messages p') /\ m_name x' = m_name x /\ moved same1 x x'.
Proof.
  intros m same solver solver' w w' d d' p p' w1 w1' M M' D (Hn1 & Hn2 & Hn3 & Hn4) I [(S1 & S1') S2 S3 S4] [(T1 & T1') T2 T3 T4] A B. intro same1. cbn [fst snd] in *.
  pose proof D as D0. destruct D0 as (_ & _ & _ & _ & _ & _ & N & N').
  pose proof (compiled_facts _ _ _ _ _ _ A N) as F. pose proof (compiled_facts _ _ _ _ _ _ B N') as F'.
  assert (sub : forall i i', same i i' -> same1 i i') by (intros; left; assumption).
  assert (I1 : moved_imports same1 solver solver').
  { intros n q Hq. destruct (I n q Hq) as (q' & Hq' & G). exists q'. split; [exact Hq'|]. eapply protocol_moved_mono; eassumption. }
  assert (ids : forall x x', In x (p_messages p) -> In x' (p_messages p') -> m_name x' = m_name x -> same1 (m_id x) (m_id x')).
  { intros x x' Hx Hx' E. right. exists x, x'. repeat split; assumption. }
  assert (G : moved_protocol same1 p p') by (eapply one_moved; eassumption).
  assert (Lb : forall x, In x (p_messages p) -> exists x', In x' (p_messages p') /\ m_name x' = m_name x /\ moved same1 x x') by exact (listed_both m same1 solver solver' d d' p p' F F' D I1 ids).
  assert (Lk : forall x', In x' (p_messages p') -> exists x, In x (p_messages p) /\ m_name x' = m_name x /\ moved same1 x x') by exact (listed_back m same1 solver solver' d d' p p' F F' D I1 ids).
  split; [|split; [exact G|exact Lb]].
  assert (E1 : forall i, In i (w_embedded w1) -> i < w_next w1).
  { intros i Hi. apply S3 in Hi. destruct Hi as [Hi|(x & y & Hx & (f & ty & Hf & Ht) & <-)]; [specialize (Hn1 _ Hi); lia|]. apply S1.
    apply (pi_lmessages _ _ _ _ _ S4 x Hx). econstructor; [exact Hf|rewrite Ht; constructor|constructor]. }
  assert (E2 : forall i, In i (w_embedded w1') -> i < w_next w1').
  { intros i Hi. apply T3 in Hi. destruct Hi as [Hi|(x & y & Hx & (f & ty & Hf & Ht) & <-)]; [specialize (Hn2 _ Hi); lia|]. apply T1.
    apply (pi_lmessages _ _ _ _ _ T4 x Hx). econstructor; [exact Hf|rewrite Ht; constructor|constructor]. }
  assert (E3 : forall i i' j j', same1 i i' -> same1 j j' -> (i = j <-> i' = j')).
  { intros i i' j j' [H|(x & x' & X1 & X2 & X3 & <- & <-)] [K|(y & y' & Y1 & Y2 & Y3 & <- & <-)].
    - exact (Hn3 _ _ _ _ H K).
    - destruct (Hn4 _ _ H) as (L1 & L2 & _). pose proof (proj2 S2 _ Y1). pose proof (proj2 T2 _ Y2). lia.
    - destruct (Hn4 _ _ K) as (L1 & L2 & _). pose proof (proj2 S2 _ X1). pose proof (proj2 T2 _ X2). lia.
    - split; intro E.
      + assert (x = y) by (apply S1'; [apply in_or_app; right; assumption..|exact E]). subst y.
        destruct (f_listed _ _ _ _ F' _ X2) as (_ & Q1). destruct (f_listed _ _ _ _ F' _ Y2) as (_ & Q2). congruence.
      + assert (x' = y') by (apply T1'; [apply in_or_app; right; assumption..|exact E]). subst y'.
        destruct (f_listed _ _ _ _ F _ X1) as (_ & Q1). destruct (f_listed _ _ _ _ F _ Y1) as (_ & Q2). congruence. }
  split; [exact E1|]. split; [exact E2|]. split; [exact E3|]. intros i i' Hs.
  assert (L : i < w_next w1 /\ i' < w_next w1').
  { destruct Hs as [H|(x & x' & X1 & X2 & X3 & <- & <-)].
    - destruct (Hn4 _ _ H) as (L1 & L2 & _). lia.
    - split; [apply S1|apply T1]; apply in_or_app; right; assumption. }
  split; [apply L|]. split; [apply L|]. rewrite S3, T3. split; (intros [H|(x & y & X1 & X2 & X3)]).
  - destruct Hs as [Hs|(x & x' & X1 & X2 & X3 & <- & <-)]; [left; apply (Hn4 _ _ Hs), H|].
    specialize (Hn1 _ H). pose proof (proj2 S2 _ X1). lia.
  - right. destruct (Lb x X1) as (x' & X1' & _ & Mx). destruct (lists_moved _ _ _ _ Mx X2) as (y' & X2' & My). exists x', y'. split; [exact X1'|]. split; [exact X2'|].
    apply (E3 _ _ _ _ (moved_same _ _ _ My) Hs). exact X3.
  - destruct Hs as [Hs|(x & x' & X1 & X2 & X3 & <- & <-)]; [left; apply (Hn4 _ _ Hs), H|].
    specialize (Hn2 _ H). pose proof (proj2 T2 _ X2). lia.
  - right. destruct (Lk x X1) as (z & Z1 & _ & Mx). destruct (lists_moved_back _ _ _ _ Mx X2) as (y' & X2' & My). exists z, y'. split; [exact Z1|]. split; [exact X2'|].
    apply (E3 _ _ _ _ (moved_same _ _ _ My) Hs). exact X3.
Qed.

(** ** Whole runs *)
Definition seen_moved (same : N -> N -> Prop) : list (string * protocol) -> list (string * protocol) -> Prop :=
  Forall2 (fun a a' => fst a' = fst a /\ moved_protocol same (snd a) (snd a')).
Lemma seen_moved_imports : forall sep same seen seen', seen_moved same seen seen' -> moved_imports same (visible sep seen) (visible sep seen').
Proof.
  intros sep same seen seen' F n q.
  assert (F' : Forall2 (fun a a' => fst a' = fst a /\ moved_protocol same (snd a) (snd a')) (rev seen) (rev seen')).
  { clear - F. induction F as [|a a' l l' H F IH]; [constructor|]. cbn [rev]. apply Forall2_app; [exact IH|]. constructor; [exact H|constructor]. }
  pose proof (find_two _ _ (fun bp => String.eqb n (p_name (snd bp))) (fun bp => String.eqb n (p_name (snd bp))) _ _ F') as Q.
  assert (Hn : forall a a' : string * protocol, fst a' = fst a /\ moved_protocol same (snd a) (snd a') ->
    String.eqb n (p_name (snd a')) = String.eqb n (p_name (snd a))) by (intros a a' (_ & E & _); rewrite E; reflexivity).
  specialize (Q Hn). cbn [visible r_path r_protocol].
  destruct (find _ (rev seen)) as [a|], (find _ (rev seen')) as [a'|]; cbn [option_map]; try contradiction; intro E; [|discriminate].
  injection E as <-. destruct Q as (Q1 & Q2). exists (snd a'). split; [reflexivity|exact Q2].
Qed.
Lemma imports_rearranged : forall m sep l l', rearranged_all l l' -> forall same seen seen' w w' t t' u u',
  numbers_alike same w w' -> seen_moved same seen seen' -> run_inv seen w -> run_inv seen' w' ->
  imports_run m sep seen w l t u -> imports_run m sep seen' w' l' t' u' ->
  exists same1 : N -> N -> Prop, numbers_alike same1 u u' /\ seen_moved same1 t t' /\ run_inv t u /\ run_inv t' u'.
Proof.
  intros m sep l l' F. induction F as [|[path v] [path' v'] l l' (E & C) F IH]; intros same seen seen' w w' t t' u u' Hn Hs R R' A B.
  - inversion A; inversion B; subst. exists same. split; [exact Hn|]. split; [exact Hs|]. split; assumption.
  - inversion A as [|? ? ? ? ? p w1 ? ? A1 A2]; subst. inversion B as [|? ? ? ? ? p' w1' ? ? B1 B2]; subst. cbn [fst snd] in *. subst path'.
    destruct (run_step _ _ _ _ path _ _ _ R A1) as (S & R1). destruct (run_step _ _ _ _ path _ _ _ R' B1) as (S' & R1').
    destruct (compile_rearranged _ _ _ _ _ _ _ _ _ _ _ _ _ _ C Hn (seen_moved_imports sep _ _ _ Hs) S S' A1 B1) as (Hn1 & G & _).
    eapply IH; [exact Hn1| |exact R1|exact R1'|exact A2|exact B2]. apply Forall2_app; [|constructor; [split; [reflexivity|exact G]|constructor]].
    eapply Forall2_mono; [|exact Hs]. intros a a' (Ea & Ga). split; [exact Ea|]. eapply protocol_moved_mono; [|exact Ga]. intros; left; assumption.
Qed.
Theorem run_rearranged : forall m sep earlier earlier' d d' p w p' w', rearranged_all earlier earlier' -> rearranged d d' ->
  run_gives m sep earlier d p w -> run_gives m sep earlier' d' p' w' ->
  exists same : N -> N -> Prop, numbers_alike same w w' /\ moved_protocol same p p' /\
    forall x, In x (p_messages p) -> exists x', In x' (p_messages p') /\ m_name x' = m_name x /\ moved same x x'.
Proof.
  intros m sep earlier earlier' d d' p w p' w' L C A B. apply run_is in A. apply run_is in B.
  destruct A as (seen & u & A1 & A2). destruct B as (seen' & u' & B1 & B2).
  assert (Z : numbers_alike (fun _ _ => False) world_new world_new) by (repeat split; intros; contradiction).
  destruct (imports_rearranged m sep _ _ L _ [] [] _ _ _ _ _ _ Z (Forall2_nil _) run_start run_start A1 B1) as (same & Hn & Hs & R & R').
  destruct (run_step _ _ _ _ EmptyString _ _ _ R A2) as (S & _). destruct (run_step _ _ _ _ EmptyString _ _ _ R' B2) as (S' & _).
  exists (with_messages same p p'). exact (compile_rearranged _ _ _ _ _ _ _ _ _ _ _ _ _ _ C Hn (seen_moved_imports sep _ _ _ Hs) S S' A2 B2).
Qed.
Lemma named_once : forall m solver w d p w1, protocol_from_model m solver w d = Ok (p, w1) -> NoDup (names_in_use d) ->
  forall x y, In x (p_messages p) -> In y (p_messages p) -> m_name x = m_name y -> x = y.
Proof.
  intros m solver w d p w1 H D x y Hx Hy E. pose proof (compiled_facts _ _ _ _ _ _ H D) as F.
  destruct (f_listed _ _ _ _ F _ Hx) as (_ & A). destruct (f_listed _ _ _ _ F _ Hy) as (_ & B). congruence.
Qed.
Lemma list_at : forall A (l l' : list A), (forall k, nth_error l k = nth_error l' k) -> l = l'.
Proof.
  intros A. induction l as [|a l IH]; intros [|a' l'] H; [reflexivity|discriminate (H 0%nat)|discriminate (H 0%nat)|].
  pose proof (H 0%nat) as H0. injection H0 as ->. f_equal. apply IH. intro k. exact (H (S k)).
Qed.
Section Program.
Variables (mc mr : mode) (sep : string) (earlier earlier' : list (string * sprotocol)) (d d' : sprotocol) (p p' : protocol) (w w' : world).
Hypotheses (L : rearranged_all earlier earlier') (C : rearranged d d').
Hypotheses (R : run_gives mc sep earlier d p w) (R' : run_gives mc sep earlier' d' p' w').
Theorem order_messages : Permutation (map m_name (p_messages p)) (map m_name (p_messages p')).
Proof.
  apply run_is in R. destruct R as (s & u & _ & A). apply run_is in R'. destruct R' as (s' & u' & _ & B).
  assert (G : forall m solver w d p w1, protocol_from_model m solver w d = Ok (p, w1) -> map m_name (p_messages p) = map sm_name (sp_messages d)).
  { clear. intros m solver w d p w1 H. destruct (ItemsThms.protocol_items _ _ _ _ _ _ H) as (_ & _ & _ & _ & (E1 & E2)).
    apply list_at. intro k. rewrite !nth_error_map. pose proof (E2 k) as E3.
    assert (Q : nth_error (sp_messages d) k = None <-> nth_error (p_messages p) k = None) by (rewrite !nth_error_None, E1; reflexivity).
    destruct (nth_error (sp_messages d) k) as [v|] eqn:Ev, (nth_error (p_messages p) k) as [x|] eqn:Ex; cbn [option_map].
    - destruct (E3 _ _ eq_refl eq_refl) as (q & wq & mk & _ & Hm). rewrite (message_name _ _ _ _ _ Hm). reflexivity.
    - destruct Q as (_ & Q). discriminate (Q eq_refl).
    - destruct Q as (Q & _). discriminate (Q eq_refl).
    - reflexivity. }
  rewrite (G _ _ _ _ _ _ A), (G _ _ _ _ _ _ B). apply Permutation_map. apply C.
Qed.
Theorem order_alike : forall x x', In x (p_messages p) -> In x' (p_messages p') -> m_name x' = m_name x ->
  works_alike mr (marked w) (marked w') x x'.
Proof.
  intros x x' Hx Hx' E. destruct (run_rearranged _ _ _ _ _ _ _ _ _ _ L C R R') as (same & Hn & _ & G). destruct (G x Hx) as (y & Hy & Ey & M).
  assert (y = x').
  { pose proof R' as B. apply run_is in B. destruct B as (s' & u' & _ & B). destruct C as (_ & _ & _ & _ & _ & _ & _ & N').
    eapply named_once; [exact B|exact N'|exact Hy|exact Hx'|congruence]. }
  subst y. eapply moved_works; [|exact M]. exact (numbers_marks _ _ _ Hn).
Qed.
Theorem order_structures : forall n s, sget n (p_structs_by_name p) = Some s -> exists s', sget n (p_structs_by_name p') = Some s' /\
  s_byte_size s' = s_byte_size s /\ map field_name (s_fields s') = map field_name (s_fields s) /\
  (forall path data, path_get (E:=rerror) mr s' path data = path_get mr s path data) /\
  (forall path data v, path_set (E:=rerror) mr s' path data v = path_set mr s path data v) /\
  forall i f, nth_error (s_fields s) i = Some f -> (forall nm t loc, f <> FStruct nm t loc) -> nth_error (s_fields s') i = Some f.
Proof.
  intros n s Hs. destruct (run_rearranged _ _ _ _ _ _ _ _ _ _ L C R R') as (same & _ & (_ & K & _) & _). destruct (K _ _ Hs) as (s' & E & T).
  exists s'. split; [exact E|]. split; [exact (twin_bytes _ _ _ T)|]. split; [|split; [|split]].
  - destruct T as [id id' name fs fs' bytes bits _ F]. cbn [s_fields]. clear - F. induction F as [|f f' fs fs' H F IH]; [reflexivity|]. cbn [map]. rewrite IH. destruct H; reflexivity.
  - intros path data. exact (twin_path mr _ path s s' data T).
  - intros path data v. exact (twin_path_set mr _ path s s' data v T).
  - intros i f Hf Hn. destruct T as [id id' name fs fs' bytes bits _ F]. cbn [s_fields] in *. pose proof (twin_nth _ _ _ i F) as Q. rewrite Hf in Q.
    destruct (nth_error fs' i) as [f'|]; [|contradiction]. destruct Q as [g|g|nm t t' loc T]; [reflexivity|reflexivity|]. exfalso. eapply Hn. reflexivity.
Qed.
Theorem order_enums : forall n e, sget n (p_enums_by_name p) = Some e -> sget n (p_enums_by_name p') = Some e.
Proof.
  intros n e He. destruct (run_rearranged _ _ _ _ _ _ _ _ _ _ L C R R') as (same & _ & (_ & _ & K & _) & _). destruct (K _ _ He) as (e' & E & <-). exact E.
Qed.
Theorem order_unions : forall n u, sget n (p_unions_by_name p) = Some u -> exists u', sget n (p_unions_by_name p') = Some u' /\
  map uc_name (u_cases u') = map uc_name (u_cases u) /\ map uc_case (u_cases u') = map uc_case (u_cases u) /\
  forall k data, set_discriminant mr u' k data = set_discriminant mr u k data.
Proof.
  intros n u Hu. destruct (run_rearranged _ _ _ _ _ _ _ _ _ _ L C R R') as (same & _ & (_ & _ & _ & K & _) & _). destruct (K _ _ Hu) as (u' & E & G).
  exists u'. split; [exact E|]. destruct G as [name du du' cs cs' size (T & _ & _ & Ti) F]. cbn [u_cases].
  assert (Q1 : map uc_name cs' = map uc_name cs) by (clear - F; induction F as [|a a' l l' H F IH]; [reflexivity|]; cbn [map]; rewrite IH; destruct H; reflexivity).
  assert (Q2 : map uc_case cs' = map uc_case cs) by (clear - F; induction F as [|a a' l l' H F IH]; [reflexivity|]; cbn [map]; rewrite IH; destruct H; reflexivity).
  split; [exact Q1|]. split; [exact Q2|]. intros k data. unfold set_discriminant. cbn [u_cases u_disc]. rewrite Ti.
  pose proof (f_equal (fun l => nth_error l k) Q2) as Q. cbn beta in Q. rewrite !nth_error_map in Q.
  destruct (nth_error cs k) as [a|], (nth_error cs' k) as [a'|]; cbn [option_map] in Q; try discriminate; [|reflexivity].
  injection Q as Q. cbn [unwrap bind]. rewrite Q. exact (twin_path_set mr _ _ _ _ _ _ T).
Qed.
End Program.
