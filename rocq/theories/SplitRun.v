(** Compiling protocols from which definitions are moved to another one, for C90. *)

From Coq Require Import Arith NArith ZArith String List Bool Lia Permutation.
From Verif Require Import Base Schema Codec Compiler Access Runtime Gen Loader SpecLoader SpecRun SpecApart SpecWire SpecExact
  StructFacts CompThms MsgFacts SpecItems SpecGrow GrowThms GrowComp GrowRun CompFacts LinkThms ApartThms SpecOrder OrderThms OrderComp OrderFacts OrderRun
  SpecSplit ImportExact.
Import ListNotations.
Local Open Scope N_scope.
Local Notation known := SpecOrder.known.

(** ** Part of a protocol *)
Definition at_name {A} (R : A -> A -> Prop) (n : string) (a a' : smap A) : Prop := forall x, sget n a = Some x -> exists x', sget n a' = Some x' /\ R x x'.
Definition name_known (same : N -> N -> Prop) (a p : protocol) (n : string) : Prop :=
  at_name renumbered n (p_structs_by_name a) (p_structs_by_name p) /\ at_name eq n (p_enums_by_name a) (p_enums_by_name p) /\
  at_name (moved_union same) n (p_unions_by_name a) (p_unions_by_name p) /\ at_name (moved same) n (p_messages_by_name a) (p_messages_by_name p).
Section Part.
Variables (m : mode) (same : N -> N -> Prop) (solver solver' : resolver) (a d : sprotocol) (pa p : protocol).
Hypotheses (F : facts m solver a pa) (F' : facts m solver' d p) (D : part_of a d) (U : NoDup (names_in_use d)).
Hypothesis imp : forall n, In n (imported_names a) -> name_known same pa p n.
Hypothesis ids : forall x x', In x (p_messages pa) -> In x' (p_messages p) -> m_name x' = m_name x -> same (m_id x) (m_id x').
Lemma one_p : one_meaning p.
Proof. eapply facts_one; eassumption. Qed.
Lemma part_enums : known eq (p_enums_by_name pa) (p_enums_by_name p).
Proof.
  intros n e He. destruct (f_enum2 _ _ _ _ F _ _ He) as [Hn|Hn].
  - apply in_map_iff in Hn. destruct Hn as (v & <- & Hv). destruct (f_enum _ _ _ _ F v Hv) as (e1 & E1 & C1).
    destruct D as (De & _). destruct (f_enum _ _ _ _ F' v (De _ Hv)) as (e2 & E2 & C2). exists e2. split; [exact E2|congruence].
  - destruct (imp n Hn) as (_ & A & _). exact (A _ He).
Qed.
Lemma part_structs_upto : forall l1 l2, sp_structs a = (l1 ++ l2)%list -> forall n s, sget n (p_structs_by_name pa) = Some s -> ~ In n (map ss_name l2) ->
  exists s', sget n (p_structs_by_name p) = Some s' /\ renumbered s s'.
Proof.
  induction l1 as [|v l1 IH] using rev_ind; intros l2 E n s Hs Hn.
  - destruct (f_struct2 _ _ _ _ F _ _ Hs) as [X|X]; [rewrite E in X; contradiction|]. destruct (imp n X) as (A & _). exact (A _ Hs).
  - rewrite <- app_assoc in E. cbn [app] in E. destruct (string_dec n (ss_name v)) as [->|Hv].
    2:{ apply (IH (v :: l2) E n s Hs). intros [X|X]; [congruence|contradiction]. }
    destruct (f_struct _ _ _ _ F _ _ _ E) as (Sm & id & s1 & E1 & C1 & K1). assert (s1 = s) by congruence. subst s1.
    destruct D as (_ & Ds & _). assert (Hv' : In v (sp_structs d)) by (apply Ds; rewrite E; apply in_or_app; right; left; reflexivity).
    apply in_split in Hv'. destruct Hv' as (k1 & k2 & E'). destruct (f_struct _ _ _ _ F' _ _ _ E') as (Sm' & id' & s' & E1' & C1' & K1').
    exists s'. split; [exact E1'|]. eapply structure_moved; [| |exact C1|exact C1'].
    + apply meet_known, part_enums.
    + intros k x x' Hx Hx'. destruct (K1 _ _ Hx) as (Hy & Hk). destruct (K1' _ _ Hx') as (Hy' & _). destruct (IH (v :: l2) E k x Hy Hk) as (z & Hz & T). congruence.
Qed.
Lemma part_structs : known renumbered (p_structs_by_name pa) (p_structs_by_name p).
Proof. intros n s Hs. apply (part_structs_upto (sp_structs a) []); [rewrite app_nil_r; reflexivity|exact Hs|intros []]. Qed.
Lemma part_refs : forall Mm Mm', (forall k x, sget k Mm = Some x -> exists x', sget k (p_messages_by_name p) = Some x' /\ moved same x x') ->
  (forall k x, sget k Mm' = Some x -> sget k (p_messages_by_name p) = Some x) ->
  meet_ref same (p_structs_by_name pa) (p_structs_by_name p) Mm Mm'.
Proof.
  intros Mm Mm' A B n t t' H H'. unfold referenced_lookup in H, H'. pose proof (one_p n) as O. unfold there in O.
  destruct (sget n (p_structs_by_name pa)) as [s|] eqn:Es.
  - inversion H; subst. destruct (part_structs _ _ Es) as (s' & Es' & T). rewrite Es' in H'. inversion H'; subst. constructor. exact T.
  - destruct (sget n Mm) as [x|] eqn:Ex; [|discriminate]. inversion H; subst. destruct (A _ _ Ex) as (x' & Ex' & M). rewrite Ex' in O.
    destruct (sget n (p_structs_by_name p)); [lia|]. destruct (sget n Mm') as [y|] eqn:Ey; [|discriminate]. inversion H'; subst.
    rewrite (B _ _ Ey) in Ex'. inversion Ex'; subst. constructor. exact M.
Qed.
Lemma part_message_imported : forall n x, sget n (p_messages_by_name pa) = Some x -> ~ In n (map sm_name (sp_messages a)) ->
  exists x', sget n (p_messages_by_name p) = Some x' /\ moved same x x'.
Proof. intros n x Hx Hn. destruct (f_message2 _ _ _ _ F _ _ Hx) as [X|X]; [contradiction|]. destruct (imp n X) as (_ & _ & _ & A). exact (A _ Hx). Qed.
Lemma part_unions : known (moved_union same) (p_unions_by_name pa) (p_unions_by_name p).
Proof.
  intros n u Hu. destruct (f_union2 _ _ _ _ F _ _ Hu) as [Hn|Hn].
  - apply in_map_iff in Hn. destruct Hn as (v & <- & Hv). destruct (f_union _ _ _ _ F v Hv) as (Mm & u1 & E1 & C1 & K1). assert (u1 = u) by congruence. subst u1.
    destruct D as (_ & _ & Du & _). destruct (f_union _ _ _ _ F' v (Du _ Hv)) as (Mm' & u' & E2 & C2 & K2). exists u'. split; [exact E2|].
    eapply union_moved; [|apply part_refs|exact C1|exact C2].
    + apply meet_known, part_structs.
    + intros k x Hx. destruct (K1 _ _ Hx) as (Hy & Hk). exact (part_message_imported _ _ Hy Hk).
    + intros k x Hx. apply K2, Hx.
  - destruct (imp n Hn) as (_ & _ & A & _). exact (A _ Hu).
Qed.
Lemma part_messages_upto : forall l1 l2, sp_messages a = (l1 ++ l2)%list -> forall n x, sget n (p_messages_by_name pa) = Some x -> ~ In n (map sm_name l2) ->
  exists x', sget n (p_messages_by_name p) = Some x' /\ moved same x x'.
Proof.
  induction l1 as [|v l1 IH] using rev_ind; intros l2 E n x Hx Hn.
  - apply part_message_imported; [exact Hx|rewrite E; exact Hn].
  - rewrite <- app_assoc in E. cbn [app] in E. destruct (string_dec n (sm_name v)) as [->|Hv].
    2:{ apply (IH (v :: l2) E n x Hx). intros [X|X]; [congruence|contradiction]. }
    destruct (f_message _ _ _ _ F _ _ _ E) as (Mm & id & x1 & mk & E1 & C1 & L1 & K1). assert (x1 = x) by congruence. subst x1.
    destruct D as (_ & _ & _ & Dm & _). assert (Hv' : In v (sp_messages d)) by (apply Dm; rewrite E; apply in_or_app; right; left; reflexivity).
    apply in_split in Hv'. destruct Hv' as (k1 & k2 & E'). destruct (f_message _ _ _ _ F' _ _ _ E') as (Mm' & id' & x' & mk' & E1' & C1' & L1' & K1').
    exists x'. split; [exact E1'|]. eapply message_moved; [| | | |exact C1|exact C1'].
    + reflexivity.
    + cbn. apply part_refs.
      * intros k y Hy. destruct (K1 _ _ Hy) as (Hz & Hk). exact (IH (v :: l2) E k y Hz Hk).
      * intros k y Hy. apply K1', Hy.
    + cbn. apply meet_known, part_unions.
    + rewrite <- (message_number _ _ _ _ _ C1), <- (message_number _ _ _ _ _ C1'). apply ids; [exact L1|exact L1'|].
      rewrite (message_name _ _ _ _ _ C1), (message_name _ _ _ _ _ C1'). reflexivity.
Qed.
Theorem part_known : forall n, name_known same pa p n.
Proof.
  intro n. split; [intro; apply part_structs|]. split; [intro; apply part_enums|]. split; [intro; apply part_unions|].
  intros x Hx. apply (part_messages_upto (sp_messages a) []); [rewrite app_nil_r; reflexivity|exact Hx|intros []].
Qed.
Lemma part_listed : forall x, In x (p_messages pa) -> exists x', In x' (p_messages p) /\ m_name x' = m_name x /\ moved same x x'.
Proof.
  intros x Hx. destruct (f_listed _ _ _ _ F x Hx) as (Hn & Hg). destruct (part_known (m_name x)) as (_ & _ & _ & K).
  destruct (K _ Hg) as (x' & E & M). exists x'. pose proof (moved_name _ _ _ M) as Nm. split; [|split; [exact Nm|exact M]].
  apply in_map_iff in Hn. destruct Hn as (v & Ev & Hv). destruct D as (_ & _ & _ & Dm & _). pose proof (Dm _ Hv) as Hv'.
  apply in_split in Hv'. destruct Hv' as (k1 & k2 & E'). destruct (f_message _ _ _ _ F' _ _ _ E') as (Mm' & id' & y & mk' & E1' & _ & L1' & _).
  rewrite Ev in E1'. congruence.
Qed.
(** A message of [d] that is one of [a]. *)
Lemma part_back : forall v, In v (sp_messages a) -> exists x, In x (p_messages pa) /\ m_name x = sm_name v.
Proof.
  intros v Hv. apply in_split in Hv. destruct Hv as (k1 & k2 & E'). destruct (f_message _ _ _ _ F _ _ _ E') as (Mm & id & x & mk & E1 & C1 & L1 & _).
  exists x. split; [exact L1|exact (message_name _ _ _ _ _ C1)].
Qed.
End Part.
Lemma facts_same : forall m solver d p, facts m solver d p -> forall x y, In x (p_messages p) -> In y (p_messages p) -> m_name x = m_name y -> x = y.
Proof. intros m solver d p F x y Hx Hy E. destruct (f_listed _ _ _ _ F x Hx) as (_ & A). destruct (f_listed _ _ _ _ F y Hy) as (_ & B). congruence. Qed.
Lemma name_known_mono : forall (same same1 : N -> N -> Prop) a p n, (forall i i', same i i' -> same1 i i') -> name_known same a p n -> name_known same1 a p n.
Proof.
  intros same same1 a p n sub (A & B & C & E). split; [exact A|]. split; [exact B|]. split.
  - intros x Hx. destruct (C x Hx) as (x' & Hx' & M). exists x'. split; [exact Hx'|]. eapply union_moved_mono; eassumption.
  - intros x Hx. destruct (E x Hx) as (x' & Hx' & M). exists x'. split; [exact Hx'|]. eapply moved_mono; eassumption.
Qed.
(** What is imported from the same protocols. *)
Lemma import_known : forall m (same : N -> N -> Prop) solver solver' a d pa p i, facts m solver a pa -> facts m solver' d p -> moved_imports same solver solver' ->
  In i (sp_imports a) -> In i (sp_imports d) -> name_known same pa p (si_type i).
Proof.
  intros m same solver solver' a d pa p i F F' I Hi Hi'.
  destruct (f_import _ _ _ _ F i Hi) as (q & Hq & A1 & A2 & A3 & A4). destruct (f_import _ _ _ _ F' i Hi') as (q' & Hq' & B1 & B2 & B3 & B4).
  destruct (I _ _ Hq) as (q2 & Hq2 & G). assert (q2 = q') by congruence. subst q2.
  unfold name_known, at_name. rewrite A1, A2, A3, A4, B1, B2, B3, B4. split; [|split; [|split]]; intros x Hx.
  - eapply struct_there_moved; eassumption.
  - exists x. split; [|reflexivity]. eapply enum_there_moved; eassumption.
  - eapply union_there_moved; eassumption.
  - eapply message_there_moved; eassumption.
Qed.
(** What is imported from a protocol whose names are known. *)
Lemma through_known : forall m (same : N -> N -> Prop) solver a pa p q i, facts m solver a pa -> In i (sp_imports a) -> r_protocol solver (si_protocol i) = Some q ->
  (forall n, name_known same q p n) -> name_known same pa p (si_type i).
Proof.
  intros m same solver a pa p q i F Hi Hq K. destruct (f_import _ _ _ _ F i Hi) as (q2 & Hq2 & A1 & A2 & A3 & A4). assert (q2 = q) by congruence. subst q2.
  destruct (K (si_type i)) as (K1 & K2 & K3 & K4). unfold name_known, at_name in *. rewrite A1, A2, A3, A4.
  unfold message_there, union_there, enum_there, struct_there.
  split; [exact K1|]. split; [|split]; intros x Hx.
  - destruct (sget _ (p_structs_by_name q)); [discriminate|]. exact (K2 _ Hx).
  - destruct (sget _ (p_structs_by_name q)); [discriminate|]. destruct (sget _ (p_enums_by_name q)); [discriminate|]. exact (K3 _ Hx).
  - destruct (sget _ (p_structs_by_name q)); [discriminate|]. destruct (sget _ (p_enums_by_name q)); [discriminate|]. destruct (sget _ (p_unions_by_name q)); [discriminate|]. exact (K4 _ Hx).
Qed.

(** ** The two ways to compile *)
Definition new_ids (same : N -> N -> Prop) (q p' p : protocol) (i i' : N) : Prop := same i i' \/
  exists x x', (In x (p_messages q) \/ In x (p_messages p')) /\ In x' (p_messages p) /\ m_name x' = m_name x /\ m_id x = i /\ m_id x' = i'.
Lemma visible_snoc : forall sep seen path q n, r_protocol (visible sep (seen ++ [(path, q)])) n =
  if String.eqb n (p_name q) then Some q else r_protocol (visible sep seen) n.
Proof. intros sep seen path q n. cbn [visible r_protocol]. rewrite rev_app_distr. cbn [rev app find snd]. destruct (String.eqb n (p_name q)); reflexivity. Qed.
Theorem compile_split : forall m sep (same : N -> N -> Prop) seen seen' u u' path d q d' p w pq wq p' w', split_off d q d' ->
  numbers_alike same u' u -> seen_moved same seen' seen -> run_inv seen u -> run_inv seen' u' ->
  protocol_from_model m (visible sep seen) u d = Ok (p, w) ->
  protocol_from_model m (visible sep seen') u' q = Ok (pq, wq) ->
  protocol_from_model m (visible sep (seen' ++ [(path, pq)])) wq d' = Ok (p', w') ->
  let same1 := new_ids same pq p' p in
  numbers_alike same1 w' w /\ (forall n, name_known same1 pq p n) /\ (forall n, name_known same1 p' p n) /\
  forall x, In x (p_messages pq) \/ In x (p_messages p') -> exists x', In x' (p_messages p) /\ m_name x' = m_name x /\ moved same1 x x'.
Proof.
  intros m sep same seen seen' u u' path d q d' p w pq wq p' w' (Dq & Dd & Pm & Nd & Iq & Id & Nq) (Hn1 & Hn2 & Hn3 & Hn4) Hs R R' A B C. intro same1.
  destruct (run_step _ _ _ _ EmptyString _ _ _ R A) as ([(S1 & S1') S2 S3 S4] & _).
  destruct (run_step _ _ _ _ path _ _ _ R' B) as ([(T1 & T1') T2 T3 T4] & R1).
  destruct (run_step _ _ _ _ EmptyString _ _ _ R1 C) as ([(V1 & V1') V2 V3 V4] & _). rewrite msgs_snoc in V1, V1', V4. cbn [fst snd] in *.
  assert (Uq : NoDup (names_in_use q)) by apply Dq. assert (Ud : NoDup (names_in_use d')) by apply Dd.
  pose proof (compiled_facts _ _ _ _ _ _ A Nd) as F. pose proof (compiled_facts _ _ _ _ _ _ B Uq) as Fq. pose proof (compiled_facts _ _ _ _ _ _ C Ud) as Fd.
  pose proof (seen_moved_imports sep _ _ _ Hs) as I.
  assert (sub : forall i i', same i i' -> same1 i i') by (intros; left; assumption).
  assert (Kq : forall n, name_known same1 pq p n).
  { eapply part_known; [exact Fq|exact F|exact Dq|exact Nd| |].
    - intros n Hn. unfold imported_names in Hn. apply in_map_iff in Hn. destruct Hn as (i & <- & Hi).
      eapply name_known_mono; [exact sub|]. eapply import_known; [exact Fq|exact F|exact I|exact Hi|apply Iq, Hi].
    - intros x x' Hx Hx' E. right. exists x, x'. auto 6. }
  assert (Id' : forall n, In n (imported_names d') -> name_known same1 p' p n).
  { intros n Hn. unfold imported_names in Hn. apply in_map_iff in Hn. destruct Hn as (i & <- & Hi). destruct (string_dec (si_protocol i) (sp_name q)) as [E|E].
    - eapply through_known; [exact Fd|exact Hi| |exact Kq]. rewrite visible_snoc, (f_name _ _ _ _ Fq), E, String.eqb_refl. reflexivity.
    - destruct (Id i Hi) as [Hi'|]; [|contradiction]. destruct (f_import _ _ _ _ Fd i Hi) as (r & Hr & A1 & A2 & A3 & A4).
      rewrite visible_snoc, (f_name _ _ _ _ Fq) in Hr. destruct (String.eqb_spec (si_protocol i) (sp_name q)); [contradiction|].
      destruct (f_import _ _ _ _ F i Hi') as (r' & Hr' & B1 & B2 & B3 & B4). destruct (I _ _ Hr) as (r2 & Hr2 & G). assert (r2 = r') by congruence. subst r2.
      eapply name_known_mono; [exact sub|]. unfold name_known, at_name. rewrite A1, A2, A3, A4, B1, B2, B3, B4. split; [|split; [|split]]; intros x Hx.
      + eapply struct_there_moved; eassumption.
      + exists x. split; [|reflexivity]. eapply enum_there_moved; eassumption.
      + eapply union_there_moved; eassumption.
      + eapply message_there_moved; eassumption. }
  assert (ids : forall x x', In x (p_messages p') -> In x' (p_messages p) -> m_name x' = m_name x -> same1 (m_id x) (m_id x')).
  { intros x x' Hx Hx' E. right. exists x, x'. auto 6. }
  assert (Kd : forall n, name_known same1 p' p n) by (eapply part_known; eassumption).
  assert (Lb : forall x, In x (p_messages pq) \/ In x (p_messages p') -> exists x', In x' (p_messages p) /\ m_name x' = m_name x /\ moved same1 x x').
  { intros x [Hx|Hx].
    - eapply part_listed; [exact Fq|exact F|exact Dq|exact Nd| | |exact Hx].
      + intros n Hn. apply Kq.
      + intros y y' Hy Hy' E. right. exists y, y'. auto 6.
    - eapply part_listed; [exact Fd|exact F|exact Dd|exact Nd|exact Id'|exact ids|exact Hx]. }
  assert (Lk : forall x', In x' (p_messages p) -> exists x, (In x (p_messages pq) \/ In x (p_messages p')) /\ m_name x' = m_name x /\ moved same1 x x').
  { intros x' Hx'. destruct (f_listed _ _ _ _ F _ Hx') as (Hn & _). apply in_map_iff in Hn. destruct Hn as (v & Ev & Hv).
    pose proof (Permutation_in _ Pm Hv) as Hv'. assert (Q : exists x, (In x (p_messages pq) \/ In x (p_messages p')) /\ m_name x = sm_name v).
    { apply in_app_or in Hv'. destruct Hv' as [Hv'|Hv'].
      - destruct (part_back _ _ _ _ Fq v Hv') as (x & Hx & E). exists x. auto.
      - destruct (part_back _ _ _ _ Fd v Hv') as (x & Hx & E). exists x. auto. }
    destruct Q as (x & Hx & Ex). destruct (Lb x Hx) as (y & Hy & Ey & M). assert (y = x') by (eapply facts_same; [exact F|exact Hy|exact Hx'|congruence]). subst y.
    exists x. auto. }
  split; [|split; [exact Kq|split; [exact Kd|exact Lb]]].
  (* the names of messages of the two parts differ *)
  assert (Apart : forall x y, In x (p_messages pq) -> In y (p_messages p') -> m_name x = m_name y -> False).
  { intros x y Hx Hy E. destruct (f_listed _ _ _ _ Fq _ Hx) as (Hnx & _). destruct (f_listed _ _ _ _ Fd _ Hy) as (Hny & _).
    destruct (NoDup_parts _ _ _ _ _ _ Nd) as (_ & _ & _ & _ & Dm & _). pose proof (Permutation_NoDup (Permutation_map sm_name Pm) Dm) as Dm2. rewrite map_app in Dm2.
    rewrite <- E in Hny. clear - Hnx Hny Dm2. induction (map sm_name (sp_messages q)) as [|k l IH]; [destruct Hnx|]. cbn [app] in Dm2. apply NoDup_cons_iff in Dm2. destruct Dm2 as (D1 & D2).
    destruct Hnx as [->|Hnx]; [apply D1, in_or_app; right; exact Hny|exact (IH Hnx D2)]. }
  assert (Sm : forall x y, In x (p_messages pq) \/ In x (p_messages p') -> In y (p_messages pq) \/ In y (p_messages p') -> m_name x = m_name y -> x = y).
  { intros x y [Hx|Hx] [Hy|Hy] E; [eapply facts_same; [exact Fq|..]; eassumption| | |eapply facts_same; [exact Fd|..]; eassumption].
    - destruct (Apart _ _ Hx Hy E).
    - destruct (Apart _ _ Hy Hx (eq_sym E)). }
  assert (InM : forall x, In x (p_messages pq) \/ In x (p_messages p') -> In x ((msgs (map snd seen') ++ p_messages pq) ++ p_messages p')).
  { intros x [H|H]; apply in_or_app; [left; apply in_or_app|]; right; exact H. }
  assert (New : forall x, In x (p_messages pq) \/ In x (p_messages p') -> w_next u' <= m_id x).
  { intros x [H|H]; [apply T2, H|]. pose proof (proj1 T2). pose proof (proj2 V2 _ H). lia. }
  assert (Emb : forall i, In i (w_embedded w') <-> In i (w_embedded u') \/ exists x y, (In x (p_messages pq) \/ In x (p_messages p')) /\ lists_message x y /\ m_id y = i).
  { intro i. rewrite V3, T3. split.
    - intros [[H|(x & y & H & H1)]|(x & y & H & H1)]; [left; exact H|right; exists x, y; auto|right; exists x, y; auto].
    - intros [H|(x & y & [H|H] & H1)]; [left; left; exact H|left; right; exists x, y; auto|right; exists x, y; auto]. }
  assert (E1 : forall i, In i (w_embedded w') -> i < w_next w').
  { intros i Hi. apply Emb in Hi. pose proof (proj1 T2). pose proof (proj1 V2).
    destruct Hi as [Hi|(x & y & [Hx|Hx] & (f & ty & Hf & Ht) & <-)]; [specialize (Hn1 _ Hi); lia| |].
    - apply N.lt_le_trans with (w_next wq); [|assumption]. apply T1. apply (pi_lmessages _ _ _ _ _ T4 x Hx). econstructor; [exact Hf|rewrite Ht; constructor|constructor].
    - apply V1. apply (pi_lmessages _ _ _ _ _ V4 x Hx). econstructor; [exact Hf|rewrite Ht; constructor|constructor]. }
  assert (E2 : forall i, In i (w_embedded w) -> i < w_next w).
  { intros i Hi. apply S3 in Hi. destruct Hi as [Hi|(x & y & Hx & (f & ty & Hf & Ht) & <-)]; [specialize (Hn2 _ Hi); lia|]. apply S1.
    apply (pi_lmessages _ _ _ _ _ S4 x Hx). econstructor; [exact Hf|rewrite Ht; constructor|constructor]. }
  assert (E3 : forall i i' j j', same1 i i' -> same1 j j' -> (i = j <-> i' = j')).
  { intros i i' j j' [H|(x & x' & X1 & X2 & X3 & <- & <-)] [K|(y & y' & Y1 & Y2 & Y3 & <- & <-)].
    - exact (Hn3 _ _ _ _ H K).
    - destruct (Hn4 _ _ H) as (L1 & L2 & _). pose proof (New _ Y1). pose proof (proj2 S2 _ Y2). lia.
    - destruct (Hn4 _ _ K) as (L1 & L2 & _). pose proof (New _ X1). pose proof (proj2 S2 _ X2). lia.
    - split; intro E.
      + assert (x = y) by (apply V1'; [apply InM; assumption..|exact E]). subst y.
        f_equal. eapply facts_same; [exact F|exact X2|exact Y2|congruence].
      + assert (x' = y') by (apply S1'; [apply in_or_app; right; assumption..|exact E]). subst y'. f_equal. apply Sm; [exact X1|exact Y1|congruence]. }
  split; [exact E1|]. split; [exact E2|]. split; [exact E3|]. intros i i' Hi.
  assert (L : i < w_next w' /\ i' < w_next w).
  { pose proof (proj1 T2). pose proof (proj1 V2). destruct Hi as [H1|(x & x' & X1 & X2 & X3 & <- & <-)].
    - destruct (Hn4 _ _ H1) as (L1 & L2 & _). pose proof (proj1 S2). lia.
    - split; [apply V1, InM, X1|apply S1, in_or_app; right; exact X2]. }
  split; [apply L|]. split; [apply L|]. rewrite S3, Emb. split; (intros [H|(x & y & X1 & X2 & X3)]).
  - destruct Hi as [Hi|(x & x' & X1 & X2 & X3 & <- & <-)]; [left; apply (Hn4 _ _ Hi), H|].
    specialize (Hn1 _ H). pose proof (New _ X1). lia.
  - right. destruct (Lb x X1) as (x' & X1' & _ & Mx). destruct (lists_moved _ _ _ _ Mx X2) as (y' & X2' & My). exists x', y'. split; [exact X1'|]. split; [exact X2'|].
    apply (E3 _ _ _ _ (moved_same _ _ _ My) Hi). exact X3.
  - destruct Hi as [Hi|(x & x' & X1 & X2 & X3 & <- & <-)]; [left; apply (Hn4 _ _ Hi), H|].
    specialize (Hn2 _ H). pose proof (proj2 S2 _ X2). lia.
  - right. destruct (Lk x X1) as (z & Z1 & _ & Mx). destruct (lists_moved_back _ _ _ _ Mx X2) as (y' & X2' & My). exists z, y'. split; [exact Z1|]. split; [exact X2'|].
    apply (E3 _ _ _ _ (moved_same _ _ _ My) Hi). exact X3.
Qed.

(** ** Whole runs *)
Lemma once_same : forall l, names_once l -> rearranged_all l l.
Proof.
  intros l H. induction H as [|b l H F IH]; constructor; [|exact IH]. split; [reflexivity|]. unfold rearranged.
  split; [reflexivity|]. repeat (split; [apply incl_refl|]). split; [apply Permutation_refl|]. split; exact H.
Qed.
Section Program.
Variables (mc mr : mode) (sep path : string) (earlier : list (string * sprotocol)) (d q d' : sprotocol) (p pq p' : protocol) (w wq w' : world).
Hypotheses (L : names_once earlier) (C : split_off d q d').
Hypotheses (R : run_gives mc sep earlier d p w) (Rq : run_gives mc sep earlier q pq wq) (R' : run_gives mc sep (earlier ++ [(path, q)]) d' p' w').
Theorem run_split : exists same : N -> N -> Prop, numbers_alike same w' w /\ (forall n, name_known same pq p n) /\ (forall n, name_known same p' p n) /\
  forall x, In x (p_messages pq) \/ In x (p_messages p') -> exists x', In x' (p_messages p) /\ m_name x' = m_name x /\ moved same x x'.
Proof.
  destruct (runs_same _ _ _ _ _ _ Rq path [] _ _ _ R') as (s1 & w1 & s2 & w2 & A1 & A2 & A3). inversion A2; subst. clear A2.
  pose proof R as B. apply run_is in B. destruct B as (seen & u & B1 & B2).
  pose proof Rq as D. apply run_is in D. destruct D as (seen' & u' & D1 & D2).
  destruct (imports_same _ _ _ _ _ _ _ _ _ A1 D1) as [-> ->].
  assert (Z : numbers_alike (fun _ _ => False) world_new world_new) by (repeat split; intros; contradiction).
  destruct (imports_rearranged mc sep _ _ (once_same _ L) _ [] [] _ _ _ _ _ _ Z (Forall2_nil _) run_start run_start D1 B1) as (same & Hn & Hs & Q1 & Q2).
  exists (new_ids same pq p' p). exact (compile_split _ _ _ _ _ _ _ _ _ _ _ _ _ _ _ _ _ C Hn Hs Q2 Q1 B2 D2 A3).
Qed.
Lemma whole_once : forall x y, In x (p_messages p) -> In y (p_messages p) -> m_name x = m_name y -> x = y.
Proof.
  pose proof R as B. apply run_is in B. destruct B as (s & u & _ & B). destruct C as (_ & _ & _ & Nd & _). exact (named_once _ _ _ _ _ _ B Nd).
Qed.
Lemma works_sym : forall m emb emb' x x', works_alike m emb emb' x x' -> works_alike m emb' emb x' x.
Proof. intros m emb emb' x x' (A & B & E & F). repeat split; intros; symmetry; auto. Qed.
Theorem split_alike : forall x x', In x (p_messages p) -> In x' (p_messages pq) \/ In x' (p_messages p') -> m_name x' = m_name x ->
  works_alike mr (marked w) (marked w') x x'.
Proof.
  intros x x' Hx Hx' E. destruct run_split as (same & Hn & _ & _ & G). destruct (G x' Hx') as (y & Hy & Ey & M).
  assert (y = x) by (apply whole_once; [exact Hy|exact Hx|congruence]). subst y. apply works_sym. eapply moved_works; [|exact M]. exact (numbers_marks _ _ _ Hn).
Qed.
Lemma run_names : forall e v r t, run_gives mc sep e v r t -> map m_name (p_messages r) = map sm_name (sp_messages v).
Proof.
  intros e v r t H. apply run_is in H. destruct H as (s & u & _ & H). destruct (ItemsThms.protocol_items _ _ _ _ _ _ H) as (_ & _ & _ & _ & (E1 & E2)).
  apply list_at. intro k. rewrite !nth_error_map. pose proof (E2 k) as E3.
  assert (Q : nth_error (sp_messages v) k = None <-> nth_error (p_messages r) k = None) by (rewrite !nth_error_None, E1; reflexivity).
  destruct (nth_error (sp_messages v) k) as [v1|] eqn:Ev, (nth_error (p_messages r) k) as [x|] eqn:Ex; cbn [option_map].
  - destruct (E3 _ _ eq_refl eq_refl) as (q1 & wq1 & mk & _ & Hm). rewrite (message_name _ _ _ _ _ Hm). reflexivity.
  - destruct Q as (_ & Q). discriminate (Q eq_refl).
  - destruct Q as (Q & _). discriminate (Q eq_refl).
  - reflexivity.
Qed.
Theorem split_messages : Permutation (map m_name (p_messages p)) (map m_name (p_messages pq ++ p_messages p')).
Proof.
  rewrite map_app, (run_names _ _ _ _ R), (run_names _ _ _ _ Rq), (run_names _ _ _ _ R'), <- map_app. apply Permutation_map. apply C.
Qed.
Theorem split_structures : forall r n s, r = pq \/ r = p' -> sget n (p_structs_by_name r) = Some s -> exists s', sget n (p_structs_by_name p) = Some s' /\
  s_byte_size s' = s_byte_size s /\ map field_name (s_fields s') = map field_name (s_fields s) /\
  (forall path data, path_get (E:=rerror) mr s' path data = path_get mr s path data) /\
  (forall path data v, path_set (E:=rerror) mr s' path data v = path_set mr s path data v) /\
  forall i f, nth_error (s_fields s) i = Some f -> (forall nm t loc, f <> FStruct nm t loc) -> nth_error (s_fields s') i = Some f.
Proof.
  intros r n s Hr Hs. destruct run_split as (same & _ & K1 & K2 & _). assert (K : name_known same r p n) by (destruct Hr as [-> | ->]; auto).
  destruct K as (K & _). destruct (K _ Hs) as (s' & E & T).
  exists s'. split; [exact E|]. split; [exact (twin_bytes _ _ _ T)|]. split; [|split; [|split]].
  - destruct T as [id id' name fs fs' bytes bits _ F]. cbn [s_fields]. clear - F. induction F as [|f f' fs fs' H F IH]; [reflexivity|]. cbn [map]. rewrite IH. destruct H; reflexivity.
  - intros pa data. exact (twin_path mr _ pa s s' data T).
  - intros pa data v. exact (twin_path_set mr _ pa s s' data v T).
  - intros i f Hf Hn. destruct T as [id id' name fs fs' bytes bits _ F]. cbn [s_fields] in *. pose proof (twin_nth _ _ _ i F) as Q. rewrite Hf in Q.
    destruct (nth_error fs' i) as [f'|]; [|contradiction]. destruct Q as [g|g|nm t t' loc T]; [reflexivity|reflexivity|]. exfalso. eapply Hn. reflexivity.
Qed.
Theorem split_enums : forall r n e, r = pq \/ r = p' -> sget n (p_enums_by_name r) = Some e -> sget n (p_enums_by_name p) = Some e.
Proof.
  intros r n e Hr He. destruct run_split as (same & _ & K1 & K2 & _). assert (K : name_known same r p n) by (destruct Hr as [-> | ->]; auto).
  destruct K as (_ & K & _). destruct (K _ He) as (e' & E & <-). exact E.
Qed.
(** Generated by runs of their own. *)
Theorem split_apart : forall path' emb, program mc sep ((earlier ++ [(path, q)]) ++ [(path', d')]) emb ->
  (forall e b u e' r t, ((earlier ++ [(path, q)]) ++ [(path', d')] = e ++ (b, u) :: e')%list -> run_gives mc sep e u r t -> ~ lists_imported r) ->
  forall x x', In x (p_messages p) -> In x' (p_messages p') -> m_name x' = m_name x ->
  (forall b, read_msg mr emb x' b = read_msg mr (marked w) x b) /\
  (forall St (o : sink St) v s, write_msg mr o x' v s = write_msg mr o x v s).
Proof.
  intros path' emb Hp Hg x x' Hx Hx' E. destruct (split_alike x x' Hx (or_intror Hx') E) as (A & _ & B & _). split; [|exact B].
  intro b. rewrite (apart_read _ mr _ _ _ _ _ _ _ Hp R' Hg x' Hx'). apply A.
Qed.
End Program.
