(** What the names of a compiled protocol stand for when every name is given once, for C87. *)

From Coq Require Import Arith NArith ZArith String List Bool Lia Permutation.
From Verif Require Import Base Schema Compiler SpecWire StructFacts CompFacts CompThms ScopeThms SpecComp SpecItems ItemsThms ImportExact SpecGrow GrowComp SpecOrder.
Import ListNotations.
Local Open Scope N_scope.

(** ** Definitions that are added one after the other *)
Section Keyed.
Variables (St A B : Type) (f : St -> B -> cres St) (get : St -> smap A) (key : B -> string).
Hypothesis step : forall st b st', f st b = Ok st' -> exists a, get st' = sinsert (key b) a (get st).
Lemma keyed_fold : forall l st st', foldM f st l = Ok st' -> forall n, ~ In n (map key l) -> sget n (get st') = sget n (get st).
Proof.
  induction l as [|b l IH]; intros st st' H n Hn; cbn [foldM] in H; [injection H as <-; reflexivity|].
  apply bind_ok in H. destruct H as (st1 & H1 & H). destruct (step _ _ _ H1) as (a & E). rewrite (IH _ _ H n); [|intro; apply Hn; right; assumption].
  rewrite E. cbn [sinsert sget]. destruct (String.eqb n (key b)) eqn:En; [|reflexivity]. exfalso. apply Hn. left. symmetry. apply String.eqb_eq, En.
Qed.
Lemma keyed_there : forall l st st', foldM f st l = Ok st' -> forall n x, sget n (get st') = Some x -> sget n (get st) = Some x \/ In n (map key l).
Proof.
  intros l st st' H n x Hx. destruct (in_dec string_dec n (map key l)) as [Hn|Hn]; [right; exact Hn|left]. rewrite <- (keyed_fold _ _ _ H n Hn). exact Hx.
Qed.
Lemma keyed_split : forall l1 b l2 st st', foldM f st (l1 ++ b :: l2) = Ok st' -> NoDup (map key (l1 ++ b :: l2)) ->
  (forall n, In n (map key (l1 ++ b :: l2)) -> sget n (get st) = None) ->
  exists st1 st2, foldM f st l1 = Ok st1 /\ f st1 b = Ok st2 /\ foldM f st2 l2 = Ok st' /\ sget (key b) (get st') = sget (key b) (get st2) /\
    forall k x, sget k (get st1) = Some x -> sget k (get st') = Some x /\ ~ In k (map key (b :: l2)).
Proof.
  intros l1 b l2 st st' H D Z. rewrite CompFacts.foldM_app in H. apply bind_ok in H. destruct H as (st1 & H1 & H). cbn [foldM] in H.
  apply bind_ok in H. destruct H as (st2 & H2 & H). exists st1, st2. split; [exact H1|]. split; [exact H2|]. split; [exact H|].
  rewrite map_app in D, Z. cbn [map] in D, Z. split.
  - apply (keyed_fold _ _ _ H). apply NoDup_remove_2 in D. intro. apply D, in_or_app. right. assumption.
  - intros k x Hx. assert (Hk : ~ In k (map key (b :: l2))).
    { intro Hk. assert (Hz : sget k (get st) = None) by (apply Z, in_or_app; right; exact Hk).
      destruct (keyed_there _ _ _ H1 _ _ Hx) as [Hs|Hs]; [congruence|].
      clear - D Hs Hk. cbn [map] in Hk. induction (map key l1) as [|a l IH]; [destruct Hs|].
      cbn [app] in D. apply NoDup_cons_iff in D. destruct D as (D1 & D2). destruct Hs as [<-|Hs]; [|exact (IH D2 Hs)].
      apply D1, in_or_app. right. exact Hk. }
    split; [|exact Hk]. rewrite (keyed_fold _ _ _ H k); [|intro; apply Hk; right; assumption].
    destruct (step _ _ _ H2) as (a & E). rewrite E. cbn [sinsert sget]. destruct (String.eqb k (key b)) eqn:En; [|exact Hx].
    exfalso. apply Hk. left. symmetry. apply String.eqb_eq, En.
Qed.
End Keyed.

Lemma structure_name : forall m endi enums structs id v s, structure_from_model m endi enums structs id v = Ok s -> s_name s = ss_name v.
Proof. intros m endi enums structs id v s H. unfold structure_from_model in H. apply bind_ok in H. destruct H as ([fs o] & _ & H). inversion H. reflexivity. Qed.
Lemma union_name : forall structs messages v u, union_from_model structs messages v = Ok u -> u_name u = sun_name v.
Proof. intros structs messages v u H. unfold union_from_model in H. unb H. unb H. inversion H. reflexivity. Qed.
Lemma enum_name : forall v e, enum_from_model v = Ok e -> e_name e = se_name v.
Proof. intros v e H. unfold enum_from_model in H. repeat (match type of H with (if ?c then _ else _) = _ => destruct c; try discriminate | _ => try unb H end). all: inversion H; reflexivity. Qed.
Lemma message_name : forall env id v x mk, message_from_model env id v = Ok (x, mk) -> m_name x = sm_name v.
Proof. intros env id v x mk H. unfold message_from_model in H. apply bind_ok in H. destruct H as ([[[fs c] d] k] & _ & H). inversion H. reflexivity. Qed.

Lemma enum_step : forall st b st', define_enum st b = Ok st' -> exists a, p_enums_by_name st' = sinsert (se_name b) a (p_enums_by_name st).
Proof. intros st b st' H. unfold define_enum in H. unb H. rewrite (enum_name _ _ E) in H. inversion H. cbn. eauto. Qed.
Lemma struct_step : forall m st b st', define_struct m st b = Ok st' -> exists a, p_structs_by_name (fst st') = sinsert (ss_name b) a (p_structs_by_name (fst st)).
Proof. intros m [p w] b st' H. unfold define_struct in H. unb H. rewrite (structure_name _ _ _ _ _ _ _ E) in H. inversion H. cbn. eauto. Qed.
Lemma union_step : forall st b st', define_union st b = Ok st' -> exists a, p_unions_by_name st' = sinsert (sun_name b) a (p_unions_by_name st).
Proof. intros st b st' H. unfold define_union in H. unb H. rewrite (union_name _ _ _ _ E) in H. inversion H. cbn. eauto. Qed.
Lemma message_step : forall st b st', define_message st b = Ok st' -> exists a, p_messages_by_name (fst st') = sinsert (sm_name b) a (p_messages_by_name (fst st)).
Proof.
  intros [p w] b st' H. unfold define_message in H. apply bind_ok in H. destruct H as ([x mk] & E & H). rewrite (message_name _ _ _ _ _ E) in H. inversion H. cbn. eauto.
Qed.

(** ** Names that are given once *)
Definition imported_names (d : sprotocol) : list string := map si_type (sp_imports d).
Lemma last_import_in : forall A (kind : protocol -> string -> option A) solver l n x, last_import kind solver l n = Some x -> In n (map si_type l).
Proof.
  intros A kind solver. induction l as [|i l IH]; intros n x H; cbn [last_import] in H; [discriminate|].
  destruct (last_import kind solver l n) eqn:E; [right; eapply IH; exact E|]. cbn [or_else] in H.
  destruct (String.eqb (si_type i) n) eqn:En; [|discriminate]. left. apply String.eqb_eq, En.
Qed.
Lemma last_import_once : forall A (kind : protocol -> string -> option A) solver l i, NoDup (map si_type l) -> In i l ->
  last_import kind solver l (si_type i) = match r_protocol solver (si_protocol i) with Some q => kind q (si_type i) | None => None end.
Proof.
  intros A kind solver. induction l as [|j l IH]; [intros i D []|]. intros i D [-> | H]; cbn [last_import map] in *; apply NoDup_cons_iff in D; destruct D as (D1 & D2).
  - destruct (last_import kind solver l (si_type i)) eqn:E; [exfalso; apply D1; eapply last_import_in; exact E|]. cbn [or_else]. rewrite String.eqb_refl. reflexivity.
  - rewrite (IH i D2 H). destruct (String.eqb (si_type j) (si_type i)) eqn:E; [|apply or_else_none].
    exfalso. apply D1. apply String.eqb_eq in E. rewrite E. apply in_map, H.
Qed.
Lemma imports_there : forall solver l p q, foldM (import_one solver) p l = Ok q -> forall i, In i l -> exists r, r_protocol solver (si_protocol i) = Some r.
Proof.
  intros solver. induction l as [|j l IH]; intros p q H i Hi; [destruct Hi|]. cbn [foldM] in H. apply bind_ok in H. destruct H as (p1 & H1 & H).
  destruct Hi as [-> | Hi]; [|eapply IH; eassumption]. unfold import_one in H1. apply bind_ok in H1. destruct H1 as (r & Hr & _). apply ok_or_ok in Hr. eauto.
Qed.
Lemma NoDup_parts : forall A (a b c d e : list A), NoDup (a ++ b ++ c ++ d ++ e) ->
  NoDup a /\ NoDup b /\ NoDup c /\ NoDup d /\ NoDup e /\
  (forall x, In x a -> ~ In x b /\ ~ In x c /\ ~ In x d /\ ~ In x e) /\ (forall x, In x b -> ~ In x c /\ ~ In x d /\ ~ In x e) /\
  (forall x, In x c -> ~ In x d /\ ~ In x e) /\ (forall x, In x d -> ~ In x e).
Proof.
  assert (Z : forall A (a b : list A), NoDup (a ++ b) -> NoDup a /\ NoDup b /\ forall x, In x a -> ~ In x b).
  { intros A a b. induction a as [|y a IH]; intro D; [repeat split; [constructor|exact D|intros x []]|]. cbn [app] in D. apply NoDup_cons_iff in D.
    destruct D as (D1 & D2). destruct (IH D2) as (I1 & I2 & I3). split; [constructor; [intro; apply D1, in_or_app; left; assumption|exact I1]|]. split; [exact I2|].
    intros x [<- | H]; [intro; apply D1, in_or_app; right; assumption|apply I3, H]. }
  intros A a b c d e D. apply Z in D. destruct D as (Da & D & Xa). apply Z in D. destruct D as (Db & D & Xb). apply Z in D. destruct D as (Dc & D & Xc).
  apply Z in D. destruct D as (Dd & De & Xd). repeat (split; [assumption|]). split; [|split; [|split]].
  - intros x H. specialize (Xa x H). rewrite !in_app_iff in Xa. tauto.
  - intros x H. specialize (Xb x H). rewrite !in_app_iff in Xb. tauto.
  - intros x H. specialize (Xc x H). rewrite !in_app_iff in Xc. tauto.
  - intros x H. exact (Xd x H).
Qed.

Record facts (m : mode) (solver : resolver) (d : sprotocol) (p : protocol) : Prop := {
  f_name : p_name p = sp_name d;
  f_import : forall i, In i (sp_imports d) -> exists q, r_protocol solver (si_protocol i) = Some q /\
    sget (si_type i) (p_structs_by_name p) = struct_there q (si_type i) /\ sget (si_type i) (p_enums_by_name p) = enum_there q (si_type i) /\
    sget (si_type i) (p_unions_by_name p) = union_there q (si_type i) /\ sget (si_type i) (p_messages_by_name p) = message_there q (si_type i);
  f_enum : forall v, In v (sp_enums d) -> exists e, sget (se_name v) (p_enums_by_name p) = Some e /\ enum_from_model v = Ok e;
  f_enum2 : forall n e, sget n (p_enums_by_name p) = Some e -> In n (map se_name (sp_enums d)) \/ In n (imported_names d);
  f_struct : forall l1 v l2, sp_structs d = (l1 ++ v :: l2)%list -> exists Sm id s, sget (ss_name v) (p_structs_by_name p) = Some s /\
    structure_from_model m Little (p_enums_by_name p) Sm id v = Ok s /\
    forall k x, sget k Sm = Some x -> sget k (p_structs_by_name p) = Some x /\ ~ In k (map ss_name (v :: l2));
  f_struct2 : forall n e, sget n (p_structs_by_name p) = Some e -> In n (map ss_name (sp_structs d)) \/ In n (imported_names d);
  f_union : forall v, In v (sp_unions d) -> exists Mm u, sget (sun_name v) (p_unions_by_name p) = Some u /\
    union_from_model (p_structs_by_name p) Mm v = Ok u /\
    forall k x, sget k Mm = Some x -> sget k (p_messages_by_name p) = Some x /\ ~ In k (map sm_name (sp_messages d));
  f_union2 : forall n e, sget n (p_unions_by_name p) = Some e -> In n (map sun_name (sp_unions d)) \/ In n (imported_names d);
  f_message : forall l1 v l2, sp_messages d = (l1 ++ v :: l2)%list -> exists Mm id x mk, sget (sm_name v) (p_messages_by_name p) = Some x /\
    message_from_model {| pe_endianness := Little; pe_structs := p_structs_by_name p; pe_messages := Mm; pe_unions := p_unions_by_name p |} id v = Ok (x, mk) /\
    In x (p_messages p) /\
    forall k y, sget k Mm = Some y -> sget k (p_messages_by_name p) = Some y /\ ~ In k (map sm_name (v :: l2));
  f_message2 : forall n e, sget n (p_messages_by_name p) = Some e -> In n (map sm_name (sp_messages d)) \/ In n (imported_names d);
  f_listed : forall x, In x (p_messages p) -> In (m_name x) (map sm_name (sp_messages d)) /\ sget (m_name x) (p_messages_by_name p) = Some x }.

Theorem compiled_facts : forall m solver w d p w1, protocol_from_model m solver w d = Ok (p, w1) -> NoDup (names_in_use d) -> facts m solver d p.
Proof.
  intros m solver w d p w1 H D. destruct (protocol_phases _ _ _ _ _ _ H) as (p1 & p2 & p3 & w3 & p4 & H1 & H2 & H3 & H4 & H5). clear H.
  destruct (NoDup_parts _ _ _ _ _ _ D) as (Di & De & Ds & Du & Dm & Xi & Xe & Xs & Xu). clear D.
  pose proof (imports_items _ _ _ _ H1) as I1. destruct I1 as (A1 & B1 & C1 & D1 & E1 & F1).
  pose proof (enums_items _ _ _ H2) as I2. destruct I2 as (A2 & B2 & C2 & D2 & E2 & F2 & G2 & K2 & _).
  pose proof (structs_items _ _ _ _ _ _ H3) as I3. destruct I3 as (A3 & B3 & C3 & D3 & E3 & F3 & G3 & K3 & _).
  pose proof (unions_items _ _ _ H4) as I4. destruct I4 as (A4 & B4 & C4 & D4 & E4 & F4 & G4 & K4 & _).
  pose proof (messages_items _ _ _ _ _ H5) as I5. destruct I5 as (A5 & B5 & C5 & D5 & E5 & F5 & G5 & K5 & _).
  pose proof (imports_tables _ _ _ _ H1) as T. cbn [protocol_empty p_structs_by_name p_enums_by_name p_unions_by_name p_messages_by_name sget] in T.
  cbn [protocol_empty p_name p_endianness p_enums p_structs p_unions p_messages] in *.
  assert (Te : forall n, p_enums_by_name p1 = p_enums_by_name p1 /\ sget n (p_enums_by_name p1) = last_import enum_there solver (sp_imports d) n)
    by (intro n; split; [reflexivity|]; rewrite (proj1 (proj2 (T n))); apply or_else_none).
  assert (Ts : forall n, sget n (p_structs_by_name p2) = last_import struct_there solver (sp_imports d) n)
    by (intro n; rewrite F2, (proj1 (T n)); apply or_else_none).
  assert (Tu : forall n, sget n (p_unions_by_name p3) = last_import union_there solver (sp_imports d) n)
    by (intro n; rewrite K3, K2, (proj1 (proj2 (proj2 (T n)))); apply or_else_none).
  assert (Tm : forall n, sget n (p_messages_by_name p4) = last_import message_there solver (sp_imports d) n)
    by (intro n; rewrite K4, G3, G2, (proj2 (proj2 (proj2 (T n)))); apply or_else_none).
  assert (Ze : forall n, In n (map se_name (sp_enums d)) -> sget n (p_enums_by_name p1) = None).
  { intros n Hn. destruct (sget n (p_enums_by_name p1)) eqn:E; [|reflexivity]. rewrite (proj2 (Te n)) in E. apply last_import_in in E. destruct (Xi _ E) as (X & _). contradiction. }
  assert (Zs : forall n, In n (map ss_name (sp_structs d)) -> sget n (p_structs_by_name p2) = None).
  { intros n Hn. destruct (sget n (p_structs_by_name p2)) eqn:E; [|reflexivity]. rewrite (Ts n) in E. apply last_import_in in E. destruct (Xi _ E) as (_ & X & _). contradiction. }
  assert (Zu : forall n, In n (map sun_name (sp_unions d)) -> sget n (p_unions_by_name p3) = None).
  { intros n Hn. destruct (sget n (p_unions_by_name p3)) eqn:E; [|reflexivity]. rewrite (Tu n) in E. apply last_import_in in E. destruct (Xi _ E) as (_ & _ & X & _). contradiction. }
  assert (Zm : forall n, In n (map sm_name (sp_messages d)) -> sget n (p_messages_by_name p4) = None).
  { intros n Hn. destruct (sget n (p_messages_by_name p4)) eqn:E; [|reflexivity]. rewrite (Tm n) in E. apply last_import_in in E. destruct (Xi _ E) as (_ & _ & _ & X). contradiction. }
  assert (Qe : p_enums_by_name p = p_enums_by_name p2) by congruence.
  assert (Qs : p_structs_by_name p = p_structs_by_name p3) by congruence.
  assert (Qu : p_unions_by_name p = p_unions_by_name p4) by congruence.
  constructor.
  - congruence.
  - intros i Hi. destruct (imports_there _ _ _ _ H1 i Hi) as (q & Hq). exists q. split; [exact Hq|].
    assert (Ht : In (si_type i) (map si_type (sp_imports d))) by (apply in_map, Hi). destruct (Xi _ Ht) as (Y1 & Y2 & Y3 & Y4).
    rewrite Qe, Qs, Qu. rewrite (keyed_fold _ _ _ _ _ _ enum_step _ _ _ H2 _ Y1).
    pose proof (keyed_fold _ _ _ _ (fun st => p_structs_by_name (fst st)) _ (struct_step m) _ _ _ H3 _ Y2) as R. cbn [fst] in R. rewrite R. clear R.
    rewrite (keyed_fold _ _ _ _ _ _ union_step _ _ _ H4 _ Y3).
    pose proof (keyed_fold _ _ _ _ (fun st => p_messages_by_name (fst st)) _ message_step _ _ _ H5 _ Y4) as R. cbn [fst] in R. rewrite R. clear R.
    rewrite (proj2 (Te _)), Ts, Tu, Tm. rewrite !(last_import_once _ _ _ _ _ Di Hi), Hq. repeat split.
  - intros v Hv. apply in_split in Hv. destruct Hv as (l1 & l2 & Hv). rewrite Hv in *. rewrite Qe.
    destruct (keyed_split _ _ _ _ _ _ enum_step _ _ _ _ _ H2 De Ze) as (st1 & st2 & S1 & S2 & S3 & S4 & _).
    unfold define_enum in S2. unb S2. rewrite (enum_name _ _ E) in S2. inversion S2; subst st2. cbn in S4. rewrite String.eqb_refl in S4. eauto.
  - intros n e He. rewrite Qe in He. destruct (keyed_there _ _ _ _ _ _ enum_step _ _ _ H2 _ _ He) as [X|X]; [right|left; exact X].
    rewrite (proj2 (Te n)) in X. eapply last_import_in. exact X.
  - intros l1 v l2 Hv. rewrite Hv in *. rewrite Qe, Qs.
    destruct (keyed_split _ _ _ _ (fun st => p_structs_by_name (fst st)) _ (struct_step m) _ _ _ _ _ H3 Ds Zs) as ([q wq] & st2 & S1 & S2 & S3 & S4 & S5).
    cbn [fst] in S4, S5. unfold define_struct in S2. unb S2.
    destruct (structs_items _ _ _ _ _ _ S1) as (_ & R1 & _ & _ & _ & R2 & _). rewrite R1, R2, B2, B1 in E.
    exists (p_structs_by_name q), (w_next wq), x. split; [|split; [exact E|exact S5]].
    rewrite (structure_name _ _ _ _ _ _ _ E) in S2. inversion S2; subst st2. cbn in S4. rewrite String.eqb_refl in S4. exact S4.
  - intros n e He. rewrite Qs in He. destruct (keyed_there _ _ _ _ (fun st => p_structs_by_name (fst st)) _ (struct_step m) _ _ _ H3 n e He) as [X|X]; [right|left; exact X].
    cbn [fst] in X. rewrite (Ts n) in X. eapply last_import_in. exact X.
  - intros v Hv. apply in_split in Hv. destruct Hv as (l1 & l2 & Hv). rewrite Hv in *. rewrite Qs, Qu.
    destruct (keyed_split _ _ _ _ _ _ union_step _ _ _ _ _ H4 Du Zu) as (st1 & st2 & S1 & S2 & S3 & S4 & _).
    unfold define_union in S2. unb S2. destruct (unions_items _ _ _ S1) as (_ & _ & _ & _ & _ & _ & R1 & R2 & _). rewrite R1, R2 in E.
    exists (p_messages_by_name p3), x. split; [|split; [exact E|]].
    + rewrite (union_name _ _ _ _ E) in S2. inversion S2; subst st2. cbn in S4. rewrite String.eqb_refl in S4. exact S4.
    + intros k y Hy. rewrite <- K4 in Hy. assert (Hn : ~ In k (map sm_name (sp_messages d))) by (intro X; rewrite (Zm _ X) in Hy; discriminate).
      split; [|exact Hn]. pose proof (keyed_fold _ _ _ _ (fun st => p_messages_by_name (fst st)) _ message_step _ _ _ H5 _ Hn) as R. cbn [fst] in R. rewrite R. exact Hy.
  - intros n e He. rewrite Qu in He. destruct (keyed_there _ _ _ _ _ _ union_step _ _ _ H4 _ _ He) as [X|X]; [right|left; exact X].
    rewrite (Tu n) in X. eapply last_import_in. exact X.
  - intros l1 v l2 Hv. rewrite Hv in *. rewrite Qs, Qu.
    destruct (keyed_split _ _ _ _ (fun st => p_messages_by_name (fst st)) _ message_step _ _ _ _ _ H5 Dm Zm) as ([q wq] & st2 & S1 & S2 & S3 & S4 & S5).
    cbn [fst] in S4, S5. unfold define_message in S2. apply bind_ok in S2. destruct S2 as ([x mk] & E & S2).
    destruct (messages_items _ _ _ _ _ S1) as (_ & R1 & _ & _ & _ & _ & R2 & R3 & _). rewrite R1, R2, R3, B4, B3, B2, B1, G4 in E.
    exists (p_messages_by_name q), (w_next wq), x, mk. split; [|split; [exact E|split; [|exact S5]]].
    + rewrite (message_name _ _ _ _ _ E) in S2. inversion S2; subst st2. cbn in S4. rewrite String.eqb_refl in S4. exact S4.
    + inversion S2; subst st2. destruct (messages_items _ _ _ _ _ S3) as (_ & _ & _ & _ & _ & _ & _ & _ & xs & Exs & _). rewrite Exs. cbn.
      apply in_or_app. left. apply in_or_app. right. left. reflexivity.
  - intros n e He. destruct (keyed_there _ _ _ _ (fun st => p_messages_by_name (fst st)) _ message_step _ _ _ H5 n e He) as [X|X]; [right|left; exact X].
    cbn [fst] in X. rewrite (Tm n) in X. eapply last_import_in. exact X.
  - assert (G : forall l p w p' w', foldM define_message (p, w) l = Ok (p', w') -> NoDup (map sm_name l) -> forall x, In x (p_messages p') ->
      In x (p_messages p) \/ (In (m_name x) (map sm_name l) /\ sget (m_name x) (p_messages_by_name p') = Some x)).
    { clear. induction l as [|v l IH]; intros p w p' w' H D x Hx; cbn [foldM] in H; [injection H as <- <-; left; exact Hx|].
      apply bind_ok in H. destruct H as ([q wq] & H1 & H). cbn [map] in D. apply NoDup_cons_iff in D. destruct D as (D1 & D2).
      destruct (IH _ _ _ _ H D2 x Hx) as [Hq|(Hq & Hg)]; [|right; split; [right; exact Hq|exact Hg]].
      pose proof H1 as H1'. unfold define_message in H1. apply bind_ok in H1. destruct H1 as ([y mk] & E & H1). rewrite (message_name _ _ _ _ _ E) in H1.
      inversion H1; subst q wq. cbn in Hq. apply in_app_or in Hq. destruct Hq as [Hq|[<- | []]]; [left; exact Hq|right].
      rewrite (message_name _ _ _ _ _ E). split; [left; reflexivity|].
      pose proof (keyed_fold _ _ _ _ (fun st => p_messages_by_name (fst st)) _ message_step _ _ _ H _ D1) as R. cbn [fst] in R. rewrite R.
      cbn. rewrite String.eqb_refl. reflexivity. }
    intros x Hx. destruct (G _ _ _ _ _ H5 Dm x Hx) as [Hn|Hn]; [|exact Hn]. exfalso. rewrite E4, E3, E2, F1 in Hn. destruct Hn.
Qed.
