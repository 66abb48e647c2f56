(** Proofs for C96: whole protocols. *)

From Coq Require Import Arith NArith ZArith String List Bool Lia ZifyBool ZifyN ZifyNat.
From Verif Require Import Base Schema Codec Compiler Access Runtime Gen SpecStruct SpecReadable SpecWire SpecLimit LimitComp StructFacts SpecKind KindComp KindMsg KindThms.
Import ListNotations.
Local Open Scope N_scope.
Ltac Zify.zify_post_hook ::= idtac.

Lemma both_ok : forall {A B} (P : A -> B -> Prop) r r' a a', both P r r' -> r = Ok a -> r' = Ok a' -> P a a'.
Proof. intros A B P r r' a a' H -> ->. exact H. Qed.
Lemma entries_refl : forall {A} (P : A -> A -> Prop) (l : smap A), (forall a, P a a) -> entries_alike P l l.
Proof. intros A P l H. apply forall2_refl. auto. Qed.
Lemma entries_and : forall {A} (P Q : A -> A -> Prop) l l', entries_alike P l l' -> entries_alike Q l l' -> entries_alike (fun a b => P a b /\ Q a b) l l'.
Proof. intros A P Q l l' F. induction F as [|a a' l l' [E H] F IH]; intro G; inversion G; subst; constructor; [intuition|apply IH; assumption]. Qed.

(** ** Structures *)

Definition structs_alike (G : Prop) (p p' : protocol) : Prop :=
  p_endianness p = Little /\ p_endianness p' = Little /\
  entries_alike like_struct (p_structs_by_name p) (p_structs_by_name p') /\ Forall2 like_struct (p_structs p) (p_structs p') /\
  (G -> entries_alike flat_alike (p_structs_by_name p) (p_structs_by_name p')) /\
  p_messages_by_name p' = p_messages_by_name p /\ p_unions_by_name p' = p_unions_by_name p /\ p_messages p' = p_messages p /\ p_unions p' = p_unions p.

Lemma start_alike : forall solver name imports p, foldM (import_one solver) (protocol_empty name) imports = Ok p -> forall enums enums' q q',
  foldM define_enum p enums = Ok q -> foldM define_enum p enums' = Ok q' -> forall G, structs_alike G q q'.
Proof.
  intros solver name imports p Hp enums enums' q q' Hq Hq' G.
  assert (Little0 : p_endianness p = Little).
  { assert (K : forall l a b, foldM (import_one solver) a l = Ok b -> p_endianness b = p_endianness a).
    { induction l as [|v l IH]; intros a b H; cbn [foldM] in H; [injection H as <-; reflexivity|].
      apply bind_ok in H. destruct H as (c & H1 & H2). rewrite (IH _ _ H2). clear -H1. unfold import_one in H1.
      apply bind_ok in H1. destruct H1 as (r & _ & H1). cbv zeta in H1.
      destruct (sget _ (p_structs_by_name r)); [apply bind_ok in H1; destruct H1 as (? & _ & H1); injection H1 as <-; reflexivity|].
      destruct (sget _ (p_enums_by_name r)); [apply bind_ok in H1; destruct H1 as (? & _ & H1); injection H1 as <-; reflexivity|].
      destruct (sget _ (p_unions_by_name r)); [apply bind_ok in H1; destruct H1 as (? & _ & H1); injection H1 as <-; reflexivity|].
      apply bind_ok in H1; destruct H1 as (? & _ & H1). apply bind_ok in H1; destruct H1 as (? & _ & H1). injection H1 as <-. reflexivity. }
    rewrite (K _ _ _ Hp). reflexivity. }
  assert (K : forall l a b, foldM define_enum a l = Ok b -> p_endianness b = p_endianness a /\ p_structs_by_name b = p_structs_by_name a /\
    p_messages_by_name b = p_messages_by_name a /\ p_unions_by_name b = p_unions_by_name a /\ p_structs b = p_structs a /\ p_messages b = p_messages a /\ p_unions b = p_unions a).
  { induction l as [|v l IH]; intros a b H; cbn [foldM] in H; [injection H as <-; repeat split|].
    apply bind_ok in H. destruct H as (c & H1 & H2). unfold define_enum in H1. apply bind_ok in H1. destruct H1 as (e & _ & H1). injection H1 as <-.
    apply IH in H2. cbn in H2. exact H2. }
  apply K in Hq, Hq'. destruct Hq as (A1 & A2 & A3 & A4 & A5 & A6 & A7), Hq' as (B1 & B2 & B3 & B4 & B5 & B6 & B7).
  unfold structs_alike. rewrite A1, A2, A3, A4, A5, A6, A7, B1, B2, B3, B4, B5, B6, B7. split; [exact Little0|]. split; [exact Little0|].
  split; [apply entries_refl, like_struct_refl|]. split; [apply forall2_refl, like_struct_refl|].
  split; [intros _; apply entries_refl, flat_refl|]. repeat split.
Qed.

Lemma struct_step : forall m (G : Prop) pw pw' d d', structs_alike G (fst pw) (fst pw') -> snd pw' = snd pw -> retyped_struct d d' -> (G -> sound m d d') ->
  both (fun a a' => structs_alike G (fst a) (fst a') /\ snd a' = snd a) (define_struct m pw d) (define_struct m pw' d').
Proof.
  intros m G [p w] [p' w'] d d' (E1 & E2 & Hs & Hl & Hg & R1 & R2 & R3 & R4) Ew Hd HG. cbn [fst snd] in *. subst w'. unfold define_struct.
  rewrite E1, E2. eapply both_bind; [eapply like_model; [exact Hs|exact Hd]|]. intros s s' Es Es' Hlike. cbn.
  destruct (like_sizes _ _ Hlike) as (_ & En & _ & Hk). split; [|reflexivity]. unfold structs_alike. cbn. rewrite En.
  split; [exact E1|]. split; [exact E2|]. split; [constructor; [auto|exact Hs]|]. split; [apply Forall2_app; auto|].
  split; [|repeat split; assumption]. intro g. constructor; [|apply Hg, g]. split; [reflexivity|]. cbn.
  destruct (HG g) as [->|(N1 & N2 & M1 & M2)]; [eapply flat_same; eassumption|].
  pose proof (flat_right _ _ _ _ _ _ _ Es N1 M1) as F1. pose proof (flat_right _ _ _ _ _ _ _ Es' N2 M2) as F2.
  unfold flat_alike. destruct (flattened s) as [f|], (flattened s') as [f'|]; try exact I.
  - specialize (F1 f eq_refl). specialize (F2 f' eq_refl). lia.
  - rewrite (F1 f eq_refl). auto.
  - rewrite (F2 f' eq_refl). auto.
Qed.
Lemma structs_run : forall m (G : Prop) l l', Forall2 (fun d d' => retyped_struct d d' /\ (G -> sound m d d')) l l' ->
  forall pw pw', structs_alike G (fst pw) (fst pw') -> snd pw' = snd pw ->
  both (fun a a' => structs_alike G (fst a) (fst a') /\ snd a' = snd a) (foldM (define_struct m) pw l) (foldM (define_struct m) pw' l').
Proof.
  intros m G l l' F pw pw' H E. eapply (both_foldM (fun a a' => structs_alike G (fst a) (fst a') /\ snd a' = snd a)); [|exact F|auto].
  intros s s' a a' [H1 H2] [H3 H4]. apply struct_step; assumption.
Qed.

(** ** Unions and messages leave the structures alone *)

Lemma unions_keep : forall l p p', foldM define_union p l = Ok p' -> p_structs_by_name p' = p_structs_by_name p /\ p_structs p' = p_structs p /\
  p_messages_by_name p' = p_messages_by_name p /\ p_messages p' = p_messages p /\ p_endianness p' = p_endianness p /\ exists us, p_unions p' = (p_unions p ++ us)%list.
Proof.
  induction l as [|v l IH]; intros p p' H; cbn [foldM] in H; [injection H as <-; repeat split; exists []; rewrite app_nil_r; reflexivity|].
  apply bind_ok in H. destruct H as (q & H1 & H2). unfold define_union in H1. apply bind_ok in H1. destruct H1 as (u & _ & H1). injection H1 as <-.
  apply IH in H2. cbn in H2. destruct H2 as (A1 & A2 & A3 & A4 & A5 & us & A6). repeat (split; [assumption|]). exists (u :: us). rewrite A6, <- app_assoc. reflexivity.
Qed.
Lemma messages_keep : forall l pw pw', foldM define_message pw l = Ok pw' -> p_structs_by_name (fst pw') = p_structs_by_name (fst pw) /\
  p_structs (fst pw') = p_structs (fst pw) /\ p_unions (fst pw') = p_unions (fst pw).
Proof.
  induction l as [|v l IH]; intros [p w] pw' H; cbn [foldM] in H; [injection H as <-; repeat split|].
  apply bind_ok in H. destruct H as (q & H1 & H2). unfold define_message in H1. apply bind_ok in H1. destruct H1 as ([x mk] & _ & H1). injection H1 as <-.
  apply IH in H2. exact H2.
Qed.

Record stages (m : mode) (solver : resolver) (w : world) (d : sprotocol) (p : protocol) (w1 : world) := {
  st_p0 : protocol; st_p1 : protocol; st_p2 : protocol; st_w2 : world; st_p3 : protocol;
  st_0 : foldM (import_one solver) (protocol_empty (sp_name d)) (sp_imports d) = Ok st_p0;
  st_1 : foldM define_enum st_p0 (sp_enums d) = Ok st_p1;
  st_2 : foldM (define_struct m) (st_p1, w) (sp_structs d) = Ok (st_p2, st_w2);
  st_3 : foldM define_union st_p2 (sp_unions d) = Ok st_p3;
  st_4 : foldM define_message (st_p3, st_w2) (sp_messages d) = Ok (p, w1) }.
Lemma run_stages : forall m solver w d p w1, protocol_from_model m solver w d = Ok (p, w1) -> inhabited (stages m solver w d p w1).
Proof.
  intros m solver w d p w1 H. unfold protocol_from_model in H. apply bind_ok in H. destruct H as (p0 & H0 & H). apply bind_ok in H. destruct H as (p1 & H1 & H).
  apply bind_ok in H. destruct H as ([p2 w2] & H2 & H). apply bind_ok in H. destruct H as (p3 & H3 & H). constructor. econstructor; eassumption.
Qed.

Section Run.
Variables (m : mode) (solver : resolver) (w : world) (d d' : sprotocol) (p p' : protocol) (w1 w1' : world).
Hypothesis Hd : retyped d d'.
Hypothesis Hp : protocol_from_model m solver w d = Ok (p, w1).
Hypothesis Hp' : protocol_from_model m solver w d' = Ok (p', w1').

Lemma structs_stage : forall G : Prop, (G -> Forall2 (sound m) (sp_structs d) (sp_structs d')) -> forall (S : stages m solver w d p w1) (S' : stages m solver w d' p' w1'),
  structs_alike G (st_p2 _ _ _ _ _ _ S) (st_p2 _ _ _ _ _ _ S') /\ st_w2 _ _ _ _ _ _ S' = st_w2 _ _ _ _ _ _ S.
Proof.
  intros G HG [p0 p1 p2 w2 p3 K0 K1 K2 K3 K4] [p0' p1' p2' w2' p3' K0' K1' K2' K3' K4']. cbn. destruct Hd as (E1 & E2 & E3 & Fs & Fu).
  rewrite E1, E2 in K0'. rewrite K0 in K0'. injection K0' as <-.
  pose proof (start_alike _ _ _ _ K0 _ _ _ _ K1 K1' G) as H1.
  assert (F : Forall2 (fun d d' => retyped_struct d d' /\ (G -> sound m d d')) (sp_structs d) (sp_structs d')).
  { clear -Fs HG. revert HG. induction Fs as [|a b l l' H F IH]; intro HG; constructor; [|apply IH; intro g; specialize (HG g); inversion HG; assumption].
    split; [exact H|]. intro g. specialize (HG g). inversion HG; assumption. }
  pose proof (structs_run m G _ _ F (p1, w) (p1', w) H1 eq_refl) as K. apply (both_ok _ _ _ _ _ K K2 K2').
Qed.

Lemma layout_run : Forall2 same_layout (p_structs p) (p_structs p') /\
  forall n, match sget n (p_structs_by_name p), sget n (p_structs_by_name p') with Some s, Some s' => same_layout s s' | None, None => True | _, _ => False end.
Proof.
  destruct (run_stages _ _ _ _ _ _ Hp) as [S], (run_stages _ _ _ _ _ _ Hp') as [S'].
  destruct (structs_stage False (fun f => match f with end) S S') as [(_ & _ & Hs & Hl & _) _].
  destruct S as [p0 p1 p2 w2 p3 K0 K1 K2 K3 K4], S' as [p0' p1' p2' w2' p3' K0' K1' K2' K3' K4']. cbn in *.
  destruct (unions_keep _ _ _ K3) as (A1 & A2 & _). destruct (unions_keep _ _ _ K3') as (B1 & B2 & _).
  destruct (messages_keep _ _ _ K4) as (A3 & A4 & _). destruct (messages_keep _ _ _ K4') as (B3 & B4 & _). cbn in A3, A4, B3, B4.
  rewrite A3, A4, B3, B4, A1, A2, B1, B2. split.
  - clear -Hl. induction Hl; constructor; [apply like_layout|]; assumption.
  - intro n. pose proof (alike_get _ n _ _ Hs) as K. destruct (sget n (p_structs_by_name p2)), (sget n (p_structs_by_name p2')); try contradiction; [apply like_layout, K|exact I].
Qed.

Lemma forall2_split : forall {A B} (P : A -> B -> Prop) l l' r r', length l' = length l -> Forall2 P (l ++ r) (l' ++ r') -> Forall2 P l l' /\ Forall2 P r r'.
Proof.
  intros A B P l. induction l as [|a l IH]; intros [|a' l'] r r' E F; try discriminate; [auto|]. cbn in E. injection E as E. inversion F; subst.
  destruct (IH l' r r' E) as [F1 F2]; [assumption|]. auto.
Qed.

Lemma unions_run : forall structs structs' ms, entries_alike like_struct structs structs' -> entries_alike flat_alike structs structs' ->
  forall l l', Forall2 retyped_union l l' -> forall q q' r r', p_structs_by_name q = structs -> p_structs_by_name q' = structs' ->
  p_messages_by_name q = ms -> p_messages_by_name q' = ms -> length (p_unions q') = length (p_unions q) ->
  entries_alike like_union (p_unions_by_name q) (p_unions_by_name q') ->
  foldM define_union q l = Ok r -> foldM define_union q' l' = Ok r' -> Forall2 same_numbers (p_unions r) (p_unions r') \/ p_unions q = p_unions q' /\ Forall2 same_numbers (skipn (length (p_unions q)) (p_unions r)) (skipn (length (p_unions q)) (p_unions r')) ->
  entries_alike like_union (p_unions_by_name r) (p_unions_by_name r').
Proof.
  intros structs structs' ms Hs Hf l l' F.
  assert (Main : forall q q' r r', p_structs_by_name q = structs -> p_structs_by_name q' = structs' ->
    p_messages_by_name q = ms -> p_messages_by_name q' = ms -> entries_alike like_union (p_unions_by_name q) (p_unions_by_name q') ->
    foldM define_union q l = Ok r -> foldM define_union q' l' = Ok r' ->
    forall t t', p_unions r = (p_unions q ++ t)%list -> p_unions r' = (p_unions q' ++ t')%list -> Forall2 same_numbers t t' ->
    entries_alike like_union (p_unions_by_name r) (p_unions_by_name r')).
  { induction F as [|v v' l l' Hv F IH]; intros q q' r r' E1 E2 E3 E4 Hu Hr Hr' t t' Et Et' Hn; cbn [foldM] in Hr, Hr'.
    - injection Hr as <-. injection Hr' as <-. exact Hu.
    - apply bind_ok in Hr. destruct Hr as (q1 & D & Hr). apply bind_ok in Hr'. destruct Hr' as (q1' & D' & Hr').
      unfold define_union in D, D'. apply bind_ok in D. destruct D as (u & U & D). apply bind_ok in D'. destruct D' as (u' & U' & D').
      injection D as <-. injection D' as <-. rewrite E1, E3 in U. rewrite E2, E4 in U'.
      pose proof (like_union_model _ _ _ _ Hs Hf (entries_refl like_msg ms like_msg_refl) v v' Hv) as K. apply (both_ok _ _ _ _ _ K U) in U'. destruct U' as [Un Ul].
      destruct (unions_keep _ _ _ Hr) as (_ & _ & _ & _ & _ & us & Hus). destruct (unions_keep _ _ _ Hr') as (_ & _ & _ & _ & _ & us' & Hus'). cbn in Hus, Hus'.
      rewrite Hus, <- app_assoc in Et. rewrite Hus', <- app_assoc in Et'. apply app_inv_head in Et, Et'. cbn in Et, Et'. subst t t'. inversion Hn; subst.
      eapply (IH _ _ r r'); [..|exact Hr|exact Hr'|cbn; exact Hus|cbn; exact Hus'|assumption]; cbn; auto.
      rewrite Un. constructor; [auto|exact Hu]. }
  intros q q' r r' E1 E2 E3 E4 El Hu Hr Hr' Hn. destruct (unions_keep _ _ _ Hr) as (_ & _ & _ & _ & _ & us & Hus). destruct (unions_keep _ _ _ Hr') as (_ & _ & _ & _ & _ & us' & Hus').
  eapply (Main q q' r r'); eauto. destruct Hn as [Hn|[Hq Hn]].
  - rewrite Hus, Hus' in Hn. apply (forall2_split _ _ _ _ _ El Hn).
  - rewrite Hus, Hus', <- Hq in Hn. rewrite !skipn_app, !skipn_all, !Nat.sub_diag in Hn. exact Hn.
Qed.

Lemma messages_run : forall l q q' wx, p_endianness q = Little -> p_endianness q' = Little ->
  entries_alike like_struct (p_structs_by_name q) (p_structs_by_name q') -> entries_alike flat_alike (p_structs_by_name q) (p_structs_by_name q') ->
  entries_alike like_union (p_unions_by_name q) (p_unions_by_name q') -> entries_alike like_msg (p_messages_by_name q) (p_messages_by_name q') ->
  Forall2 like_msg (p_messages q) (p_messages q') ->
  both (fun a a' => entries_alike like_msg (p_messages_by_name (fst a)) (p_messages_by_name (fst a')) /\ Forall2 like_msg (p_messages (fst a)) (p_messages (fst a')) /\ snd a' = snd a)
    (foldM define_message (q, wx) l) (foldM define_message (q', wx) l).
Proof.
  induction l as [|v l IH]; intros q q' wx E1 E2 Hs Hf Hu Hm Hl; cbn [foldM]; [cbn; auto|].
  unfold define_message at 1 3. rewrite E1, E2. eapply both_bind.
  { eapply (both_bind (fun a a' => like_msg (fst a) (fst a') /\ snd a' = snd a) (fun a a' => exists x x' mk, like_msg x x' /\
      a = (add_message true q (m_name x) x, {| w_next := w_next wx + 1; w_embedded := (w_embedded wx ++ mk)%list |}) /\
      a' = (add_message true q' (m_name x') x', {| w_next := w_next wx + 1; w_embedded := (w_embedded wx ++ mk)%list |}))).
    - apply (like_message_model _ _ _ _ Hs Hf Hm _ _ Hu).
    - intros [x mk] [x' mk'] _ _ [Hx Hk]. cbn in *. subst mk'. exists x, x', mk. auto. }
  intros a a' _ _ (x & x' & mk & Hx & -> & ->). destruct (like_msg_head _ _ Hx) as (_ & En & _).
  apply IH; cbn; try assumption; [rewrite En; constructor; auto|apply Forall2_app; auto].
Qed.

Lemma wire_run : Forall2 (sound m) (sp_structs d) (sp_structs d') -> Forall2 same_numbers (p_unions p) (p_unions p') ->
  w1' = w1 /\ Forall2 same_format (p_messages p) (p_messages p') /\
  forall n, match sget n (p_messages_by_name p), sget n (p_messages_by_name p') with Some x, Some x' => same_format x x' | None, None => True | _, _ => False end.
Proof.
  intros HG HN. destruct (run_stages _ _ _ _ _ _ Hp) as [S], (run_stages _ _ _ _ _ _ Hp') as [S'].
  destruct (structs_stage True (fun _ => HG) S S') as [(E1 & E2 & Hs & Hl & Hf & R1 & R2 & R3 & R4) Ew]. specialize (Hf I).
  destruct S as [p0 p1 p2 w2 p3 K0 K1 K2 K3 K4], S' as [p0' p1' p2' w2' p3' K0' K1' K2' K3' K4']. cbn in *. subst w2'.
  destruct Hd as (_ & _ & Em & _ & Fu). rewrite Em in K4'.
  destruct (unions_keep _ _ _ K3) as (A1 & A2 & A3 & A4 & A5 & _). destruct (unions_keep _ _ _ K3') as (B1 & B2 & B3 & B4 & B5 & _).
  destruct (messages_keep _ _ _ K4) as (_ & _ & A6). destruct (messages_keep _ _ _ K4') as (_ & _ & B6). cbn in A6, B6.
  assert (Hu : entries_alike like_union (p_unions_by_name p3) (p_unions_by_name p3')).
  { eapply (unions_run _ _ _ Hs Hf _ _ Fu p2 p2' p3 p3'); try reflexivity; try assumption.
    - rewrite R4. reflexivity.
    - rewrite R2. apply entries_refl, like_union_refl.
    - left. rewrite <- A6, <- B6. exact HN. }
  assert (K : both (fun a a' => entries_alike like_msg (p_messages_by_name (fst a)) (p_messages_by_name (fst a')) /\ Forall2 like_msg (p_messages (fst a)) (p_messages (fst a')) /\ snd a' = snd a)
    (foldM define_message (p3, w2) (sp_messages d)) (foldM define_message (p3', w2) (sp_messages d))).
  { apply messages_run; rewrite ?A1, ?B1, ?A3, ?B3, ?A4, ?B4, ?A5, ?B5; try assumption.
    - rewrite R1. apply entries_refl, like_msg_refl.
    - rewrite R3. apply forall2_refl, like_msg_refl. }
  apply (both_ok _ _ _ _ _ K K4) in K4'. cbn in K4'. destruct K4' as (Hm & Hml & Hw). split; [exact Hw|]. split.
  - clear -Hml. induction Hml; constructor; [apply like_format|]; assumption.
  - intro n. pose proof (alike_get _ n _ _ Hm) as Q. destruct (sget n (p_messages_by_name p)), (sget n (p_messages_by_name p')); try contradiction; [apply like_format, Q|exact I].
Qed.
End Run.
