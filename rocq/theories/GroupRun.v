(** C91: members of a message that are put into a message of their own. Protocols. *)

From Coq Require Import Arith NArith ZArith Ascii String List Bool Lia ZifyBool ZifyN ZifyNat.
From Verif Require Import Base Schema Codec Compiler Access SpecStruct StructFacts SpecComp CompFacts Runtime Gen SpecWire SpecRun SpecApart
  MsgFacts LinkThms ItemsThms EvolveMore ApartThms GroupThms SpecGroup GroupComp.
Import ListNotations.
Local Open Scope N_scope.
Local Open Scope list_scope.

Lemma messages_app : forall m solver w v l1 l2,
  protocol_from_model m solver w (with_messages v (l1 ++ l2)) =
  bind (protocol_from_model m solver w (with_messages v l1)) (fun pw => foldM define_message pw l2).
Proof.
  intros m solver w v l1 l2. unfold protocol_from_model. cbn [with_messages sp_name sp_imports sp_enums sp_structs sp_unions sp_messages].
  destruct (foldM (import_one solver) _ _) as [p| |]; [|reflexivity..]. cbn [bind].
  destruct (foldM define_enum p _) as [p'| |]; [|reflexivity..]. cbn [bind].
  destruct (foldM (define_struct m) _ _) as [[p2 w2]| |]; [|reflexivity..]. cbn [bind].
  destruct (foldM define_union p2 _) as [p3| |]; [|reflexivity..]. cbn [bind]. apply CompFacts.foldM_app.
Qed.

(** The numbers of a session. *)
Definition told (M : list message) (w : world) : Prop := numbered M (w_next w) /\ forall id, In id (w_embedded w) -> id < w_next w.
Lemma step_told : forall M w p w', told M w -> step_inv M w (p, w') -> told (M ++ p_messages p) w'.
Proof.
  intros M w p w' (_ & T2) [S1 (S2 & _) S3 S4]. cbn [fst snd] in *. split; [exact S1|]. intros id H. apply S3 in H.
  destruct H as [H|(x & y & Hx & (f & ty & Hf & Ht) & <-)]; [specialize (T2 _ H); lia|].
  apply S1. apply (pi_lmessages _ _ _ _ _ S4 x Hx). eapply within_deep; [exact Hf| |apply within_here]. rewrite Ht. constructor.
Qed.
Lemma session_told : forall m w ps, session m w ps -> told (msgs ps) w /\ forall p, In p ps -> KI (msgs ps) p.
Proof.
  intros m w ps H. induction H as [|w ps solver v p w' Hs (IH1 & IH2) Hq H].
  - split; [|intros p []]. split; [split; [intros x []|intros x y []]|intros id []].
  - assert (S : step_inv (msgs ps) w (p, w')).
    { eapply protocol_step; [exact (proj1 IH1)| |exact H]. intros n q Hn. apply IH2, (Hq _ _ Hn). }
    assert (E : msgs (ps ++ [p]) = msgs ps ++ p_messages p) by (unfold msgs; rewrite flat_map_app; cbn [flat_map]; rewrite app_nil_r; reflexivity).
    rewrite E. split; [exact (step_told _ _ _ _ IH1 S)|]. intros q Hi. apply in_app_or in Hi. destruct Hi as [Hi|[<-|[]]].
    + eapply KI_mono; [|apply IH2, Hi]. apply incl_appl, incl_refl.
    + apply (si_known _ _ _ S).
Qed.

(** Marks are the numbers of messages that are listed by name. *)
Lemma mfields_marks_named : forall env l fs n b mk fs' n' b' mk', mfields_from_model env fs n b mk l = Ok (fs', n', b', mk') ->
  forall id, In id mk' -> In id mk \/ exists v c t u, In v l /\ smf_info v = MTList c t /\ sget t (pe_messages env) = Some u /\ m_id u = id.
Proof.
  intros env. induction l as [|v l IH]; intros fs n b mk fs' n' b' mk' H id Hi.
  - cbn in H. injection H as _ _ _ <-. left. exact Hi.
  - apply mfields_step in H. destruct H as (f & k & Hf & _ & _ & H). destruct (IH _ _ _ _ _ _ _ _ H id Hi) as [K|(v' & c & t & u & K1 & K2)].
    2:{ right. exists v', c, t, u. split; [right; exact K1|exact K2]. }
    apply in_app_or in K. destruct K as [K|K]; [left; exact K|]. right. unfold mfield_from_model in Hf.
    destruct (smf_info v) as [t|c t|[c|]| |on t] eqn:Ev.
    + apply bind_ok in Hf. destruct Hf as ([s|x] & _ & Hf); [destruct (flattened s)|]; injection Hf as <- <-; destruct K.
    + apply bind_ok in Hf. destruct Hf as (r & Er & Hf). apply bind_ok in Hf. destruct Hf as (ty & _ & Hf).
      destruct r as [s|x]; injection Hf as <- <-; [destruct K|]. destruct K as [<-|[]]. exists v, c, t, x. split; [left; reflexivity|]. split; [exact Ev|].
      split; [|reflexivity]. unfold referenced_lookup in Er. destruct (sget t (pe_structs env)); [discriminate|]. destruct (sget t (pe_messages env)); [|discriminate].
      injection Er as ->. reflexivity.
    + apply bind_ok in Hf. destruct Hf as (ty & _ & Hf). injection Hf as <- <-. destruct K.
    + injection Hf as <- <-. destruct K.
    + injection Hf as <- <-. destruct K.
    + apply bind_ok in Hf. destruct Hf as ([i g] & _ & Hf). apply bind_ok in Hf. destruct Hf as (r & _ & Hf).
      destruct (mf_ty g) as [|[s|]| | | | | |]; try discriminate Hf. destruct (_ =? _); [|discriminate Hf]. injection Hf as <- <-. destruct K.
Qed.
Lemma marks_named : forall env i d x mk, message_from_model env i d = Ok (x, mk) -> forall id, In id mk ->
  exists v c t u, In v (sm_fields d) /\ smf_info v = MTList c t /\ sget t (pe_messages env) = Some u /\ m_id u = id.
Proof.
  intros env i d x mk H id Hi. unfold message_from_model in H. apply bind_ok in H. destruct H as ([[[fs n] b] mk'] & Hf & H).
  injection H as _ <-. destruct (mfields_marks_named _ _ _ _ _ _ _ _ _ _ Hf id Hi) as [[]|K]. exact K.
Qed.

Lemma marks_same : forall w1 w2, (forall n, In n (w_embedded w2) <-> In n (w_embedded w1)) -> forall n, marked w2 n = marked w1 n.
Proof.
  intros w1 w2 H n. unfold marked. apply eq_true_iff_eq. rewrite !existsb_exists. split; intros (k & K1 & K2); exists k; (split; [apply H, K1|exact K2]).
Qed.

Section Grouped.
Variables (m : mode) (w : world) (solver : resolver) (v : sprotocol) (pre : list smessage).
Variables (before members after : list smfield) (grp outer flat : smessage) (p1 : protocol) (w1 : world).
Hypothesis Hg : grouped before members after grp outer flat.
Hypothesis H1 : protocol_from_model m solver w (with_messages v (pre ++ [grp; outer])) = Ok (p1, w1).
Hypothesis Hn : sget (sm_name grp) (p_structs_by_name p1) = None.


Theorem protocol_grouped : exists p0 w0 p2 w2 y x z,
  protocol_from_model m solver w (with_messages v pre) = Ok (p0, w0) /\
  protocol_from_model m solver w (with_messages v (pre ++ [flat])) = Ok (p2, w2) /\
  p_messages p1 = p_messages p0 ++ [y; x] /\ p_messages p2 = p_messages p0 ++ [z] /\
  m_id y = w_next w0 /\ m_id x = w_next w0 + 1 /\ m_id z = w_next w0 /\ m_name x = sm_name outer /\ m_name z = m_name x /\ m_size z = m_size x /\
  length (m_fields y) = length members /\ (forall n, marked w2 n = marked w1 n) /\
  (exists fb fa gn gs ge, shape x y z (length before) fb fa gn gs ge) /\
  ((forall M, told M w -> (forall name q, r_protocol solver name = Some q -> KI M q) ->
    marked w1 (m_id y) = false /\ marked w1 (m_id x) = false)).
Proof.
  rewrite messages_app in H1. apply bind_ok in H1. destruct H1 as ([p0 w0] & H0 & H). cbn [foldM] in H.
  apply bind_ok in H. destruct H as ([pa wa] & Ha & H). apply bind_ok in H. destruct H as ([pb wb] & Hb & H). injection H as -> ->.
  unfold define_message in Ha, Hb. apply bind_ok in Ha. destruct Ha as ([y ky] & Hy & Ha). injection Ha as <- <-.
  apply bind_ok in Hb. destruct Hb as ([x kx] & Hx & Hb). injection Hb as <- <-. cbn [add_message p_structs_by_name p_endianness p_messages_by_name p_unions_by_name p_messages w_next w_embedded] in *.
  assert (Ny : m_name y = sm_name grp). { unfold message_from_model in Hy. apply bind_ok in Hy. destruct Hy as ([[[? ?] ?] ?] & _ & Hy). injection Hy as <- <-. reflexivity. }
  assert (Nx : m_name x = sm_name outer). { unfold message_from_model in Hx. apply bind_ok in Hx. destruct Hx as ([[[? ?] ?] ?] & _ & Hx). injection Hx as <- <-. reflexivity. }
  rewrite Ny in Hx.
  set (env := {| pe_endianness := p_endianness p0; pe_structs := p_structs_by_name p0; pe_messages := p_messages_by_name p0; pe_unions := p_unions_by_name p0 |}) in *.
  destruct (message_grouped before members after grp outer flat env (w_next w0) (w_next w0 + 1) (w_next w0) y ky x kx Hg Hn Hy Hx)
    as (z & kz & Hz & I1 & I2 & I3 & I4 & I5 & I6 & I7 & I8).
  exists p0, w0. do 2 eexists. exists y, x, z. split; [exact H0|].
  split; [rewrite messages_app, H0; cbn [bind foldM]; unfold define_message; fold env; rewrite Hz; cbn [bind]; reflexivity|].
  cbn [add_message p_messages]. split; [rewrite <- app_assoc; reflexivity|]. split; [reflexivity|].
  do 7 (split; [assumption|]). split.
  { apply marks_same. cbn [w_embedded]. intro n. rewrite !in_app_iff, I7. tauto. }
  split; [exact I8|]. intros M HM HK.
  pose proof (protocol_step _ _ _ _ _ _ M (proj1 HM) HK H0) as S. pose proof (step_told _ _ _ _ HM S) as (T1 & T2).
  pose proof (si_known _ _ _ S) as D. cbn [fst] in D.
  assert (V : forall t u, sget t (p_messages_by_name p0) = Some u -> m_id u < w_next w0).
  { intros t u Hu. apply T1. apply (pi_messages _ _ _ _ _ D t u Hu). apply within_here. }
  assert (B : forall n, In n (w_embedded w0 ++ ky ++ kx) -> n < w_next w0).
  { intros n Hi. rewrite !in_app_iff in Hi. destruct Hi as [Hi|[Hi|Hi]]; [exact (T2 _ Hi)|..].
    - destruct (marks_named _ _ _ _ _ Hy n Hi) as (d & c & t & u & _ & _ & Hu & <-). exact (V _ _ Hu).
    - destruct (marks_named _ _ _ _ _ Hx n Hi) as (d & c & t & u & Hd & Et & Hu & <-). cbn [pe_messages] in Hu. rewrite sget_sinsert in Hu.
      destruct (String.eqb_spec t (sm_name grp)) as [->|_]; [|exact (V _ _ Hu)]. exfalso.
      destruct Hg as (_ & _ & (f & E3 & Ef & _) & _ & N1 & _). rewrite E3 in Hd. apply in_app_or in Hd.
      assert (R : refers d (sm_name grp)) by (unfold refers; rewrite Et; reflexivity).
      destruct Hd as [Hd|[<-|Hd]]; [exact (N1 _ (or_introl Hd) R)|congruence|exact (N1 _ (or_intror Hd) R)]. }
  split; unfold marked; cbn [w_embedded]; apply Bool.not_true_iff_false; rewrite existsb_exists; intros (n & Hi & E);
    apply N.eqb_eq in E; rewrite <- app_assoc in Hi; specialize (B _ Hi); lia.
Qed.

(** ** Writing, the format and reading *)
Theorem protocol_group_write : forall m', exists p2 w2 l y x z,
  protocol_from_model m solver w (with_messages v (pre ++ [flat])) = Ok (p2, w2) /\
  p_messages p1 = l ++ [y; x] /\ p_messages p2 = l ++ [z] /\ m_name x = sm_name outer /\ m_name z = sm_name outer /\
  (forall St (o : sink St) val val' s, flattens (length before) (length members) val val' -> write_msg m' o z val' s = write_msg m' o x val s) /\
  (forall pres val val' b, flattens (length before) (length members) val val' -> (enc_msg m' pres z val' b <-> enc_msg m' pres x val b)).
Proof.
  intros m'. destruct protocol_grouped as (p0 & w0 & p2 & w2 & y & x & z & _ & P1 & P2 & P3 & _ & _ & _ & Q1 & Q2 & _ & Q3 & _ & (fb & fa & gn & gs & ge & [S1 S2 S3 S4 S5 S6]) & _).
  exists p2, w2, (p_messages p0), y, x, z. do 4 (split; [assumption|]). split; [congruence|]. split.
  - intros St o val val' s (vb & vg & va & L1 & L2 & -> & ->). eapply write_grouped; eauto; congruence.
  - intros pres val val' b (vb & vg & va & L1 & L2 & -> & ->). eapply enc_grouped; eauto; congruence.
Qed.

Theorem protocol_group_read : forall m' M, told M w -> (forall name q, r_protocol solver name = Some q -> KI M q) -> exists p2 w2 l y x z,
  protocol_from_model m solver w (with_messages v (pre ++ [flat])) = Ok (p2, w2) /\
  p_messages p1 = l ++ [y; x] /\ p_messages p2 = l ++ [z] /\ m_name x = sm_name outer /\ m_name z = sm_name outer /\
  forall b, len b < 2 ^ 64 ->
    same_reading (length before) (length members) (read_msg m' (marked w1) x b) (read_msg m' (marked w2) z b).
Proof.
  intros m' M HM HK. destruct protocol_grouped as (p0 & w0 & p2 & w2 & y & x & z & _ & P1 & P2 & P3 & I1 & I2 & I3 & Q1 & Q2 & _ & Q3 & EM & (fb & fa & gn & gs & ge & [S1 S2 S3 S4 S5 S6]) & U).
  exists p2, w2, (p_messages p0), y, x, z. do 4 (split; [assumption|]). split; [congruence|]. intros b Hl.
  rewrite (read_ext m' (marked w1) (marked w2)) by exact EM.
  destruct (U M HM HK) as (U1 & U2).
  pose proof (read_grouped m' x y z fb fa gn gs ge S2 S3 S4 (marked w1) (marked w1) b ltac:(left; congruence) ltac:(congruence) ltac:(reflexivity) Hl) as R.
  unfold flat_result in R. destruct (read_msg m' (marked w1) x b) as [[n val]|e|]; [|rewrite R; reflexivity|rewrite R; exact I].
  destruct R as (vb & vg & va & L1 & L2 & _ & -> & ->). cbn [same_reading]. split; [reflexivity|]. exists vb, vg, va. repeat split; congruence.
Qed.
End Grouped.

Theorem session_group_read : forall m m' w ps solver v pre before members after grp outer flat p1 w1,
  session m w ps -> (forall name q, r_protocol solver name = Some q -> In q ps) -> grouped before members after grp outer flat ->
  protocol_from_model m solver w (with_messages v (pre ++ [grp; outer])) = Ok (p1, w1) -> sget (sm_name grp) (p_structs_by_name p1) = None ->
  exists p2 w2 l y x z,
  protocol_from_model m solver w (with_messages v (pre ++ [flat])) = Ok (p2, w2) /\
  p_messages p1 = l ++ [y; x] /\ p_messages p2 = l ++ [z] /\ m_name x = sm_name outer /\ m_name z = sm_name outer /\
  forall b, len b < 2 ^ 64 ->
    same_reading (length before) (length members) (read_msg m' (marked w1) x b) (read_msg m' (marked w2) z b).
Proof.
  intros m m' w ps solver v pre before members after grp outer flat p1 w1 Hs Hq Hg H1 Hn. destruct (session_told _ _ _ Hs) as (T & K).
  eapply protocol_group_read; eauto.
Qed.

(** ** Other messages behind *)
Lemma messages_kept : forall l p w p' w', foldM define_message (p, w) l = Ok (p', w') ->
  (exists q, p_messages p' = p_messages p ++ q) /\ p_structs_by_name p' = p_structs_by_name p.
Proof.
  induction l as [|v l IH]; intros p w p' w' H; cbn [foldM] in H.
  - injection H as -> _. split; [exists []; rewrite app_nil_r; reflexivity|reflexivity].
  - apply bind_ok in H. destruct H as ([p1 w1] & H1 & H). unfold define_message in H1. apply bind_ok in H1. destruct H1 as ([x k] & _ & H1). injection H1 as <- <-.
    apply IH in H. destruct H as ((q & ->) & ->). cbn [add_message p_messages p_structs_by_name]. split; [|reflexivity]. rewrite <- app_assoc. eexists. reflexivity.
Qed.
Section Followed.
Variables (m : mode) (w : world) (solver : resolver) (v : sprotocol) (pre post post' : list smessage).
Variables (before members after : list smfield) (grp outer flat : smessage) (p1 p2 : protocol) (w1 w2 : world).
Hypothesis Hg : grouped before members after grp outer flat.
Hypothesis H1 : protocol_from_model m solver w (with_messages v (pre ++ [grp; outer] ++ post)) = Ok (p1, w1).
Hypothesis H2 : protocol_from_model m solver w (with_messages v (pre ++ [flat] ++ post')) = Ok (p2, w2).
Hypothesis Hn : sget (sm_name grp) (p_structs_by_name p1) = None.

Lemma followed : exists l l1 l2 y x z fb fa gn gs ge, p_messages p1 = l ++ y :: x :: l1 /\ p_messages p2 = l ++ z :: l2 /\
  m_name x = sm_name outer /\ m_name z = sm_name outer /\ m_size z = m_size x /\ length (m_fields y) = length members /\ shape x y z (length before) fb fa gn gs ge.
Proof.
  rewrite app_assoc, messages_app in H1, H2. apply bind_ok in H1. destruct H1 as ([q1 u1] & R1 & K1). apply bind_ok in H2. destruct H2 as ([q2 u2] & R2 & K2).
  apply messages_kept in K1. destruct K1 as ((l1 & K1) & K3). apply messages_kept in K2. destruct K2 as ((l2 & K2) & _).
  rewrite K3 in Hn. destruct (protocol_grouped m w solver v pre before members after grp outer flat q1 u1 Hg R1 Hn)
    as (p0 & w0 & p2' & w2' & y & x & z & _ & P1 & P2 & P3 & _ & _ & _ & Q1 & Q2 & Q4 & Q3 & _ & (fb & fa & gn & gs & ge & S) & _).
  rewrite R2 in P1. injection P1 as <- <-. rewrite P2 in K1. rewrite P3 in K2. rewrite <- app_assoc in K1, K2.
  exists (p_messages p0), l1, l2, y, x, z, fb, fa, gn, gs, ge. repeat split; try assumption; congruence || apply S.
Qed.
Theorem followed_all : forall m', exists l l1 l2 y x z,
  p_messages p1 = l ++ y :: x :: l1 /\ p_messages p2 = l ++ z :: l2 /\ m_name x = sm_name outer /\ m_name z = sm_name outer /\
  (forall St (o : sink St) val val' s, flattens (length before) (length members) val val' -> write_msg m' o z val' s = write_msg m' o x val s) /\
  (forall pres val val' b, flattens (length before) (length members) val val' -> (enc_msg m' pres z val' b <-> enc_msg m' pres x val b)) /\
  forall emb emb' b, emb (m_id y) = emb (m_id x) \/ (forall f ty u, In f (m_fields y) -> mf_ty f <> TList ty u) ->
    emb' (m_id z) = emb (m_id x) -> (forall f u t, In f (m_fields z) -> inside (mf_ty f) u -> within u t -> emb' (m_id t) = emb (m_id t)) -> len b < 2 ^ 64 ->
    same_reading (length before) (length members) (read_msg m' emb x b) (read_msg m' emb' z b).
Proof.
  intros m'. destruct followed as (l & l1 & l2 & y & x & z & fb & fa & gn & gs & ge & P2 & P3 & Q1 & Q2 & _ & Q3 & [S1 S2 S3 S4 S5 S6]).
  exists l, l1, l2, y, x, z. do 4 (split; [assumption|]). split; [|split].
  - intros St o val val' s (vb & vg & va & L1 & L2 & -> & ->). eapply write_grouped; eauto; congruence.
  - intros pres val val' b (vb & vg & va & L1 & L2 & -> & ->). eapply enc_grouped; eauto; congruence.
  - intros emb emb' b U1 U2 U3 Hl. pose proof (read_grouped m' x y z fb fa gn gs ge S2 S3 S4 emb emb' b U1 U2 U3 Hl) as R.
    unfold flat_result in R. destruct (read_msg m' emb x b) as [[n val]|e|]; [|rewrite R; reflexivity|rewrite R; exact I].
    destruct R as (vb & vg & va & L1 & L2 & _ & -> & ->). cbn [same_reading]. split; [reflexivity|]. exists vb, vg, va. repeat split; congruence.
Qed.
End Followed.
