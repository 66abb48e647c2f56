(** Proofs for C88: what other limits do to the encodings. *)

From Coq Require Import Arith NArith ZArith String List Bool Lia ZifyBool ZifyN ZifyNat.
From Verif Require Import Base Schema Codec Compiler Access Bits BitsFacts CodecFacts Runtime Gen Loader SpecLoader SpecWire SpecExact SpecLimit MsgFacts SoundThms DecodeThms EncodeThms LimitComp.
Import ListNotations.
Local Open Scope N_scope.

Lemma prefix_type : forall n, exists ty, fixed_from_max_value n = Ok ty /\ N.of_nat (get_byte_size ty) = prefix_bytes n /\
  ty = (if n <? 2 ^ 8 then U8 else if n <? 2 ^ 16 then U16 else if n <? 2 ^ 32 then U32 else U64).
Proof.
  intro n. unfold fixed_from_max_value, prefix_bytes.
  destruct (N.ltb_spec (2 ^ 32 - 1) n), (N.ltb_spec (2 ^ 16 - 1) n), (N.ltb_spec (2 ^ 8 - 1) n), (N.ltb_spec n (2 ^ 8)), (N.ltb_spec n (2 ^ 16)), (N.ltb_spec n (2 ^ 32));
    try lia; eexists; (split; [reflexivity|]); split; reflexivity.
Qed.
Lemma kept_types : forall a b, kept a b -> ends_alike eq (fixed_from_max_value a) (fixed_from_max_value b).
Proof.
  intros a b H. destruct (prefix_type a) as (ta & -> & Ha & Ea), (prefix_type b) as (tb & -> & Hb & Eb). cbn. unfold kept, prefix_bytes in H. rewrite Ea, Eb.
  destruct (a <? 2 ^ 8), (a <? 2 ^ 16), (a <? 2 ^ 32), (b <? 2 ^ 8), (b <? 2 ^ 16), (b <? 2 ^ 32); (discriminate H || reflexivity).
Qed.
Definition wider (ty ty' : fixed_type) : Prop := (get_byte_size ty <= get_byte_size ty')%nat.
Lemma raised_types : forall a b, raised a b -> ends_alike wider (fixed_from_max_value a) (fixed_from_max_value b).
Proof.
  intros a b H. destruct (prefix_type a) as (ta & -> & Ha & Ea), (prefix_type b) as (tb & -> & Hb & Eb). cbn. unfold raised in H. unfold wider, prefix_bytes in *.
  destruct (N.ltb_spec a (2 ^ 8)), (N.ltb_spec a (2 ^ 16)), (N.ltb_spec a (2 ^ 32)), (N.ltb_spec b (2 ^ 8)), (N.ltb_spec b (2 ^ 16)), (N.ltb_spec b (2 ^ 32)); lia.
Qed.
Definition whatever (ty ty' : fixed_type) : Prop := True.
Lemma any_types : forall a b, ends_alike whatever (fixed_from_max_value a) (fixed_from_max_value b).
Proof. intros a b. destruct (prefix_type a) as (ta & -> & _), (prefix_type b) as (tb & -> & _). exact I. Qed.

(** The whole outcome is the same. *)
Lemma resized_eq_all : forall {A} (P : A -> A -> Prop) l l', (forall x x', P x x' -> x' = x) -> Forall2 P l l' -> l' = l.
Proof. intros A P l l' H F. induction F; [reflexivity|]. f_equal; auto. Qed.
Lemma resized_eq_entries : forall {A} (P : A -> A -> Prop) l l', (forall x x', P x x' -> x' = x) -> entries_alike P l l' -> l' = l.
Proof. intros A P l l' H F. induction F as [|[k v] [k' v'] l l' [E K] F IH]; [reflexivity|]. cbn in E, K. subst k'. rewrite (H _ _ K), IH. reflexivity. Qed.
Lemma resized_eq_protocol : forall p p', resized_protocol eq p p' -> p' = p.
Proof.
  intros [] [] (A1 & A2 & A3 & A4 & A5 & A6 & A7 & A8 & A9 & A10 & A11). cbn in *. subst. f_equal.
  - eapply resized_eq_entries; [apply resized_eq|exact A5].
  - eapply resized_eq_entries; [apply resized_eq_union|exact A7].
  - eapply resized_eq_all; [apply resized_eq|exact A9].
  - eapply resized_eq_all; [apply resized_eq_union|exact A11].
Qed.
Theorem kept_same : forall m sep l l', Forall2 (other_call kept) l l' ->
  loader_compile m (loader_after l') (solver_new sep) = loader_compile m (loader_after l) (solver_new sep).
Proof.
  intros m sep l l' F. apply alike_eq. eapply alike_impl; [|exact (resized_run kept eq kept_types (fun _ => eq_refl) m sep l l' F)].
  intros [ps w] [ps' w'] [H E]. cbn in H, E. subst w'. f_equal. symmetry. eapply resized_eq_all; [apply resized_eq_protocol|exact H].
Qed.
Theorem limits_accepted : forall m sep l l', Forall2 (other_call (fun _ _ => True)) l l' ->
  ends_alike (fun r r' => snd r' = snd r /\ map p_name (fst r') = map p_name (fst r) /\
      map (fun p => map m_name (p_messages p)) (fst r') = map (fun p => map m_name (p_messages p)) (fst r) /\
      map p_structs (fst r') = map p_structs (fst r) /\ map p_enums (fst r') = map p_enums (fst r))
    (loader_compile m (loader_after l) (solver_new sep)) (loader_compile m (loader_after l') (solver_new sep)).
Proof.
  intros m sep l l' F. eapply alike_impl; [|exact (resized_run _ whatever (fun a b _ => any_types a b) (fun _ => I) m sep l l' F)].
  intros [ps w] [ps' w'] [H E]. cbn [fst snd] in *. split; [exact E|]. clear E. induction H as [|p p' ps ps' Hp F' IH]; [repeat split; reflexivity|]. destruct IH as (I1 & I2 & I3 & I4).
  cbn [map]. rewrite I1, I2, I3, I4. destruct Hp as (A1 & A2 & A3 & A4 & A5 & A6 & A7 & A8 & A9 & A10 & A11). rewrite A1, A8, A10.
  repeat split; try reflexivity. f_equal. clear - A9. induction A9 as [|x x' xs xs' Hx F IH]; [reflexivity|]. cbn [map]. rewrite IH, (proj2 (proj2 (resized_size _ _ _ Hx))). reflexivity.
Qed.

(** ** Encodings *)
Definition inner (t : mfield_type) (u : value) (y : message) (z : value) : Prop :=
  (t = TRef (RMessage y) /\ u = z) \/
  (exists un on i k c, t = TUnion un on i /\ u = VUnion k (Some z) /\ nth_error (u_cases un) k = Some c /\ uc_item c = Some (RMessage y)).
Lemma held_fun : forall f w u u', held f w u -> held f w u' -> u = u'.
Proof. intros f w u u'. unfold held. destruct (mf_optional f); congruence. Qed.
Lemma holds_inner : forall f w y z, holds f w y z <-> exists u, held f w u /\ inner (mf_ty f) u y z.
Proof.
  intros f w y z. split.
  - intros [E H|u on i k c E H Hc Hi]; [exists z; split; [exact H|left; auto]|]. eexists. split; [exact H|]. right. exists u, on, i, k, c. auto.
  - intros (u & H & [[E ->]|(un & on & i & k & c & E & -> & Hc & Hi)]); [apply holds_message; assumption|]. eapply holds_case; eassumption.
Qed.
Lemma inner_fun : forall t u y z y' z', inner t u y z -> inner t u y' z' -> y = y' /\ z = z'.
Proof.
  intros t u y z y' z' [[E ->]|(un & on & i & k & c & E & -> & Hc & Hi)] [[E' E2]|(un' & on' & i' & k' & c' & E' & E2 & Hc' & Hi')]; try congruence.
  - split; congruence.
  - rewrite E in E'. injection E' as <- <- <-. injection E2 as <- <-. rewrite Hc in Hc'. injection Hc' as <-. rewrite Hi in Hi'. injection Hi' as <-. auto.
Qed.
Definition affected_type (t t' : mfield_type) (u : value) : Prop :=
  other_length t t' \/ exists y y' z, inner t u y z /\ inner t' u y' z /\ affected y y' z.
Definition affected_member (f f' : mfield) (w : value) : Prop := exists u, held f w u /\ affected_type (mf_ty f) (mf_ty f') u.
Lemma affected_members : forall x x' vs, (forall i f f', nth_error (m_fields x) i = Some f -> nth_error (m_fields x') i = Some f' -> mf_optional f' = mf_optional f) ->
  affected x x' (VMsg vs) <-> exists i f f' w, nth_error (m_fields x) i = Some f /\ nth_error (m_fields x') i = Some f' /\ nth_error vs i = Some w /\ affected_member f f' w.
Proof.
  intros x x' vs Ho. split.
  - intro H. inversion H as [? ? ? i f f' w u Hf Hf' Hw Hu Hl|? ? ? i f f' w y y' z Hf Hf' Hw Hy Hy' Ha]; subst.
    + exists i, f, f', w. repeat (split; [assumption|]). exists u. split; [exact Hu|left; exact Hl].
    + exists i, f, f', w. repeat (split; [assumption|]). apply holds_inner in Hy as (u & Hu & Hy), Hy' as (u' & Hu' & Hy').
      assert (held f w u') by (unfold held in *; rewrite (Ho _ _ _ Hf Hf') in Hu'; exact Hu'). rewrite <- (held_fun _ _ _ _ Hu H0) in *. exists u. split; [exact Hu|]. right. exists y, y', z. auto.
  - intros (i & f & f' & w & Hf & Hf' & Hw & u & Hu & [Hl|(y & y' & z & Hy & Hy' & Ha)]).
    + eapply affected_length; eassumption.
    + assert (held f' w u) by (unfold held in *; rewrite (Ho _ _ _ Hf Hf'); exact Hu).
      eapply affected_inside; [exact Hf|exact Hf'|exact Hw| | |exact Ha]; apply holds_inner; exists u; auto.
Qed.

Section Wire.
Variables (m : mode) (R : fixed_type -> fixed_type -> Prop).
Hypothesis RR : forall ty ty', R ty ty' -> wider ty ty'.
Local Notation one := (fun p : N => p = 1).
Definition compared (a : Prop) (b b' : bytes) : Prop := (length b <= length b')%nat /\ (a -> (length b < length b')%nat) /\ (b' = b \/ a).
Lemma compared_same : forall a b, (~ a) -> compared a b b.
Proof. intros a b H. split; [lia|]. split; [contradiction|]. left. reflexivity. Qed.
Definition grows (x : message) : Prop := forall x', resized R x x' -> forall v b b', encodes m x v b -> encodes m x' v b' -> compared (affected x x' v) b b'.
Lemma number_fun : forall e n v p p', number e n v p -> number e n v p' -> p = p'.
Proof. intros e n v p p' H H'. apply number_iff in H as (_ & ->), H' as (_ & ->). reflexivity. Qed.
Lemma prefix_compared : forall (a : Prop) e ty ty' n p p' data, R ty ty' -> (a <-> get_byte_size ty <> get_byte_size ty') -> number e (get_byte_size ty) n p -> number e (get_byte_size ty') n p' ->
  compared a (p ++ data) (p' ++ data).
Proof.
  intros a e ty ty' n p p' data Hr Ha H H'. apply RR in Hr. unfold wider in Hr. pose proof (proj1 H) as L. pose proof (proj1 H') as L'. unfold compared. rewrite !app_length.
  split; [lia|]. split; [intro K; apply Ha in K; lia|]. destruct (Nat.eq_dec (get_byte_size ty) (get_byte_size ty')) as [E|E]; [|right; apply Ha; exact E].
  left. rewrite <- E in H'. rewrite (number_fun _ _ _ _ _ H H'). reflexivity.
Qed.
Lemma ref_compared : forall t t' v b b', (forall y, t = RMessage y -> grows y) -> resized_ref R t t' -> enc_ref m one t v b -> enc_ref m one t' v b' ->
  compared (exists y y', t = RMessage y /\ t' = RMessage y' /\ affected y y' v) b b'.
Proof.
  intros t t' v b b' IH H E E'. destruct H as [s|y y' H].
  - destruct v; try contradiction. destruct E as (_ & _ & ->), E' as (_ & _ & ->). apply compared_same. intros (y & y' & K & _). discriminate.
  - cbn in E, E'. destruct (IH y eq_refl y' H v b b' E E') as (A & B & C). split; [exact A|]. split.
    + intros (z & z' & Ez & Ez' & Ha). injection Ez as <-. injection Ez' as <-. apply B. exact Ha.
    + destruct C as [C|C]; [left; exact C|right]. exists y, y'. auto.
Qed.
Lemma compared_iff : forall a a' b b', (a <-> a') -> compared a b b' -> compared a' b b'.
Proof. intros a a' b b' H (A & B & C). split; [exact A|]. split; [intro K; apply B, H, K|]. destruct C as [C|C]; [left; exact C|right; apply H, C]. Qed.
Lemma find_resized : forall disc cs cs', Forall2 (resized_case R) cs cs' -> forall i,
  match find_case disc i cs, find_case disc i cs' with Some (k, c), Some (k', c') => k = k' /\ resized_case R c c' | None, None => True | _, _ => False end.
Proof.
  intros disc cs cs' F. induction F as [|c c' l l' H F IH]; intro i; cbn; [exact I|]. replace (uc_case c') with (uc_case c) by (destruct H; reflexivity). destruct (disc =? uc_case c); [auto|apply IH].
Qed.
Lemma find_nth : forall disc cs i k c, find_case disc i cs = Some (k, c) -> exists j, k = (i + j)%nat /\ nth_error cs j = Some c.
Proof.
  intros disc cs. induction cs as [|c0 cs IH]; intros i k c H; cbn in H; [discriminate|]. destruct (disc =? uc_case c0).
  - injection H as <- <-. exists 0%nat. split; [lia|reflexivity].
  - destruct (IH _ _ _ H) as (j & E & Hj). exists (S j). split; [lia|exact Hj].
Qed.
Lemma no_inner : forall t t' u, (forall y z, ~ inner t u y z) -> ~ other_length t t' -> ~ affected_type t t' u.
Proof. intros t t' u H K [L|(y & y' & z & Hy & _)]; [exact (K L)|exact (H y z Hy)]. Qed.
Ltac no_inner := let y := fresh in let z := fresh in intros y z [[? ?]|(? & ? & ? & ? & ? & ? & ? & ?)]; discriminate.
Lemma type_compared : forall e prev t t' v b b', (forall y, inside t y -> grows y) -> resized_type R t t' -> enc_ty m one e prev t v b -> enc_ty m one e prev t' v b' ->
  compared (affected_type t t' v) b b'.
Proof.
  intros e prev t t' v b b' IH H E E'. destruct H as [ty|r r' H| |ty ty' H|ty ty' s H|ty ty' y y' H Hy|u u' on i H|].
  - destruct v; try contradiction. rewrite (number_fun _ _ _ _ _ E' E). apply compared_same, no_inner; [no_inner|intro K; inversion K].
  - assert (K : compared (exists y y', r = RMessage y /\ r' = RMessage y' /\ affected y y' v) b b').
    { apply (ref_compared _ _ v b b'); [|exact H|destruct v; exact E|destruct v; exact E']. intros y ->. apply IH. constructor. }
    eapply compared_iff; [|exact K]. split.
    + intros (y & y' & -> & -> & Ha). right. exists y, y', v. split; [left; auto|]. split; [left; auto|exact Ha].
    + intros [L|(y & y' & z & [[Ey ->]|(un & on & i & k & c & D & _)] & Hy' & Ha)]; [inversion L| |discriminate].
      injection Ey as ->. destruct Hy' as [[Ey' _]|(un & on & i & k & c & D & _)]; [|discriminate]. injection Ey' as ->. exists y, y'. auto.
  - destruct v; try contradiction. destruct E as (_ & _ & ->), E' as (_ & _ & ->). apply compared_same, no_inner; [no_inner|intro K; inversion K].
  - destruct v; try contradiction. destruct E as (_ & p & Hp & ->), E' as (_ & p' & Hp' & ->). eapply prefix_compared; [exact H| |exact Hp|exact Hp'].
    split; [|intro K; left; constructor; exact K]. intros [K|(y & y' & z & [[K _]|(? & ? & ? & ? & ? & K & _)] & _)]; [inversion K; assumption|discriminate|discriminate].
  - destruct v; try contradiction. destruct E as (_ & _ & p & Hp & ->), E' as (_ & _ & p' & Hp' & ->). eapply prefix_compared; [exact H| |exact Hp|exact Hp'].
    split; [|intro K; left; constructor; exact K]. intros [K|(y & y' & z & [[K _]|(? & ? & ? & ? & ? & K & _)] & _)]; [inversion K; assumption|discriminate|discriminate].
  - destruct v; try contradiction. destruct E as (p & it & ch & Hp & _ & _ & _ & ->), E' as (p' & it' & ch' & Hp' & _ & _ & _ & ->). eapply prefix_compared; [exact H| |exact Hp|exact Hp'].
    split; [|intro K; left; constructor; exact K]. intros [K|(z & z' & z1 & [[K _]|(? & ? & ? & ? & ? & K & _)] & _)]; [inversion K; assumption|discriminate|discriminate].
  - destruct v; try contradiction. pose proof (proj1 (enc_union_iff _ _ _ _ _ _ _) E) as (data & disc & c & Eo & Ed & Hc & Hi).
    pose proof (proj1 (enc_union_iff _ _ _ _ _ _ _) E') as (data' & disc' & c' & Eo' & Ed' & Hc' & Hi'). destruct H as [name d cs cs' size F]. cbn [u_disc u_cases] in *.
    rewrite Eo in Eo'. injection Eo' as <-. rewrite Ed in Ed'. injection Ed' as <-. pose proof (find_resized disc cs cs' F 0) as K. rewrite Hc, Hc' in K. destruct K as [_ K].
    destruct (find_nth _ _ _ _ _ Hc) as (j & Ej & Hj), (find_nth _ _ _ _ _ Hc') as (j' & Ej' & Hj'). cbn in Ej, Ej'. subst j j'.
    destruct K as [nm n|nm n r r' Hr]; cbn [uc_item] in *.
    + destruct item; [contradiction|]. cbn in Hi, Hi'. subst. apply compared_same, no_inner; [|intro K; inversion K].
      intros y z [[K _]|(? & ? & ? & ? & ? & _ & K & _)]; discriminate.
    + destruct item as [x|]; [|contradiction]. cbn in Hi, Hi'. eapply compared_iff; [|eapply (ref_compared r r' x b b'); [|exact Hr|exact Hi|exact Hi']].
      * split.
        -- intros (y & y' & -> & -> & Ha). right. exists y, y', x. split; [|split; [|exact Ha]]; right; eexists _, _, _, _, _; (split; [reflexivity|]); (split; [reflexivity|]); (split; [eassumption|]); reflexivity.
        -- intros [L|(y & y' & z & [[Ey _]|(un & on1 & i1 & k1 & c1 & D & D2 & D3 & D4)] & [[Ey' _]|(un' & on2 & i2 & k2 & c2 & D' & D2' & D3' & D4')] & Ha)]; try discriminate; [inversion L|].
           injection D as <- _ _. injection D' as <- _ _. injection D2 as <- <-. injection D2' as <-. cbn [u_cases] in *. rewrite Hj in D3. rewrite Hj' in D3'. injection D3 as <-. injection D3' as <-.
           cbn in D4, D4'. injection D4 as ->. injection D4' as ->. exists y, y'. auto.
      * intros y ->. apply IH. econstructor; [eapply nth_error_In; exact Hj|reflexivity].
  - destruct v; try contradiction. destruct E as (_ & ->), E' as (_ & ->). apply compared_same, no_inner; [no_inner|intro K; inversion K].
Qed.
Lemma member_compared : forall prev f f' w b b', (forall y, inside (mf_ty f) y -> grows y) -> resized_field R f f' ->
  enc_optional one (mf_optional f) (enc_ty m one (mf_endi f) prev (mf_ty f)) w b -> enc_optional one (mf_optional f') (enc_ty m one (mf_endi f') prev (mf_ty f')) w b' ->
  compared (affected_member f f' w) b b'.
Proof.
  intros prev f f' w b b' IH H E E'. destruct H as [nm t t' opt size endi H]. cbn [mf_optional mf_endi mf_ty] in *. unfold affected_member, held, enc_optional in *. cbn [mf_optional mf_ty] in *. destruct opt.
  - destruct w as [| | | | | | |[u|]]; try contradiction.
    + destruct E as (p & c & _ & -> & -> & E), E' as (p' & c' & _ & -> & -> & E'). destruct (type_compared _ _ _ _ _ _ _ IH H E E') as (A & B & C). split; [cbn; lia|]. split.
      * intros (u' & Eu & Ha). injection Eu as <-. specialize (B Ha). cbn. lia.
      * destruct C as [->|C]; [left; reflexivity|right; exists u; auto].
    + subst. apply compared_same. intros (u & K & _). discriminate.
  - eapply compared_iff; [|eapply type_compared; eassumption]. split; [intro K; exists w; auto|]. intros (u & -> & K). exact K.
Qed.
Theorem all_grow : forall x, grows x.
Proof.
  apply (message_ind_inside grows). intros x IH x' H v b b' E E'. apply enc_msg_inv in E as (vs & -> & E). apply (proj1 (enc_msg_eq _ _ _ _ _)) in E'.
  destruct H as [id name fs fs' size F]. cbn [m_fields] in *.
  eapply compared_iff; [symmetry; apply affected_members|].
  { cbn [m_fields]. intros i f f' Hf Hf'. clear - F Hf Hf'. revert i Hf Hf'. induction F as [|g g' l l' Hg F IHF]; intros [|i] Hf Hf'; cbn in *; try discriminate; [|eauto].
    injection Hf as ->. injection Hf' as ->. destruct Hg. reflexivity. }
  cbn [m_fields]. revert vs b b' E E'. generalize (@nil value). induction F as [|f f' fs fs' Hf F IHF]; intros prev vs b b' E E'.
  - destruct vs; [|contradiction]. cbn in E, E'. subst. apply compared_same. intros ([|i] & f & f' & w & D & _); discriminate.
  - destruct vs as [|w vs]; [contradiction|]. destruct E as (b1 & b2 & -> & E1 & E2), E' as (b1' & b2' & -> & E1' & E2').
    destruct (member_compared prev f f' w b1 b1' (fun y => IH f y (or_introl eq_refl)) Hf E1 E1') as (A & B & C).
    destruct (IHF (fun g y Hg => IH g y (or_intror Hg)) (prev ++ [w]) vs b2 b2' E2 E2') as (A' & B' & C'). unfold compared. rewrite !app_length. split; [lia|]. split.
    + intros ([|i] & g & g' & w' & D1 & D2 & D3 & D4); cbn in D1, D2, D3.
      * injection D1 as <-. injection D2 as <-. injection D3 as <-. specialize (B D4). lia.
      * assert ((length b2 < length b2')%nat) by (apply B'; exists i, g, g', w'; auto). lia.
    + destruct C as [->|C]; [|right; exists 0%nat, f, f', w; cbn; auto]. destruct C' as [->|(i & g & g' & w' & D)]; [left; reflexivity|right]. exists (S i), g, g', w'. cbn. exact D.
Qed.

(** What has an encoding still has one. *)
Definition fits (x : message) : Prop := without_lists x -> forall x', resized R x x' -> forall v b, encodes m x v b -> exists b', encodes m x' v b'.
Lemma number_wider : forall e ty ty' n p, R ty ty' -> number e (get_byte_size ty) n p -> exists p', number e (get_byte_size ty') n p'.
Proof.
  intros e ty ty' n p H K. apply number_exists. apply RR in H. unfold wider in H. apply number_fits in K.
  eapply N.lt_le_trans; [exact K|]. apply N.pow_le_mono_r; lia.
Qed.
Lemma ref_fits : forall t t' v b, (forall y, t = RMessage y -> fits y) -> (forall y, t = RMessage y -> without_lists y) -> resized_ref R t t' -> enc_ref m one t v b -> exists b', enc_ref m one t' v b'.
Proof. intros t t' v b IH Hl H E. destruct H as [s|y y' H]; [exists b; exact E|]. exact (IH y eq_refl (Hl y eq_refl) y' H v b E). Qed.
Lemma type_fits : forall e prev t t' v b, (forall y, inside t y -> fits y) -> (forall y, inside t y -> without_lists y) -> (forall ty y, t <> TList ty y) -> resized_type R t t' ->
  enc_ty m one e prev t v b -> exists b', enc_ty m one e prev t' v b'.
Proof.
  intros e prev t t' v b IH Hl Hn H E. destruct H as [ty|r r' H| |ty ty' H|ty ty' s H|ty ty' y y' H Hy|u u' on i H|].
  - exists b. exact E.
  - assert (E1 : enc_ref m one r v b) by (destruct v; exact E). destruct (ref_fits r r' v b) as (b' & K); [intros y ->; apply IH; constructor|intros y ->; apply Hl; constructor|exact H|exact E1|].
    exists b'. destruct v; exact K.
  - exists b. exact E.
  - destruct v; try contradiction. destruct E as (U & p & Hp & ->). destruct (number_wider _ _ _ _ _ H Hp) as (p' & Hp'). exists (p' ++ s). cbn. split; [exact U|]. exists p'. auto.
  - destruct v; try contradiction. destruct E as (U & B & p & Hp & ->). destruct (number_wider _ _ _ _ _ H Hp) as (p' & Hp'). exists (p' ++ data). cbn. split; [exact U|]. split; [exact B|]. exists p'. auto.
  - destruct (Hn ty y eq_refl).
  - destruct v; try contradiction. pose proof (proj1 (enc_union_iff _ _ _ _ _ _ _) E) as (data & disc & c & Eo & Ed & Hc & Hi). destruct H as [name d cs cs' size F]. cbn [u_disc u_cases] in *.
    pose proof (find_resized disc cs cs' F 0) as K. rewrite Hc in K. destruct (find_case disc 0 cs') as [[k' c']|] eqn:Hc'; [|contradiction]. destruct K as [<- K].
    destruct (find_nth _ _ _ _ _ Hc) as (j & Ej & Hj). cbn in Ej. subst j.
    assert (Ki : exists b', enc_item m one (uc_item c') item b').
    { destruct K as [nm n|nm n r r' Hr]; cbn [uc_item] in *; [exists b; exact Hi|]. destruct item as [x|]; [|contradiction]. cbn in Hi.
      destruct (ref_fits r r' x b) as (b' & K); [intros y ->; apply IH; econstructor; [eapply nth_error_In; exact Hj|reflexivity]|intros y ->; apply Hl; econstructor; [eapply nth_error_In; exact Hj|reflexivity]|exact Hr|exact Hi|].
      exists b'. exact K. }
    destruct Ki as (b' & Ki). exists b'. apply (proj2 (enc_union_iff m one (MkUnion name d cs' size) (nth_error prev i) variant item b')). exists data, disc, c'. cbn [u_disc u_cases]. auto.
  - exists b. exact E.
Qed.
Theorem all_fit : forall x, fits x.
Proof.
  apply (message_ind_inside fits). intros x IH Hl x' H v b E. apply enc_msg_inv in E as (vs & -> & E).
  assert (Hn : forall f ty y, In f (m_fields x) -> mf_ty f <> TList ty y) by (intros f ty y Hf; apply (Hl x); [constructor|exact Hf]).
  assert (Hi : forall f y, In f (m_fields x) -> inside (mf_ty f) y -> without_lists y) by (intros f y Hf Hy z g ty z' Hz; apply (Hl z); econstructor; eassumption).
  clear Hl. destruct H as [id name fs fs' size F]. cbn [m_fields] in *.
  enough (K : exists b', enc_fields m one fs' [] vs b') by (destruct K as (b' & K); exists b'; apply enc_msg_eq; exact K).
  revert vs b E. generalize (@nil value). induction F as [|f f' fs fs' Hf F IHF]; intros prev vs b E.
  - exists b. exact E.
  - destruct vs as [|w vs]; [contradiction|]. destruct E as (b1 & b2 & -> & E1 & E2).
    destruct (IHF (fun g y Hg => IH g y (or_intror Hg)) (fun g ty y Hg => Hn g ty y (or_intror Hg)) (fun g y Hg => Hi g y (or_intror Hg)) (prev ++ [w]) vs b2 E2) as (b2' & K2).
    enough (K : exists b1', enc_optional one (mf_optional f') (enc_ty m one (mf_endi f') prev (mf_ty f')) w b1') by (destruct K as (b1' & K); exists (b1' ++ b2'), b1', b2'; auto).
    pose proof (fun e prev v b => type_fits e prev (mf_ty f) (mf_ty f') v b (fun y => IH f y (or_introl eq_refl)) (fun y => Hi f y (or_introl eq_refl)) (fun ty y => Hn f ty y (or_introl eq_refl))) as T.
    destruct Hf as [nm t t' opt sz endi Hf]. cbn [mf_optional mf_endi mf_ty] in *. unfold enc_optional in *. destruct opt.
    + destruct w as [| | | | | | |[u|]]; try contradiction.
      * destruct E1 as (p & c & P & -> & -> & E1). destruct (T endi prev u c Hf E1) as (c' & K). exists (1 :: c'), 1, c'. auto.
      * exists b1. exact E1.
    + exact (T endi prev w b1 Hf E1).
Qed.
End Wire.

(** What the compiler makes of descriptions with raised limits. *)
Theorem limits_wire : forall mc mr sep l l' ps w ps' w', Forall2 (other_call raised) l l' ->
  loader_compile mc (loader_after l) (solver_new sep) = Ok (ps, w) -> loader_compile mc (loader_after l') (solver_new sep) = Ok (ps', w') ->
  forall i p p' j x x', nth_error ps i = Some p -> nth_error ps' i = Some p' -> nth_error (p_messages p) j = Some x -> nth_error (p_messages p') j = Some x' ->
  (forall v b b', encodes mr x v b -> encodes mr x' v b' -> (length b <= length b')%nat /\ (b' = b <-> ~ affected x x' v)) /\
  (without_lists x -> forall v b, encodes mr x v b -> exists b', encodes mr x' v b').
Proof.
  intros mc mr sep l l' ps w ps' w' F C C' i p p' j x x' Hp Hp' Hx Hx'. pose proof (resized_run raised wider raised_types (fun t => Nat.le_refl _) mc sep l l' F) as K. rewrite C, C' in K. destruct K as [K _]. cbn [fst] in K.
  assert (L : forall {A} (P : A -> A -> Prop) l l', Forall2 P l l' -> forall i a a', nth_error l i = Some a -> nth_error l' i = Some a' -> P a a').
  { clear. intros A P l l' F. induction F; intros [|i] a a' Ha Ha'; cbn in *; try discriminate; [congruence|eauto]. }
  pose proof (L _ _ _ _ K _ _ _ Hp Hp') as (A1 & A2 & A3 & A4 & A5 & A6 & A7 & A8 & A9 & A10 & A11). pose proof (L _ _ _ _ A9 _ _ _ Hx Hx') as H. split.
  - intros v b b' E E'. destruct (all_grow mr wider (fun _ _ h => h) x x' H v b b' E E') as (B1 & B2 & B3). split; [exact B1|]. split.
    + intros -> Ha. specialize (B2 Ha). lia.
    + intro Hn. destruct B3 as [B3|B3]; [exact B3|contradiction].
  - intros Hl v b E. exact (all_fit mr wider (fun _ _ h => h) x Hl x' H v b E).
Qed.
