(** A member whose reader fails makes the message fail. *)

From Coq Require Import Arith NArith ZArith List Bool Lia ZifyBool ZifyN ZifyNat.
From Verif Require Import Base Schema Codec Compiler Access Bits BitsFacts CodecFacts StructFacts BEThms
  Utf8 SpecUtf8 Utf8Thms Runtime Gen SpecWire MsgFacts WriteThms ReadThms SpecExact ExactThms.
Import ListNotations.
Local Open Scope N_scope.

Lemma number_small : forall e ty n p, number e (get_byte_size ty) n p -> n < 2 ^ 64 /\ len p = N.of_nat (get_byte_size ty) /\ len p <= 8.
Proof.
  intros e ty n p H. pose proof (number_len _ _ _ _ H) as Hl. apply number_iff in H. destruct H as [Hn _].
  assert (Hs : (get_byte_size ty <= 8)%nat) by (destruct ty; cbn; lia).
  split; [|lia]. unfold tmod in Hn. eapply N.lt_le_trans; [exact Hn|]. apply N.pow_le_mono_r; lia.
Qed.

Section Reach.
Context (m : mode) (emb : N -> bool).

(** Neither a value. *)
Definition fails {A} (r : rres A) : Prop := match r with Ok _ => False | _ => True end.
Definition recast {A B} (r : rres A) : rres B := match r with Ok _ => Panic | Err e => Err e | Panic => Panic end.

Lemma announced_fails : forall f a (r : reader value) d, announces f a -> fails (r d) ->
  read_optional m (mf_optional f) r (a ++ d) = recast (r d).
Proof.
  intros f a r d Ha Hf. unfold announces, read_optional in *. destruct (mf_optional f).
  - destruct Ha as (p & Hp & ->). unfold rmap, optional_from_slice. rewrite len_app. change (len [p]) with 1.
    replace (1 + len d <? 1) with false by lia. cbn [app nth_error unwrap bind].
    replace (0 <? p) with true by lia. change (p :: d) with ([p] ++ d). rewrite (slice_from_app _ [p]). cbn [bind].
    destruct (r d); [contradiction|reflexivity..].
  - subst a. cbn [app]. destruct (r d); [contradiction|reflexivity..].
Qed.
Lemma fields_then_fails : forall x l f r vl b d, items_delimited emb x -> m_fields x = l ++ f :: r ->
  enc_fields m any l [] vl b -> closed_fields emb (emb (m_id x)) l vl -> len (b ++ d) < 2 ^ 64 ->
  fails (read_optional m (mf_optional f) (read_ty m emb (emb (m_id x)) (mf_endi f) vl (mf_ty f)) d) ->
  read_msg m emb x (b ++ d) =
  recast (read_optional m (mf_optional f) (read_ty m emb (emb (m_id x)) (mf_endi f) vl (mf_ty f)) d).
Proof.
  intros x l f r vl b d HI El He Hc Hl Hf. rewrite read_msg_eq, El, read_fields_app.
  pose proof (fields_read m emb (emb (m_id x)) d l [] vl b [] He Hl) as G. cbn [app] in G.
  change (len (@nil N)) with 0 in G. rewrite N.add_0_l in G. rewrite G; clear G.
  - cbn [bind]. destruct f as [k ty opt sz endi]. cbn [read_fields mf_optional mf_endi mf_ty] in *.
    rewrite slice_from_app. cbn [bind]. destruct (read_optional _ _ _ d); [contradiction|reflexivity..].
  - intros l' g r' vl' u vr' c1 c2 c3 El' Ev' Eb' F1 F2 F3.
    assert (Hg : In g (m_fields x)) by (rewrite El, El'; apply in_or_app; left; apply in_elt).
    rewrite Eb' in Hl. rewrite !len_app in Hl.
    assert (Hng : ~ open_member emb (emb (m_id x)) g u).
    { apply (Hc (length l')); rewrite ?El', ?Ev'; [|rewrite <- (enc_fields_length _ _ _ _ _ F1)];
        rewrite nth_error_app2, Nat.sub_diag by lia; reflexivity. }
    apply member_reads; [apply items_member; assumption|exact F2|intros _; exact Hng| |rewrite !len_app; lia].
    intros y' z' p' c' Hh' _ _ Hc' Hlc. destruct (holds_in _ _ _ _ Hh') as (Hy' & _).
    apply reads_exact; [eapply items_inside; eauto|exact Hc'| | |exact Hlc].
    + intros _ Hz. apply Hng. eapply open_inside; eauto.
    + intros _ Hz. apply Hng. eapply open_inside; [exact Hh'|]. eapply followed_open. exact Hz.
Qed.
Lemma recast_recast : forall {A B C} (r : rres A), fails r -> @recast B C (recast r) = recast r.
Proof. intros A B C [a|e|] H; [contradiction|reflexivity..]. Qed.
Lemma recast_fails : forall {A B} (r : rres A), fails r -> fails (@recast A B r).
Proof. intros A B [a|e|] H; [contradiction|exact H..]. Qed.

Lemma find_case_first : forall disc k cs i ca, nth_error cs k = Some ca -> uc_case ca = disc ->
  (forall j cb, (j < k)%nat -> nth_error cs j = Some cb -> uc_case cb <> disc) ->
  find_case disc i cs = Some ((i + k)%nat, ca).
Proof.
  intros disc. induction k as [|k IH]; intros [|c cs] i ca Hk Hd Hn; try discriminate.
  - injection Hk as ->. cbn [find_case]. rewrite <- Hd, N.eqb_refl, Nat.add_0_r. reflexivity.
  - cbn [find_case]. destruct (N.eqb_spec disc (uc_case c)) as [E|E].
    + destruct (Hn 0%nat c ltac:(lia) eq_refl). congruence.
    + rewrite (IH cs (S i) ca Hk Hd); [f_equal; f_equal; lia|]. intros j cb Hj Hcb. apply (Hn (S j) cb); [lia|exact Hcb].
Qed.

Theorem reach_fails : forall x c e prev f, reaches m emb x c e prev f -> items_delimited emb x ->
  forall d, len (c ++ d) < 2 ^ 64 -> fails (read_ty m emb e (mf_endi f) prev (mf_ty f) d) ->
  read_msg m emb x (c ++ d) = recast (read_ty m emb e (mf_endi f) prev (mf_ty f) d).
Proof.
  intros x c e prev f H. induction H as
    [x l f r vl b a El He Hc Ha|x l g r vl b a y c e prev f El He Hc Ha Et Hr IH
    |x l g r vl b a y c e prev f u on i data k ca El He Hc Ha Et Hd Hp Hk Hfirst Hy Hr IH]; intros HI d Hl Hf.
  - rewrite <- app_assoc in *. pose proof (announced_fails f a _ d Ha Hf) as E.
    rewrite (fields_then_fails x l f r vl b (a ++ d) HI El He Hc Hl).
    + rewrite E. apply recast_recast. exact Hf.
    + rewrite E. apply recast_fails. exact Hf.
  - rewrite <- !app_assoc in *. rewrite !len_app in Hl.
    assert (Hin : In g (m_fields x)) by (rewrite El; apply in_elt).
    assert (HIy : items_delimited emb y) by (eapply items_inside; [exact HI|exact Hin|rewrite Et; constructor]).
    specialize (IH HIy d ltac:(rewrite len_app; lia) Hf).
    assert (Hg : read_ty m emb (emb (m_id x)) (mf_endi g) vl (mf_ty g) (c ++ d) = recast (read_ty m emb e (mf_endi f) prev (mf_ty f) d)).
    { rewrite Et, read_ty_ref, read_ref_msg. exact IH. }
    assert (HF : fails (read_ty m emb (emb (m_id x)) (mf_endi g) vl (mf_ty g) (c ++ d))) by (rewrite Hg; apply recast_fails; exact Hf).
    pose proof (announced_fails g a _ (c ++ d) Ha HF) as E.
    rewrite (fields_then_fails x l g r vl b (a ++ c ++ d) HI El He Hc).
    + rewrite E, Hg. rewrite !recast_recast; [reflexivity|exact Hf|apply recast_fails; exact Hf].
    + rewrite !len_app. lia.
    + rewrite E. apply recast_fails. exact HF.
  - rewrite <- !app_assoc in *. rewrite !len_app in Hl.
    assert (Hin : In g (m_fields x)) by (rewrite El; apply in_elt).
    assert (HIy : items_delimited emb y).
    { eapply items_inside; [exact HI|exact Hin|rewrite Et; econstructor; [eapply nth_error_In; exact Hk|exact Hy]]. }
    specialize (IH HIy d ltac:(rewrite len_app; lia) Hf).
    assert (Hg : read_ty m emb (emb (m_id x)) (mf_endi g) vl (mf_ty g) (c ++ d) = recast (read_ty m emb e (mf_endi f) prev (mf_ty f) d)).
    { rewrite Et, read_ty_union, read_union_eq, Hd. cbn [read_discriminant]. rewrite Hp. cbn [bind].
      rewrite (find_case_first (uc_case ca) k (u_cases u) 0 ca Hk eq_refl Hfirst). cbn [Nat.add]. rewrite Hy, read_ref_msg, IH.
      destruct (read_ty m emb e (mf_endi f) prev (mf_ty f) d); [contradiction|reflexivity..]. }
    assert (HF : fails (read_ty m emb (emb (m_id x)) (mf_endi g) vl (mf_ty g) (c ++ d))) by (rewrite Hg; apply recast_fails; exact Hf).
    pose proof (announced_fails g a _ (c ++ d) Ha HF) as E.
    rewrite (fields_then_fails x l g r vl b (a ++ c ++ d) HI El He Hc).
    + rewrite E, Hg. rewrite !recast_recast; [reflexivity|exact Hf|apply recast_fails; exact Hf].
    + rewrite !len_app. lia.
    + rewrite E. apply recast_fails. exact HF.
Qed.

(** A string whose bytes are not all there. *)
Theorem string_panics : forall x c e prev f ty n p short, items_delimited emb x -> reaches m emb x c e prev f ->
  mf_ty f = TVarcharString ty -> number (mf_endi f) (get_byte_size ty) n p -> len short < n ->
  len (c ++ p ++ short) < 2 ^ 64 -> read_msg m emb x (c ++ p ++ short) = Panic.
Proof.
  intros x c e prev f ty n p short HI Hr Et Hp Hs Hl.
  destruct (number_small _ _ _ _ Hp) as (Hn & Hlp & _). rewrite !len_app in Hl.
  assert (E : read_ty m emb e (mf_endi f) prev (mf_ty f) (p ++ short) = Panic).
  { rewrite Et. cbn [read_ty]. unfold rmap, varchar_from_slice. rewrite (value_reader_app _ _ _ _ _ Hp). cbn [bind].
    rewrite <- Hlp. unfold uadd. change usize_mod with (2 ^ 64). destruct (N.ltb_spec (len p + n) (2 ^ 64)) as [H|H].
    - cbn [bind]. unfold slice. rewrite len_app.
      destruct (N.leb_spec (len p) (len p + n)) as [_|?]; [|lia].
      destruct (N.leb_spec (len p + n) (len p + len short)) as [?|_]; [lia|]. reflexivity.
    - unfold overflow. destruct m; [reflexivity|]. cbn [bind]. unfold slice.
      assert (Hm : (len p + n) mod 2 ^ 64 = len p + n - 2 ^ 64).
      { symmetry. apply N.mod_unique with 1; lia. }
      rewrite Hm. destruct (N.leb_spec (len p) (len p + n - 2 ^ 64)) as [?|_]; [lia|]. reflexivity. }
  rewrite (reach_fails x c e prev f Hr HI (p ++ short)); [rewrite E; reflexivity|rewrite !len_app; lia|rewrite E; exact I].
Qed.
End Reach.

(** An array whose length in bytes does not fit a 64-bit number. *)
Theorem array_panics : forall emb x c e prev f ty s n p rest, items_delimited emb x -> reaches Debug emb x c e prev f ->
  mf_ty f = TArray ty s -> number (mf_endi f) (get_byte_size ty) n p -> 2 ^ 64 <= len p + n * s_byte_size s ->
  len (c ++ p ++ rest) < 2 ^ 64 -> read_msg Debug emb x (c ++ p ++ rest) = Panic.
Proof.
  intros emb x c e prev f ty s n p rest HI Hr Et Hp Hs Hl.
  destruct (number_small _ _ _ _ Hp) as (Hn & Hlp & _). rewrite !len_app in Hl.
  assert (E : read_ty Debug emb e (mf_endi f) prev (mf_ty f) (p ++ rest) = Panic).
  { rewrite Et. cbn [read_ty]. unfold rmap, array_from_slice. rewrite (value_reader_app _ _ _ _ _ Hp). cbn [bind].
    rewrite <- Hlp. unfold umul. change usize_mod with (2 ^ 64). destruct (N.ltb_spec (n * s_byte_size s) (2 ^ 64)) as [H|H]; [|reflexivity].
    cbn [bind]. unfold uadd. change usize_mod with (2 ^ 64).
    destruct (N.ltb_spec (len p + n * s_byte_size s) (2 ^ 64)) as [?|_]; [lia|]. reflexivity. }
  rewrite (reach_fails Debug emb x c e prev f Hr HI (p ++ rest)); [rewrite E; reflexivity|rewrite !len_app; lia|rewrite E; exact I].
Qed.
Theorem reach_errors : forall m emb x c e prev f d, items_delimited emb x -> reaches m emb x c e prev f -> len (c ++ d) < 2 ^ 64 ->
  (forall er, read_ty m emb e (mf_endi f) prev (mf_ty f) d = Err er -> read_msg m emb x (c ++ d) = Err er) /\
  (read_ty m emb e (mf_endi f) prev (mf_ty f) d = Panic -> read_msg m emb x (c ++ d) = Panic).
Proof.
  intros m emb x c e prev f d HI Hr Hl. pose proof (reach_fails m emb x c e prev f Hr HI d Hl) as G.
  split; intros; destruct (read_ty m emb e (mf_endi f) prev (mf_ty f) d); try discriminate; rewrite G by exact I; cbn [recast]; congruence.
Qed.

Lemma part_within : forall emb x e f, part emb x e f -> exists z, within x z /\ In f (m_fields z).
Proof.
  intros emb x e f H. induction H as [x e f Hf He|x e f g y Hg Hy Hp (k & Hk & Hf)].
  - exists x. split; [constructor|exact Hf].
  - exists k. split; [eapply within_deep; eassumption|exact Hf].
Qed.
