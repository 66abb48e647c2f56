(** Exactly which values are read back. *)

From Coq Require Import Arith NArith ZArith List Bool Lia ZifyBool ZifyN ZifyNat.
From Verif Require Import Base Schema Codec Compiler Access Bits BitsFacts CodecFacts StructFacts BEThms
  Utf8 SpecUtf8 Utf8Thms Runtime Gen SpecWire MsgFacts WriteThms ReadThms SpecExact.
Import ListNotations.
Local Open Scope N_scope.

Section Exact.
Context (m : mode) (emb : N -> bool).

Lemma holds_in : forall f w y z, holds f w y z -> inside (mf_ty f) y /\ forall ty, mf_ty f <> TList ty y.
Proof.
  intros f w y z [E _|u on i k c E _ Hc Hy]; rewrite E; (split; [|discriminate]); [constructor|].
  econstructor; [eapply nth_error_In; exact Hc|exact Hy].
Qed.

Lemma member_split : forall prev f w b, enc_member m prev f w b ->
  (mf_optional f = true /\ w = VOpt None /\ b = [0]) \/
  exists u c p, enc_ty m any (mf_endi f) prev (mf_ty f) u c /\ b = p ++ c /\
    length p = (if mf_optional f then 1 else 0)%nat /\ held f w u /\
    enc_optional any (mf_optional f) (fun v b => v = u /\ b = c) w b.
Proof.
  intros prev f w b H. unfold enc_member, enc_optional, held in *. destruct (mf_optional f).
  - destruct w as [| | | | | | |[u|]]; try contradiction.
    + destruct H as (p & c & Hp & _ & -> & Hu). right. exists u, c, [p]. repeat split; auto.
      exists p, c. repeat split; auto; lia.
    + left. auto.
  - right. exists w, b, []. repeat split; auto.
Qed.

Lemma read_optional_back : forall f w u c b s (r : reader value) n,
  held f w u -> enc_optional any (mf_optional f) (fun v b => v = u /\ b = c) w b ->
  read_optional m (mf_optional f) r (b ++ s) = Ok (n, w) -> exists n', r (c ++ s) = Ok (n', u).
Proof.
  intros f w u c b s r n Hh He H. unfold held, enc_optional, read_optional in *. destruct (mf_optional f).
  - subst w. destruct He as (p & b' & Hp & _ & -> & _ & ->). cbn [app] in H. unfold rmap, optional_from_slice in H.
    change (p :: c ++ s) with ([p] ++ (c ++ s)) in H. rewrite len_app in H. change (len [p]) with 1 in H.
    replace (1 + len (c ++ s) <? 1) with false in H by lia. cbn [app nth_error unwrap bind] in H.
    replace (0 <? p) with true in H by lia. change (p :: c ++ s) with ([p] ++ (c ++ s)) in H.
    rewrite (slice_from_app _ [p]) in H. cbn [bind] in H.
    destruct (r (c ++ s)) as [[n' v]|e|] eqn:E; cbn [bind] in H; try discriminate.
    destruct (uadd m n' 1); cbn [bind] in H; try discriminate. inversion H; subst. eauto.
  - subst w. destruct He as [_ ->]. eauto.
Qed.

(** ** Decidability *)
Lemma member_dec : forall e f w, (forall y, inside (mf_ty f) y -> forall v, open_value emb y v \/ ~ open_value emb y v) ->
  open_member emb e f w \/ ~ open_member emb e f w.
Proof.
  intros e f w IH.
  assert (Hheld : (exists u, held f w u) \/ forall u, ~ held f w u).
  { unfold held. destruct (mf_optional f); [|eauto]. destruct w as [| | | | | | |[u|]]; eauto; right; discriminate. }
  destruct Hheld as [[u Hu]|Hn].
  2:{ right. intro H. inversion H as [e' f' w' u H1 H2|f' w' u ty y H1 H2|e' f' w' y z Hh Ho]; subst; try (eapply Hn; eassumption).
      destruct Hh as [_ Hh|? ? ? ? ? _ Hh _ _]; eapply Hn; exact Hh. }
  assert (HU : forall u', held f w u' -> u' = u).
  { intros u' Hu'. unfold held in *. destruct (mf_optional f); congruence. }
  destruct (mf_ty f) as [ty|[st|y]| |ty|ty st|un on idx|ty y|] eqn:Et.
  all: try (right; intro H; inversion H as [e' f' w' u' H1 H2|f' w' u' ty' y' H1 H2|e' f' w' y' z Hh Ho]; subst;
            [congruence|congruence|destruct Hh as [Hh _|? ? ? ? ? Hh _ _ _]; congruence]).
  - destruct (IH y ltac:(constructor) u) as [H|H].
    + left. eapply open_inside; [eapply holds_message; eauto|exact H].
    + right. intro G. inversion G as [e' f' w' u' H1 H2|f' w' u' ty' y' H1 H2|e' f' w' y' z Hh Ho]; subst; try congruence.
      destruct Hh as [Hh Hz|? ? ? ? ? Hh _ _ _]; [|congruence]. rewrite (HU _ Hz) in Ho. apply H. congruence.
  - assert (HN : (forall y' z, ~ holds f w y' z) -> open_member emb e f w \/ ~ open_member emb e f w).
    { intro HN. right. intro G. inversion G as [e' f' w' u' H1 H2|f' w' u' ty' y' H1 H2|e' f' w' y' z Hh Ho]; subst; try congruence.
      eapply HN; exact Hh. }
    destruct u as [| | | |k [z|]| | |]; try (apply HN; intros y' z' [Hh _|un' on' idx' k' c Hh Hz Hc Hy];
      [congruence|apply HU in Hz; discriminate]).
    destruct (nth_error (u_cases un) k) as [c|] eqn:Ec.
    2:{ apply HN. intros y' z' [Hh _|un' on' idx' k' c Hh Hz Hc Hy]; [congruence|].
        apply HU in Hz. inversion Hz; subst. rewrite Et in Hh. inversion Hh; subst. congruence. }
    destruct (uc_item c) as [[st|y]|] eqn:Ei.
    2:{ destruct (IH y ltac:(econstructor; [eapply nth_error_In; exact Ec|exact Ei]) z) as [H|H].
        - left. eapply open_inside; [eapply holds_case; eauto|exact H].
        - right. intro G. inversion G as [e' f' w' u' H1 H2|f' w' u' ty' y' H1 H2|e' f' w' y' z' Hh Ho]; subst; try congruence.
          destruct Hh as [Hh _|un' on' idx' k' c' Hh Hz Hc Hy]; [congruence|].
          apply HU in Hz. inversion Hz; subst. rewrite Et in Hh. inversion Hh; subst. apply H. congruence. }
    all: apply HN; intros y' z' [Hh _|un' on' idx' k' c' Hh Hz Hc Hy]; [congruence|];
         apply HU in Hz; inversion Hz; subst; rewrite Et in Hh; inversion Hh; subst; congruence.
  - destruct e.
    + right. intro G. inversion G as [e' f' w' u' H1 H2|f' w' u' ty' y' H1 H2|e' f' w' y' z' Hh Ho]; subst; try congruence.
      destruct Hh as [Hh _|? ? ? ? ? Hh _ _ _]; congruence.
    + left. eapply open_list; eauto.
  - left. eapply open_payload; eauto.
Qed.
Lemma open_dec : forall x v, open_value emb x v \/ ~ open_value emb x v.
Proof.
  apply (message_ind_inside (fun x => forall v, open_value emb x v \/ ~ open_value emb x v)).
  intros x IH v. destruct v; try (right; intro H; inversion H; fail).
  rename fields into vs.
  assert (HM : forall e f w, In f (m_fields x) -> open_member emb e f w \/ ~ open_member emb e f w).
  { intros e f w Hf. apply member_dec. intros y Hy. exact (IH f y Hf Hy). }
  assert (HF : forall fs vs, incl fs (m_fields x) ->
    (exists i f w, nth_error fs i = Some f /\ nth_error vs i = Some w /\ open_member emb (emb (m_id x)) f w) \/
    ~ (exists i f w, nth_error fs i = Some f /\ nth_error vs i = Some w /\ open_member emb (emb (m_id x)) f w)).
  { induction fs as [|f fs IHf]; intros ws Hi.
    { right. intros ([|i] & f & w & H & _); discriminate. }
    destruct ws as [|w ws]; [right; intros ([|i] & ? & ? & _ & H & _); discriminate|].
    destruct (HM (emb (m_id x)) f w (Hi f (or_introl eq_refl))) as [H|H].
    { left. exists 0%nat, f, w. auto. }
    destruct (IHf ws (fun g Hg => Hi g (or_intror Hg))) as [(i & g & w' & H1 & H2 & H3)|Hn].
    { left. exists (S i), g, w'. auto. }
    right. intros ([|i] & g & w' & H1 & H2 & H3); cbn in H1, H2; [congruence|]. apply Hn. exists i, g, w'. auto. }
  destruct (HF (m_fields x) vs (fun g Hg => Hg)) as [(i & f & w & H1 & H2 & H3)|Hn].
  - left. econstructor; eauto.
  - right. intro H. inversion H; subst. apply Hn. eauto 10.
Qed.

Lemma open_member_dec : forall e f w, open_member emb e f w \/ ~ open_member emb e f w.
Proof. intros e f w. apply member_dec. intros y _. apply open_dec. Qed.
(** ** Members that are read *)
Definition member_items (e : bool) (f : mfield) : Prop :=
  forall ty y, mf_ty f = TList ty y -> e = true -> self_delimiting emb y.
Lemma member_reads : forall e prev f w b s, member_items e f -> enc_member m prev f w b ->
  (s <> [] -> ~ open_member emb e f w) ->
  (forall y z p c, holds f w y z -> b = p ++ c -> length p = (if mf_optional f then 1 else 0)%nat -> enc_msg m any y z c ->
     len (c ++ s) < 2 ^ 64 -> read_msg m emb y (c ++ s) = Ok (len c, z)) ->
  len (b ++ s) < 2 ^ 64 ->
  read_optional m (mf_optional f) (read_ty m emb e (mf_endi f) prev (mf_ty f)) (b ++ s) = Ok (len b, w).
Proof.
  intros e prev f w b s HI He Ho Hin Hl.
  destruct (member_split _ _ _ _ He) as [(Eo & -> & ->)|(u & c & p & Hu & Eb & Hp & Hh & He')].
  { apply (reads_optional m any _ _ (fun _ _ => False)); [tauto|rewrite Eo; reflexivity|exact Hl]. }
  apply (reads_optional m any _ _ (fun v b => v = u /\ b = c)); [|exact He'|exact Hl].
  intros v c' [-> ->] Hlc.
  assert (Hcase : s = [] \/ s <> []) by (destruct s; [left; reflexivity|right; discriminate]).
  assert (Hsimple : (forall y, inside (mf_ty f) y -> exists ty, mf_ty f = TList ty y) ->
    read_ty m emb e (mf_endi f) prev (mf_ty f) (c ++ s) = Ok (len c, u)).
  { intro HS. apply (reads_ty m emb any); [|..|exact Hu|exact Hlc].
    - intros y Hy Hn. destruct (HS y Hy) as (ty & E). destruct (Hn ty E).
    - intros ty y E. split.
      + intros Ee s0. apply self_delimiting_reads. exact (HI ty y E Ee).
      + intros Ee. destruct Hcase as [|Hs]; [assumption|]. exfalso. apply (Ho Hs). subst e. eapply open_list; eauto.
    - intros E. destruct Hcase as [|Hs]; [assumption|]. exfalso. apply (Ho Hs). eapply open_payload; eauto. }
  destruct (mf_ty f) as [ty|[st|y]| |ty|ty st|un on idx|ty y|] eqn:Et.
  - apply Hsimple. intros y Hy. inversion Hy.
  - apply Hsimple. intros y Hy. inversion Hy.
  - rewrite read_ty_ref, read_ref_msg. apply (Hin y u p c); try assumption. apply holds_message; assumption.
  - apply Hsimple. intros y Hy. inversion Hy.
  - apply Hsimple. intros y Hy. inversion Hy.
  - apply Hsimple. intros y Hy. inversion Hy.
  - destruct u; try contradiction. cbn [enc_ty] in Hu. apply enc_union_iff in Hu.
    destruct Hu as (data & disc & k & Hon & Hg & Hc & Hi). rewrite read_ty_union, read_union_eq, Hon.
    cbn [read_discriminant]. rewrite Hg. cbn [bind]. rewrite Hc. apply find_case_in in Hc.
    destruct Hc as (_ & _ & _ & Hn). rewrite Nat.sub_0_r in Hn.
    unfold enc_item in Hi. destruct (uc_item k) as [[st|y]|] eqn:Er; destruct item as [z|]; try contradiction.
    + rewrite (reads_ref m emb any (RStruct st) s z c); [reflexivity|discriminate|exact Hi|exact Hlc].
    + rewrite read_ref_msg. rewrite (Hin y z p c); [reflexivity| | | | |]; try assumption.
      eapply holds_case; eauto.
    + subst c. reflexivity.
  - apply Hsimple. intros y' Hy. inversion Hy; subst. eauto.
  - apply Hsimple. intros y Hy. inversion Hy.
Qed.

(** ** Members whose end is not seen *)
Lemma app_longer : forall (a s : bytes), s <> [] -> a ++ s <> a.
Proof. intros a s Hs E. apply Hs. apply (app_inv_head a). rewrite E, app_nil_r. reflexivity. Qed.

Lemma member_back : forall e prev f w b s n y z, enc_member m prev f w b -> holds f w y z ->
  read_optional m (mf_optional f) (read_ty m emb e (mf_endi f) prev (mf_ty f)) (b ++ s) = Ok (n, w) ->
  exists p c n', b = p ++ c /\ length p = (if mf_optional f then 1 else 0)%nat /\ enc_msg m any y z c /\
    read_msg m emb y (c ++ s) = Ok (n', z).
Proof.
  intros e prev f w b s n y z He Hx H.
  destruct (member_split _ _ _ _ He) as [(Eo & -> & ->)|(u & c & p & Hu & Eb & Hp & Hh & He')].
  { assert (HN : forall u, ~ held f (VOpt None) u) by (intros u Hu; unfold held in Hu; rewrite Eo in Hu; discriminate).
    destruct Hx as [_ Hh|? ? ? ? ? _ Hh _ _]; destruct (HN _ Hh). }
  destruct (read_optional_back _ _ _ _ _ _ _ _ Hh He' H) as (n' & Hr). clear H.
  assert (HU : forall u', held f w u' -> u' = u).
  { intros u' Hu'. unfold held in *. destruct (mf_optional f); congruence. }
  exists p, c. destruct Hx as [Et Hx|un on idx k ca Et Hx Hc Hy]; apply HU in Hx; subst.
  - rewrite Et in Hu, Hr. rewrite read_ty_ref, read_ref_msg in Hr. eauto 8.
  - rewrite Et in Hu, Hr. cbn [enc_ty] in Hu. apply enc_union_iff in Hu.
    destruct Hu as (data & disc & ca' & Hon & Hg & Hf & Hi). rewrite read_ty_union, read_union_eq, Hon in Hr.
    cbn [read_discriminant] in Hr. rewrite Hg in Hr. cbn [bind] in Hr. rewrite Hf in Hr. apply find_case_in in Hf.
    destruct Hf as (Hin & _ & _ & Hn). rewrite Nat.sub_0_r in Hn. rewrite Hc in Hn. injection Hn as <-.
    rewrite Hy in Hr, Hi. cbn [enc_item] in Hi. rewrite read_ref_msg in Hr.
    destruct (read_msg m emb y (c ++ s)) as [[k' z']| |] eqn:E; cbn [bind] in Hr; try discriminate.
    inversion Hr; subst. eauto 8.
Qed.

Lemma member_lost : forall e prev f w b s n, enc_member m prev f w b -> s <> [] -> open_member emb e f w ->
  len (b ++ s) < 2 ^ 64 ->
  (forall y z c n, inside (mf_ty f) y -> enc_msg m any y z c -> open_value emb y z -> len (c ++ s) < 2 ^ 64 ->
     read_msg m emb y (c ++ s) <> Ok (n, z)) ->
  read_optional m (mf_optional f) (read_ty m emb e (mf_endi f) prev (mf_ty f)) (b ++ s) <> Ok (n, w).
Proof.
  intros e prev f w b s n He Hs Ho Hl IH H.
  inversion Ho as [e' f' w' u Et Hu'|f' w' u ty y Et Hu'|e' f' w' y z Hx Hz]; subst.
  3:{ destruct (member_back _ _ _ _ _ _ _ _ _ He Hx H) as (p & c & n' & -> & _ & Hc & Hr).
      destruct (holds_in _ _ _ _ Hx) as (Hy & _). rewrite !len_app in Hl.
      eapply IH; [exact Hy|exact Hc|exact Hz|rewrite len_app; lia|exact Hr]. }
  all: destruct (member_split _ _ _ _ He) as [(Eo & -> & ->)|(u0 & c & p & Hu & Eb & Hp & Hh & He')];
    [unfold held in Hu'; rewrite Eo in Hu'; discriminate|];
    assert (u0 = u) by (unfold held in *; destruct (mf_optional f); congruence); subst u0;
    destruct (read_optional_back _ _ _ _ _ _ _ _ Hh He' H) as (n' & Hr); clear H; rewrite Et in Hu, Hr;
    destruct u; try contradiction; cbn [enc_ty] in Hu.
  - destruct Hu as (_ & ->).
    cbn [read_ty] in Hr. unfold rmap, buffer_from_slice in Hr. cbn [bind] in Hr. inversion Hr as [[E1 E2]].
    exact (app_longer _ _ Hs E2).
  - destruct Hu as (q & items & chunks & Hq & _ & _ & _ & ->). rewrite read_ty_list in Hr. unfold rmap, unsized_from_slice in Hr.
    rewrite <- app_assoc in Hr. rewrite (value_reader_app _ _ _ _ _ Hq) in Hr. cbn [bind] in Hr.
    rewrite <- (number_len _ _ _ _ Hq), slice_from_app in Hr. cbn [bind fst snd] in Hr. inversion Hr as [[E1 E2]].
    exact (app_longer _ _ Hs E2).
Qed.

(** ** Fields *)
Lemma enc_fields_length : forall fs prev rest b, enc_fields m any fs prev rest b -> length rest = length fs.
Proof.
  induction fs as [|f fs IH]; intros prev [|w rest] b H; try contradiction; [reflexivity|].
  destruct H as (b1 & b2 & _ & _ & H). cbn. f_equal. eapply IH. exact H.
Qed.
Lemma enc_fields_app : forall l r prev vl vr b1 b2, enc_fields m any l prev vl b1 -> enc_fields m any r (prev ++ vl) vr b2 ->
  enc_fields m any (l ++ r) prev (vl ++ vr) (b1 ++ b2).
Proof.
  induction l as [|f l IH]; intros r prev [|w vl] vr b1 b2 H1 H2; try contradiction.
  - cbn in H1. subst b1. rewrite app_nil_r in H2. exact H2.
  - destruct H1 as (c1 & c2 & -> & Hw & H1). cbn [app enc_fields]. exists c1, (c2 ++ b2). rewrite <- app_assoc.
    split; [reflexivity|]. split; [exact Hw|]. apply IH; [exact H1|]. rewrite <- app_assoc. exact H2.
Qed.
Lemma enc_fields_one : forall f prev w b, enc_member m prev f w b -> enc_fields m any [f] prev [w] b.
Proof. intros f prev w b H. exists b, []. rewrite app_nil_r. split; [reflexivity|]. split; [exact H|reflexivity]. Qed.
Lemma read_fields_app : forall e b l r off prev,
  read_fields m emb e b (l ++ r) off prev =
  ('(n, vs) <- read_fields m emb e b l off prev ;; read_fields m emb e b r n vs).
Proof.
  intros e b. induction l as [|[n ty opt sz endi] l IH]; intros r off prev; [reflexivity|].
  cbn [app read_fields]. destruct (slice_from b off) as [d|?|]; [|reflexivity..]. cbn [bind].
  destruct (read_optional m opt (read_ty m emb e endi prev ty) d) as [[k v]|?|]; [|reflexivity..]. cbn [bind].
  destruct (uadd m off k) as [o|?|]; [|reflexivity..]. cbn [bind]. apply IH.
Qed.
Lemma read_fields_extends : forall e b fs off prev n out, read_fields m emb e b fs off prev = Ok (n, out) ->
  exists more, out = prev ++ more /\ length more = length fs.
Proof.
  intros e b. induction fs as [|[k ty opt sz endi] fs IH]; intros off prev n out H.
  { inversion H; subst. exists []. rewrite app_nil_r. auto. }
  cbn [read_fields] in H. destruct (slice_from b off) as [d|?|]; try discriminate. cbn [bind] in H.
  destruct (read_optional m opt (read_ty m emb e endi prev ty) d) as [[j v]|?|]; try discriminate. cbn [bind] in H.
  destruct (uadd m off j) as [o|?|]; try discriminate. cbn [bind] in H. apply IH in H. destruct H as (more & -> & Hn).
  exists (v :: more). rewrite <- app_assoc. cbn. auto.
Qed.

Lemma fields_read : forall e s fs prev rest b pre, enc_fields m any fs prev rest b -> len (pre ++ b ++ s) < 2 ^ 64 ->
  (forall l f r vl w vr b1 b2 b3, fs = l ++ f :: r -> rest = vl ++ w :: vr -> b = b1 ++ b2 ++ b3 ->
     enc_fields m any l prev vl b1 -> enc_member m (prev ++ vl) f w b2 -> enc_fields m any r (prev ++ vl ++ [w]) vr b3 ->
     read_optional m (mf_optional f) (read_ty m emb e (mf_endi f) (prev ++ vl) (mf_ty f)) (b2 ++ b3 ++ s) = Ok (len b2, w)) ->
  read_fields m emb e (pre ++ b ++ s) fs (len pre) prev = Ok (len pre + len b, prev ++ rest).
Proof.
  intros e s. induction fs as [|f fs IH]; intros prev rest b pre He Hl H.
  { destruct rest; [|contradiction]. cbn in He. subst b. cbn [read_fields]. change (len (@nil N)) with 0.
    rewrite N.add_0_r, app_nil_r. reflexivity. }
  destruct rest as [|w rest]; [contradiction|]. destruct He as (b1 & b2 & -> & H1 & H2).
  destruct f as [k ty opt sz endi]. cbn [read_fields]. rewrite slice_from_app. cbn [bind]. rewrite <- app_assoc.
  pose proof (H [] _ fs [] w rest [] b1 b2 eq_refl eq_refl eq_refl eq_refl) as G. rewrite app_nil_r in G.
  specialize (G H1 H2). cbn [mf_optional mf_endi mf_ty] in G. rewrite G. clear G. cbn [bind]. rewrite !len_app in Hl.
  rewrite uadd_fit by lia. cbn [bind]. rewrite (app_assoc pre), <- len_app.
  rewrite (IH _ rest).
  - rewrite !len_app, <- app_assoc. cbn [app]. f_equal. f_equal. lia.
  - exact H2.
  - rewrite !len_app. lia.
  - intros l f r vl v vr c1 c2 c3 -> -> -> E1 E2 E3. rewrite <- !app_assoc in *. cbn [app] in *.
    apply (H (MkMField k ty opt sz endi :: l) f r (w :: vl) v vr (b1 ++ c1) c2 c3); try reflexivity.
    + rewrite <- app_assoc. reflexivity.
    + exists b1, c1. auto.
    + exact E2.
    + exact E3.
Qed.

(** ** Messages *)
Lemma items_member : forall x f, items_delimited emb x -> In f (m_fields x) -> member_items (emb (m_id x)) f.
Proof. intros x f H Hf ty y Et Ee. apply (H f ty y); [|exact Et]. constructor; auto. Qed.
Lemma items_inside : forall x f y, items_delimited emb x -> In f (m_fields x) -> inside (mf_ty f) y -> items_delimited emb y.
Proof. intros x f y H Hf Hy g ty z Hp Et. apply (H g ty z); [|exact Et]. eapply part_deep; eauto. Qed.

Lemma app_nonempty : forall (a b : bytes), a ++ b <> [] -> a <> [] \/ b <> [].
Proof. intros [|x a] b H; [right; exact H|left; discriminate]. Qed.

Theorem reads_exact : forall x, items_delimited emb x -> forall v b s, enc_msg m any x v b ->
  (s <> [] -> ~ open_value emb x v) -> (s = [] -> ~ followed m emb x v b) -> len (b ++ s) < 2 ^ 64 ->
  read_msg m emb x (b ++ s) = Ok (len b, v).
Proof.
  apply (message_ind_inside (fun x => items_delimited emb x -> forall v b s, enc_msg m any x v b ->
    (s <> [] -> ~ open_value emb x v) -> (s = [] -> ~ followed m emb x v b) -> len (b ++ s) < 2 ^ 64 ->
    read_msg m emb x (b ++ s) = Ok (len b, v))).
  intros x IH HI v b s He Ho Hf Hl. apply enc_msg_inv in He. destruct He as (vs & -> & He). rewrite read_msg_eq.
  pose proof (fields_read (emb (m_id x)) s (m_fields x) [] vs b [] He Hl) as G. cbn [app] in G.
  change (len (@nil N)) with 0 in G. rewrite G; [rewrite N.add_0_l; reflexivity|]. clear G.
  intros l f r vl w vr b1 b2 b3 El Ev -> E1 E2 E3.
  assert (Hin : In f (m_fields x)) by (rewrite El; apply in_elt).
  assert (Hidx : nth_error (m_fields x) (length l) = Some f /\ nth_error vs (length l) = Some w).
  { split; [rewrite El|rewrite Ev, <- (enc_fields_length _ _ _ _ E1)]; rewrite nth_error_app2, Nat.sub_diag by lia; reflexivity. }
  destruct Hidx as [Hi1 Hi2].
  assert (Hno : b3 ++ s <> [] -> ~ open_member emb (emb (m_id x)) f w).
  { intros Hn Hm. destruct s as [|k s].
    - rewrite app_nil_r in Hn. apply (Hf eq_refl). rewrite Ev. eapply followed_here; eauto.
    - apply Ho; [discriminate|]. econstructor; eauto. }
  rewrite !len_app in Hl.
  apply member_reads; [apply items_member; assumption|exact E2|exact Hno| |rewrite !len_app; lia].
  intros y z p c Hh Eb Hp Hc Hlc. destruct (holds_in _ _ _ _ Hh) as (Hy & _).
  apply (IH f y Hin Hy); [eapply items_inside; eauto|exact Hc| | |exact Hlc].
  - intros Hn Hz. apply (Hno Hn). eapply open_inside; eauto.
  - intros Hn Hz. apply app_eq_nil in Hn. destruct Hn as [-> ->]. apply (Hf eq_refl). rewrite Ev. eapply followed_inside; eauto.
Qed.

Lemma fields_lost : forall e s fs, (forall f, In f fs -> member_items e f /\ forall y, inside (mf_ty f) y -> items_delimited emb y) ->
  (forall f y z c s n, In f fs -> inside (mf_ty f) y -> enc_msg m any y z c -> s <> [] -> open_value emb y z ->
     len (c ++ s) < 2 ^ 64 -> read_msg m emb y (c ++ s) <> Ok (n, z)) ->
  forall prev rest b pre n, enc_fields m any fs prev rest b -> s <> [] -> len (pre ++ b ++ s) < 2 ^ 64 ->
  (exists i f w, nth_error fs i = Some f /\ nth_error rest i = Some w /\ open_member emb e f w) ->
  read_fields m emb e (pre ++ b ++ s) fs (len pre) prev <> Ok (n, prev ++ rest).
Proof.
  intros e s. induction fs as [|f fs IHf]; intros HI IH prev rest b pre n He Hs Hl Ho H.
  { destruct Ho as ([|i] & ? & ? & Ho & _); discriminate. }
  destruct rest as [|w rest]; [contradiction|]. destruct He as (b1 & b2 & -> & H1 & H2).
  destruct (HI f (or_introl eq_refl)) as [HI1 HI2].
  assert (Hs' : b2 ++ s <> []) by (intro E; apply app_eq_nil in E; apply Hs, E).
  rewrite !len_app in Hl.
  destruct f as [k ty opt sz endi]. cbn [read_fields] in H. rewrite slice_from_app in H. cbn [bind] in H.
  rewrite <- app_assoc in H.
  destruct (open_member_dec e (MkMField k ty opt sz endi) w) as [Hop|Hop].
  - destruct (read_optional m opt (read_ty m emb e endi prev ty) (b1 ++ b2 ++ s)) as [[j w']|?|] eqn:Er;
      cbn [bind] in H; try discriminate.
    destruct (uadd m (len pre) j) as [o|?|]; cbn [bind] in H; try discriminate.
    apply read_fields_extends in H. destruct H as (more & E & _). rewrite <- app_assoc in E.
    apply app_inv_head in E. injection E as <- _.
    refine (member_lost e prev (MkMField k ty opt sz endi) w b1 (b2 ++ s) j H1 Hs' Hop _ _ Er); [rewrite !len_app; lia|].
    intros y z c q Hy Hc Hz Hlt. exact (IH _ y z c (b2 ++ s) q (or_introl eq_refl) Hy Hc Hs' Hz Hlt).
  - pose proof (member_reads e prev (MkMField k ty opt sz endi) w b1 (b2 ++ s) HI1 H1 (fun _ => Hop)) as G.
    cbn [mf_optional mf_endi mf_ty] in G. rewrite G in H; clear G.
    + cbn [bind] in H. rewrite uadd_fit in H by lia. cbn [bind] in H. rewrite (app_assoc pre), <- len_app in H.
      change (prev ++ w :: rest) with (prev ++ [w] ++ rest) in H. rewrite (app_assoc prev) in H.
      refine (IHf _ _ _ rest b2 (pre ++ b1) n H2 Hs _ _ H).
      * intros f Hf. apply HI. right. exact Hf.
      * intros f y z c s' q Hf. apply (IH f y z c s' q). right. exact Hf.
      * rewrite !len_app. lia.
      * destruct Ho as ([|i] & f & v & E1 & E2 & E3); cbn in E1, E2; [congruence|]. exists i, f, v. auto.
    + intros y z p c Hh _ _ Hc Hlc. destruct (holds_in _ _ _ _ Hh) as (Hy & _).
      apply reads_exact; [exact (HI2 y Hy)|exact Hc| | |exact Hlc].
      * intros _ Hz. apply Hop. eapply open_inside; eauto.
      * intro E. contradiction.
    + rewrite !len_app. lia.
Qed.

Theorem open_lost : forall x, items_delimited emb x -> forall v b s n, enc_msg m any x v b -> s <> [] -> open_value emb x v ->
  len (b ++ s) < 2 ^ 64 -> read_msg m emb x (b ++ s) <> Ok (n, v).
Proof.
  apply (message_ind_inside (fun x => items_delimited emb x -> forall v b s n, enc_msg m any x v b -> s <> [] -> open_value emb x v ->
    len (b ++ s) < 2 ^ 64 -> read_msg m emb x (b ++ s) <> Ok (n, v))).
  intros x IH HI v b s n He Hs Ho Hl H. apply enc_msg_inv in He. destruct He as (vs & -> & He). rewrite read_msg_eq in H.
  destruct (read_fields m emb (emb (m_id x)) (b ++ s) (m_fields x) 0 []) as [[k out]|?|] eqn:E; cbn [bind] in H; try discriminate.
  inversion H; subst.
  refine (fields_lost (emb (m_id x)) s (m_fields x) _ _ [] vs b [] n He Hs Hl _ E).
  - intros f Hf. split; [apply items_member; assumption|]. intros y Hy. eapply items_inside; eauto.
  - intros f y z c s' q Hf Hy Hc Hs' Hz Hlt. apply (IH f y Hf Hy); try assumption. eapply items_inside; eauto.
  - inversion Ho; subst. eauto 8.
Qed.

Lemma followed_enc : forall x v b, followed m emb x v b -> enc_msg m any x v b.
Proof.
  intros x v b H. destruct H as [x l f r vl w vr b1 b2 b3 El E1 E2 E3 _ _|x l f r vl w vr b1 b2 b3 y z p c El E1 E2 E3 _ _ _ _].
  all: apply enc_msg_eq; rewrite El; apply enc_fields_app; [exact E1|]; exists b2, b3; auto.
Qed.
Lemma followed_open : forall x v b, followed m emb x v b -> open_value emb x v.
Proof.
  intros x v b H. induction H as [x l f r vl w vr b1 b2 b3 El E1 E2 E3 Ho _|x l f r vl w vr b1 b2 b3 y z p c El E1 E2 E3 Hh _ _ _ IH].
  all: apply open_some with (i := length l) (f := f) (w := w);
    [rewrite El|rewrite <- (enc_fields_length _ _ _ _ E1)|]; try (rewrite nth_error_app2, Nat.sub_diag by lia; reflexivity).
  - exact Ho.
  - eapply open_inside; eauto.
Qed.
Lemma followed_bytes : forall x v b, followed m emb x v b -> b <> [].
Proof.
  intros x v b H. induction H as [x l f r vl w vr b1 b2 b3 El E1 E2 E3 Ho Hn|x l f r vl w vr b1 b2 b3 y z p c El E1 E2 E3 Hh -> _ _ IH];
    intro E; apply app_eq_nil in E; destruct E as [_ E]; apply app_eq_nil in E; destruct E as [E E'].
  - contradiction.
  - apply app_eq_nil in E. apply IH, E.
Qed.

Lemma some_open_dec : forall e fs vs,
  (exists i f w, nth_error fs i = Some f /\ nth_error vs i = Some w /\ open_member emb e f w) \/
  ~ (exists i f w, nth_error fs i = Some f /\ nth_error vs i = Some w /\ open_member emb e f w).
Proof.
  intros e. induction fs as [|f fs IHf]; intros ws.
  { right. intros ([|i] & f & w & H & _); discriminate. }
  destruct ws as [|w ws]; [right; intros ([|i] & ? & ? & _ & H & _); discriminate|].
  destruct (open_member_dec e f w) as [H|H].
  { left. exists 0%nat, f, w. auto. }
  destruct (IHf ws) as [(i & g & w' & H1 & H2 & H3)|Hn].
  { left. exists (S i), g, w'. auto. }
  right. intros ([|i] & g & w' & H1 & H2 & H3); cbn in H1, H2; [congruence|]. apply Hn. exists i, g, w'. auto.
Qed.

(** A prefix of the fields with an open member, in front of other bytes of the message. *)
Lemma prefix_lost : forall x l r vl vr b1 b2 n, items_delimited emb x -> m_fields x = l ++ r ->
  enc_fields m any l [] vl b1 -> b2 <> [] -> len (b1 ++ b2) < 2 ^ 64 ->
  (exists i f w, nth_error l i = Some f /\ nth_error vl i = Some w /\ open_member emb (emb (m_id x)) f w) ->
  read_msg m emb x (b1 ++ b2) <> Ok (n, VMsg (vl ++ vr)).
Proof.
  intros x l r vl vr b1 b2 n HI El E1 Hn Hl Ho H. rewrite read_msg_eq, El, read_fields_app in H.
  destruct (read_fields m emb (emb (m_id x)) (b1 ++ b2) l 0 []) as [[k out]|?|] eqn:E; cbn [bind] in H; try discriminate.
  destruct (read_fields m emb (emb (m_id x)) (b1 ++ b2) r k out) as [[k' out']|?|] eqn:E'; cbn [bind] in H; try discriminate.
  inversion H; subst. destruct (read_fields_extends _ _ _ _ _ _ _ E) as (more & Em & Hm). cbn [app] in Em. subst out.
  destruct (read_fields_extends _ _ _ _ _ _ _ E') as (more' & Em' & _).
  assert (Ev : vl = more).
  { assert (HL : length vl = length more) by (rewrite Hm; exact (enc_fields_length _ _ _ _ E1)).
    clear - Em' HL. revert more HL Em'. induction vl as [|a vl IH]; intros [|c more] HL E; try discriminate; [reflexivity|].
    injection E as -> E. f_equal. apply IH; [injection HL; auto|exact E]. }
  subst more.
  refine (fields_lost (emb (m_id x)) b2 l _ _ [] vl b1 [] k E1 Hn Hl Ho E).
  - intros f Hf. assert (Hf' : In f (m_fields x)) by (rewrite El; apply in_or_app; auto).
    split; [apply items_member; assumption|]. intros y Hy. eapply items_inside; eauto.
  - intros f y z c s' q Hf Hy Hc Hs' Hz Hlt. apply open_lost; try assumption.
    eapply items_inside; [exact HI| |exact Hy]. rewrite El. apply in_or_app. auto.
Qed.

Theorem followed_lost : forall x v b, followed m emb x v b -> items_delimited emb x -> len b < 2 ^ 64 ->
  forall n, read_msg m emb x b <> Ok (n, v).
Proof.
  intros x v b H. induction H as [x l f r vl w vr b1 b2 b3 El E1 E2 E3 Ho Hn|x l f r vl w vr b1 b2 b3 y z p c El E1 E2 E3 Hh Eb Hp Hf IH];
    intros HI Hl n H.
  - rewrite app_assoc in H, Hl. change (w :: vr) with ([w] ++ vr) in H. rewrite (app_assoc vl) in H.
    refine (prefix_lost x (l ++ [f]) r (vl ++ [w]) vr (b1 ++ b2) b3 n HI _ _ Hn Hl _ H).
    + rewrite <- app_assoc. exact El.
    + apply enc_fields_app; [exact E1|]. apply enc_fields_one. exact E2.
    + exists (length l), f, w. split; [|split; [rewrite <- (enc_fields_length _ _ _ _ E1)|exact Ho]];
        rewrite nth_error_app2, Nat.sub_diag by lia; reflexivity.
  - assert (Hin : In f (m_fields x)) by (rewrite El; apply in_elt).
    destruct (holds_in _ _ _ _ Hh) as (Hy & _).
    assert (Hb2 : b2 <> []).
    { intro E. apply (followed_bytes _ _ _ Hf). rewrite E in Eb. symmetry in Eb. apply app_eq_nil in Eb. apply Eb. }
    assert (Hof : open_member emb (emb (m_id x)) f w).
    { eapply open_inside; [exact Hh|]. eapply followed_open. exact Hf. }
    assert (Hb3 : b3 <> [] \/ b3 = []) by (destruct b3; [right; reflexivity|left; discriminate]).
    destruct Hb3 as [Hn| ->].
    { rewrite app_assoc in H, Hl. change (w :: vr) with ([w] ++ vr) in H. rewrite (app_assoc vl) in H.
      refine (prefix_lost x (l ++ [f]) r (vl ++ [w]) vr (b1 ++ b2) b3 n HI _ _ Hn Hl _ H).
      + rewrite <- app_assoc. exact El.
      + apply enc_fields_app; [exact E1|]. apply enc_fields_one. exact E2.
      + exists (length l), f, w. split; [|split; [rewrite <- (enc_fields_length _ _ _ _ E1)|exact Hof]];
          rewrite nth_error_app2, Nat.sub_diag by lia; reflexivity. }
    rewrite app_nil_r in H, Hl.
    destruct (some_open_dec (emb (m_id x)) l vl) as [Hsome|Hnone].
    { exact (prefix_lost x l (f :: r) vl (w :: vr) b1 b2 n HI El E1 Hb2 Hl Hsome H). }
    rewrite read_msg_eq, El, read_fields_app in H.
    pose proof (fields_read (emb (m_id x)) b2 l [] vl b1 [] E1 Hl) as G. cbn [app] in G.
    change (len (@nil N)) with 0 in G. rewrite N.add_0_l in G. rewrite G in H; clear G.
    + cbn [bind] in H. destruct f as [k ty opt sz endi]. cbn [read_fields] in H.
      rewrite slice_from_app in H. cbn [bind] in H.
      destruct (read_optional m opt (read_ty m emb (emb (m_id x)) endi vl ty) b2) as [[j w']|?|] eqn:Er; cbn [bind] in H; try discriminate.
      destruct (uadd m (len b1) j) as [o|?|]; cbn [bind] in H; try discriminate.
      destruct (read_fields m emb (emb (m_id x)) (b1 ++ b2) r o (vl ++ [w'])) as [[k' out']|?|] eqn:E'; cbn [bind] in H; try discriminate.
      inversion H; subst. destruct (read_fields_extends _ _ _ _ _ _ _ E') as (more & Em & _).
      rewrite <- app_assoc in Em. apply app_inv_head in Em. injection Em as <- _.
      rewrite <- (app_nil_r (p ++ c)) in Er.
      destruct (member_back (emb (m_id x)) vl (MkMField k ty opt sz endi) w (p ++ c) [] j y z E2 Hh Er) as (p' & c' & n' & Eb' & Hp' & _ & Hr).
      assert (Ec : c' = c).
      { assert (HL : length p = length p') by congruence. clear - Eb' HL. revert p' HL Eb'.
        induction p as [|a p IHp]; intros [|a' p'] HL E; try discriminate; [symmetry; exact E|].
        injection E as _ E. apply (IHp p'); [injection HL; auto|exact E]. }
      subst c'. rewrite app_nil_r in Hr. rewrite !len_app in Hl.
      apply (IH (items_inside _ _ _ HI Hin Hy) ltac:(lia) n'). exact Hr.
    + intros l' g r' vl' u vr' c1 c2 c3 El' Ev' Eb' F1 F2 F3.
      assert (Hg : In g (m_fields x)) by (rewrite El, El'; apply in_or_app; left; apply in_elt).
      rewrite Eb' in Hl. rewrite !len_app in Hl.
      assert (Hng : ~ open_member emb (emb (m_id x)) g u).
      { intro Hg'. apply Hnone. exists (length l'), g, u. rewrite El', Ev'. cbn [app] in F1.
        split; [|split; [rewrite <- (enc_fields_length _ _ _ _ F1)|exact Hg']]; rewrite nth_error_app2, Nat.sub_diag by lia; reflexivity. }
      apply member_reads; [apply items_member; assumption|exact F2|intros _; exact Hng| |rewrite !len_app; lia].
      intros y' z' p' c' Hh' _ _ Hc' Hlc. destruct (holds_in _ _ _ _ Hh') as (Hy' & _).
      apply reads_exact; [eapply items_inside; eauto|exact Hc'| | |exact Hlc].
      * intros _ Hz. apply Hng. eapply open_inside; eauto.
      * intro E. apply app_eq_nil in E. destruct E as [_ E]. contradiction.
Qed.

(** ** The exact conditions *)
Theorem suffix_exact : forall x v b s, items_delimited emb x -> encodes_lax m x v b -> s <> [] -> len (b ++ s) < 2 ^ 64 ->
  (read_msg m emb x (b ++ s) = Ok (len b, v) <-> ~ open_value emb x v) /\
  (open_value emb x v -> forall n, read_msg m emb x (b ++ s) <> Ok (n, v)).
Proof.
  intros x v b s HI He Hs Hl. split.
  - split.
    + intros H Ho. exact (open_lost x HI v b s (len b) He Hs Ho Hl H).
    + intros Ho. apply reads_exact; auto.
  - intros Ho n. apply open_lost; assumption.
Qed.
Theorem whole_exact : forall x v b, items_delimited emb x -> encodes_lax m x v b -> len b < 2 ^ 64 ->
  (read_msg m emb x b = Ok (len b, v) <-> ~ followed m emb x v b) /\
  (followed m emb x v b -> forall n, read_msg m emb x b <> Ok (n, v)).
Proof.
  intros x v b HI He Hl. split.
  - split.
    + intros H Ho. exact (followed_lost x v b Ho HI Hl (len b) H).
    + intros Ho. rewrite <- (app_nil_r b) at 1. apply reads_exact; [exact HI|exact He|congruence|intros _; exact Ho|rewrite app_nil_r; exact Hl].
  - intros Ho n. apply followed_lost; assumption.
Qed.
End Exact.
