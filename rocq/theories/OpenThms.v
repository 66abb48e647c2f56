(** Values that end with the input, for C67, C68 and C71. *)

From Coq Require Import Arith NArith ZArith List Bool Lia ZifyBool ZifyN ZifyNat.
From Verif Require Import Base Schema Codec Compiler Access Bits BitsFacts CodecFacts StructFacts ArrayThms BEThms
  Runtime Gen SpecWire SpecUnion SpecExact SpecStream MsgFacts WriteThms SoundThms SpecDecode DecodeThms ReencodeThms ExactThms FinalThms.
Import ListNotations.
Local Open Scope N_scope.

Section Open.
Variables (m : mode) (emb : N -> bool).

(** ** What contains a payload or a list that is not walked uses all the input *)

Definition greedy (x : message) : Prop := forall b c v r, decodes m emb x b (Found c v r) -> open_value emb x v -> r = [].
Lemma content_greedy : forall t, (forall y, inside t y -> greedy y) ->
  forall e endi prev b c v r f, mf_ty f = t -> mf_optional f = false -> content m emb e endi prev t b (Found c v r) ->
  open_member emb e f v -> r = [].
Proof.
  intros t H e endi prev b c v r f Ht Ho X Y.
  inversion Y as [? ? ? u Hp Hh|? ? u ty y Hp Hh|? ? ? y z Hh Hz]; subst.
  - rewrite Hp in X. inversion X; reflexivity.
  - rewrite Hp in X. inversion X; reflexivity.
  - inversion Hh as [Hp Hd|u on i k c0 Hp Hd Hk Hi]; unfold held in Hd; rewrite Ho in Hd; subst v.
    + rewrite Hp in X. inversion X; subst. match goal with Z : target _ _ _ _ _ |- _ => inversion Z; subst end.
      eapply H; [rewrite Hp; constructor|eassumption|exact Hz].
    + rewrite Hp in X. inversion X; subst.
      match goal with Z : first_case _ _ _ _ |- _ => destruct Z as (Hn & _ & _) end.
      assert (c1 = c0) by congruence. subst c1. assert (t = RMessage y) by congruence. subst t.
      match goal with Z : target _ _ _ _ _ |- _ => inversion Z; subst end.
      eapply H; [rewrite Hp; econstructor; [eapply nth_error_In; exact Hn|exact Hi]|eassumption|exact Hz].
Qed.
(** The member without its presence byte. *)
Definition mandatory (f : mfield) : mfield := match f with MkMField n ty _ sz endi => MkMField n ty false sz endi end.
Lemma open_mandatory : forall e f v, mf_optional f = true -> open_member emb e f v -> exists u, v = VOpt (Some u) /\ open_member emb e (mandatory f) u.
Proof.
  intros e [n ty opt sz endi] v Ho Y. cbn in Ho. subst opt.
  inversion Y as [? ? ? u Hp Hh|? ? u ty' y Hp Hh|? ? ? y z Hh Hz]; subst.
  - exists u. split; [exact Hh|]. eapply open_payload; [exact Hp|reflexivity].
  - exists u. split; [exact Hh|]. eapply open_list; [exact Hp|reflexivity].
  - inversion Hh as [Hp Hd|u on i k c0 Hp Hd Hk Hi].
    + exists z. split; [exact Hd|]. eapply open_inside; [|exact Hz]. apply holds_message; [exact Hp|reflexivity].
    + exists (VUnion k (Some z)). split; [exact Hd|]. eapply open_inside; [|exact Hz]. eapply holds_case; [exact Hp|reflexivity|exact Hk|exact Hi].
Qed.
Lemma member_greedy : forall f, (forall y, inside (mf_ty f) y -> greedy y) ->
  forall e prev b c v r, member m emb e prev f b (Found c v r) -> open_member emb e f v -> r = [].
Proof.
  intros f H e prev b c v r X Y. inversion X; subst.
  - eapply content_greedy; [exact H|reflexivity|assumption|eassumption|exact Y].
  - apply open_mandatory in Y; [|assumption]. destruct Y as (u & E & _). discriminate.
  - apply open_mandatory in Y; [|assumption]. destruct Y as (u & E & Y). inversion E; subst.
    eapply (content_greedy (mf_ty f) H e _ prev _ _ _ _ (mandatory f)); [destruct f; reflexivity|destruct f; reflexivity|eassumption|exact Y].
Qed.
Lemma members_greedy : forall fs, (forall g y, In g fs -> inside (mf_ty g) y -> greedy y) ->
  forall e prev b c vs r, members m emb e prev fs b (Found c vs r) ->
  forall i f w, nth_error fs i = Some f -> nth_error vs i = Some w -> open_member emb e f w -> r = [].
Proof.
  induction fs as [|g fs IH]; intros H e prev b c vs r X i f w Hf Hw Ho; [destruct i; discriminate|].
  inversion X; subst. destruct i as [|i].
  - inversion Hf; inversion Hw; subst.
    match goal with Z : member _ _ _ _ _ _ _ |- _ => apply member_greedy in Z; [|intros y; apply (H f y); left; reflexivity|exact Ho]; subst end.
    match goal with Z : members _ _ _ _ _ _ _ |- _ => apply members_parted in Z; [|intros; apply decodes_parted] end.
    match goal with Z : [] = _ ++ _ |- _ => symmetry in Z; apply app_eq_nil in Z; apply Z end.
  - cbn [nth_error] in Hf, Hw. eapply IH; [|eassumption|exact Hf|exact Hw|exact Ho]. intros g' y Hg. apply (H g' y). right. exact Hg.
Qed.
Theorem decodes_greedy : forall x, greedy x.
Proof.
  apply (message_ind_inside greedy). intros x IH b c v r X Y. inversion X; subst.
  inversion Y as [? vs' i f w Hf Hw Ho]; subst.
  eapply members_greedy; [exact IH|eassumption|exact Hf|exact Hw|exact Ho].
Qed.

(** ** Other values end where they end, whatever follows *)

Definition settled (x : message) : Prop := items_delimited emb x ->
  forall b c v r s, decodes m emb x b (Found c v r) -> ~ open_value emb x v -> decodes m emb x (c ++ s) (Found c v s).
Lemma delimited_closed : forall x, self_delimiting emb x -> forall v, ~ open_value emb x v.
Proof.
  apply (message_ind_inside (fun x => self_delimiting emb x -> forall v, ~ open_value emb x v)).
  intros x IH Hs v Y. inversion Y as [? vs i f w Hf Hw Ho]; subst. pose proof (nth_error_In _ _ Hf) as Hin.
  pose proof (Hs _ f (part_here _ _ _ _ Hin eq_refl)) as Hd.
  inversion Ho as [? ? ? u Hp Hh|? ? u ty y Hp Hh|? ? ? y z Hh Hz]; subst.
  - rewrite Hp in Hd. exact Hd.
  - rewrite Hp in Hd. congruence.
  - destruct (holds_in _ _ _ _ Hh) as (Hi & _). eapply (IH f y Hin Hi); [|exact Hz].
    intros e' g Hg. apply Hs. eapply part_deep; eassumption.
Qed.
Lemma delimited_items : forall x, self_delimiting emb x -> items_delimited emb x.
Proof.
  intros x Hs f ty y Hp Ht e g Hg. apply Hs.
  clear - Hp Ht Hg. remember true as a eqn:Ea. clear Ea. induction Hp as [x a f Hin He|x a f h z Hin Hi Hp IH].
  - eapply part_deep; [exact Hin| |exact Hg]. rewrite Ht. constructor.
  - eapply part_deep; [exact Hin|exact Hi|exact (IH Ht)].
Qed.
Lemma items_settled : forall y, settled y -> self_delimiting emb y -> forall k b c r s,
  items m emb y k b (Found c tt r) -> items m emb y k (c ++ s) (Found c tt s).
Proof.
  intros y Hy Hs. induction k as [|k IH]; intros b c r s X; inversion X; subst; [constructor|].
  rewrite <- app_assoc. eapply items_next; [|eapply IH; eassumption].
  eapply Hy; [apply delimited_items; exact Hs|eassumption|apply delimited_closed; exact Hs].
Qed.
Lemma content_settled : forall t e, (forall y, inside t y -> settled y) ->
  forall f, mf_ty f = t -> mf_optional f = false -> (forall y, inside t y -> items_delimited emb y) ->
  (forall ty y, t = TList ty y -> e = true -> self_delimiting emb y) ->
  forall endi prev b c v r s, content m emb e endi prev t b (Found c v r) -> ~ open_member emb e f v ->
  content m emb e endi prev t (c ++ s) (Found c v s).
Proof.
  intros t e H f Ht Ho Hi Hl endi prev b c v r s X Y. inversion X; subst; unfold bytes; rewrite <- ?app_assoc;
    try (constructor; assumption).
  - constructor. match goal with Z : target _ _ _ _ _ |- _ => inversion Z; subst end; [constructor; assumption|].
    assert (Hin : inside (mf_ty f) y) by (match goal with Q : _ = mf_ty f |- _ => rewrite <- Q end; constructor).
    constructor. eapply H; [exact Hin|apply Hi; exact Hin|eassumption|].
    intro Z. apply Y. eapply open_inside; [|exact Z]. apply holds_message; [congruence|]. unfold held. rewrite Ho. reflexivity.
  - eapply union_empty; eassumption.
  - match goal with Z : first_case _ _ _ _ |- _ => pose proof Z as (Hn & _ & _) end.
    eapply union_case; try eassumption.
    match goal with Z : target _ _ _ _ _ |- _ => inversion Z; subst end; [constructor; assumption|].
    assert (Hin : inside (mf_ty f) y)
      by (match goal with Q : _ = mf_ty f |- _ => rewrite <- Q end; econstructor; [eapply nth_error_In; exact Hn|assumption]).
    constructor. eapply H; [exact Hin|apply Hi; exact Hin|eassumption|].
    intro Z. apply Y. eapply open_inside; [|exact Z]. eapply holds_case; [symmetry; eassumption|unfold held; rewrite Ho; reflexivity|exact Hn|assumption].
  - apply list_walked; [assumption|]. eapply items_settled; [apply H| |eassumption].
    + match goal with Q : _ = mf_ty f |- _ => rewrite <- Q end. constructor.
    + eapply Hl; [symmetry; eassumption|reflexivity].
  - exfalso. apply Y. eapply open_list; [symmetry; eassumption|unfold held; rewrite Ho; reflexivity].
  - exfalso. apply Y. eapply open_payload; [symmetry; eassumption|unfold held; rewrite Ho; reflexivity].
Qed.
Lemma mandatory_open : forall e f u, mf_optional f = true -> open_member emb e (mandatory f) u -> open_member emb e f (VOpt (Some u)).
Proof.
  intros e [n ty opt sz endi] v Ho Y. cbn in Ho. subst opt.
  inversion Y as [? ? ? u Hp Hh|? ? u ty' y Hp Hh|? ? ? y z Hh Hz]; subst.
  - eapply open_payload; [exact Hp|reflexivity].
  - eapply open_list; [exact Hp|reflexivity].
  - inversion Hh as [Hp Hd|u on i k c0 Hp Hd Hk Hi]; cbn in Hd; subst v.
    + eapply open_inside; [|exact Hz]. apply holds_message; [exact Hp|reflexivity].
    + eapply open_inside; [|exact Hz]. eapply holds_case; [exact Hp|reflexivity|exact Hk|exact Hi].
Qed.
Lemma member_settled : forall f e, (forall y, inside (mf_ty f) y -> settled y) ->
  (forall y, inside (mf_ty f) y -> items_delimited emb y) ->
  (forall ty y, mf_ty f = TList ty y -> e = true -> self_delimiting emb y) ->
  forall prev b c v r s, member m emb e prev f b (Found c v r) -> ~ open_member emb e f v ->
  member m emb e prev f (c ++ s) (Found c v s).
Proof.
  intros f e H Hi Hl prev b c v r s X Y. inversion X; subst.
  - apply member_plain; [assumption|]. eapply content_settled; try eassumption; reflexivity.
  - apply member_absent. assumption.
  - cbn [app]. apply member_present; [assumption|assumption|].
    eapply (content_settled (mf_ty f) e H (mandatory f)); try eassumption; try (destruct f; reflexivity).
    intro Z. apply Y. apply mandatory_open; assumption.
Qed.
Lemma members_settled : forall fs e, (forall g y, In g fs -> inside (mf_ty g) y -> settled y) ->
  (forall g y, In g fs -> inside (mf_ty g) y -> items_delimited emb y) ->
  (forall g ty y, In g fs -> mf_ty g = TList ty y -> e = true -> self_delimiting emb y) ->
  forall prev b c vs r s, members m emb e prev fs b (Found c vs r) ->
  (forall i f w, nth_error fs i = Some f -> nth_error vs i = Some w -> ~ open_member emb e f w) ->
  members m emb e prev fs (c ++ s) (Found c vs s).
Proof.
  induction fs as [|f fs IH]; intros e H Hi Hl prev b c vs r s X Y; inversion X; subst; [constructor|].
  rewrite <- app_assoc. eapply members_next.
  - eapply member_settled.
    + intros y. apply (H f y). left. reflexivity.
    + intros y. apply (Hi f y). left. reflexivity.
    + intros ty y. apply (Hl f ty y). left. reflexivity.
    + eassumption.
    + apply (Y 0%nat); reflexivity.
  - eapply IH.
    + intros g y Hg. apply (H g y). right. exact Hg.
    + intros g y Hg. apply (Hi g y). right. exact Hg.
    + intros g ty y Hg. apply (Hl g ty y). right. exact Hg.
    + eassumption.
    + intros i g w Hg Hw. apply (Y (S i)); assumption.
Qed.
Theorem decodes_settled : forall x, settled x.
Proof.
  apply (message_ind_inside settled). intros x IH Hd b c v r s X Y. inversion X; subst. constructor. eapply members_settled.
  - exact IH.
  - intros g y Hg Hi. eapply items_inside; eassumption.
  - intros g ty y Hg Ht He. eapply Hd; [|exact Ht]. apply part_here; [exact Hg|symmetry; exact He].
  - eassumption.
  - intros i f w Hf Hw Ho. apply Y. econstructor; eassumption.
Qed.

End Open.

Theorem read_open_all : forall m emb x b n v, len b < 2 ^ 64 -> bytes_ok b -> read_msg m emb x b = Ok (n, v) ->
  open_value emb x v -> n = len b.
Proof.
  intros m emb x b n v Hl Hb H Ho. destruct (decode_exact m emb x b Hl Hb) as (HO & _ & _).
  apply HO in H. destruct H as (c & r & -> & -> & H). pose proof (decodes_greedy m emb x _ _ _ _ H Ho) as ->. rewrite app_nil_r. reflexivity.
Qed.
Theorem read_final_exact : forall m emb x b s n v, items_delimited emb x -> len (b ++ s) < 2 ^ 64 -> bytes_ok (b ++ s) -> s <> [] ->
  read_msg m emb x b = Ok (n, v) -> (read_msg m emb x (b ++ s) = Ok (n, v) <-> ~ open_value emb x v).
Proof.
  intros m emb x b s n v Hi Hl Hb Hs H. destruct (decode_exact m emb x b) as (HO & _ & _).
  - rewrite len_app in Hl. lia.
  - eapply bytes_ok_left; exact Hb.
  - destruct (decode_exact m emb x (b ++ s) Hl Hb) as (HO' & _ & _). split.
    + intros H' Ho. pose proof (read_open_all _ _ _ _ _ _ Hl Hb H' Ho) as E. apply HO in H. destruct H as (c & r & -> & -> & _).
      rewrite !len_app in E. assert (len s <> 0) by (destruct s; [contradiction|unfold len; cbn; lia]). lia.
    + intro Ho. apply HO in H. destruct H as (c & r & -> & -> & H). apply HO'. exists c, (r ++ s).
      split; [rewrite app_assoc; reflexivity|]. split; [reflexivity|]. rewrite <- app_assoc.
      exact (decodes_settled m emb x Hi _ _ _ _ (r ++ s) H Ho).
Qed.

(** ** Members added at the end *)

Lemma read_fields_bound : forall m emb e b fs off prev n vs, len b < 2 ^ 64 -> bytes_ok b -> off <= len b ->
  read_fields m emb e b fs off prev = Ok (n, vs) -> off <= n <= len b.
Proof.
  intros m emb e b fs off prev n vs Hl Hb Ho R. eapply bounded_fields; [|exact Hl|exact Ho|exact R].
  intros g y _ _ bb nn vv. apply read_bounded.
Qed.
Theorem extended_exact : forall m emb x x' more b, m_fields x' = m_fields x ++ more -> emb (m_id x') = emb (m_id x) ->
  len b < 2 ^ 64 -> bytes_ok b ->
  (forall e, read_msg m emb x b = Err e -> read_msg m emb x' b = Err e) /\
  (read_msg m emb x b = Panic -> read_msg m emb x' b = Panic) /\
  (forall n' v', read_msg m emb x' b = Ok (n', v') ->
     exists n vs ws, read_msg m emb x b = Ok (n, VMsg vs) /\ v' = VMsg (vs ++ ws) /\ n <= n') /\
  (forall n vs, read_msg m emb x b = Ok (n, VMsg vs) -> let rest := skipn (N.to_nat n) b in
     (forall n' ws, read_msg m emb x' b = Ok (n', VMsg (vs ++ ws)) <->
        exists c r, rest = c ++ r /\ n' = n + len c /\ members m emb (emb (m_id x)) vs more rest (Found c ws r)) /\
     (forall e, read_msg m emb x' b = Err e <-> members m emb (emb (m_id x)) vs more rest (Stops (Reports e))) /\
     (read_msg m emb x' b = Panic <-> members m emb (emb (m_id x)) vs more rest (Stops Crashes))).
Proof.
  intros m emb x x' more b Hf Hid Hl Hb. rewrite !read_msg_eq, Hf, Hid, read_fields_app.
  destruct (read_fields m emb (emb (m_id x)) b (m_fields x) 0 []) as [[n vs]|er|] eqn:R; cbn [bind].
  2,3: split; [|split; [|split]]; try congruence; intros; discriminate.
  pose proof (read_fields_bound _ _ _ _ _ _ _ _ _ Hl Hb (N.le_0_l _) R) as (_ & Hn).
  assert (HM : forall o, _) by (exact (tells_members m emb (emb (m_id x)) b Hl Hb more (fun g y _ _ => tells_message m emb y) n vs Hn)).
  destruct (read_fields m emb (emb (m_id x)) b more n vs) as [[n' us]|er|] eqn:R'; cbn [bind].
  - destruct (read_fields_extends _ _ _ _ _ _ _ _ _ R') as (ws & -> & _).
    pose proof (read_fields_bound _ _ _ _ _ _ _ _ _ Hl Hb Hn R') as (Hlo & Hhi).
    rewrite skipn_app, skipn_all, Nat.sub_diag in HM. cbn [app skipn] in HM.
    split; [|split; [|split]]; try discriminate.
    + intros k v' E. inversion E; subst. exists n, vs, ws. auto.
    + intros k us E. inversion E; subst us k. cbv zeta. split; [|split].
      * intros k us. split.
        -- intro X. inversion X; subst k. apply app_inv_head in H1. subst us.
           exists (firstn (N.to_nat (n' - n)) (skipn (N.to_nat n) b)), (skipn (N.to_nat n') b). split; [|split].
           ++ rewrite <- (firstn_skipn (N.to_nat (n' - n)) (skipn (N.to_nat n) b)) at 1. f_equal.
              rewrite ArrayThms.skipn_add. f_equal. lia.
           ++ rewrite len_firstn; unfold len in *; rewrite ?skipn_length; lia.
           ++ apply HM. reflexivity.
        -- intros (c & r & Er & -> & X). apply HM in X. inversion X; subst. do 3 f_equal.
           rewrite len_firstn; unfold len in *; rewrite ?skipn_length; lia.
      * intro e. split; [discriminate|]. intro X. apply HM in X. discriminate.
      * split; [discriminate|]. intro X. apply HM in X. discriminate.
  - split; [|split; [|split]]; try discriminate. intros k us E. inversion E; subst us k. cbv zeta. split; [|split].
    + intros k us. split; [discriminate|]. intros (c & r & _ & _ & X). apply HM in X. discriminate.
    + intro e. split; intro X; [inversion X; subst; apply HM; reflexivity|apply HM in X; inversion X; reflexivity].
    + split; [discriminate|]. intro X. apply HM in X. discriminate.
  - split; [|split; [|split]]; try discriminate. intros k us E. inversion E; subst us k. cbv zeta. split; [|split].
    + intros k us. split; [discriminate|]. intros (c & r & _ & _ & X). apply HM in X. discriminate.
    + intro e. split; [discriminate|]. intro X. apply HM in X. discriminate.
    + split; [intros _; apply HM; reflexivity|reflexivity].
Qed.

(** ** Messages one after another *)

Lemma one_of_stream : forall m emb x v b s, items_delimited emb x -> encodes_lax m x v b -> len (b ++ s) < 2 ^ 64 ->
  (read_msg m emb x (b ++ s) = Ok (len b, v) <-> ~ followed m emb x v b /\ (s <> [] -> ~ open_value emb x v)) /\
  (forall n, read_msg m emb x (b ++ s) = Ok (n, v) -> n = len b).
Proof.
  intros m emb x v b s Hi He Hl. destruct s as [|a s].
  - rewrite app_nil_r in *. destruct (whole_exact m emb x v b Hi He Hl) as (H1 & H2). split.
    + rewrite H1. split; [intro H; split; [exact H|congruence]|tauto].
    + intros n H. assert (F : ~ followed m emb x v b) by (intro F; exact (H2 F n H)). apply H1 in F. congruence.
  - destruct (suffix_exact m emb x v b (a :: s) Hi He ltac:(discriminate) Hl) as (H1 & H2). split.
    + rewrite H1. split; [|intros (_ & H); apply H; discriminate].
      intro H. split; [|auto]. intro F. apply H. eapply followed_open; exact F.
    + intros n H. assert (F : ~ open_value emb x v) by (intro F; exact (H2 F n H)). apply H1 in F. congruence.
Qed.

Theorem stream_exact : forall m emb l bs rest, Forall2 (fun xv b => encodes_lax m (fst xv) (snd xv) b) l bs ->
  (forall xv, In xv l -> items_delimited emb (fst xv)) -> len (concat bs ++ rest) < 2 ^ 64 ->
  (reads_in_turn m emb (map fst l) (concat bs ++ rest) (map snd l) rest <->
   forall l1 x v l2 bs1 b bs2, l = l1 ++ (x, v) :: l2 -> bs = bs1 ++ b :: bs2 -> length bs1 = length l1 ->
     ~ followed m emb x v b /\ (concat bs2 ++ rest <> [] -> ~ open_value emb x v)).
Proof.
  intros m emb l bs rest H. induction H as [|[x v] b l bs He H IH]; intros Hi Hl.
  - cbn. split; [|intros _; constructor]. intros _ l1 x v l2 bs1 b bs2 E. destruct l1; discriminate.
  - cbn [concat map fst snd] in *. rewrite <- app_assoc in Hl |- *.
    assert (Hi' : forall xv, In xv l -> items_delimited emb (fst xv)) by (intros xv Hx; apply Hi; right; exact Hx).
    assert (Hl' : len (concat bs ++ rest) < 2 ^ 64) by (rewrite len_app in Hl; lia).
    specialize (IH Hi' Hl'). destruct (one_of_stream m emb x v b (concat bs ++ rest) (Hi (x, v) (or_introl eq_refl)) He Hl) as (H1 & H2).
    split.
    + intro R. inversion R as [|? ? ? n ? ? ? Hr Hn R']; subst. pose proof (H2 n Hr) as ->. apply H1 in Hr.
      rewrite skipn_len_app in R'. pose proof (proj1 IH R') as R2. clear R'. rename R2 into R'. intros [|[x1 v1] l1] x0 v0 l2 bs1 b0 bs2 E1 E2 E3.
      * destruct bs1; [|discriminate]. cbn in E1, E2. inversion E1; inversion E2; subst. exact Hr.
      * destruct bs1 as [|b1 bs1]; [discriminate|]. cbn in E1, E2, E3. inversion E1; inversion E2; subst.
        eapply R'; [reflexivity|reflexivity|lia].
    + intro C. apply reads_next with (n := len b).
      * apply H1. apply (C [] x v l [] b bs); reflexivity.
      * rewrite len_app. lia.
      * rewrite skipn_len_app. apply (proj2 IH). intros l1 x0 v0 l2 bs1 b0 bs2 -> -> E3.
        apply (C ((x, v) :: l1) x0 v0 l2 (b :: bs1) b0 bs2); [reflexivity|reflexivity|cbn; lia].
Qed.
