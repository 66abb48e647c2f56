(** Writing again what was read, for C80. *)

From Coq Require Import Arith NArith ZArith List Bool Lia ZifyBool ZifyN ZifyNat.
From Verif Require Import Base Schema Codec Compiler Access Bits BitsFacts CodecFacts StructFacts ArrayThms BEThms
  Runtime Gen SpecWire SpecUnion MsgFacts WriteThms SpecDecode DecodeThms SpecEncode EncodeThms SpecReencode.
Import ListNotations.
Local Open Scope N_scope.

(** [tidied], with a condition [opt] for every change. *)
Definition tidy (opt : Prop) : bytes -> bytes -> Prop := Forall2 (fun a a' => a' = a \/ (a' = 1 /\ 1 < a /\ opt)).
Lemma tidy_refl : forall opt c, tidy opt c c.
Proof. induction c; constructor; auto. Qed.
Lemma tidy_app : forall opt a a' b b', tidy opt a a' -> tidy opt b b' -> tidy opt (a ++ b) (a' ++ b').
Proof. intros. apply Forall2_app; assumption. Qed.
Lemma tidy_nil : forall opt c', tidy opt [] c' -> c' = [].
Proof. intros opt c' H. inversion H. reflexivity. Qed.
Lemma tidy_tidied : forall opt c c', tidy opt c c' -> tidied c c'.
Proof. intros opt c c' H. induction H; constructor; [tauto|assumption]. Qed.
Lemma tidy_same : forall c c', tidy False c c' -> c' = c.
Proof. intros c c' H. induction H as [|a a' c c' Ha H IH]; [reflexivity|]. destruct Ha as [-> | (_ & _ & [])]. congruence. Qed.
Lemma tidied_len : forall c c', tidied c c' -> len c' = len c.
Proof. intros c c' H. unfold len. f_equal. induction H; cbn; congruence. Qed.

Section Re.
Variables (m : mode) (emb : N -> bool).

(** The parts of the input. *)
Definition parted (x : message) : Prop := forall b c v r, decodes m emb x b (Found c v r) -> b = c ++ r.
Lemma target_parted : forall t, (forall y, t = RMessage y -> parted y) ->
  forall b c v r, target m emb t b (Found c v r) -> b = c ++ r.
Proof. intros t H b c v r X. inversion X; subst; [reflexivity|]. eapply H; [reflexivity|eassumption]. Qed.
Lemma content_parted : forall t, (forall y, inside t y -> parted y) ->
  forall e endi prev b c v r, content m emb e endi prev t b (Found c v r) -> b = c ++ r.
Proof.
  intros t H e endi prev b c v r X. inversion X; subst; rewrite <- ?app_assoc, ?app_nil_r; try reflexivity.
  - eapply target_parted; [|eassumption]. intros y ->. apply H. constructor.
  - match goal with Y : first_case _ _ _ _ |- _ => destruct Y as (Hn & _ & _) end.
    eapply target_parted; [|eassumption]. intros y ->. apply H. econstructor; [eapply nth_error_In; exact Hn|eassumption].
Qed.
Lemma member_parted : forall f, (forall y, inside (mf_ty f) y -> parted y) ->
  forall e prev b c v r, member m emb e prev f b (Found c v r) -> b = c ++ r.
Proof.
  intros f H e prev b c v r X. inversion X; subst; [|reflexivity|].
  - eapply content_parted; eassumption.
  - cbn [app]. f_equal. eapply content_parted; eassumption.
Qed.
Lemma members_parted : forall fs, (forall g y, In g fs -> inside (mf_ty g) y -> parted y) ->
  forall e prev b c vs r, members m emb e prev fs b (Found c vs r) -> b = c ++ r.
Proof.
  induction fs as [|f fs IH]; intros H e prev b c vs r X; inversion X; subst; [reflexivity|].
  match goal with Y : member _ _ _ _ _ _ _ |- _ => apply member_parted in Y; [|intros y; apply (H f y); left; reflexivity]; subst end.
  match goal with Y : members _ _ _ _ _ _ _ |- _ => apply IH in Y; [|intros g y Hg; apply (H g y); right; exact Hg]; subst end.
  apply app_assoc.
Qed.
Theorem decodes_parted : forall x, parted x.
Proof.
  apply (message_ind_inside parted). intros x IH b c v r X. inversion X; subst. eapply members_parted; eassumption.
Qed.
Lemma items_parted : forall y k b c r, items m emb y k b (Found c tt r) -> b = c ++ r.
Proof.
  intros y. induction k as [|k IH]; intros b c r X; inversion X; subst; [reflexivity|].
  match goal with Y : decodes _ _ _ _ _ |- _ => apply decodes_parted in Y; subst end.
  match goal with Y : items _ _ _ _ _ _ |- _ => apply IH in Y; subst end. apply app_assoc.
Qed.

(** The bytes behind a part can be replaced, unless there are none. *)
Definition movable (x : message) : Prop := forall b c v r r', decodes m emb x b (Found c v r) -> (r = [] -> r' = []) ->
  decodes m emb x (c ++ r') (Found c v r').
Lemma target_movable : forall t, (forall y, t = RMessage y -> movable y) ->
  forall b c v r r', target m emb t b (Found c v r) -> (r = [] -> r' = []) -> target m emb t (c ++ r') (Found c v r').
Proof.
  intros t H b c v r r' X Hr. inversion X; subst; constructor; [assumption|]. eapply H; [reflexivity|eassumption|exact Hr].
Qed.
Lemma items_movable : forall y, movable y -> forall k b c r r', items m emb y k b (Found c tt r) -> (r = [] -> r' = []) ->
  items m emb y k (c ++ r') (Found c tt r').
Proof.
  intros y Hy. induction k as [|k IH]; intros b c r r' X Hr; inversion X; subst; [constructor|].
  match goal with Y : items _ _ _ _ _ _ |- _ => rename Y into HI end.
  match goal with Y : decodes _ _ _ _ _ |- _ => rename Y into HD end.
  pose proof (items_parted _ _ _ _ _ HI). subst. rewrite <- app_assoc. eapply items_next.
  - eapply Hy; [exact HD|]. intro E. apply app_eq_nil in E. destruct E as [-> ->]. rewrite (Hr eq_refl). reflexivity.
  - eapply IH; [exact HI|exact Hr].
Qed.
Lemma content_movable : forall t, (forall y, inside t y -> movable y) ->
  forall e endi prev b c v r r', content m emb e endi prev t b (Found c v r) -> (r = [] -> r' = []) ->
  content m emb e endi prev t (c ++ r') (Found c v r').
Proof.
  intros t H e endi prev b c v r r' X Hr. inversion X; subst; rewrite <- ?app_assoc;
    try (rewrite (Hr eq_refl), app_nil_r); try (constructor; assumption).
  - constructor. eapply target_movable; [|eassumption|exact Hr]. intros y ->. apply H. constructor.
  - cbn [app]. eapply union_empty; eassumption.
  - eapply union_case; try eassumption. match goal with Y : first_case _ _ _ _ |- _ => destruct Y as (Hn & _ & _) end.
    eapply target_movable; [|eassumption|exact Hr]. intros y ->. apply H. econstructor; [eapply nth_error_In; exact Hn|eassumption].
  - apply list_walked; [assumption|]. eapply items_movable; [apply H; constructor|eassumption|exact Hr].
Qed.
Lemma member_movable : forall f, (forall y, inside (mf_ty f) y -> movable y) ->
  forall e prev b c v r r', member m emb e prev f b (Found c v r) -> (r = [] -> r' = []) ->
  member m emb e prev f (c ++ r') (Found c v r').
Proof.
  intros f H e prev b c v r r' X Hr. inversion X; subst.
  - apply member_plain; [assumption|]. eapply content_movable; eassumption.
  - apply member_absent. assumption.
  - apply member_present; [assumption|assumption|]. eapply content_movable; eassumption.
Qed.
Lemma members_movable : forall fs, (forall g y, In g fs -> inside (mf_ty g) y -> movable y) ->
  forall e prev b c vs r r', members m emb e prev fs b (Found c vs r) -> (r = [] -> r' = []) ->
  members m emb e prev fs (c ++ r') (Found c vs r').
Proof.
  induction fs as [|f fs IH]; intros H e prev b c vs r r' X Hr; inversion X; subst; [constructor|].
  match goal with Y : members _ _ _ _ _ _ _ |- _ => rename Y into HI end.
  match goal with Y : member _ _ _ _ _ _ _ |- _ => rename Y into HD end.
  pose proof HI as HP. apply members_parted in HP; [|intros; apply decodes_parted]. subst. rewrite <- app_assoc. eapply members_next.
  - eapply member_movable; [intros y; apply (H f y); left; reflexivity|exact HD|].
    intro E. apply app_eq_nil in E. destruct E as [-> ->]. rewrite (Hr eq_refl). reflexivity.
  - eapply IH; [intros g y Hg; apply (H g y); right; exact Hg|exact HI|exact Hr].
Qed.
Theorem decodes_movable : forall x, movable x.
Proof.
  apply (message_ind_inside movable). intros x IH b c v r r' X Hr. inversion X; subst. constructor.
  eapply members_movable; eassumption.
Qed.

(** What was read is sent, and read again. *)
Variable opt : Prop.
Definition changes (f : mfield) : Prop := mf_optional f = true -> opt.
Definition again (x : message) : Prop := (forall e f, part emb x e f -> changes f) -> forall b c v r, decodes m emb x b (Found c v r) ->
  exists c', sends m x v c' (Ok tt) /\ tidy opt c c' /\
    forall r', (r = [] -> r' = []) -> decodes m emb x (c' ++ r') (Found c' v r').
Lemma target_again : forall t, (forall y, t = RMessage y -> again y /\ forall e f, part emb y e f -> changes f) ->
  forall b c v r, target m emb t b (Found c v r) ->
  exists c', sends_item m t v c' (Ok tt) /\ tidy opt c c' /\
    forall r', (r = [] -> r' = []) -> target m emb t (c' ++ r') (Found c' v r').
Proof.
  intros t H b c v r X. inversion X; subst.
  - exists c. split; [|split; [apply tidy_refl|intros; constructor; assumption]].
    rewrite <- (app_nil_r c) at 1. constructor. assumption.
  - match goal with Y : decodes _ _ _ _ _ |- _ => apply (proj1 (H _ eq_refl) (proj2 (H _ eq_refl))) in Y; destruct Y as (c' & Hs & Ht & Hd) end.
    exists c'. split; [constructor; exact Hs|]. split; [exact Ht|]. intros r' Hr. constructor. apply Hd. exact Hr.
Qed.
Lemma content_again : forall t, (forall y, inside t y -> again y /\ forall e f, part emb y e f -> changes f) ->
  forall e endi prev all b c v r, (forall i y, nth_error prev i = Some y -> nth_error all i = Some y) ->
  content m emb e endi prev t b (Found c v r) ->
  exists c', sends_content m endi all t v c' (Ok tt) /\ tidy opt c c' /\
    forall r', (r = [] -> r' = []) -> content m emb e endi prev t (c' ++ r') (Found c' v r').
Proof.
  intros t H e endi prev all b c v r Hall X.
  assert (Hsame : sends_content m endi all t v c (Ok tt) ->
    exists c', sends_content m endi all t v c' (Ok tt) /\ tidy opt c c' /\
      forall r', (r = [] -> r' = []) -> content m emb e endi prev t (c' ++ r') (Found c' v r')).
  { intro Hs. exists c. split; [exact Hs|]. split; [apply tidy_refl|]. intros r' Hr.
    eapply content_movable; [intros; apply decodes_movable|exact X|exact Hr]. }
  assert (Hpre : forall ty n p, number endi (get_byte_size ty) n p -> number endi (get_byte_size ty) (n mod 256 ^ N.of_nat (get_byte_size ty)) p).
  { intros ty n p Hn. rewrite N.mod_small; [exact Hn|]. eapply number_fits; exact Hn. }
  inversion X; subst.
  - apply Hsame. constructor. assumption.
  - clear Hsame. match goal with Y : target _ _ _ _ _ |- _ => apply target_again in Y; [destruct Y as (c' & Hs & Ht & Hd)|] end.
    + exists c'. split; [constructor; exact Hs|]. split; [exact Ht|]. intros r' Hr. constructor. apply Hd. exact Hr.
    + intros y ->. apply H. constructor.
  - apply Hsame. constructor.
  - apply Hsame. constructor. apply Hpre. assumption.
  - apply Hsame. constructor. apply Hpre. assumption.
  - apply Hsame. match goal with Y : first_case _ _ _ _ |- _ => destruct Y as (Hn & _ & _) end.
    destruct (union_has_items (u_cases u)) eqn:E.
    + destruct (has_item u E) as (c' & Hc' & Hne). eapply case_sent; try eassumption. apply Hall. eassumption.
    + apply nothing_sent. exact (proj1 (no_items u) E).
  - clear Hsame. match goal with Y : first_case _ _ _ _ |- _ => pose proof Y as (Hn & Hcase & _) end.
    match goal with Y : target _ _ _ _ _ |- _ => apply target_again in Y; [destruct Y as (c' & Hs & Ht & Hd)|] end.
    + exists c'. split; [|split; [exact Ht|]].
      * eapply case_item_sent; try eassumption; [apply Hall; eassumption|]. rewrite Hcase. assumption.
      * intros r' Hr. eapply union_case; try eassumption. apply Hd. exact Hr.
    + intros y ->. apply H. econstructor; [eapply nth_error_In; exact Hn|eassumption].
  - apply Hsame. constructor. apply Hpre. assumption.
  - apply Hsame. constructor. apply Hpre. assumption.
  - apply Hsame. constructor.
Qed.
Lemma member_again : forall f, changes f -> (forall y, inside (mf_ty f) y -> again y /\ forall e g, part emb y e g -> changes g) ->
  forall e prev all b c v r, (forall i y, nth_error prev i = Some y -> nth_error all i = Some y) ->
  member m emb e prev f b (Found c v r) ->
  exists c', sends_member m all f v c' (Ok tt) /\ tidy opt c c' /\
    forall r', (r = [] -> r' = []) -> member m emb e prev f (c' ++ r') (Found c' v r').
Proof.
  intros f Hopt H e prev all b c v r Hall X. inversion X; subst.
  - match goal with Y : content _ _ _ _ _ _ _ _ |- _ => eapply content_again in Y; [|exact H|exact Hall]; destruct Y as (c' & Hs & Ht & Hd) end.
    exists c'. split; [apply mandatory_sent; assumption|]. split; [exact Ht|]. intros r' Hr. apply member_plain; [assumption|]. apply Hd, Hr.
  - exists [0]. split; [apply absent_sent; assumption|]. split; [apply tidy_refl|]. intros r' _. apply member_absent. assumption.
  - match goal with Y : content _ _ _ _ _ _ _ _ |- _ => eapply content_again in Y; [|exact H|exact Hall]; destruct Y as (c' & Hs & Ht & Hd) end.
    exists (1 :: c'). split; [apply present_sent; assumption|]. split.
    + constructor; [|exact Ht]. destruct (N.eq_dec a 1); [left; congruence|right; split; [reflexivity|split; [lia|apply Hopt; assumption]]].
    + intros r' Hr. cbn [app]. apply member_present; [assumption|lia|]. apply Hd, Hr.
Qed.
Lemma members_again : forall fs, (forall g, In g fs -> changes g) ->
  (forall g y, In g fs -> inside (mf_ty g) y -> again y /\ forall e h, part emb y e h -> changes h) ->
  forall e prev all b c vs r, all = prev ++ vs -> members m emb e prev fs b (Found c vs r) ->
  exists c', sends_members m all fs vs c' (Ok tt) /\ tidy opt c c' /\
    forall r', (r = [] -> r' = []) -> members m emb e prev fs (c' ++ r') (Found c' vs r').
Proof.
  induction fs as [|f fs IH]; intros Hopt H e prev all b c vs r Hall X; inversion X; subst.
  - exists []. split; [constructor|]. split; [constructor|]. intros r' _. constructor.
  - match goal with Y : members _ _ _ _ _ _ _ |- _ => rename Y into HI end.
    match goal with Y : member _ _ _ _ _ _ _ |- _ => rename Y into HD end.
    pose proof HI as HP. apply members_parted in HP; [|intros; apply decodes_parted]. subst.
    eapply member_again with (all := prev ++ v :: vs0) in HD; [|apply Hopt; left; reflexivity|intros y; apply (H f y); left; reflexivity|].
    2:{ intros i y E. rewrite nth_error_app1; [exact E|]. apply nth_error_Some. congruence. }
    destruct HD as (p' & Hs & Ht & Hd).
    eapply IH with (all := prev ++ v :: vs0) in HI; [|intros g Hg; apply Hopt; right; exact Hg|intros g y Hg; apply (H g y); right; exact Hg|rewrite <- app_assoc; reflexivity].
    destruct HI as (q' & Hs' & Ht' & Hd').
    exists (p' ++ q'). split; [eapply member_sent; eassumption|]. split; [apply tidy_app; assumption|].
    intros r' Hr. rewrite <- app_assoc. eapply members_next; [|apply Hd'; exact Hr].
    apply Hd. intro E. apply app_eq_nil in E. destruct E as [-> ->]. rewrite (tidy_nil _ _ Ht'), (Hr eq_refl). reflexivity.
Qed.
Theorem decodes_again : forall x, again x.
Proof.
  apply (message_ind_inside again). intros x IH Hopt b c v r X. inversion X; subst.
  match goal with Y : members _ _ _ _ _ _ _ |- _ => eapply members_again with (all := vs) in Y; [|intros g Hg; apply (Hopt (emb (m_id x)) g); constructor; [exact Hg|reflexivity]|intros g y Hg Hy; split; [exact (IH g y Hg Hy)|intros e h Hh; apply (Hopt e h); eapply part_deep; eassumption]|reflexivity]; destruct Y as (c' & Hs & Ht & Hd) end.
  exists c'. split; [constructor; exact Hs|]. split; [exact Ht|]. intros r' Hr. constructor. apply Hd, Hr.
Qed.

End Re.

Lemma tidied_ok : forall c c', tidied c c' -> bytes_ok c -> bytes_ok c'.
Proof.
  intros c c' H. induction H as [|a a' c c' Ha H IH]; intro Hb; [constructor|]. inversion Hb; subst.
  constructor; [|apply IH; assumption]. destruct Ha as [-> | (-> & _)]; [assumption|reflexivity].
Qed.

Theorem reencode : forall m emb x b n v, len b < 2 ^ 64 -> bytes_ok b -> read_msg m emb x b = Ok (n, v) ->
  exists c, (forall s, write_vec m x v s = (s ++ c, Ok tt)) /\ size_of_msg m x v = Ok n /\ len c = n /\
    tidied (firstn (N.to_nat n) b) c /\
    read_msg m emb x (c ++ skipn (N.to_nat n) b) = Ok (n, v) /\
    (no_optional emb x -> c = firstn (N.to_nat n) b).
Proof.
  intros m emb x b n v Hl Hb H. pose proof (read_typed _ _ _ _ _ _ Hl Hb H) as HT.
  destruct (decode_exact m emb x b Hl Hb) as (HO & _ & _). apply HO in H. destruct H as (c0 & r & -> & -> & H).
  rewrite firstn_len_app, skipn_len_app. pose proof H as Hd.
  apply (decodes_again m emb (~ no_optional emb x)) in Hd.
  2:{ intros e f Hp Ho Hn. specialize (Hn e f Hp). congruence. }
  destruct Hd as (c & Hs & Ht' & Hd). exists c. pose proof (tidy_tidied _ _ _ Ht') as Ht. pose proof (tidied_len _ _ Ht) as Hlen.
  rewrite len_app in Hl. split; [apply encode_exact; [exact HT|exact Hs]|].
  split; [rewrite (encode_size _ _ _ _ _ Hs) by lia; congruence|]. split; [exact Hlen|]. split; [exact Ht|]. split.
  - assert (Hb' : bytes_ok (c ++ r)).
    { unfold bytes_ok in *. rewrite Forall_app in *. destruct Hb as [Hb1 Hb2]. split; [eapply tidied_ok; eassumption|exact Hb2]. }
    destruct (decode_exact m emb x (c ++ r) ltac:(rewrite len_app; lia) Hb') as (HO' & _ & _).
    apply HO'. exists c, r. split; [reflexivity|]. split; [congruence|]. apply Hd. auto.
  - intro Hn. apply tidy_same. clear - Ht' Hn. induction Ht' as [|a a' c0 c Ha Ht IH]; constructor; [tauto|exact IH].
Qed.
