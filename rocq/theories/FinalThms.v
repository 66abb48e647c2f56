(** More input behind what was read, for C68: every error but a truncated input is final, and so is a
    message with bytes behind it; a message that ends with the input stays or grows. *)

From Coq Require Import Arith NArith ZArith List Bool Lia ZifyBool ZifyN ZifyNat.
From Verif Require Import Base Schema Codec Compiler Access Bits BitsFacts CodecFacts StructFacts ArrayThms BEThms
  Runtime Gen SpecWire SpecUnion MsgFacts WriteThms SpecDecode DecodeThms ReencodeThms.
Import ListNotations.
Local Open Scope N_scope.

Section Final.
Variables (m : mode) (emb : N -> bool).

(** Only the structures among the members before a union matter to it. *)
Definition alike (p q : list value) : Prop := forall i data, nth_error p i = Some (VStruct data) <-> nth_error q i = Some (VStruct data).
Definition plain (v : value) : Prop := forall data, v <> VStruct data.
Lemma alike_refl : forall p, alike p p.
Proof. intros p i data. tauto. Qed.
Lemma alike_len : forall p q v w, length p = length q -> alike p q -> (v = w \/ (plain v /\ plain w)) -> alike (p ++ [v]) (q ++ [w]).
Proof.
  intros p q v w Hl Ha Hv i data. destruct (lt_dec i (length p)) as [L|L].
  - rewrite !nth_error_app1 by lia. apply Ha.
  - rewrite !nth_error_app2 by lia. rewrite Hl. destruct (i - length q)%nat as [|j]; cbn [nth_error].
    + destruct Hv as [-> | (Hv & Hw)]; [tauto|]. split; intro X; inversion X; subst; [destruct (Hv data)|destruct (Hw data)]; reflexivity.
    + tauto.
Qed.
Lemma content_alike : forall e endi p q t b o, alike p q -> content m emb e endi p t b o -> content m emb e endi q t b o.
Proof.
  intros e endi p q t b o Ha H. inversion H; subst; try (constructor; assumption);
    try match goal with X : nth_error p _ = Some (VStruct _) |- _ => apply Ha in X end.
  all: try (econstructor; eassumption).
  apply union_stuck. intros data d X. apply Ha in X. eauto.
Qed.
Lemma member_alike : forall e p q f b o, alike p q -> member m emb e p f b o -> member m emb e q f b o.
Proof.
  intros e p q f b o Ha H. inversion H; subst; try (constructor; assumption);
    match goal with X : content _ _ _ _ _ _ _ _ |- _ => eapply content_alike in X; [|exact Ha] end.
  - apply member_plain; assumption.
  - apply member_present; assumption.
  - apply member_present_stops; assumption.
Qed.
Lemma members_alike : forall e fs p q b o, length p = length q -> alike p q -> members m emb e p fs b o -> members m emb e q fs b o.
Proof.
  intros e. induction fs as [|f fs IH]; intros p q b o Hl Ha H; inversion H; subst; [constructor| | |];
    match goal with X : member _ _ _ _ _ _ _ |- _ => eapply member_alike in X; [|exact Ha] end.
  - eapply members_next; [eassumption|]. eapply IH; [|apply alike_len; [exact Hl|exact Ha|left; reflexivity]|eassumption].
    rewrite !app_length. cbn. lia.
  - apply members_stop. assumption.
  - eapply members_stop_later; [eassumption|]. eapply IH; [|apply alike_len; [exact Hl|exact Ha|left; reflexivity]|eassumption].
    rewrite !app_length. cbn. lia.
Qed.

(** What was found at the end of the input. *)
Definition grows {A} (ok : A -> A -> Prop) (D : bytes -> found A -> Prop) (b : bytes) (v : A) (s : bytes) : Prop :=
  D (b ++ s) (Found b v s) \/ exists v', D (b ++ s) (Found (b ++ s) v' []) /\ ok v v'.
Definition both_plain (v w : value) : Prop := plain v /\ plain w.
Definition growing (x : message) : Prop := forall b c v s, decodes m emb x b (Found c v []) -> grows both_plain (decodes m emb x) c v s.

Lemma target_grows : forall t, (forall y, t = RMessage y -> growing y) ->
  forall b c v s, target m emb t b (Found c v []) -> grows both_plain (target m emb t) c v s.
Proof.
  intros t H b c v s X. inversion X; subst.
  - left. constructor. assumption.
  - match goal with Y : decodes _ _ _ _ _ |- _ => apply (H _ eq_refl b c v s) in Y; destruct Y as [Z|(v' & Z & Hp)] end.
    + left. constructor. exact Z.
    + right. exists v'. split; [constructor; exact Z|exact Hp].
Qed.
Lemma items_grow : forall y, growing y -> forall k b c s, items m emb y k b (Found c tt []) ->
  items m emb y k (c ++ s) (Found c tt s) \/ items m emb y k (c ++ s) (Found (c ++ s) tt []).
Proof.
  intros y Hy. induction k as [|k IH]; intros b c s X; inversion X; subst.
  - left. constructor.
  - match goal with Y : items _ _ _ _ _ _ |- _ => rename Y into HI end.
    match goal with Y : decodes _ _ _ _ _ |- _ => rename Y into HD end.
    pose proof (items_parted _ _ _ _ _ _ _ HI) as E. rewrite app_nil_r in E. subst r.
    destruct q as [|a q].
    + rewrite app_nil_r in *. apply (Hy _ _ _ s) in HD. destruct HD as [HD|(v' & HD & _)].
      * apply IH with (s := s) in HI. cbn [app] in HI. destruct HI as [HI|HI].
        -- left. rewrite <- (app_nil_r p) at 2. eapply items_next; [exact HD|exact HI].
        -- right. eapply items_next; [exact HD|exact HI].
      * right. rewrite <- (app_nil_r (p ++ s)) at 2. eapply items_next; [exact HD|exact HI].
    + apply (decodes_movable _ _ _ _ _ _ _ ((a :: q) ++ s)) in HD; [|discriminate]. rewrite <- app_assoc.
      apply IH with (s := s) in HI. destruct HI as [HI|HI]; [left|right]; eapply items_next; eassumption.
Qed.
Lemma content_grows : forall t, (forall y, inside t y -> growing y) ->
  forall e endi prev b c v s, content m emb e endi prev t b (Found c v []) -> grows both_plain (content m emb e endi prev t) c v s.
Proof.
  intros t H e endi prev b c v s X. inversion X; subst.
  - left. constructor. assumption.
  - match goal with Y : target _ _ _ _ _ |- _ => apply target_grows with (s := s) in Y; [destruct Y as [Z|(v' & Z & Hp)]|] end.
    + left. constructor. exact Z.
    + right. exists v'. split; [constructor; exact Z|exact Hp].
    + intros y ->. apply H. constructor.
  - left. unfold bytes. rewrite <- app_assoc. constructor; assumption.
  - left. unfold bytes. rewrite <- app_assoc. constructor; assumption.
  - left. unfold bytes. rewrite <- app_assoc. constructor; assumption.
  - left. eapply union_empty; eassumption.
  - match goal with Y : first_case _ _ _ _ |- _ => pose proof Y as (Hn & _ & _) end.
    match goal with Y : target _ _ _ _ _ |- _ => apply target_grows with (s := s) in Y; [destruct Y as [Z|(v' & Z & Hp)]|] end.
    + left. eapply union_case; eassumption.
    + right. exists (VUnion k (Some v')). split; [eapply union_case; eassumption|]. split; discriminate.
    + intros y ->. apply H. econstructor; [eapply nth_error_In; exact Hn|eassumption].
  - match goal with Y : items _ _ _ _ _ _ |- _ => apply items_grow with (s := s) in Y; [destruct Y as [Z|Z]|] end.
    + left. rewrite <- app_assoc. apply list_walked; assumption.
    + right. exists (VListing (data ++ s) n). split; [|split; discriminate].
      rewrite <- app_assoc. rewrite <- (app_nil_r (data ++ s)) at 1. apply list_walked; [assumption|]. rewrite app_nil_r. assumption.
    + apply H. constructor.
  - right. exists (VListing (data ++ s) n). split; [|split; discriminate]. rewrite <- app_assoc. apply list_unwalked. assumption.
  - right. exists (VPayload (c ++ s)). split; [constructor|split; discriminate].
Qed.
Lemma member_grows : forall f, (forall y, inside (mf_ty f) y -> growing y) ->
  forall e prev b c v s, member m emb e prev f b (Found c v []) -> grows both_plain (member m emb e prev f) c v s.
Proof.
  intros f H e prev b c v s X. inversion X; subst.
  - match goal with Y : content _ _ _ _ _ _ _ _ |- _ => apply content_grows with (s := s) in Y; [destruct Y as [Z|(v' & Z & Hp)]|exact H] end.
    + left. apply member_plain; assumption.
    + right. exists v'. split; [apply member_plain; assumption|exact Hp].
  - left. apply member_absent. assumption.
  - match goal with Y : content _ _ _ _ _ _ _ _ |- _ => apply content_grows with (s := s) in Y; [destruct Y as [Z|(v' & Z & Hp)]|exact H] end.
    + left. cbn [app]. apply member_present; assumption.
    + right. exists (VOpt (Some v')). split; [cbn [app]; apply member_present; assumption|split; discriminate].
Qed.
Lemma members_grow : forall fs, (forall g y, In g fs -> inside (mf_ty g) y -> growing y) ->
  forall e prev b c vs s, members m emb e prev fs b (Found c vs []) -> grows (fun _ _ => True) (members m emb e prev fs) c vs s.
Proof.
  induction fs as [|f fs IH]; intros H e prev b c vs s X; inversion X; subst.
  - left. constructor.
  - match goal with Y : members _ _ _ _ _ _ _ |- _ => rename Y into HI end.
    match goal with Y : member _ _ _ _ _ _ _ |- _ => rename Y into HD end.
    pose proof HI as E. apply members_parted in E; [|intros; apply decodes_parted]. rewrite app_nil_r in E. subst r.
    assert (IH' : forall e prev b c vs s, members m emb e prev fs b (Found c vs []) -> grows (fun _ _ => True) (members m emb e prev fs) c vs s)
      by (apply IH; intros g y Hg; apply (H g y); right; exact Hg).
    destruct q as [|a q].
    + rewrite app_nil_r in *. apply member_grows with (s := s) in HD; [|intros y; apply (H f y); left; reflexivity].
      destruct HD as [HD|(v' & HD & Hp)].
      * apply IH' with (s := s) in HI. cbn [app] in HI. destruct HI as [HI|(vs' & HI & _)].
        -- left. rewrite <- (app_nil_r p) at 2. eapply members_next; [exact HD|exact HI].
        -- right. exists (v :: vs'). split; [eapply members_next; [exact HD|exact HI]|exact I].
      * right. exists (v' :: vs0). split; [|exact I]. rewrite <- (app_nil_r (p ++ s)) at 2. eapply members_next; [exact HD|].
        eapply members_alike; [| |exact HI]; [rewrite !app_length; reflexivity|].
        apply alike_len; [reflexivity|apply alike_refl|right; exact Hp].
    + eapply member_movable with (r' := (a :: q) ++ s) in HD; [|intros; apply decodes_movable|discriminate].
      unfold grows. rewrite <- !app_assoc.
      apply IH' with (s := s) in HI. destruct HI as [HI|(vs' & HI & _)].
      * left. eapply members_next; eassumption.
      * right. exists (v :: vs'). split; [eapply members_next; eassumption|exact I].
Qed.
Theorem decodes_grows : forall x, growing x.
Proof.
  apply (message_ind_inside growing). intros x IH b c v s X. inversion X; subst.
  match goal with Y : members _ _ _ _ _ _ _ |- _ => apply members_grow with (s := s) in Y; [destruct Y as [Z|(vs' & Z & _)]|exact IH] end.
  - left. constructor. exact Z.
  - right. exists (VMsg vs'). split; [constructor; exact Z|split; discriminate].
Qed.
(** With more input behind it, what was found is found alike, or grows to the end. *)
Lemma found_later : forall x b c v r s, decodes m emb x b (Found c v r) ->
  decodes m emb x (b ++ s) (Found c v (r ++ s)) \/
  (r = [] /\ exists v', decodes m emb x (b ++ s) (Found (c ++ s) v' [])).
Proof.
  intros x b c v r s X. pose proof (decodes_parted _ _ _ _ _ _ _ X) as ->. destruct r as [|a r].
  - rewrite app_nil_r in *. apply (decodes_grows _ _ _ _ s) in X. destruct X as [X|(v' & X & _)]; [left; exact X|right; eauto].
  - left. rewrite <- app_assoc. eapply decodes_movable; [exact X|discriminate].
Qed.
Lemma member_later : forall f e prev b c v r s, member m emb e prev f b (Found c v r) ->
  member m emb e prev f (b ++ s) (Found c v (r ++ s)) \/
  (r = [] /\ exists v', both_plain v v' /\ member m emb e prev f (b ++ s) (Found (c ++ s) v' [])).
Proof.
  intros f e prev b c v r s X. pose proof X as E. apply member_parted in E; [|intros; apply decodes_parted]. subst b. destruct r as [|a r].
  - rewrite app_nil_r in *. apply member_grows with (s := s) in X; [|intros; apply decodes_grows].
    destruct X as [X|(v' & X & Hp)]; [left; exact X|right; eauto].
  - left. rewrite <- app_assoc. eapply member_movable; [intros; apply decodes_movable|exact X|discriminate].
Qed.

(** Errors. *)
Variable err : rerror.
Hypothesis other : err <> Truncated.
Definition fixed_error (x : message) : Prop := forall b s, decodes m emb x b (Stops (Reports err)) -> decodes m emb x (b ++ s) (Stops (Reports err)).
Lemma target_fixed : forall t, (forall y, t = RMessage y -> fixed_error y) ->
  forall b s, target m emb t b (Stops (Reports err)) -> target m emb t (b ++ s) (Stops (Reports err)).
Proof. intros t H b s X. inversion X; subst; [congruence|]. constructor. apply H; [reflexivity|assumption]. Qed.
Lemma items_fixed : forall y, fixed_error y -> forall k b s, items m emb y k b (Stops (Reports err)) ->
  items m emb y k (b ++ s) (Stops (Reports err)).
Proof.
  intros y Hy. induction k as [|k IH]; intros b s X; inversion X; subst.
  - apply items_stop. apply Hy. assumption.
  - match goal with Y : items _ _ _ _ _ _ |- _ => rename Y into HI end.
    match goal with Y : decodes _ _ _ _ _ |- _ => rename Y into HD end.
    apply found_later with (s := s) in HD. destruct HD as [HD|(-> & v' & HD)].
    + eapply items_stop_later; [exact HD|]. apply IH. exact HI.
    + eapply items_stop_later; [exact HD|exact HI].
Qed.
Lemma content_fixed : forall t, (forall y, inside t y -> fixed_error y) ->
  forall e endi prev b s, content m emb e endi prev t b (Stops (Reports err)) -> content m emb e endi prev t (b ++ s) (Stops (Reports err)).
Proof.
  intros t H e endi prev b s X. inversion X; subst; try congruence; unfold bytes; rewrite <- ?app_assoc; try (constructor; assumption).
  - constructor. apply target_fixed; [|assumption]. intros y ->. apply H. constructor.
  - match goal with Y : first_case _ _ _ _ |- _ => pose proof Y as (Hn & _ & _) end.
    eapply union_case_stops; try eassumption. apply target_fixed; [|assumption].
    intros y ->. apply H. econstructor; [eapply nth_error_In; exact Hn|eassumption].
  - eapply union_unknown; eassumption.
  - eapply list_stops; [eassumption|]. apply items_fixed; [apply H; constructor|assumption].
Qed.
Lemma member_fixed : forall f, (forall y, inside (mf_ty f) y -> fixed_error y) ->
  forall e prev b s, member m emb e prev f b (Stops (Reports err)) -> member m emb e prev f (b ++ s) (Stops (Reports err)).
Proof.
  intros f H e prev b s X. inversion X; subst; try congruence.
  - apply member_plain; [assumption|]. apply content_fixed; assumption.
  - cbn [app]. apply member_present_stops; [assumption|assumption|]. apply content_fixed; assumption.
Qed.
Lemma members_fixed : forall fs, (forall g y, In g fs -> inside (mf_ty g) y -> fixed_error y) ->
  forall e prev b s, members m emb e prev fs b (Stops (Reports err)) -> members m emb e prev fs (b ++ s) (Stops (Reports err)).
Proof.
  induction fs as [|f fs IH]; intros H e prev b s X; inversion X; subst.
  - apply members_stop. apply member_fixed; [intros y; apply (H f y); left; reflexivity|assumption].
  - match goal with Y : members _ _ _ _ _ _ _ |- _ => rename Y into HI end.
    match goal with Y : member _ _ _ _ _ _ _ |- _ => rename Y into HD end.
    apply member_later with (s := s) in HD. destruct HD as [HD|(-> & v' & Hp & HD)].
    + eapply members_stop_later; [exact HD|]. apply IH; [intros g y Hg; apply (H g y); right; exact Hg|exact HI].
    + eapply members_stop_later; [exact HD|]. eapply members_alike; [| |exact HI]; [rewrite !app_length; reflexivity|].
      apply alike_len; [reflexivity|apply alike_refl|right; exact Hp].
Qed.
Theorem decodes_fixed : forall x, fixed_error x.
Proof.
  apply (message_ind_inside fixed_error). intros x IH b s X. inversion X; subst. constructor. apply members_fixed; assumption.
Qed.

End Final.

Lemma bytes_ok_left : forall b s, bytes_ok (b ++ s) -> bytes_ok b.
Proof. intros b s H. unfold bytes_ok in *. apply Forall_app in H. apply H. Qed.

Theorem read_error_final : forall m emb x b s e, len (b ++ s) < 2 ^ 64 -> bytes_ok (b ++ s) -> e <> Truncated ->
  read_msg m emb x b = Err e -> read_msg m emb x (b ++ s) = Err e.
Proof.
  intros m emb x b s e Hl Hb He H. destruct (decode_exact m emb x (b ++ s) Hl Hb) as (_ & HE & _). apply HE.
  apply decodes_fixed; [exact He|]. destruct (decode_exact m emb x b) as (_ & HE' & _).
  - rewrite len_app in Hl. lia.
  - eapply bytes_ok_left; exact Hb.
  - apply HE'. exact H.
Qed.
Theorem read_success_later : forall m emb x b s n v, len (b ++ s) < 2 ^ 64 -> bytes_ok (b ++ s) ->
  read_msg m emb x b = Ok (n, v) ->
  read_msg m emb x (b ++ s) = Ok (n, v) \/ (n = len b /\ exists w, read_msg m emb x (b ++ s) = Ok (len (b ++ s), w)).
Proof.
  intros m emb x b s n v Hl Hb H. destruct (decode_exact m emb x (b ++ s) Hl Hb) as (HO & _ & _).
  destruct (decode_exact m emb x b) as (HO' & _ & _).
  - rewrite len_app in Hl. lia.
  - eapply bytes_ok_left; exact Hb.
  - apply HO' in H. destruct H as (c & r & -> & -> & H). apply found_later with (s := s) in H. destruct H as [H|(-> & v' & H)].
    + left. apply HO. exists c, (r ++ s). rewrite app_assoc. auto.
    + right. rewrite app_nil_r in *. split; [reflexivity|]. exists v'. apply HO. exists (c ++ s), []. rewrite app_nil_r. auto.
Qed.
Theorem read_left_final : forall m emb x b s n v, len b < 2 ^ 64 -> bytes_ok b -> n + len s < 2 ^ 64 -> bytes_ok s ->
  read_msg m emb x b = Ok (n, v) -> n < len b -> read_msg m emb x (firstn (N.to_nat n) b ++ s) = Ok (n, v).
Proof.
  intros m emb x b s n v Hl Hb Hs Hbs H Hn. destruct (decode_exact m emb x b Hl Hb) as (HO & _ & _).
  apply HO in H. destruct H as (c & r & -> & -> & H). rewrite firstn_len_app.
  destruct (decode_exact m emb x (c ++ s)) as (HO' & _ & _).
  - rewrite len_app. exact Hs.
  - apply bytes_ok_left in Hb. unfold bytes_ok in *. apply Forall_app. auto.
  - apply HO'. exists c, s. split; [reflexivity|]. split; [reflexivity|]. eapply decodes_movable; [exact H|].
    intros ->. rewrite app_nil_r in Hn. lia.
Qed.
