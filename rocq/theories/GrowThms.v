(** Readers of a message whose unions have got further cases, for C86. *)

From Coq Require Import Arith NArith ZArith List Bool Lia ZifyBool ZifyN ZifyNat.
From Verif Require Import Base Schema Codec Compiler Access Bits BitsFacts CodecFacts StructFacts ArrayThms BEThms
  Runtime Gen SpecWire SpecUnion SpecExact MsgFacts SoundThms OffsetThms SpecDecode DecodeThms ReencodeThms SpecSwallow SwallowThms SpecGrow.
Import ListNotations.
Local Open Scope N_scope.

(** [r'] is [r], unless [r] is that a discriminant stands for no case. *)
Definition same_but {A} (r r' : rres A) : Prop := r' = r \/ exists d, r = Err (InvalidUnionDiscriminant d).
Lemma same_refl : forall A (r : rres A), same_but r r.
Proof. intros A r. left. reflexivity. Qed.
Lemma same_bind : forall A B (r r' : rres A) (k k' : A -> rres B), same_but r r' -> (forall a, same_but (k a) (k' a)) ->
  same_but (bind r k) (bind r' k').
Proof.
  intros A B r r' k k' [->|(d & ->)] H; [|right; exists d; reflexivity].
  destruct r as [a|e|]; [apply H|left; reflexivity|left; reflexivity].
Qed.
Lemma same_rmap : forall A B (f : A -> B) (r r' : reader A), (forall b, same_but (r b) (r' b)) -> forall b, same_but (rmap f r b) (rmap f r' b).
Proof. intros A B f r r' H b. unfold rmap. apply same_bind; [apply H|]. intros [n a]. apply same_refl. Qed.
Ltac same_step H := first [ apply same_refl | apply H | apply same_bind; [|intros ?] ].
Lemma same_optional : forall m A (r r' : reader A), (forall b, same_but (r b) (r' b)) ->
  forall b, same_but (optional_from_slice m r b) (optional_from_slice m r' b).
Proof.
  intros m A r r' H b. unfold optional_from_slice. destruct (len b <? 1); [apply same_refl|].
  apply same_bind; [apply same_refl|intro flag]. destruct (0 <? flag); [|apply same_refl].
  apply same_bind; [apply same_refl|intro d]. apply same_bind; [apply H|intros [n a]]. apply same_refl.
Qed.
Lemma same_optional_offsets : forall m A O (r r' : reader (A * O)), (forall b, same_but (r b) (r' b)) ->
  forall b, same_but (optional_from_slice_with_offsets m r b) (optional_from_slice_with_offsets m r' b).
Proof.
  intros m A O r r' H b. unfold optional_from_slice_with_offsets. destruct (len b <? 1); [apply same_refl|].
  apply same_bind; [apply same_refl|intro flag]. destruct (0 <? flag); [|apply same_refl].
  apply same_bind; [apply same_refl|intro d]. apply same_bind; [apply H|intros [n [a o]]]. apply same_refl.
Qed.
Lemma same_loop : forall m A (r r' : reader A), (forall b, same_but (r b) (r' b)) ->
  forall n data t, same_but (list_loop m r data n t) (list_loop m r' data n t).
Proof.
  intros m A r r' H n data. induction n as [|n IH]; intro t; [apply same_refl|]. cbn [list_loop].
  apply same_bind; [apply same_refl|intro d]. apply same_bind; [apply H|intros [k a]]. apply same_bind; [apply same_refl|intro t']. apply IH.
Qed.
Lemma same_list : forall m A (t : reader N) (r r' : reader A), (forall b, same_but (r b) (r' b)) ->
  forall b, same_but (list_from_slice m t r b) (list_from_slice m t r' b).
Proof.
  intros m A t r r' H b. unfold list_from_slice. apply same_bind; [apply same_refl|intros [c n]].
  apply same_bind; [apply same_refl|intro data]. apply same_bind; [apply same_loop; exact H|intro total]. apply same_refl.
Qed.

Section Grow.
Variables (m : mode) (emb emb' : N -> bool) (same : N -> N -> Prop).
Hypothesis marks_alike : forall i i', same i i' -> emb' i' = emb i.
Local Notation grown := (grown same).
Local Notation grown_field := (grown_field same).
Local Notation grown_type := (grown_type same).
Local Notation grown_ref := (grown_ref same).
Local Notation grown_union := (grown_union same).
Local Notation grown_case := (grown_case same).
Lemma twin_bytes : forall s s', twin same s s' -> s_byte_size s' = s_byte_size s.
Proof. intros s s' []. reflexivity. Qed.
Lemma twin_nth : forall fs fs' k, Forall2 (twin_field same) fs fs' ->
  match nth_error fs k, nth_error fs' k with
  | Some f, Some f' => twin_field same f f'
  | None, None => True
  | _, _ => False
  end.
Proof. intros fs fs' k F. revert k. induction F as [|f f' fs fs' H F IH]; intros [|k]; cbn [nth_error]; [exact I|exact I|exact H|apply IH]. Qed.
Lemma twin_path : forall path s s' data, twin same s s' -> path_get (E:=rerror) m s' path data = path_get m s path data.
Proof.
  induction path as [|k path IH]; intros s s' data T; [reflexivity|]. destruct T as [id id' name fs fs' bytes bits _ F].
  pose proof (twin_nth _ _ k F) as H. cbn [path_get s_fields].
  destruct (nth_error fs k) as [f|], (nth_error fs' k) as [f'|]; try contradiction; [|reflexivity].
  destruct H as [f|f|nm s s' loc T]; [reflexivity|reflexivity|]. destruct (slice data _ _) as [w|e|]; cbn [bind]; [apply IH; exact T|reflexivity|reflexivity].
Qed.
Lemma twin_disc : forall d d' on, twin_discriminant same d d' -> read_discriminant m d' on = read_discriminant m d on.
Proof. intros d d' on (T & _ & _ & E). unfold read_discriminant. rewrite E. destruct on as [[]|]; try reflexivity. apply twin_path. exact T. Qed.
Definition reads_alike (x : message) : Prop := forall x', grown x x' ->
  (forall b, same_but (read_msg m emb x b) (read_msg m emb' x' b)) /\
  (forall b, same_but (read_msg_offsets m emb x b) (read_msg_offsets m emb' x' b)).

Lemma ref_alike : forall t t', (forall y, t = RMessage y -> reads_alike y) -> grown_ref t t' ->
  forall b, same_but (read_ref m emb t b) (read_ref m emb' t' b).
Proof.
  intros t t' H G b. inversion G as [s s' T|]; subst; cbn [read_ref]; [rewrite (twin_bytes _ _ T); apply same_refl|]. apply (H y eq_refl). assumption.
Qed.
Lemma cases_alike : forall b disc cs cs' more, (forall c y, In c cs -> uc_item c = Some (RMessage y) -> reads_alike y) ->
  Forall2 grown_case cs cs' -> forall i,
  same_but
    ((fix pick (i : nat) (cs : list ucase) : rres (N * value) :=
         match cs with
         | [] => Err (InvalidUnionDiscriminant disc)
         | MkUCase _ case item :: r =>
             if disc =? case then
               match item with
               | None => Ok (0, VUnion i None)
               | Some t => '(n, v) <- read_ref m emb t b ;; Ok (n, VUnion i (Some v))
               end
             else pick (S i) r
         end) i cs)
    ((fix pick (i : nat) (cs : list ucase) : rres (N * value) :=
         match cs with
         | [] => Err (InvalidUnionDiscriminant disc)
         | MkUCase _ case item :: r =>
             if disc =? case then
               match item with
               | None => Ok (0, VUnion i None)
               | Some t => '(n, v) <- read_ref m emb' t b ;; Ok (n, VUnion i (Some v))
               end
             else pick (S i) r
         end) i (cs' ++ more)).
Proof.
  intros b disc cs cs' more H F. induction F as [|c c' cs cs' Hc F IH]; intro i; [right; exists disc; reflexivity|].
  cbn [app]. destruct Hc as [name n|name n t t' G].
  - destruct (disc =? n); [apply same_refl|]. apply IH. intros c y Hin. apply H. right. exact Hin.
  - destruct (disc =? n).
    + apply same_bind; [|intros [k v]; apply same_refl]. apply ref_alike; [|exact G]. intros y ->. eapply H; [left; reflexivity|reflexivity].
    + apply IH. intros c y Hin. apply H. right. exact Hin.
Qed.
Lemma type_alike : forall e endi prev t t', (forall y, inside t y -> reads_alike y) -> grown_type t t' ->
  forall b, same_but (read_ty m emb e endi prev t b) (read_ty m emb' e endi prev t' b).
Proof.
  intros e endi prev t t' H G. destruct G as [ty|t t' G| | |ty s s' T|ty y y' G|u u' on i G|]; intro b; try apply same_refl.
  - apply ref_alike; [|exact G]. intros y ->. apply H. constructor.
  - cbn [read_ty]. rewrite (twin_bytes _ _ T). apply same_refl.
  - cbn [read_ty]. apply same_rmap. intro d. destruct e; [|apply same_refl]. apply same_list. intro d'. apply H; [constructor|exact G].
  - destruct G as [name d d' cs cs' more size size' T F]. cbn [read_ty read_union]. rewrite (twin_disc _ _ _ T).
    apply same_bind; [apply same_refl|intro disc].
    apply cases_alike; [|exact F]. intros c y Hc Hy. apply H. econstructor; [exact Hc|exact Hy].
Qed.
Lemma member_alike : forall e prev f f', (forall y, inside (mf_ty f) y -> reads_alike y) -> grown_field f f' ->
  forall d, same_but (read_optional m (mf_optional f) (read_ty m emb e (mf_endi f) prev (mf_ty f)) d)
                     (read_optional m (mf_optional f') (read_ty m emb' e (mf_endi f') prev (mf_ty f')) d).
Proof.
  intros e prev f f' H G. destruct G as [nm t t' opt sz sz' endi G]. cbn [mf_optional mf_endi mf_ty] in *. intro d.
  pose proof (type_alike e endi prev t t' H G) as T.
  unfold read_optional. destruct opt; [|apply T]. apply same_rmap. intro c. apply same_optional. exact T.
Qed.
Lemma offset_alike : forall e prev f f', (forall y, inside (mf_ty f) y -> reads_alike y) -> grown_field f f' ->
  forall d, same_but (read_field_offsets m emb e prev f d) (read_field_offsets m emb' e prev f' d).
Proof.
  intros e prev f f' H G d. pose proof (member_alike e prev f f' H G d) as M.
  assert (T : same_but ('(n, v) <- read_optional m (mf_optional f) (read_ty m emb e (mf_endi f) prev (mf_ty f)) d ;; Ok (n, (v, @None offsets)))
     ('(n, v) <- read_optional m (mf_optional f') (read_ty m emb' e (mf_endi f') prev (mf_ty f')) d ;; Ok (n, (v, @None offsets)))).
  { apply same_bind; [exact M|intros [n v]; apply same_refl]. }
  clear M. unfold read_field_offsets. destruct G as [nm t t' opt sz sz' endi G]. cbn [mf_optional mf_endi mf_ty] in *.
  destruct G as [ty|t t' [s s' Ts|y y' G]| | |ty s s' Ts|ty y y' G|u u' on i G|]; try exact T.
  destruct (H y ltac:(constructor) _ G) as (_ & R2). destruct opt.
  - apply same_bind; [apply same_optional_offsets; exact R2|intros [n [v o]]; apply same_refl].
  - apply same_bind; [apply R2|intros [n [v o]]; apply same_refl].
Qed.
Theorem grown_alike : forall x, reads_alike x.
Proof.
  apply (message_ind_inside reads_alike). intros x IH x' G. destruct G as [id id' name fs fs' size size' S F]. apply marks_alike in S. cbn [m_fields] in IH. split; intro b.
  - rewrite !read_msg_eq. cbn [m_id m_fields]. rewrite S. apply same_bind; [|intros [n vs]; apply same_refl].
    generalize (@nil value). generalize 0. induction F as [|f f' fs fs' Hf F IHF]; intros off prev; [apply same_refl|].
    pose proof (member_alike (emb id) prev f f' (fun y => IH f y (or_introl eq_refl)) Hf) as M.
    destruct f as [n1 t1 o1 s1 e1], f' as [n2 t2 o2 s2 e2]. cbn [read_fields mf_ty mf_optional mf_endi] in *.
    apply same_bind; [apply same_refl|intro d]. apply same_bind; [apply M|intros [n v]]. apply same_bind; [apply same_refl|intro off'].
    apply IHF. intros g y Hg. apply (IH g y). right. exact Hg.
  - rewrite !read_msg_offsets_eq. cbn [m_id m_fields]. rewrite S. generalize (@nil (N * N * option offsets)). generalize (@nil value). generalize 0.
    induction F as [|f f' fs fs' Hf F IHF]; intros off prev offs; [apply same_refl|]. cbn [read_fields_offsets].
    apply same_bind; [apply same_refl|intro d].
    apply same_bind; [apply offset_alike; [intro y; apply (IH f y); left; reflexivity|exact Hf]|].
    intros [n [v o]]. apply same_bind; [apply same_refl|intro off']. apply IHF. intros g y Hg. apply (IH g y). right. exact Hg.
Qed.
End Grow.
