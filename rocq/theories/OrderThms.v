(** Messages that differ in numbers only work alike, for C87. *)

From Coq Require Import Arith NArith ZArith List Bool Lia.
From Verif Require Import Base Schema Codec Compiler Access StructFacts Runtime Gen SpecWire SpecExact MsgFacts OffsetThms WriteThms
  SpecGrow GrowThms RenameThms SpecOrder.
Import ListNotations.
Local Open Scope N_scope.

Lemma eq_bind : forall E A B (r r' : outcome E A) (k k' : A -> outcome E B), r' = r -> (forall a, k' a = k a) -> bind r' k' = bind r k.
Proof. intros E A B r r' k k' -> H. destruct r; cbn [bind]; auto. Qed.
Lemma eq_rmap : forall A B (f : A -> B) (r r' : reader A), (forall b, r' b = r b) -> forall b, rmap f r' b = rmap f r b.
Proof. intros A B f r r' H b. unfold rmap. rewrite H. reflexivity. Qed.
Lemma eq_optional : forall m A (r r' : reader A), (forall b, r' b = r b) -> forall b, optional_from_slice m r' b = optional_from_slice m r b.
Proof.
  intros m A r r' H b. unfold optional_from_slice. destruct (len b <? 1); [reflexivity|]. apply eq_bind; [reflexivity|intro flag].
  destruct (0 <? flag); [|reflexivity]. apply eq_bind; [reflexivity|intro d]. apply eq_bind; [apply H|reflexivity].
Qed.
Lemma eq_optional_offsets : forall m A O (r r' : reader (A * O)), (forall b, r' b = r b) ->
  forall b, optional_from_slice_with_offsets m r' b = optional_from_slice_with_offsets m r b.
Proof.
  intros m A O r r' H b. unfold optional_from_slice_with_offsets. destruct (len b <? 1); [reflexivity|]. apply eq_bind; [reflexivity|intro flag].
  destruct (0 <? flag); [|reflexivity]. apply eq_bind; [reflexivity|intro d]. apply eq_bind; [apply H|reflexivity].
Qed.
Lemma eq_loop : forall m A (r r' : reader A), (forall b, r' b = r b) -> forall n data t, list_loop m r' data n t = list_loop m r data n t.
Proof.
  intros m A r r' H n data. induction n as [|n IH]; intro t; [reflexivity|]. cbn [list_loop].
  apply eq_bind; [reflexivity|intro d]. apply eq_bind; [apply H|intros [k a]]. apply eq_bind; [reflexivity|intro t']. apply IH.
Qed.
Lemma eq_list : forall m A (t : reader N) (r r' : reader A), (forall b, r' b = r b) ->
  forall b, list_from_slice m t r' b = list_from_slice m t r b.
Proof.
  intros m A t r r' H b. unfold list_from_slice. apply eq_bind; [reflexivity|intros [c n]].
  apply eq_bind; [reflexivity|intro data]. rewrite (eq_loop _ _ _ _ H). reflexivity.
Qed.

Lemma twin_path_set : forall m same path s s' data v, twin same s s' -> path_set (E:=rerror) m s' path data v = path_set m s path data v.
Proof.
  intros m same. induction path as [|k path IH]; intros s s' data v T; [reflexivity|]. destruct T as [id id' name fs fs' bytes bits _ F].
  pose proof (twin_nth same _ _ k F) as H. cbn [path_set s_fields].
  destruct (nth_error fs k) as [f|], (nth_error fs' k) as [f'|]; try contradiction; [|reflexivity].
  destruct H as [f|f|nm s s' loc T]; [reflexivity|reflexivity|]. apply eq_bind; [reflexivity|intro w]. rewrite (IH _ _ w v T). reflexivity.
Qed.

Section Moved.
Variables (m : mode) (emb emb' : N -> bool) (same : N -> N -> Prop).
Hypothesis marks : forall i i', same i i' -> emb' i' = emb i.
Local Notation moved := (moved same).
Local Notation moved_field := (moved_field same).
Local Notation moved_type := (moved_type same).
Local Notation moved_ref := (moved_ref same).
Local Notation moved_case := (moved_case same).
Definition reads_moved (x : message) : Prop := forall x', moved x x' ->
  (forall b, read_msg m emb' x' b = read_msg m emb x b) /\ (forall b, read_msg_offsets m emb' x' b = read_msg_offsets m emb x b).
Lemma ref_moved : forall t t', (forall y, t = RMessage y -> reads_moved y) -> moved_ref t t' ->
  forall b, read_ref m emb' t' b = read_ref m emb t b.
Proof.
  intros t t' H G b. inversion G as [s s' T|]; subst; cbn [read_ref]; [rewrite (twin_bytes _ _ _ T); reflexivity|]. apply (H y eq_refl). assumption.
Qed.
Lemma cases_moved : forall b disc cs cs', (forall c y, In c cs -> uc_item c = Some (RMessage y) -> reads_moved y) ->
  Forall2 moved_case cs cs' -> forall i,
    (fix pick (i : nat) (cs : list ucase) : rres (N * value) :=
         match cs with
         | [] => Err (InvalidUnionDiscriminant disc)
         | MkUCase _ case item :: r =>
             if disc =? case then
               match item with
               | None => Ok (0, VUnion i None)
               | Some t => '(n, v) <- read_ref m emb' t b ;; Ok (n, VUnion i (Some v))
               end
             else pick (S i) r
         end) i cs' =
    (fix pick (i : nat) (cs : list ucase) : rres (N * value) :=
         match cs with
         | [] => Err (InvalidUnionDiscriminant disc)
         | MkUCase _ case item :: r =>
             if disc =? case then
               match item with
               | None => Ok (0, VUnion i None)
               | Some t => '(n, v) <- read_ref m emb t b ;; Ok (n, VUnion i (Some v))
               end
             else pick (S i) r
         end) i cs.
Proof.
  intros b disc cs cs' H F. induction F as [|c c' cs cs' Hc F IH]; intro i; [reflexivity|].
  destruct Hc as [name n|name n t t' G].
  - destruct (disc =? n); [reflexivity|]. apply IH. intros c y Hin. apply H. right. exact Hin.
  - destruct (disc =? n).
    + apply eq_bind; [|reflexivity]. apply ref_moved; [|exact G]. intros y ->. eapply H; [left; reflexivity|reflexivity].
    + apply IH. intros c y Hin. apply H. right. exact Hin.
Qed.
Lemma type_moved : forall e endi prev t t', (forall y, inside t y -> reads_moved y) -> moved_type t t' ->
  forall b, read_ty m emb' e endi prev t' b = read_ty m emb e endi prev t b.
Proof.
  intros e endi prev t t' H G. destruct G as [ty|t t' G| | |ty s s' T|ty y y' G|u u' on i G|]; intro b; try reflexivity.
  - apply ref_moved; [|exact G]. intros y ->. apply H. constructor.
  - cbn [read_ty]. rewrite (twin_bytes _ _ _ T). reflexivity.
  - cbn [read_ty]. apply eq_rmap. intro d. destruct e; [|reflexivity]. apply eq_list. intro d'. apply H; [constructor|exact G].
  - destruct G as [name d d' cs cs' size T F]. cbn [read_ty read_union]. rewrite (twin_disc _ _ _ _ _ T).
    apply eq_bind; [reflexivity|intro disc].
    apply cases_moved; [|exact F]. intros c y Hc Hy. apply H. econstructor; [exact Hc|exact Hy].
Qed.
Lemma member_moved : forall e prev f f', (forall y, inside (mf_ty f) y -> reads_moved y) -> moved_field f f' ->
  forall d, read_optional m (mf_optional f') (read_ty m emb' e (mf_endi f') prev (mf_ty f')) d =
            read_optional m (mf_optional f) (read_ty m emb e (mf_endi f) prev (mf_ty f)) d.
Proof.
  intros e prev f f' H G. destruct G as [nm t t' opt sz endi G]. cbn [mf_optional mf_endi mf_ty] in *. intro d.
  pose proof (type_moved e endi prev t t' H G) as T.
  unfold read_optional. destruct opt; [|apply T]. apply eq_rmap. intro c. apply eq_optional. exact T.
Qed.
Lemma offset_moved : forall e prev f f', (forall y, inside (mf_ty f) y -> reads_moved y) -> moved_field f f' ->
  forall d, read_field_offsets m emb' e prev f' d = read_field_offsets m emb e prev f d.
Proof.
  intros e prev f f' H G d. pose proof (member_moved e prev f f' H G d) as M.
  assert (T : ('(n, v) <- read_optional m (mf_optional f') (read_ty m emb' e (mf_endi f') prev (mf_ty f')) d ;; Ok (n, (v, @None offsets))) =
     ('(n, v) <- read_optional m (mf_optional f) (read_ty m emb e (mf_endi f) prev (mf_ty f)) d ;; Ok (n, (v, @None offsets)))).
  { rewrite M. reflexivity. }
  clear M. unfold read_field_offsets. destruct G as [nm t t' opt sz endi G]. cbn [mf_optional mf_endi mf_ty] in *.
  destruct G as [ty|t t' [s s' Ts|y y' G]| | |ty s s' Ts|ty y y' G|u u' on i G|]; try exact T.
  destruct (H y ltac:(constructor) _ G) as (_ & R2). destruct opt.
  - apply eq_bind; [apply eq_optional_offsets; exact R2|reflexivity].
  - apply eq_bind; [apply R2|reflexivity].
Qed.
Theorem moved_reads : forall x, reads_moved x.
Proof.
  apply (message_ind_inside reads_moved). intros x IH x' G. destruct G as [id id' name fs fs' size S F]. apply marks in S. cbn [m_fields] in IH. split; intro b.
  - rewrite !read_msg_eq. cbn [m_id m_fields]. rewrite S. apply eq_bind; [|reflexivity].
    generalize (@nil value). generalize 0. induction F as [|f f' fs fs' Hf F IHF]; intros off prev; [reflexivity|].
    pose proof (member_moved (emb id) prev f f' (fun y => IH f y (or_introl eq_refl)) Hf) as M.
    destruct f as [n1 t1 o1 s1 e1], f' as [n2 t2 o2 s2 e2]. cbn [read_fields mf_ty mf_optional mf_endi] in *.
    apply eq_bind; [reflexivity|intro d]. apply eq_bind; [apply M|intros [n v]]. apply eq_bind; [reflexivity|intro off'].
    apply IHF. intros g y Hg. apply (IH g y). right. exact Hg.
  - rewrite !read_msg_offsets_eq. cbn [m_id m_fields]. rewrite S. generalize (@nil (N * N * option offsets)). generalize (@nil value). generalize 0.
    induction F as [|f f' fs fs' Hf F IHF]; intros off prev offs; [reflexivity|]. cbn [read_fields_offsets].
    apply eq_bind; [reflexivity|intro d].
    apply eq_bind; [apply offset_moved; [intro y; apply (IH f y); left; reflexivity|exact Hf]|].
    intros [n [v o]]. apply eq_bind; [reflexivity|intro off']. apply IHF. intros g y Hg. apply (IH g y). right. exact Hg.
Qed.

(** ** Writing *)
Section Write.
Variables (St : Type) (w : sink St).
Definition writes_moved (x : message) : Prop := forall x', moved x x' -> forall v s, write_msg m w x' v s = write_msg m w x v s.
Lemma write_ref_moved : forall t t' v, (forall y, t = RMessage y -> writes_moved y) -> moved_ref t t' ->
  forall s, write_ref m w t' v s = write_ref m w t v s.
Proof.
  intros t t' v H G c. inversion G as [s s' T|]; subst; cbn [write_ref]; [rewrite (twin_bytes _ _ _ T); reflexivity|]. apply (H y eq_refl). assumption.
Qed.
Lemma has_items_moved : forall cs cs', Forall2 moved_case cs cs' -> union_has_items cs' = union_has_items cs.
Proof. intros cs cs' F. unfold union_has_items. induction F as [|c c' cs cs' H F IH]; [reflexivity|]. cbn [existsb]. rewrite IH. destruct H; reflexivity. Qed.
Lemma case_at : forall cs cs' k, Forall2 moved_case cs cs' ->
  match nth_error cs k, nth_error cs' k with Some c, Some c' => moved_case c c' | None, None => True | _, _ => False end.
Proof. intros cs cs' k F. revert k. induction F as [|f f' fs fs' H F IH]; intros [|k]; cbn [nth_error]; [exact I|exact I|exact H|apply IH]. Qed.
Lemma write_ty_moved : forall endi all t t' v, (forall y, inside t y -> writes_moved y) -> moved_type t t' ->
  forall s, write_ty m w endi all t' v s = write_ty m w endi all t v s.
Proof.
  intros endi all t t' v H G c. destruct G as [ty|t t' G| | |ty s s' T|ty y y' G|u u' on i G|]; try reflexivity.
  - apply write_ref_moved; [|exact G]. intros y ->. apply H. constructor.
  - change (write_union m w u' (nth_error all i) v c = write_union m w u (nth_error all i) v c).
    destruct G as [name d d' cs cs' size T F]. pose proof (has_items_moved _ _ F) as Hi. pose proof (twin_disc m _ _ _ (nth_error all i) T) as Hd.
    destruct v as [| | | |k item| | |]; try (cbn [write_union]; rewrite Hi, Hd; reflexivity).
    rewrite !write_union_eq. cbn [u_disc u_cases]. rewrite Hi, Hd. destruct (union_has_items cs); [|reflexivity]. unfold wlet.
    destruct (read_discriminant m d (nth_error all i)) as [disc|?|]; [|reflexivity..].
    pose proof (case_at _ _ k F) as Q. destruct (nth_error cs k) as [a|] eqn:Ea, (nth_error cs' k) as [a'|]; try contradiction; [|reflexivity].
    unfold write_arm. destruct Q as [nm n|nm n t t' G]; cbn [uc_item uc_case]; [reflexivity|]. destruct item as [it|]; [|reflexivity].
    destruct (disc =? n); [|reflexivity]. apply write_ref_moved; [|exact G]. intros y ->. apply H. econstructor; [eapply nth_error_In; exact Ea|reflexivity].
Qed.
Theorem moved_writes : forall x, writes_moved x.
Proof.
  apply (message_ind_inside writes_moved). intros x IH x' G v s. destruct G as [id id' name fs fs' size S F]. cbn [m_fields] in IH.
  destruct v as [| | | | |vs| |]; try reflexivity. rewrite !write_msg_eq. cbn [m_fields]. revert s. generalize vs at 2 4.
  induction F as [|f f' fs fs' Hf F IHF]; intros rest s; [reflexivity|].
  destruct Hf as [nm t t' opt sz endi T]. cbn [write_fields]. destruct rest as [|y rest]; [reflexivity|]. unfold wseq.
  rewrite (write_optional_ren St w opt (write_ty m w endi vs t') (write_ty m w endi vs t)).
  - destruct (write_optional w opt _ y s) as [c' [u|?|]]; [|reflexivity..]. apply IHF. intros g z Hg. apply (IH g z). right. exact Hg.
  - intros v c. apply write_ty_moved; [|exact T]. intros z Hz. apply (IH (MkMField nm t opt sz endi) z); [left; reflexivity|exact Hz].
Qed.
End Write.
Theorem moved_works : forall x x', moved x x' -> works_alike m emb emb' x x'.
Proof.
  intros x x' G. destruct (moved_reads x x' G) as (A & B). split; [exact A|]. split; [exact B|]. split.
  - intros St w v s. exact (moved_writes St w x x' G v s).
  - intro v. unfold size_of_msg, size_of. rewrite (moved_writes N (counter_sink m) x x' G). reflexivity.
Qed.
End Moved.
