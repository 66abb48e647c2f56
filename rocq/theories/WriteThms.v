(** Writing: what a generated writer does to any sink. *)

From Coq Require Import Arith NArith ZArith List Bool Lia ZifyBool ZifyN ZifyNat.
From Verif Require Import Base Schema Codec Compiler Access Bits BitsFacts CodecFacts StructFacts BEThms
  Utf8 SpecUtf8 Utf8Thms Runtime Gen SpecWire MsgFacts.
Import ListNotations.
Local Open Scope N_scope.

(** ** Traces *)

(** Give the chunks to [write_all] one after the other, then stop with [res]. *)
Fixpoint feed {St} (w : sink St) (chunks : list bytes) (res : rres unit) (s : St) : St * rres unit :=
  match chunks with
  | [] => (s, res)
  | c :: r =>
      let '(s', x) := write_all w s c in
      match x with Ok _ => feed w r res s' | Err e => (s', Err e) | Panic => (s', Panic) end
  end.

(** A writer that does not look at its sink. *)
Definition follows (f : forall St, sink St -> wr St) (chunks : list bytes) (res : rres unit) : Prop :=
  forall St (w : sink St) s, f St w s = feed w chunks res s.

Definition traced (f : forall St, sink St -> wr St) : Prop := exists cs r, follows f cs r.

Lemma feed_app : forall St (w : sink St) a b res s,
  feed w (a ++ b) res s =
  (let '(s', x) := feed w a (Ok tt) s in
   match x with Ok _ => feed w b res s' | Err e => (s', Err e) | Panic => (s', Panic) end).
Proof.
  intros St w a. induction a as [|c a IH]; intros b res s; [reflexivity|].
  cbn [app feed]. destruct (write_all w s c) as [s' x]. destruct x; [apply IH|reflexivity..].
Qed.

Lemma feed_fail : forall St (w : sink St) a res s, res <> Ok tt ->
  feed w a res s =
  (let '(s', x) := feed w a (Ok tt) s in
   match x with Ok _ => (s', res) | Err e => (s', Err e) | Panic => (s', Panic) end).
Proof.
  intros St w a res s H. rewrite <- (app_nil_r a) at 1. rewrite feed_app. reflexivity.
Qed.

Lemma follows_seq : forall f g cs ds r, follows f cs (Ok tt) -> follows g ds r ->
  follows (fun St w => wseq (f St w) (g St w)) (cs ++ ds) r.
Proof.
  intros f g cs ds r Hf Hg St w s. unfold wseq. rewrite Hf, feed_app.
  destruct (feed w cs (Ok tt) s) as [s' x]. destruct x; [|reflexivity..]. apply Hg.
Qed.

Lemma follows_seq_fail : forall f g cs r, r <> Ok tt -> follows f cs r ->
  follows (fun St w => wseq (f St w) (g St w)) cs r.
Proof.
  intros f g cs r Hr Hf St w s. unfold wseq. rewrite Hf, feed_fail by exact Hr.
  destruct (feed w cs (Ok tt) s) as [s' x]. destruct x; [|reflexivity..].
  destruct r as [[]|e|]; [congruence|reflexivity..].
Qed.

Lemma traced_seq : forall f g, traced f -> traced g -> traced (fun St w => wseq (f St w) (g St w)).
Proof.
  intros f g (cs & r & Hf) (ds & q & Hg). destruct r as [[]|e|].
  - exists (cs ++ ds), q. apply follows_seq; assumption.
  - exists cs, (Err e). apply follows_seq_fail; [discriminate|assumption].
  - exists cs, Panic. apply follows_seq_fail; [discriminate|assumption].
Qed.

Lemma follows_put : forall b, follows (fun St w => put w b) [b] (Ok tt).
Proof. intros b St w s. unfold put. cbn [feed]. destruct (write_all w s b) as [s' [[]|e|]]; reflexivity. Qed.
Lemma traced_put : forall b, traced (fun St w => put w b).
Proof. intros b. eexists _, _. apply follows_put. Qed.
Lemma follows_done : follows (fun St w => wdone) [] (Ok tt).
Proof. intros St w s. reflexivity. Qed.
Lemma traced_done : traced (fun St w => wdone).
Proof. eexists _, _. apply follows_done. Qed.
Lemma traced_panic : traced (fun St w => wpanic).
Proof. exists [], Panic. intros St w s. reflexivity. Qed.
Lemma traced_fail : forall e, traced (fun St w => wfail e).
Proof. intro e. exists [], (Err e). intros St w s. reflexivity. Qed.
Lemma traced_let : forall A (x : rres A) (k : forall St, sink St -> A -> wr St),
  (forall a, traced (fun St w => k St w a)) -> traced (fun St w => wlet x (k St w)).
Proof.
  intros A [a|e|] k H.
  - destruct (H a) as (cs & r & Hf). exists cs, r. intros St w s. apply Hf.
  - exists [], (Err e). intros St w s. reflexivity.
  - exists [], Panic. intros St w s. reflexivity.
Qed.

(** ** Unfolding *)

Definition write_go (m : mode) {St} (w : sink St) (vs : list value) :=
  fix go (fs : list mfield) (rest : list value) {struct fs} : wr St :=
    match fs, rest with
    | [], [] => wdone
    | MkMField _ ty opt _ endi :: r, y :: rest =>
        wseq (write_optional w opt (write_ty m w endi vs ty) y) (go r rest)
    | _, _ => wpanic
    end.

Lemma write_msg_eq : forall m St (w : sink St) x vs,
  write_msg m w x (VMsg vs) = write_fields m w vs (m_fields x) vs.
Proof.
  intros m St w [id name fs sz] vs.
  change (write_msg m w (MkMessage id name fs sz) (VMsg vs)) with (write_go m w vs fs vs).
  cbn [m_fields]. generalize vs at 2 4. induction fs as [|[n ty opt s e] fs IH]; intro rest.
  { destruct rest; reflexivity. }
  destruct rest as [|y rest]; [reflexivity|]. cbn [write_go write_fields]. f_equal. apply IH.
Qed.

Definition write_pick (m : mode) {St} (w : sink St) (disc : N) (item : option value) :=
  fix pick (i : nat) (cs : list ucase) {struct cs} : wr St :=
    match cs with
    | [] => wpanic
    | MkUCase _ case t :: r =>
        match i with
        | O => match t, item with
               | None, None => wdone
               | Some t, Some x =>
                   if disc =? case then write_ref m w t x else wfail (InvalidUnionDiscriminant disc)
               | _, _ => wpanic
               end
        | S i => pick i r
        end
    end.

(** The body of the match arm of variant [c]. *)
Definition write_arm (m : mode) {St} (w : sink St) (disc : N) (c : ucase) (item : option value) : wr St :=
  match uc_item c, item with
  | None, None => wdone
  | Some t, Some x =>
      if disc =? uc_case c then write_ref m w t x else wfail (InvalidUnionDiscriminant disc)
  | _, _ => wpanic
  end.

Lemma write_pick_eq : forall m St (w : sink St) disc item cs k,
  write_pick m w disc item k cs =
  match nth_error cs k with Some c => write_arm m w disc c item | None => wpanic end.
Proof.
  intros m St w disc item. induction cs as [|[n c t] cs IH]; intros [|k]; try reflexivity.
  cbn [write_pick nth_error]. apply IH.
Qed.

Lemma write_union_eq : forall m St (w : sink St) u on k item,
  write_union m w u on (VUnion k item) =
  if union_has_items (u_cases u) then
    wlet (read_discriminant m (u_disc u) on) (fun disc =>
      match nth_error (u_cases u) k with
      | Some c => write_arm m w disc c item
      | None => wpanic
      end)
  else wdone.
Proof.
  intros m St w [name d cs s] on k item.
  change (write_union m w (MkUnion name d cs s) on (VUnion k item)) with
    (if union_has_items cs then
       wlet (read_discriminant m d on) (fun disc => write_pick m w disc item k cs) else wdone).
  cbn [u_cases u_disc]. destruct (union_has_items cs); [|reflexivity].
  destruct (read_discriminant m d on) as [disc|e|] eqn:E; [|reflexivity..].
  unfold wlet. rewrite write_pick_eq. reflexivity.
Qed.

(** ** Every writer is traced *)

Lemma traced_optional : forall opt (f : forall St, sink St -> value -> wr St) v,
  (forall v, traced (fun St w => f St w v)) ->
  traced (fun St w => write_optional w opt (f St w) v).
Proof.
  intros opt f v H. unfold write_optional. destruct opt; [|apply H].
  destruct v; try apply traced_panic. destruct o as [x|].
  - apply traced_seq; [apply traced_put|apply H].
  - apply traced_put.
Qed.

Lemma traced_ref : forall m r, (forall y, r = RMessage y -> forall v, traced (fun St w => write_msg m w y v)) ->
  forall v, traced (fun St w => write_ref m w r v).
Proof.
  intros m [s|x] H v.
  - destruct v; try apply traced_panic. unfold write_ref. cbn.
    apply (traced_let _ _ (fun St w => put w)). intro. apply traced_put.
  - apply H. reflexivity.
Qed.

Lemma nth_case_in : forall u k c, nth_error (u_cases u) k = Some c -> In c (u_cases u).
Proof. intros u k c H. eapply nth_error_In. exact H. Qed.

Lemma traced_ty : forall m t, (forall y, inside t y -> forall v, traced (fun St w => write_msg m w y v)) ->
  forall endi all v, traced (fun St w => write_ty m w endi all t v).
Proof.
  intros m t H endi all v.
  assert (Hv : forall o sz n, traced (fun St w => value_write w o sz n)) by (intros; apply traced_put).
  destruct t as [ty|r| |ty|ty s|u on idx|ty x|].
  - destruct v; try apply traced_panic. apply Hv.
  - replace (fun St w => write_ty m w endi all (TRef r) v) with (fun St w => @write_ref m St w r v) by reflexivity.
    apply traced_ref. intros y ->. apply H. constructor.
  - destruct v; try apply traced_panic. apply traced_seq; apply traced_put.
  - destruct v; try apply traced_panic. apply traced_seq; apply traced_put.
  - destruct v; try apply traced_panic. apply traced_seq; apply traced_put.
  - change (traced (fun St w => write_union m w u (nth_error all idx) v)).
    assert (Hbad : (forall k item, v <> VUnion k item) -> traced (fun St w => write_union m w u (nth_error all idx) v)).
    { intro Hn. destruct u as [name d cs sz].
      destruct v; try (exfalso; eapply Hn; reflexivity); cbn [write_union];
      (destruct (union_has_items cs); [|apply traced_panic]);
      apply (traced_let _ _ (fun St w _ => wpanic)); intro; apply traced_panic. }
    destruct v; try (apply Hbad; intros; discriminate). clear Hbad.
    destruct (union_has_items (u_cases u)) eqn:Eh.
    + assert (G : traced (fun St w => wlet (read_discriminant m (u_disc u) (nth_error all idx)) (fun disc =>
          match nth_error (u_cases u) variant with Some c => @write_arm m St w disc c item | None => wpanic end))).
      { apply (traced_let _ _ (fun St w disc =>
          match nth_error (u_cases u) variant with Some c => @write_arm m St w disc c item | None => wpanic end)).
        intro disc. destruct (nth_error (u_cases u) variant) as [c|] eqn:Ec; [|apply traced_panic].
        apply nth_case_in in Ec. unfold write_arm.
        destruct (uc_item c) as [r|] eqn:Er; destruct item as [x|]; try apply traced_panic; [|apply traced_done].
        destruct (disc =? uc_case c); [|apply traced_fail].
        apply traced_ref. intros y ->. apply H. econstructor; eauto. }
      destruct G as (cs & r & G). exists cs, r. intros St w s. rewrite write_union_eq, Eh. apply G.
    + exists [], (Ok tt). intros St w s. rewrite write_union_eq, Eh. reflexivity.
  - destruct v; try apply traced_panic. apply traced_seq; apply traced_put.
  - destruct v; try apply traced_panic. apply traced_put.
Qed.

Lemma traced_fields : forall m all fs rest,
  (forall g y, In g fs -> inside (mf_ty g) y -> forall v, traced (fun St w => write_msg m w y v)) ->
  traced (fun St w => write_fields m w all fs rest).
Proof.
  intros m all. induction fs as [|[n ty opt s e] fs IH]; intros rest H.
  { destruct rest; [apply traced_done|apply traced_panic]. }
  destruct rest as [|y rest]; [apply traced_panic|]. cbn [write_fields].
  apply (traced_seq (fun St w => write_optional w opt (write_ty m w e all ty) y)).
  - apply (traced_optional opt (fun St w => write_ty m w e all ty)). intro v. apply traced_ty.
    intros z Hz. apply (H (MkMField n ty opt s e)); [left; reflexivity|exact Hz].
  - apply IH. intros g z Hg Hz. apply (H g z); [right; exact Hg|exact Hz].
Qed.

Theorem write_msg_traced : forall m x v, traced (fun St w => write_msg m w x v).
Proof.
  intros m. apply (message_ind_inside (fun x => forall v, traced (fun St w => write_msg m w x v))).
  intros x IH v.
  assert (Hbad : (forall vs, v <> VMsg vs) -> traced (fun St w => write_msg m w x v)).
  { intro Hn. destruct x, v; try apply traced_panic. exfalso. eapply Hn. reflexivity. }
  destruct v; try (apply Hbad; intros; discriminate).
  destruct (traced_fields m fields (m_fields x) fields IH) as (cs & r & Hf).
  exists cs, r. intros St w s. rewrite write_msg_eq. apply Hf.
Qed.

(** ** Encodable values are written as their encoding *)

Definition emits (f : forall St, sink St -> wr St) (b : bytes) : Prop :=
  exists cs, follows f cs (Ok tt) /\ concat cs = b.

Lemma emits_put : forall b, emits (fun St w => put w b) b.
Proof. intro b. exists [b]. split; [apply follows_put|]. cbn. apply app_nil_r. Qed.
Lemma emits_done : emits (fun St w => wdone) [].
Proof. exists []. split; [apply follows_done|reflexivity]. Qed.
Lemma emits_seq : forall f g a b, emits f a -> emits g b -> emits (fun St w => wseq (f St w) (g St w)) (a ++ b).
Proof.
  intros f g a b (cs & Hf & Hc) (ds & Hg & Hd). exists (cs ++ ds). split; [apply follows_seq; assumption|].
  rewrite concat_app, Hc, Hd. reflexivity.
Qed.
Lemma emits_ext : forall f g a b, (forall St (w : sink St) s, f St w s = g St w s) -> a = b -> emits g a -> emits f b.
Proof.
  intros f g a b H -> (cs & Hg & Hc). exists cs. split; [|exact Hc]. intros St w s. rewrite H. apply Hg.
Qed.

Lemma emits_number : forall e sz n p, number e sz n p -> emits (fun St w => value_write w (order_of e) sz n) p.
Proof.
  intros e sz n p H. apply number_iff in H. destruct H as (Hn & ->). unfold value_write, num_bytes. apply emits_put.
Qed.

Lemma emits_prefix : forall e sz n p, number e sz n p ->
  emits (fun St w => value_write w (order_of e) sz (from_usize sz n)) p.
Proof.
  intros e sz n p H. pose proof H as H0. apply number_iff in H0. destruct H0 as (Hn & _). unfold from_usize.
  rewrite N.mod_small by exact Hn. apply emits_number. exact H.
Qed.

Lemma emits_ref : forall m r v b,
  (forall y, r = RMessage y -> forall v b, encodes m y v b -> emits (fun St w => write_msg m w y v) b) ->
  enc_ref m (fun p => p = 1) r v b -> emits (fun St w => write_ref m w r v) b.
Proof.
  intros m [s|x] v b H He.
  - destruct v; try contradiction. cbn [enc_ref] in He. destruct He as (Hl & Hok & ->).
    eapply (emits_ext _ (fun St w => put w data)); [|reflexivity|apply emits_put].
    intros St w s0. cbn [write_ref]. unfold struct_write, wlet.
    unfold slice. rewrite <- Hl. replace ((0 <=? len data) && (len data <=? len data)) with true by lia.
    rewrite N.sub_0_r. unfold len. rewrite Nat2N.id. cbn [N.to_nat skipn]. rewrite firstn_all. reflexivity.
  - apply (H x eq_refl). exact He.
Qed.

Lemma emits_ty : forall m t e prev all v b,
  (forall y, inside t y -> forall v b, encodes m y v b -> emits (fun St w => write_msg m w y v) b) ->
  (forall i y, nth_error prev i = Some y -> nth_error all i = Some y) ->
  enc_ty m (fun p => p = 1) e prev t v b -> emits (fun St w => write_ty m w e all t v) b.
Proof.
  intros m t e prev all v b H Hp He.
  destruct t as [ty|r| |ty|ty s|u on idx|ty x|].
  - destruct v; try contradiction. cbn [enc_ty] in He. apply (emits_number _ _ _ _ He).
  - eapply (emits_ext _ (fun St w => @write_ref m St w r v)); [reflexivity|reflexivity|].
    apply emits_ref; [|exact He]. intros y ->. apply H. constructor.
  - destruct v; try contradiction. cbn [enc_ty] in He. destruct He as (_ & _ & ->).
    apply (emits_seq (fun St w => put w s) (fun St w => put w [0])); apply emits_put.
  - destruct v; try contradiction. cbn [enc_ty] in He. destruct He as (_ & p & Hp' & ->).
    apply (emits_seq (fun St w => value_write w _ _ _)); [apply (emits_prefix _ _ _ _ Hp')|apply emits_put].
  - destruct v; try contradiction. cbn [enc_ty] in He. destruct He as (_ & _ & p & Hp' & ->).
    apply (emits_seq (fun St w => value_write w _ _ _)); [apply (emits_prefix _ _ _ _ Hp')|apply emits_put].
  - destruct v; try contradiction. cbn [enc_ty] in He. apply enc_union_iff in He.
    destruct He as (data & disc & c & Hon & Hg & Hc & Hi). apply find_case_in in Hc.
    destruct Hc as (Hin & Hd & _ & Hnth). rewrite Nat.sub_0_r in Hnth. apply Hp in Hon.
    destruct (union_has_items (u_cases u)) eqn:Eh.
    + eapply (emits_ext _ (fun St w => @write_arm m St w disc c item)).
      * intros St w s. change (write_ty m w e all (TUnion u on idx) (VUnion variant item))
          with (write_union m w u (nth_error all idx) (VUnion variant item)).
        rewrite write_union_eq, Eh, Hon. unfold wlet, read_discriminant. rewrite Hg, Hnth. reflexivity.
      * reflexivity.
      * unfold write_arm, enc_item in *. destruct (uc_item c) as [r|] eqn:Er; destruct item as [x|]; try contradiction.
        -- rewrite Hd, N.eqb_refl. apply emits_ref; [|exact Hi]. intros y ->. apply H. econstructor; eauto.
        -- subst b. apply emits_done.
    + eapply (emits_ext _ (fun St w => wdone)).
      * intros St w s. change (write_ty m w e all (TUnion u on idx) (VUnion variant item))
          with (write_union m w u (nth_error all idx) (VUnion variant item)).
        rewrite write_union_eq, Eh. reflexivity.
      * reflexivity.
      * unfold enc_item in Hi. destruct (uc_item c) as [r|] eqn:Er; destruct item as [x|]; try contradiction.
        -- exfalso. unfold union_has_items in Eh. assert (G : existsb (fun c => match uc_item c with Some _ => true | None => false end) (u_cases u) = true).
           { apply existsb_exists. exists c. split; [exact Hin|]. rewrite Er. reflexivity. } congruence.
        -- subst b. apply emits_done.
  - destruct v; try contradiction. cbn [enc_ty] in He.
    destruct He as (p & items & chunks & Hp' & _ & _ & _ & ->).
    apply (emits_seq (fun St w => value_write w _ _ _)); [apply (emits_prefix _ _ _ _ Hp')|apply emits_put].
  - destruct v; try contradiction. cbn [enc_ty] in He. destruct He as (_ & ->). apply emits_put.
Qed.

Lemma emits_optional : forall opt (f : forall St, sink St -> value -> wr St) (g : value -> bytes -> Prop) v b,
  (forall v b, g v b -> emits (fun St w => f St w v) b) ->
  enc_optional (fun p => p = 1) opt g v b -> emits (fun St w => write_optional w opt (f St w) v) b.
Proof.
  intros opt f g v b H He. unfold enc_optional, write_optional in *. destruct opt; [|apply H, He].
  destruct v; try contradiction. destruct o as [x|].
  - destruct He as (p & b' & _ & -> & -> & Hg). apply (emits_seq (fun St w => put w [1]) (fun St w => f St w x) [1]).
    + apply emits_put.
    + apply H. exact Hg.
  - subst b. apply emits_put.
Qed.

Lemma emits_fields : forall m all fs prev rest b,
  (forall g y, In g fs -> inside (mf_ty g) y -> forall v b, encodes m y v b -> emits (fun St w => write_msg m w y v) b) ->
  all = prev ++ rest ->
  enc_fields m (fun p => p = 1) fs prev rest b -> emits (fun St w => write_fields m w all fs rest) b.
Proof.
  intros m all. induction fs as [|[n ty opt s e] fs IH]; intros prev rest b H Hall He.
  { destruct rest; [|contradiction]. cbn in He. subst b. apply emits_done. }
  destruct rest as [|y rest]; [contradiction|]. cbn [enc_fields mf_optional mf_endi mf_ty] in He.
  destruct He as (b1 & b2 & -> & H1 & H2). cbn [write_fields].
  apply (emits_seq (fun St w => write_optional w opt (write_ty m w e all ty) y)
                   (fun St w => write_fields m w all fs rest)).
  - eapply (emits_optional opt (fun St w => write_ty m w e all ty)); [|exact H1].
    intros v b Hv. eapply emits_ty; [| |exact Hv].
    + intros z Hz. apply (H (MkMField n ty opt s e)); [left; reflexivity|exact Hz].
    + intros i z Hz. rewrite Hall. rewrite nth_error_app1; [exact Hz|]. apply nth_error_Some. congruence.
  - eapply IH; [| |exact H2].
    + intros g z Hg Hz. apply (H g z); [right; exact Hg|exact Hz].
    + rewrite Hall, <- app_assoc. reflexivity.
Qed.

Theorem write_emits : forall m x v b, encodes m x v b -> emits (fun St w => write_msg m w x v) b.
Proof.
  intros m. apply (message_ind_inside (fun x => forall v b, encodes m x v b -> emits (fun St w => write_msg m w x v) b)).
  intros x IH v b He. apply enc_msg_inv in He. destruct He as (vs & -> & He).
  eapply (emits_ext _ (fun St w => write_fields m w vs (m_fields x) vs)).
  - intros St w s. rewrite write_msg_eq. reflexivity.
  - reflexivity.
  - apply (emits_fields m vs (m_fields x) [] vs b); [exact IH|reflexivity|exact He].
Qed.

(** ** Particular sinks *)

Lemma feed_vec : forall cs r s, feed vec_sink cs r s = (s ++ concat cs, r).
Proof.
  induction cs as [|c cs IH]; intros r s; cbn [feed vec_sink write_all concat].
  - rewrite app_nil_r. reflexivity.
  - rewrite IH, app_assoc. reflexivity.
Qed.

Lemma emits_vec : forall f b s, emits f b -> f bytes vec_sink s = (s ++ b, Ok tt).
Proof. intros f b s (cs & Hf & <-). rewrite Hf. apply feed_vec. Qed.

(** C22: any sink that accepts everything. *)
Theorem write_vec_encodes : forall m x v b s, encodes m x v b -> write_vec m x v s = (s ++ b, Ok tt).
Proof. intros m x v b s He. apply (emits_vec _ _ s (write_emits _ _ _ _ He)). Qed.

Theorem encodes_unique : forall m x v b b', encodes m x v b -> encodes m x v b' -> b = b'.
Proof.
  intros m x v b b' H H'. apply (write_vec_encodes _ _ _ _ []) in H. apply (write_vec_encodes _ _ _ _ []) in H'.
  rewrite H in H'. inversion H'. reflexivity.
Qed.

Lemma feed_counter : forall m cs r n, n + len (concat cs) < 2 ^ 64 ->
  feed (counter_sink m) cs r n = (n + len (concat cs), r).
Proof.
  induction cs as [|c cs IH]; intros r n Hn; cbn [feed concat counter_sink write_all].
  - change (len (@nil N)) with 0. rewrite N.add_0_r. reflexivity.
  - cbn [concat] in Hn. rewrite len_app in *. destruct c as [|y c].
    + rewrite IH by exact Hn. reflexivity.
    + rewrite uadd_fit by lia. rewrite IH by lia. rewrite N.add_assoc. reflexivity.
Qed.

(** C30 *)
Theorem size_of_written : forall m x v s s' r, write_vec m x v s = (s', r) ->
  exists b, s' = s ++ b /\
    (len b < 2 ^ 64 ->
     size_of_msg m x v = match r with Ok _ => Ok (len b) | Err e => Err e | Panic => Panic end).
Proof.
  intros m x v s s' r H. destruct (write_msg_traced m x v) as (cs & res & Hf).
  unfold write_vec in H. rewrite (Hf bytes vec_sink s), feed_vec in H. inversion H; subst.
  exists (concat cs). split; [reflexivity|]. intro Hn.
  unfold size_of_msg, size_of. rewrite (Hf N (counter_sink m) 0), feed_counter by (rewrite N.add_0_l; exact Hn).
  destruct r; reflexivity.
Qed.



Lemma feed_honest : forall St (w : sink St) rc, honest w rc -> forall cs r s s' x,
  feed w cs r s = (s', x) ->
  (x = r /\ rc s' = rc s ++ concat cs) \/
  (exists e s1 c s2, x = Err e /\ write_all w s1 c = (s2, Err e) /\ s' = s2 /\
     exists p q, concat cs = p ++ q /\ rc s' = rc s ++ p).
Proof.
  intros St w rc Hh. induction cs as [|c cs IH]; intros r s s' x H; cbn [feed concat] in *.
  { left. inversion H; subst. rewrite app_nil_r. auto. }
  destruct (write_all w s c) as [s1 y] eqn:E. destruct y as [u|e|].
  - destruct (IH _ _ _ _ H) as [(-> & Hr) | (e & a & b & d & -> & Hw & -> & p & q & Hpq & Hr)].
    + left. split; [reflexivity|]. rewrite Hr, (h_ok _ _ Hh _ _ _ _ E). symmetry. apply app_assoc.
    + right. exists e, a, b, d. repeat (split; [assumption || reflexivity|]).
      exists (c ++ p), q. split; [rewrite Hpq; apply app_assoc|].
      rewrite Hr, (h_ok _ _ Hh _ _ _ _ E). symmetry. apply app_assoc.
  - right. inversion H; subst. exists e, s, c, s'. split; [reflexivity|]. split; [exact E|]. split; [reflexivity|].
    destruct (h_err _ _ Hh _ _ _ _ E) as (p & q & -> & Hr). exists p, (q ++ concat cs).
    split; [symmetry; apply app_assoc|exact Hr].
  - destruct (h_no_panic _ _ Hh _ _ _ E).
Qed.

Theorem failing_writer : forall m x v b St (w : sink St) received s s' r, honest w received ->
  encodes m x v b -> write_msg m w x v s = (s', r) ->
  (r = Ok tt /\ received s' = received s ++ b) \/
  (exists e s1 c, r = Err e /\ write_all w s1 c = (s', Err e) /\
     exists p q, b = p ++ q /\ received s' = received s ++ p).
Proof.
  intros m x v b St w rc s s' r Hh He H. destruct (write_emits _ _ _ _ He) as (cs & Hf & <-).
  rewrite Hf in H. destruct (feed_honest _ _ _ Hh _ _ _ _ _ H) as [(-> & Hr) | (e & a & c & d & -> & Hw & -> & p & q & Hpq & Hr)].
  - left. auto.
  - right. exists e, a, c. split; [reflexivity|]. split; [exact Hw|]. exists p, q. auto.
Qed.

Lemma feed_limited : forall cap cs s, len s <= cap ->
  feed (limited_sink cap) cs (Ok tt) s =
  if len (s ++ concat cs) <=? cap then (s ++ concat cs, Ok tt)
  else (firstn (N.to_nat cap) (s ++ concat cs), Err Io).
Proof.
  intros cap. induction cs as [|c cs IH]; intros s Hs; cbn [feed concat limited_sink write_all].
  - rewrite app_nil_r. replace (len s <=? cap) with true by lia. reflexivity.
  - destruct (len (s ++ c) <=? cap) eqn:E.
    + rewrite IH by lia. rewrite <- app_assoc. reflexivity.
    + replace (len (s ++ c ++ concat cs) <=? cap) with false by (rewrite !len_app in E; rewrite !len_app; lia).
      f_equal. unfold len in *. rewrite app_length in E. rewrite firstn_app, (firstn_all2 s) by lia. f_equal.
      rewrite firstn_app. replace (N.to_nat cap - length s - length c)%nat with O by lia.
      cbn [firstn]. rewrite app_nil_r. reflexivity.
Qed.

(** A writer with room for [cap] bytes. *)
Theorem limited_writer : forall m x v b cap, encodes m x v b ->
  write_msg m (limited_sink cap) x v [] =
  if len b <=? cap then (b, Ok tt) else (firstn (N.to_nat cap) b, Err Io).
Proof.
  intros m x v b cap He. destruct (write_emits _ _ _ _ He) as (cs & Hf & <-).
  rewrite Hf, feed_limited; [reflexivity|]. unfold len. cbn. lia.
Qed.

Lemma limited_honest : forall cap, honest (limited_sink cap) (fun s => s).
Proof.
  intro cap. split; cbn [limited_sink write_all]; intros.
  - destruct (len (s ++ b) <=? cap); inversion H; reflexivity.
  - destruct (len (s ++ b) <=? cap); inversion H; subst.
    exists (firstn (N.to_nat cap - length s) b), (skipn (N.to_nat cap - length s) b).
    split; [symmetry; apply firstn_skipn|reflexivity].
  - destruct (len (s ++ b) <=? cap); discriminate.
Qed.
