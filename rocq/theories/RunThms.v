(** Running the generated statements by variable names is running the message
    model (C50). *)

From Coq Require Import Arith NArith Ascii String List Bool Lia ZifyBool ZifyN ZifyNat.
From Verif Require Import Base Schema Codec Compiler Access Runtime Gen Template SpecTemplate Driver SpecComp StructFacts
  CompFacts MsgFacts WriteThms OffsetThms GenText SpecGen SpecCode GenMsgThms GenAllThms.
Import ListNotations.
Local Open Scope list_scope.

(** ** Variables *)
Lemma sget_in : forall {A} (l : list (string * A)) n v, NoDup (map fst l) -> In (n, v) l -> sget n l = Some v.
Proof.
  intros A l n v. induction l as [|[k a] l IH]; intros Hn Hi; [destruct Hi|]. cbn [sget].
  inversion Hn; subst. destruct (String.eqb_spec n k) as [->|Hk].
  - destruct Hi as [Hi|Hi]; [congruence|]. exfalso. apply H1. change k with (fst (k, v)). apply in_map. exact Hi.
  - destruct Hi as [Hi|Hi]; [congruence|]. apply IH; assumption.
Qed.
Lemma combine_fst : forall {A} (names : list string) (vs : list A), length names = length vs ->
  map fst (combine names vs) = names.
Proof.
  intros A. induction names as [|n names IH]; intros [|v vs] H; try discriminate; [reflexivity|].
  cbn. rewrite IH by (cbn in H; lia). reflexivity.
Qed.
Lemma combine_in : forall {A} (names : list string) (vs : list A) i n v,
  nth_error names i = Some n -> nth_error vs i = Some v -> In (n, v) (combine names vs).
Proof.
  intros A. induction names as [|n' names IH]; intros [|v' vs] [|i] n v H1 H2; try discriminate; cbn in *.
  - left. congruence.
  - right. eapply IH; eassumption.
Qed.
Lemma combine_snoc : forall {A} (names : list string) (vs : list A) n v, length names = length vs ->
  combine (names ++ [n]) (vs ++ [v]) = combine names vs ++ [(n, v)].
Proof.
  intros A. induction names as [|n' names IH]; intros [|v' vs] n v H; try discriminate; [reflexivity|].
  cbn. rewrite IH by (cbn in H; lia). reflexivity.
Qed.
Definition vars_of {A} (names : list string) (vs : list A) : list (string * A) := rev (combine names vs).
Lemma vars_snoc : forall {A} names (vs : list A) n v, length names = length vs ->
  (n, v) :: vars_of names vs = vars_of (names ++ [n]) (vs ++ [v]).
Proof. intros. unfold vars_of. rewrite combine_snoc, rev_app_distr by assumption. reflexivity. Qed.
Lemma vars_get : forall {A} names (vs : list A) i n v, NoDup names -> length names = length vs ->
  nth_error names i = Some n -> nth_error vs i = Some v -> sget n (vars_of names vs) = Some v.
Proof.
  intros A names vs i n v Hd Hl H1 H2. apply sget_in.
  - unfold vars_of. rewrite map_rev, combine_fst by assumption. apply NoDup_rev. exact Hd.
  - unfold vars_of. apply -> in_rev. eapply combine_in; eassumption.
Qed.
Lemma members_suffix : forall {A} names (vs : list A) all allv, NoDup all -> length all = length allv ->
  (forall i n v, nth_error names i = Some n -> nth_error vs i = Some v -> sget n (vars_of all allv) = Some v) ->
  length names = length vs -> members (vars_of all allv) names = Ok vs.
Proof.
  intros A. induction names as [|n names IH]; intros [|v vs] all allv Hd Hl H Hn; try discriminate; [reflexivity|].
  cbn [members]. rewrite (H 0%nat n v eq_refl eq_refl). cbn [unwrap bind].
  rewrite (IH vs) ; [reflexivity|assumption..| |cbn in Hn; lia].
  intros i n' v' H1 H2. exact (H (Datatypes.S i) n' v' H1 H2).
Qed.
Lemma members_all : forall {A} names (vs : list A), NoDup names -> length names = length vs ->
  members (vars_of names vs) names = Ok vs.
Proof. intros. apply members_suffix; try assumption. intros. eapply vars_get; eassumption. Qed.

(** ** One statement *)
Definition on_seen {A} (vars : list (string * A)) (prev : list A) (f : mfield) : Prop :=
  forall u on i, mf_ty f = TUnion u on i -> sget on vars = nth_error prev i.
Lemma run_type_ty : forall m emb path vars prev e f on, on_seen vars prev f ->
  (forall u n i, mf_ty f = TUnion u n i -> on = Some n) ->
  run_type m emb vars on (field_type path e f) = read_ty m emb e (mf_endi f) prev (mf_ty f).
Proof.
  intros m emb path vars prev e [name ty opt sz endi] on Hs Ho. unfold on_seen, field_type in *.
  cbn [mf_ty mf_endi] in *.
  destruct ty as [t|[s|x]| |t|t s|u n i|t x|]; try reflexivity.
  - cbn [run_type]. rewrite (Ho _ _ _ eq_refl). rewrite (Hs _ _ _ eq_refl). reflexivity.
  - destruct e; reflexivity.
Qed.
Lemma run_type_field : forall m emb path vars prev e f, on_seen vars prev f ->
  run_type m emb vars (st_on (field_stmt path e f)) (st_type (field_stmt path e f)) =
  read_optional m (mf_optional f) (read_ty m emb e (mf_endi f) prev (mf_ty f)).
Proof.
  intros m emb path vars prev e f Hs. unfold field_stmt, read_optional. cbn [st_on st_type].
  destruct (mf_optional f); cbn [run_type]; rewrite (run_type_ty _ _ _ _ prev);
    try assumption; try reflexivity; intros u n i H; rewrite H; reflexivity.
Qed.

Definition named_from (pre fs : list mfield) : Prop :=
  forall k f u on i, nth_error fs k = Some f -> mf_ty f = TUnion u on i ->
    exists g, nth_error (pre ++ firstn k fs) i = Some g /\ mf_name g = on.
Lemma named_start : forall x, unions_named x -> named_from [] (m_fields x).
Proof.
  intros x H k f u on i Hk Ht. destruct (H k f u on i Hk Ht) as (Hlt & g & Hg & Hn). exists g. split; [|exact Hn].
  cbn [List.app]. clear - Hg Hlt. revert i k Hg Hlt. induction (m_fields x) as [|a l IH]; intros [|i] [|k] Hg Hlt; try discriminate; try lia.
  - exact Hg.
  - cbn in *. apply IH; [exact Hg|lia].
Qed.
Lemma named_step : forall pre f fs, named_from pre (f :: fs) -> named_from (pre ++ [f]) fs.
Proof.
  intros pre f fs H k g u on i Hk Ht. destruct (H (Datatypes.S k) g u on i Hk Ht) as (h & Hh & Hn).
  exists h. split; [|exact Hn]. rewrite <- app_assoc. exact Hh.
Qed.
Lemma named_seen : forall {A} pre f fs (prev : list A), named_from pre (f :: fs) -> NoDup (map mf_name pre) ->
  length pre = length prev -> on_seen (vars_of (map mf_name pre) prev) prev f.
Proof.
  intros A pre f fs prev H Hd Hl u on i Ht. destruct (H 0%nat f u on i eq_refl Ht) as (g & Hg & Hn).
  cbn [firstn] in Hg. rewrite app_nil_r in Hg.
  assert (Hi : (i < length prev)%nat) by (rewrite <- Hl; apply nth_error_Some; congruence).
  destruct (nth_error prev i) as [v|] eqn:Hv; [|apply nth_error_None in Hv; lia].
  eapply vars_get; [exact Hd|rewrite map_length; exact Hl| |exact Hv].
  rewrite nth_error_map, Hg. cbn. congruence.
Qed.
Lemma nodup_pre : forall (l r : list string), NoDup (l ++ r) -> NoDup l.
Proof.
  intros l r. induction l as [|a l IH]; intro H; [constructor|]. inversion H; subst.
  constructor; [|auto]. intro Hi. apply H2. apply in_or_app. left. exact Hi.
Qed.

(** ** Reading *)
Lemma run_reads_fields : forall m emb path e b fs pre off prev,
  NoDup (map mf_name (pre ++ fs)) -> length pre = length prev -> named_from pre fs ->
  run_reads m emb b (vars_of (map mf_name pre) prev, off) (map (field_stmt path e) fs) =
  ('(n, vs) <- read_fields m emb e b fs off prev ;; Ok (vars_of (map mf_name (pre ++ fs)) vs, n)) /\
  (forall n vs, read_fields m emb e b fs off prev = Ok (n, vs) -> length vs = length (pre ++ fs)).
Proof.
  intros m emb path e b fs. induction fs as [|f fs IH]; intros pre off prev Hd Hl Hn.
  { cbn. rewrite app_nil_r. split; [reflexivity|]. intros n vs H. injection H as _ <-. auto. }
  pose proof Hd as Hd'. rewrite map_app in Hd'. apply nodup_pre in Hd'.
  cbn [map run_reads]. unfold run_read at 1.
  rewrite (run_type_field m emb path _ prev) by (eapply named_seen; eassumption).
  destruct f as [name ty opt sz endi]. cbn [read_fields mf_ty mf_optional mf_endi].
  destruct (slice_from b off) as [d|er|]; [|split; [reflexivity|discriminate]..]. cbn [bind].
  destruct (read_optional m opt (read_ty m emb e endi prev ty) d) as [[n v]|er|]; [|split; [reflexivity|discriminate]..].
  cbn [bind]. destruct (uadd m off n) as [off'|er|]; [|split; [reflexivity|discriminate]..]. cbn [bind].
  set (f := MkMField name ty opt sz endi) in *.
  replace (pre ++ f :: fs) with ((pre ++ [f]) ++ fs) in * by (rewrite <- app_assoc; reflexivity).
  rewrite vars_snoc by (rewrite map_length; exact Hl).
  change (map mf_name pre ++ [st_name (field_stmt path e f)]) with (map mf_name pre ++ map mf_name [f]).
  rewrite <- map_app. apply IH.
  - exact Hd.
  - rewrite !app_length. cbn. lia.
  - apply named_step. exact Hn.
Qed.
Theorem run_program_read : forall m emb path x b, distinct_members x -> unions_named x ->
  run_program m emb b (program path emb x) = read_msg m emb x b.
Proof.
  intros m emb path x b Hd Hn. rewrite read_msg_eq. unfold run_program, program.
  pose proof (run_reads_fields m emb path (emb (m_id x)) b (m_fields x) [] 0%N [] Hd eq_refl (named_start x Hn)) as [H1 H2].
  cbn [map List.app] in H1, H2. change (vars_of [] []) with (@nil (string * value)) in H1.
  rewrite H1. destruct (read_fields m emb (emb (m_id x)) b (m_fields x) 0 []) as [[n vs]|er|] eqn:Hr; [|reflexivity..].
  cbn [bind]. specialize (H2 n vs eq_refl). rewrite map_map. cbn [field_stmt st_name].
  change (fun x0 => mf_name x0) with mf_name.
  rewrite members_all; [reflexivity|exact Hd|rewrite map_length; auto].
Qed.

(** ** Offsets *)
Lemma run_type_offsets_field : forall m emb path vars prev e f d, on_seen vars prev f ->
  run_type_offsets m emb vars (st_on (field_stmt path e f)) (st_type (field_stmt path e f)) d =
  read_field_offsets m emb e prev f d.
Proof.
  intros m emb path vars prev e f d Hs.
  assert (HD : (forall y, mf_ty f <> TRef (RMessage y)) ->
    rmap (fun v => (v, None)) (run_type m emb vars (st_on (field_stmt path e f)) (st_type (field_stmt path e f))) d =
    ('(n, v) <- read_optional m (mf_optional f) (read_ty m emb e (mf_endi f) prev (mf_ty f)) d ;; Ok (n, (v, @None offsets)))).
  { intros _. rewrite (run_type_field _ _ _ _ prev) by assumption. reflexivity. }
  destruct f as [name ty opt sz endi]. unfold read_field_offsets. cbn [mf_ty mf_optional mf_endi] in *.
  destruct ty as [t|[s|x]| |t|t s|u n i|t x|]; destruct opt;
    try (etransitivity; [|apply HD; congruence]; reflexivity);
    try (etransitivity; [|apply HD; congruence]; destruct e; reflexivity).
  - cbn [field_stmt st_on st_type mf_ty mf_optional field_type run_type_offsets]. unfold rmap.
    destruct (optional_from_slice_with_offsets m (read_msg_offsets m emb x) d) as [[k [v o]]|er|]; reflexivity.
  - cbn [field_stmt st_on st_type mf_ty mf_optional field_type run_type_offsets]. unfold rmap.
    destruct (read_msg_offsets m emb x d) as [[k [v o]]|er|]; reflexivity.
Qed.
Lemma run_offsets_fields : forall m emb path e b fs pre off prev offs,
  NoDup (map mf_name (pre ++ fs)) -> length pre = length prev -> length pre = length offs -> named_from pre fs ->
  ('(vars, offs, n) <- run_offsets m emb b (vars_of (map mf_name pre) prev, vars_of (map mf_name pre) offs, off)
                        (map (field_stmt path e) fs) ;;
   vs <- members vars (map mf_name (pre ++ fs)) ;;
   os <- members offs (map mf_name (pre ++ fs)) ;;
   Ok (n, (VMsg vs, MkOffsets os))) =
  read_fields_offsets m emb e b fs off prev offs.
Proof.
  intros m emb path e b fs. induction fs as [|f fs IH]; intros pre off prev offs Hd Hl Ho Hn.
  { cbn [map run_offsets bind read_fields_offsets]. rewrite app_nil_r in *.
    rewrite !members_all by (try exact Hd; rewrite map_length; assumption). reflexivity. }
  pose proof Hd as Hd'. rewrite map_app in Hd'. apply nodup_pre in Hd'.
  cbn [map run_offsets read_fields_offsets]. unfold run_offset at 1.
  destruct (slice_from b off) as [d|er|]; [|reflexivity..]. cbn [bind].
  rewrite (run_type_offsets_field m emb path _ prev) by (eapply named_seen; eassumption).
  destruct (read_field_offsets m emb e prev f d) as [[n [v nested]]|er|]; [|reflexivity..].
  cbn [bind]. destruct (uadd m off n) as [off'|er|]; [|reflexivity..]. cbn [bind].
  replace (pre ++ f :: fs) with ((pre ++ [f]) ++ fs) in * by (rewrite <- app_assoc; reflexivity).
  rewrite !vars_snoc by (rewrite map_length; assumption).
  change (map mf_name pre ++ [st_name (field_stmt path e f)]) with (map mf_name pre ++ map mf_name [f]).
  rewrite <- (map_app mf_name pre [f]). apply IH.
  - exact Hd.
  - rewrite !app_length. cbn. lia.
  - rewrite !app_length. cbn. lia.
  - apply named_step. exact Hn.
Qed.
Theorem run_program_offsets : forall m emb path x b, distinct_members x -> unions_named x ->
  run_offsets_program m emb b (program path emb x) = read_msg_offsets m emb x b.
Proof.
  intros m emb path x b Hd Hn. rewrite read_msg_offsets_eq. unfold run_offsets_program, program.
  rewrite <- (run_offsets_fields m emb path (emb (m_id x)) b (m_fields x) [] 0%N [] [] Hd eq_refl eq_refl (named_start x Hn)).
  rewrite map_map. cbn [field_stmt st_name List.app]. reflexivity.
Qed.

(** ** Writing *)
Section W.
Context (m : mode) {St : Type} (w : sink St).
Lemma run_write_ty : forall path e input all f on v, on_seen input all f ->
  (forall u n i, mf_ty f = TUnion u n i -> on = Some n) ->
  run_write_type m w input on (field_type path e f) v = write_ty m w (mf_endi f) all (mf_ty f) v.
Proof.
  intros path e input all [name ty opt sz endi] on v Hs Ho. unfold on_seen, field_type in *.
  cbn [mf_ty mf_endi] in *.
  destruct ty as [t|[s|x]| |t|t s|u n i|t x|]; try (destruct v; reflexivity).
  - cbn [run_write_type]. rewrite (Ho _ _ _ eq_refl). rewrite (Hs _ _ _ eq_refl). destruct v; reflexivity.
  - destruct e; destruct v; reflexivity.
Qed.
Lemma run_write_field : forall path e input all f v, on_seen input all f ->
  run_write_type m w input (st_on (field_stmt path e f)) (st_type (field_stmt path e f)) v =
  write_optional w (mf_optional f) (write_ty m w (mf_endi f) all (mf_ty f)) v.
Proof.
  intros path e input all f v Hs. unfold field_stmt, write_optional. cbn [st_on st_type].
  assert (Ho : forall u n i, mf_ty f = TUnion u n i ->
    match mf_ty f with TUnion _ on _ => Some on | _ => None end = Some n) by (intros u n i H; rewrite H; reflexivity).
  destruct (mf_optional f); [|apply run_write_ty; assumption].
  cbn [run_write_type]. destruct v as [| | | | | | |o]; try reflexivity.
  destruct o as [v|]; [|reflexivity]. unfold optional_write. rewrite (run_write_ty _ _ _ all) by assumption. reflexivity.
Qed.
Lemma run_writes_fields : forall path e fs pre prev rest,
  NoDup (map mf_name (pre ++ fs)) -> length pre = length prev -> length fs = length rest ->
  (forall f, In f fs -> on_seen (combine (map mf_name (pre ++ fs)) (prev ++ rest)) (prev ++ rest) f) ->
  run_writes m w (combine (map mf_name (pre ++ fs)) (prev ++ rest)) (map (field_stmt path e) fs) =
  write_fields m w (prev ++ rest) fs rest.
Proof.
  intros path e fs. induction fs as [|f fs IH]; intros pre prev [|y rest] Hd Hl Hr Hs; try discriminate; [reflexivity|].
  cbn [map run_writes]. change (st_name (field_stmt path e f)) with (mf_name f).
  rewrite (sget_in _ (mf_name f) y).
  - rewrite (run_write_field path e _ (prev ++ y :: rest)) by (apply Hs; left; reflexivity).
    destruct f as [name ty opt sz endi]. cbn [write_fields mf_ty mf_optional mf_endi]. f_equal.
    set (f := MkMField name ty opt sz endi) in *.
    replace (pre ++ f :: fs) with ((pre ++ [f]) ++ fs) in * by (rewrite <- app_assoc; reflexivity).
    replace (prev ++ y :: rest) with ((prev ++ [y]) ++ rest) in * by (rewrite <- app_assoc; reflexivity).
    apply IH; try assumption.
    + rewrite !app_length. cbn. lia.
    + cbn in Hr. lia.
    + intros g Hg. apply Hs. right. exact Hg.
  - rewrite combine_fst; [exact Hd|]. rewrite map_length, !app_length. cbn [length] in *. lia.
  - apply combine_in with (i := length pre).
    + rewrite map_app, nth_error_app2; rewrite map_length; [|lia]. rewrite Nat.sub_diag. reflexivity.
    + rewrite nth_error_app2 by lia. rewrite Hl, Nat.sub_diag. reflexivity.
Qed.
Theorem run_program_write : forall emb path x vs, distinct_members x -> unions_named x ->
  length vs = length (m_fields x) ->
  run_writes m w (input_of (program path emb x) vs) (program path emb x) = write_msg m w x (VMsg vs).
Proof.
  intros emb path x vs Hd Hn Hl. rewrite write_msg_eq. unfold input_of, program. rewrite map_map.
  change (map (fun f => st_name (field_stmt path (emb (m_id x)) f)) (m_fields x)) with (map mf_name ([] ++ m_fields x)).
  apply (run_writes_fields path (emb (m_id x)) (m_fields x) [] [] vs Hd eq_refl); [auto|].
  intros f Hf u on i Ht. apply In_nth_error in Hf. destruct Hf as (k & Hk).
  destruct (Hn k f u on i Hk Ht) as (Hlt & g & Hg & Hgn).
  assert (Hi : (i < length vs)%nat) by (rewrite Hl; apply nth_error_Some; congruence).
  cbn [List.app]. destruct (nth_error vs i) as [v|] eqn:Hv; [|apply nth_error_None in Hv; lia].
  apply sget_in.
  - rewrite combine_fst; [exact Hd|rewrite map_length; auto].
  - eapply combine_in; [|exact Hv]. rewrite nth_error_map, Hg. cbn. congruence.
Qed.
End W.

(** ** Compiled messages *)
Lemma find_mfield_nth : forall n l i k f, find_mfield n i l = Some (k, f) ->
  (i <= k)%nat /\ nth_error l (k - i) = Some f /\ mf_name f = n.
Proof.
  intros n l. induction l as [|g l IH]; intros i k f H; cbn [find_mfield] in H; [discriminate|].
  destruct (String.eqb_spec (mf_name g) n).
  - injection H as <- <-. rewrite Nat.sub_diag. repeat split; auto.
  - destruct (IH _ _ _ H) as (Hk & Hn & Hm). repeat split; [lia| |exact Hm].
    replace (k - i)%nat with (Datatypes.S (k - Datatypes.S i)) by lia. exact Hn.
Qed.
Definition named_fields (l : list mfield) : Prop :=
  forall k f u on i, nth_error l k = Some f -> mf_ty f = TUnion u on i ->
    (i < k)%nat /\ exists g, nth_error l i = Some g /\ mf_name g = on.
Lemma named_push : forall l f, named_fields l ->
  (forall u on i, mf_ty f = TUnion u on i -> exists g, nth_error l i = Some g /\ mf_name g = on) ->
  named_fields (l ++ [f]).
Proof.
  intros l f Hl Hf k g u on i Hk Ht. destruct (Nat.lt_ge_cases k (length l)) as [L|L].
  - rewrite nth_error_app1 in Hk by exact L. destruct (Hl _ _ _ _ _ Hk Ht) as (Hlt & h & Hh & Hn).
    split; [exact Hlt|]. exists h. split; [|exact Hn]. rewrite nth_error_app1; [exact Hh|lia].
  - assert (k = length l) as ->.
    { assert (k < length (l ++ [f]))%nat by (apply nth_error_Some; congruence). rewrite app_length in H. cbn in H. lia. }
    rewrite nth_error_app2, Nat.sub_diag in Hk by lia. injection Hk as <-.
    destruct (Hf _ _ _ Ht) as (h & Hh & Hn). assert (i < length l)%nat by (apply nth_error_Some; congruence).
    split; [exact H|]. exists h. split; [|exact Hn]. rewrite nth_error_app1; [exact Hh|lia].
Qed.
Lemma mfield_named : forall env un d f mk, mfield_from_model env un d = Ok (f, mk) ->
  forall u on i, mf_ty f = TUnion u on i -> exists g, nth_error un i = Some g /\ mf_name g = on.
Proof.
  intros env un [name info opt] f mk H u on i Ht. unfold mfield_from_model in H. cbn [smf_info smf_name smf_optional] in H.
  destruct info as [it|ml it|[ml|]| |on' it].
  - apply bind_ok in H. destruct H as ([s|x] & _ & H).
    + destruct (flattened s); injection H as <- _; discriminate.
    + injection H as <- _; discriminate.
  - apply bind_ok in H. destruct H as (r & _ & H). apply bind_ok in H. destruct H as (ty & _ & H).
    destruct r; injection H as <- _; discriminate.
  - apply bind_ok in H. destruct H as (ty & _ & H). injection H as <- _; discriminate.
  - injection H as <- _; discriminate.
  - injection H as <- _; discriminate.
  - apply bind_ok in H. destruct H as ((j & g) & Hj & H). apply ok_or_ok in Hj.
    apply bind_ok in H. destruct H as (r & _ & H).
    destruct (mf_ty g) as [t|[s|x]| |t|t s|u' o k|t x|]; try discriminate.
    destruct (s_id _ =? s_id s)%N; [|discriminate]. injection H as <- _. cbn [mf_ty] in Ht. injection Ht as _ <- <-.
    apply find_mfield_nth in Hj. destruct Hj as (_ & Hj & _). rewrite Nat.sub_0_r in Hj. exists g. auto.
Qed.
Lemma mfields_named : forall env l fields n b mk fields' n' b' mk',
  mfields_from_model env fields n b mk l = Ok (fields', n', b', mk') -> named_fields fields -> named_fields fields'.
Proof.
  intros env. induction l as [|d l IH]; intros fields n b mk fields' n' b' mk' H Hn; cbn [mfields_from_model] in H.
  - injection H as <- _ _ _. exact Hn.
  - apply bind_ok in H. destruct H as ((f & mk1) & Hf & H).
    destruct ((0 <? n)%N && _); [discriminate|].
    destruct ((1 <? _)%N); [discriminate|].
    apply IH in H; [exact H|]. apply named_push; [exact Hn|]. eapply mfield_named. exact Hf.
Qed.
Lemma message_named : forall env id d x mk, message_from_model env id d = Ok (x, mk) -> unions_named x.
Proof.
  intros env id d x mk H. unfold message_from_model in H.
  apply bind_ok in H. destruct H as ((((fs & n) & b) & mk') & Hf & H). injection H as <- _.
  apply (mfields_named _ _ _ _ _ _ _ _ _ _ Hf). intros [|k] ? ? ? ? Hk; discriminate.
Qed.
Theorem compiled_named : forall m p x, compiled m p -> In x (p_messages p) -> unions_named x.
Proof.
  intros m p x H Hx.
  refine (pi_lmessages (fun _ => True) (fun _ => True) (fun _ => True) unions_named p _ x Hx).
  apply (inv_compiled m); auto. intros. eapply message_named. eassumption.
Qed.

(** ** Discriminants *)
Lemma method_nth : forall s i f, NoDup (map field_name (s_fields s)) -> nth_error (s_fields s) i = Some f ->
  method s (field_name f) = Some f.
Proof.
  intros s i f. unfold method. generalize (s_fields s) as l. intro l. revert i.
  induction l as [|g l IH]; intros [|i] Hd Hn; try discriminate; cbn [find] in *.
  - injection Hn as ->. rewrite String.eqb_refl. reflexivity.
  - inversion Hd; subst. destruct (String.eqb_spec (field_name g) (field_name f)) as [E|E]; [|eapply IH; eassumption].
    exfalso. apply H1. rewrite E. apply in_map. eapply nth_error_In. exact Hn.
Qed.
Lemma run_get_path : forall m index s chain data, distinct_methods s -> disc_chain s index = Some chain ->
  run_get m s chain data = path_get m s index data.
Proof.
  intros m. induction index as [|i index IH]; intros s chain data Hd H; cbn [disc_chain path_get] in *.
  - injection H as <-. reflexivity.
  - destruct (nth_error (s_fields s) i) as [[f|f|name r loc]|] eqn:Hn; try discriminate.
    + destruct index; [|discriminate]. injection H as <-. cbn [run_get]. inversion Hd; subst.
      change (ff_name f) with (field_name (FFixed f)). rewrite (method_nth _ _ _ H Hn). reflexivity.
    + destruct (disc_chain r index) as [l|] eqn:Hl; [|discriminate]. injection H as <-. cbn [run_get]. inversion Hd; subst.
      change name with (field_name (FStruct name r loc)) at 1. rewrite (method_nth _ _ _ H Hn).
      destruct (slice data _ _) as [w|e|]; [|reflexivity..]. cbn [bind]. apply IH; [|exact Hl].
      eapply H0. eapply nth_error_In. exact Hn.
Qed.
Lemma update_slice_ext : forall {E} data a b (f g : bytes -> outcome E bytes), (forall w, f w = g w) ->
  update_slice data a b f = update_slice data a b g.
Proof.
  intros E data a b f g H. unfold update_slice. destruct (slice data a b) as [w|e|]; [|reflexivity..].
  cbn [bind]. rewrite H. reflexivity.
Qed.
Lemma run_set_path : forall m index s chain data v, distinct_methods s -> disc_chain s index = Some chain ->
  run_set m s chain data v = path_set m s index data v.
Proof.
  intros m. induction index as [|i index IH]; intros s chain data v Hd H; cbn [disc_chain path_set] in *.
  - injection H as <-. reflexivity.
  - destruct (nth_error (s_fields s) i) as [[f|f|name r loc]|] eqn:Hn; try discriminate.
    + destruct index; [|discriminate]. injection H as <-. cbn [run_set]. inversion Hd; subst.
      change (ff_name f) with (field_name (FFixed f)). rewrite (method_nth _ _ _ H Hn). reflexivity.
    + destruct (disc_chain r index) as [l|] eqn:Hl; [|discriminate]. injection H as <-. cbn [run_set]. inversion Hd; subst.
      change name with (field_name (FStruct name r loc)) at 1. rewrite (method_nth _ _ _ H Hn).
      apply update_slice_ext. intro w. apply IH; [|exact Hl].
      eapply H0. eapply nth_error_In. exact Hn.
Qed.
Theorem union_discriminant : forall m p u, compiled m p -> In u (p_unions p) ->
  distinct_methods (d_root (u_disc u)) -> forall mr data,
  run_get mr (d_root (u_disc u)) (union_chain u) data = path_get mr (d_root (u_disc u)) (d_index_list (u_disc u)) data /\
  forall v, run_set mr (d_root (u_disc u)) (union_chain u) data v =
            path_set mr (d_root (u_disc u)) (d_index_list (u_disc u)) data v.
Proof.
  intros m p u Hc Hu Hd mr data. pose proof (compiled_unions _ _ Hc) as HU. rewrite Forall_forall in HU.
  specialize (HU u Hu). unfold union_generates in HU. unfold union_chain.
  destruct (disc_chain (d_root (u_disc u)) (d_index_list (u_disc u))) as [l|] eqn:Hl; [|contradiction].
  split; [|intro v]; [apply run_get_path|apply run_set_path]; assumption.
Qed.
