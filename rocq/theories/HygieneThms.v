(** Local variables of the generated reading functions (C73). *)

From Coq Require Import Arith NArith Ascii String List Bool Lia ZifyBool ZifyN ZifyNat.
From Verif Require Import Base Schema Codec Compiler Access Runtime Gen Template SpecTemplate Driver SpecComp StructFacts
  CompFacts MsgFacts WriteThms OffsetThms GenText SpecGen SpecCode GenMsgThms GenAllThms RunThms SpecNames.
Import ListNotations.
Local Open Scope list_scope.

(** ** Text *)
Lemma sapp_assoc : forall a b c : string, ((a ++ b) ++ c = a ++ (b ++ c))%string.
Proof. induction a as [|x a IH]; intros; cbn; [reflexivity|]. rewrite IH. reflexivity. Qed.
Lemma read_text_code : forall s, read_lines s = map instr_text (read_code s).
Proof.
  intro s. unfold read_lines, read_code. cbn [map instr_text]. rewrite !sapp_assoc. reflexivity.
Qed.
Lemma offset_text_code : forall s, offset_lines s = map instr_text (offset_code s).
Proof.
  intro s. unfold offset_lines, offset_code. destruct (has_offsets (st_type s));
    cbn [map instr_text List.app]; rewrite !sapp_assoc; reflexivity.
Qed.

(** ** Last characters *)
Fixpoint last_char (s : string) (d : ascii) : ascii :=
  match s with EmptyString => d | String c r => last_char r c end.
Lemma last_app : forall a b d, last_char (a ++ b)%string d = last_char b (last_char a d).
Proof. induction a as [|c a IH]; intros; cbn; [reflexivity|]. apply IH. Qed.
Lemma ends_neq : forall a b c, last_char b "0"%char <> last_char c "0"%char -> b <> ""%string ->
  (a ++ b)%string <> c.
Proof.
  intros a b c H Hb E. apply H. rewrite <- E, last_app. destruct b; [congruence|reflexivity].
Qed.
Lemma msg_not_offsets : forall a b, (a ++ "_msg" <> b ++ "_offsets")%string.
Proof.
  intros a b E. assert (H : last_char (a ++ "_msg") "0" = last_char (b ++ "_offsets") "0") by (rewrite E; reflexivity).
  rewrite !last_app in H. discriminate.
Qed.
Lemma sapp_inj_r : forall a b c : string, (a ++ c = b ++ c)%string -> a = b.
Proof.
  intros a b c E. assert (HL : String.length a = String.length b).
  { assert (H : String.length (a ++ c) = String.length (b ++ c)) by (rewrite E; reflexivity).
    assert (HA : forall u v, String.length (u ++ v) = String.length u + String.length v)
      by (induction u; intros; cbn; [reflexivity|rewrite IHu; reflexivity]).
    rewrite !HA in H. lia. }
  revert b E HL. induction a as [|x a IH]; intros [|y b] E HL; try discriminate; [reflexivity|].
  cbn in E. injection E as -> E. f_equal. apply IH; [exact E|]. cbn in HL. lia.
Qed.
Lemma sapp_longer : forall a b c, b <> ""%string -> (a ++ b)%string = c -> String.length b < String.length c \/ a = ""%string.
Proof.
  intros a b c Hb <-. destruct a as [|x a]; [right; reflexivity|left].
  cbn. induction a as [|y a IH]; cbn; lia.
Qed.
Lemma offsets_not_offsets : forall a, (a ++ "_offsets" <> "offsets")%string.
Proof.
  intros a E. assert (Hb : "_offsets"%string <> ""%string) by discriminate.
  destruct (sapp_longer _ _ _ Hb E) as [H| ->]; [cbn in H; lia|discriminate].
Qed.

(** ** Assignment *)
Lemma assign_same : forall n x l y, sget n l = Some y -> sget n (assign n x l) = Some x.
Proof.
  intros n x. induction l as [|[k z] l IH]; intros y H; [discriminate|]. cbn [sget assign] in *.
  destruct (String.eqb n k) eqn:E; cbn [sget]; rewrite E; [reflexivity|]. eapply IH; exact H.
Qed.
Lemma assign_other : forall n k x l, n <> k -> sget n (assign k x l) = sget n l.
Proof.
  intros n k x. induction l as [|[j z] l IH]; intro H; [reflexivity|]. cbn [assign].
  destruct (String.eqb_spec k j) as [->|Hj]; cbn [sget].
  - destruct (String.eqb_spec n j); [congruence|reflexivity].
  - destruct (String.eqb n j); [reflexivity|]. apply IH, H.
Qed.
Lemma oassign_same : forall n x l y, sget n l = Some y -> sget n (oassign n x l) = Some x.
Proof.
  intros n x. induction l as [|[k z] l IH]; intros y H; [discriminate|]. cbn [sget oassign] in *.
  destruct (String.eqb n k) eqn:E; cbn [sget]; rewrite E; [reflexivity|]. eapply IH; exact H.
Qed.
Lemma oassign_other : forall n k x l, n <> k -> sget n (oassign k x l) = sget n l.
Proof.
  intros n k x. induction l as [|[j z] l IH]; intro H; [reflexivity|]. cbn [oassign].
  destruct (String.eqb_spec k j) as [->|Hj]; cbn [sget].
  - destruct (String.eqb_spec n j); [congruence|reflexivity].
  - destruct (String.eqb n j); [reflexivity|]. apply IH, H.
Qed.
Lemma sget_here : forall {A} n (x : A) l, sget n ((n, x) :: l) = Some x.
Proof. intros. cbn [sget]. rewrite String.eqb_refl. reflexivity. Qed.
Lemma sget_skip : forall {A} n k (x : A) l, n <> k -> sget n ((k, x) :: l) = sget n l.
Proof. intros A n k x l H. cbn [sget]. destruct (String.eqb_spec n k); [congruence|reflexivity]. Qed.

(** ** Locals during a run *)
Definition seen (vars : locals) (names : list string) (vs : list value) : Prop :=
  forall i n v, nth_error names i = Some n -> nth_error vs i = Some v -> sget n vars = Some (LValue v).
Lemma literal_seen : forall vars names vs, length names = length vs -> seen vars names vs ->
  literal vars names = Some vs.
Proof.
  intros vars. induction names as [|n names IH]; intros [|v vs] Hl H; try discriminate; [reflexivity|].
  cbn [literal]. rewrite (H 0%nat n v eq_refl eq_refl).
  rewrite (IH vs); [reflexivity|cbn in Hl; lia|]. intros i n' v' H1 H2. exact (H (Datatypes.S i) n' v' H1 H2).
Qed.
Lemma seen_call : forall e path vars pre f fs prev, named_from pre (f :: fs) -> length pre = length prev ->
  seen vars (map mf_name pre) prev ->
  exists env, call_on vars (st_on (field_stmt path e f)) = Some env /\ on_seen env prev f.
Proof.
  intros e path vars pre f fs prev Hn Hl Hs. unfold field_stmt. cbn [st_on].
  destruct (mf_ty f) as [t|r| |t|t s|u on i|t x|] eqn:Ht;
    try (exists []; split; [reflexivity|intros u' on' i' H; congruence]).
  destruct (Hn 0%nat f u on i eq_refl Ht) as (g & Hg & Hgn). cbn [firstn] in Hg. rewrite app_nil_r in Hg.
  assert (Hi : (i < length prev)%nat) by (rewrite <- Hl; apply nth_error_Some; congruence).
  destruct (nth_error prev i) as [v|] eqn:Hv; [|apply nth_error_None in Hv; lia].
  exists [(on, v)]. unfold call_on. rewrite (Hs i on v); [|rewrite nth_error_map, Hg; cbn; congruence|exact Hv].
  split; [reflexivity|]. intros u' on' i' H. rewrite Ht in H. injection H as <- <- <-. rewrite sget_here. auto.
Qed.

(** Reserved names: the input and the offset. *)
Lemma msg_not_slice : forall n, (n ++ "_msg" <> "slice")%string.
Proof. intro n. apply ends_neq; discriminate. Qed.
Lemma msg_not_byte_offset : forall n, (n ++ "_msg" <> "byte_offset")%string.
Proof. intro n. apply ends_neq; discriminate. Qed.
Lemma msg_not_offsets' : forall n, (n ++ "_msg" <> "offsets")%string.
Proof. intro n. apply ends_neq; discriminate. Qed.
Lemma offsets_not_slice : forall n, (n ++ "_offsets" <> "slice")%string.
Proof. intro n. apply ends_neq; discriminate. Qed.
Lemma offsets_not_byte_offset : forall n, (n ++ "_offsets" <> "byte_offset")%string.
Proof. intro n. apply ends_neq; discriminate. Qed.

Record fine (names : list string) : Prop := {
  fi_dup : NoDup names;
  fi_slice : ~ In "slice"%string names;
  fi_off : ~ In "byte_offset"%string names;
  fi_msg : forall n, In n names -> ~ In (n ++ "_msg")%string names }.
Lemma fine_of : forall x, no_hiding x -> fine (map mf_name (m_fields x)).
Proof. intros x (H1 & H2 & H3 & H4). constructor; assumption. Qed.
Lemma own_msg : forall n : string, n <> (n ++ "_msg")%string.
Proof.
  intros n E. assert (H : String.length n = String.length (n ++ "_msg")) by (rewrite <- E; reflexivity).
  clear E. induction n as [|c n IH]; cbn in H; [discriminate|]. apply IH. lia.
Qed.
Lemma in_nth : forall {A} (l : list A) i x, nth_error l i = Some x -> In x l.
Proof. intros. eapply nth_error_In; eassumption. Qed.

Lemma run_code_app : forall m emb l r vars offs, run_code m emb vars offs (l ++ r) =
  omap_res (run_code m emb vars offs l) (fun st => run_code m emb (fst st) (snd st) r).
Proof.
  intros m emb. induction l as [|i l IH]; intros r vars offs; [reflexivity|].
  cbn [List.app run_code]. destruct (step m emb vars offs i) as [[[v o]|er|]|]; cbn [omap_res]; [|reflexivity..].
  apply IH.
Qed.

(** ** Reading *)
Definition state (vars : locals) (b : bytes) (off : N) (names : list string) (vs : list value) : Prop :=
  sget "slice" vars = Some (LSlice b) /\ sget "byte_offset" vars = Some (LUsize off) /\ seen vars names vs.

Lemma read_code_runs : forall m emb path e b vars offs off pre f fs prev,
  state vars b off (map mf_name pre) prev -> fine (map mf_name (pre ++ f :: fs)) ->
  length pre = length prev -> named_from pre (f :: fs) ->
  match (d <- slice_from b off ;;
         '(n, v) <- read_optional m (mf_optional f) (read_ty m emb e (mf_endi f) prev (mf_ty f)) d ;;
         o <- uadd m off n ;; Ok (o, v)) with
  | Ok (o, v) => exists vars', run_code m emb vars offs (read_code (field_stmt path e f)) = Some (Ok (vars', offs)) /\
                   state vars' b o (map mf_name (pre ++ [f])) (prev ++ [v])
  | Err er => run_code m emb vars offs (read_code (field_stmt path e f)) = Some (Err er)
  | Panic => run_code m emb vars offs (read_code (field_stmt path e f)) = Some Panic
  end.
Proof.
  intros m emb path e b vars offs off pre f fs prev (Hs & Ho & Hv) Hf Hl Hn.
  destruct (seen_call e path vars pre f fs prev Hn Hl Hv) as (env & Hc & He).
  unfold read_code. cbn [run_code step]. rewrite Hs, Ho, Hc.
  destruct (slice_from b off) as [d|er|]; cbn [bind omap_res]; [|reflexivity..].
  unfold call, rmap. rewrite (run_type_field m emb path env prev) by exact He.
  destruct (read_optional m (mf_optional f) (read_ty m emb e (mf_endi f) prev (mf_ty f)) d) as [[n v]|er|];
    cbn [bind omap_res fst snd]; [|reflexivity..].
  change (st_name (field_stmt path e f)) with (mf_name f).
  assert (Hin : In (mf_name f) (map mf_name (pre ++ f :: fs)))
    by (apply in_map, in_or_app; right; left; reflexivity).
  rewrite sget_here. rewrite sget_skip by (intro E; apply (msg_not_byte_offset (mf_name f)); congruence). rewrite Ho.
  destruct (uadd m off n) as [o|er|]; cbn [bind omap_res fst snd]; [|reflexivity..].
  set (t := (mf_name f ++ "_msg")%string) in *.
  rewrite assign_other by (apply msg_not_byte_offset). rewrite sget_here. cbn [omap_res fst snd].
  eexists. split; [reflexivity|].
  assert (Nt : "byte_offset"%string <> t) by (intro E; apply (msg_not_byte_offset (mf_name f)); symmetry; exact E).
  assert (Ns : "slice"%string <> t) by (intro E; apply (msg_not_slice (mf_name f)); symmetry; exact E).
  assert (Nb : "byte_offset"%string <> mf_name f) by (intro E; apply (fi_off _ Hf); rewrite E; exact Hin).
  assert (Nl : "slice"%string <> mf_name f) by (intro E; apply (fi_slice _ Hf); rewrite E; exact Hin).
  repeat split.
  - rewrite sget_skip by exact Nl. rewrite assign_other by exact Ns. rewrite assign_other by discriminate.
    rewrite sget_skip by exact Ns. exact Hs.
  - rewrite sget_skip by exact Nb. rewrite assign_other by exact Nt.
    apply (assign_same _ _ _ (LUsize off)). rewrite sget_skip by exact Nt. exact Ho.
  - intros i k w H1 H2. rewrite map_app in H1. cbn [map] in H1.
    destruct (Nat.lt_ge_cases i (length prev)) as [L|L].
    + rewrite nth_error_app1 in H1 by (rewrite map_length; lia). rewrite nth_error_app1 in H2 by exact L.
      assert (Hk : In k (map mf_name (pre ++ f :: fs))) by (rewrite map_app; apply in_or_app; left; eapply in_nth; exact H1).
      rewrite sget_skip.
      2:{ intro E. pose proof (fi_dup _ Hf) as Hd. rewrite map_app in Hd. cbn [map] in Hd. apply NoDup_remove_2 in Hd.
          apply Hd. apply in_or_app. left. rewrite <- E. eapply in_nth; exact H1. }
      rewrite assign_other by (intro E; apply (fi_msg _ Hf _ Hin); fold t; rewrite <- E; exact Hk).
      rewrite assign_other by (intro E; apply (fi_off _ Hf); rewrite <- E; exact Hk).
      rewrite sget_skip by (intro E; apply (fi_msg _ Hf _ Hin); fold t; rewrite <- E; exact Hk).
      exact (Hv i k w H1 H2).
    + rewrite nth_error_app2 in H1 by (rewrite map_length; lia). rewrite nth_error_app2 in H2 by exact L.
      rewrite map_length, Hl in H1. destruct (i - length prev)%nat as [|j]; [|destruct j; discriminate].
      cbn in H1, H2. injection H1 as <-. injection H2 as <-. apply sget_here.
Qed.

Lemma run_reading : forall m emb path e b fs pre vars offs off prev,
  state vars b off (map mf_name pre) prev -> fine (map mf_name (pre ++ fs)) ->
  length pre = length prev -> named_from pre fs ->
  omap_res (run_code m emb vars offs (flat_map read_code (map (field_stmt path e) fs))) (fun st =>
    match sget "byte_offset" (fst st), literal (fst st) (map mf_name (pre ++ fs)) with
    | Some (LUsize n), Some vs => Some (Ok (n, VMsg vs))
    | _, _ => None
    end) = Some ('(n, vs) <- read_fields m emb e b fs off prev ;; Ok (n, VMsg vs)).
Proof.
  intros m emb path e b fs. induction fs as [|f fs IH]; intros pre vars offs off prev Hst Hf Hl Hn.
  - cbn [map flat_map run_code omap_res read_fields bind fst]. rewrite app_nil_r. destruct Hst as (_ & Ho & Hv).
    rewrite Ho. rewrite (literal_seen _ _ prev) by (try rewrite map_length; assumption). reflexivity.
  - cbn [map flat_map]. rewrite run_code_app.
    pose proof (read_code_runs m emb path e b vars offs off pre f fs prev Hst Hf Hl Hn) as H.
    destruct f as [name ty opt sz endi]. cbn [read_fields mf_ty mf_optional mf_endi] in *.
    destruct (slice_from b off) as [d|er|]; cbn [bind] in *; [|rewrite H; reflexivity..].
    destruct (read_optional m opt (read_ty m emb e endi prev ty) d) as [[n v]|er|]; cbn [bind] in *; [|rewrite H; reflexivity..].
    destruct (uadd m off n) as [o|er|]; cbn [bind] in *; [|rewrite H; reflexivity..].
    destruct H as (vars' & Hr & Hst'). rewrite Hr. cbn [omap_res fst snd].
    set (f := MkMField name ty opt sz endi) in *.
    replace (pre ++ f :: fs) with ((pre ++ [f]) ++ fs) in * by (rewrite <- app_assoc; reflexivity).
    apply IH; [exact Hst'|exact Hf|rewrite !app_length; cbn; lia|apply named_step; exact Hn].
Qed.
Theorem run_from_slice_read : forall m emb path x b, no_hiding x -> unions_named x ->
  run_from_slice m emb b (program path emb x) = Some (read_msg m emb x b).
Proof.
  intros m emb path x b Hh Hn. rewrite read_msg_eq. unfold run_from_slice, program. rewrite map_map.
  change (map (fun f => st_name (field_stmt path (emb (m_id x)) f)) (m_fields x)) with (map mf_name ([] ++ m_fields x)).
  apply (run_reading m emb path (emb (m_id x)) b (m_fields x) []).
  - repeat split. intros [|i] n v H; discriminate.
  - apply fine_of. exact Hh.
  - reflexivity.
  - apply named_start. exact Hn.
Qed.

(** ** Offsets *)
Lemma field_offsets_flag : forall path e f, has_offsets (st_type (field_stmt path e f)) =
  match mf_ty f with TRef (RMessage _) => true | _ => false end.
Proof.
  intros path e [name ty opt sz endi]. unfold field_stmt. cbn [st_type mf_ty mf_optional].
  unfold field_type. cbn [mf_ty mf_endi].
  destruct ty as [t|[s|x]| |t|t s|u n i|t x|]; destruct opt; try reflexivity; destruct e; reflexivity.
Qed.
Lemma offsets_none : forall m emb env on t d, has_offsets t = false ->
  run_type_offsets m emb env on t d = rmap (fun v => (v, None)) (run_type m emb env on t) d.
Proof.
  intros m emb env on t d H. destruct t; try reflexivity; try discriminate.
  destruct t; try reflexivity. discriminate.
Qed.
Lemma call_offsets : forall m emb path e env prev f d, on_seen env prev f ->
  call m emb (has_offsets (st_type (field_stmt path e f))) env (st_on (field_stmt path e f)) (st_type (field_stmt path e f)) d =
  read_field_offsets m emb e prev f d.
Proof.
  intros m emb path e env prev f d H. rewrite <- (run_type_offsets_field m emb path env prev e f d H). unfold call.
  destruct (has_offsets (st_type (field_stmt path e f))) eqn:E; [reflexivity|]. rewrite offsets_none by exact E. reflexivity.
Qed.
Lemma offsets_flag_none : forall m emb e prev f d n v o,
  match mf_ty f with TRef (RMessage _) => true | _ => false end = false ->
  read_field_offsets m emb e prev f d = Ok (n, (v, o)) -> o = None.
Proof.
  intros m emb e prev f d n v o H. rewrite <- (run_type_offsets_field m emb (fun s => s) 
    (match mf_ty f with TUnion _ on i => match nth_error prev i with Some v => [(on, v)] | None => [] end | _ => [] end) prev e f d).
  - rewrite offsets_none by (rewrite field_offsets_flag; exact H). unfold rmap. intro E. apply bind_ok in E.
    destruct E as ([k w] & _ & E). congruence.
  - intros u on i Ht. rewrite Ht. destruct (nth_error prev i); [apply sget_here|reflexivity].
Qed.

Record fine_offsets (names : list string) : Prop := {
  fo_fine : fine names;
  fo_off : ~ In "offsets"%string names;
  fo_nested : forall n, In n names -> ~ In (n ++ "_offsets")%string names }.
Lemma fine_offsets_of : forall x, no_hiding_offsets x -> fine_offsets (map mf_name (m_fields x)).
Proof. intros x (H1 & H2 & H3). constructor; [apply fine_of; exact H1|exact H2|exact H3]. Qed.

(** The members of [offsets] that were set, and the types of the others. *)
Definition oset (offs : omembers) (path : string -> string) (e : bool) (fs : list mfield) (l : list (N * N * option offsets)) : Prop :=
  forall i f a z o, nth_error fs i = Some f -> nth_error l i = Some (a, z, o) ->
    sget (mf_name f) offs = Some (MField a z) /\
    if has_offsets (st_type (field_stmt path e f)) then sget (mf_name f ++ "_offsets")%string offs = Some (MNested o) else o = None.
Definition opending (offs : omembers) (path : string -> string) (e : bool) (fs : list mfield) : Prop :=
  forall f, In f fs -> (exists a z, sget (mf_name f) offs = Some (MField a z)) /\
    (has_offsets (st_type (field_stmt path e f)) = true ->
     exists o, sget (mf_name f ++ "_offsets")%string offs = Some (MNested o)).
Lemma offsets_value_set : forall offs path e fs l, length fs = length l -> oset offs path e fs l ->
  offsets_value offs (map (field_stmt path e) fs) = Some l.
Proof.
  intros offs path e. induction fs as [|f fs IH]; intros [|[[a z] o] l] Hl H; try discriminate; [reflexivity|].
  cbn [map offsets_value]. change (st_name (field_stmt path e f)) with (mf_name f).
  destruct (H 0%nat f a z o eq_refl eq_refl) as (H1 & H2). rewrite H1.
  rewrite (IH l); [|cbn in Hl; lia|].
  - destruct (has_offsets (st_type (field_stmt path e f))); rewrite H2; reflexivity.
  - intros i g a' z' o' Hi Hj. exact (H (Datatypes.S i) g a' z' o' Hi Hj).
Qed.

Definition ostate (vars : locals) (offs : omembers) (b : bytes) (off : N) path e (pre fs : list mfield) (vs : list value)
  (l : list (N * N * option offsets)) : Prop :=
  state vars b off (map mf_name pre) vs /\ sget "offsets" vars = None /\ oset offs path e pre l /\ opending offs path e fs.

Lemma offset_code_runs : forall m emb path e b vars offs off pre f fs prev l,
  ostate vars offs b off path e pre (f :: fs) prev l -> fine_offsets (map mf_name (pre ++ f :: fs)) ->
  length pre = length prev -> length pre = length l -> named_from pre (f :: fs) ->
  match (d <- slice_from b off ;;
         '(n, (v, o)) <- read_field_offsets m emb e prev f d ;;
         z <- uadd m off n ;; Ok (z, v, o)) with
  | Ok (z, v, o) => exists vars' offs',
       run_code m emb vars offs (offset_code (field_stmt path e f)) = Some (Ok (vars', offs')) /\
       ostate vars' offs' b z path e (pre ++ [f]) fs (prev ++ [v]) (l ++ [(off, z, o)])
  | Err er => run_code m emb vars offs (offset_code (field_stmt path e f)) = Some (Err er)
  | Panic => run_code m emb vars offs (offset_code (field_stmt path e f)) = Some Panic
  end.
Proof.
  intros m emb path e b vars offs off pre f fs prev l ((Hs & Ho & Hv) & Hx & Hset & Hpen) Hfo Hl Hl' Hn.
  pose proof (fo_fine _ Hfo) as Hf.
  destruct (seen_call e path vars pre f fs prev Hn Hl Hv) as (env & Hc & He).
  assert (Hin : In (mf_name f) (map mf_name (pre ++ f :: fs)))
    by (apply in_map, in_or_app; right; left; reflexivity).
  destruct (Hpen f (or_introl eq_refl)) as ((a0 & z0 & Hp) & Hpn).
  set (t := (mf_name f ++ "_msg")%string) in *. set (k := (mf_name f ++ "_offsets")%string) in *.
  assert (Nt : "byte_offset"%string <> t) by (intro E; apply (msg_not_byte_offset (mf_name f)); symmetry; exact E).
  assert (Ns : "slice"%string <> t) by (intro E; apply (msg_not_slice (mf_name f)); symmetry; exact E).
  assert (No : "offsets"%string <> t) by (intro E; apply (msg_not_offsets' (mf_name f)); symmetry; exact E).
  assert (Nb : "byte_offset"%string <> mf_name f) by (intro E; apply (fi_off _ Hf); rewrite E; exact Hin).
  assert (Nl : "slice"%string <> mf_name f) by (intro E; apply (fi_slice _ Hf); rewrite E; exact Hin).
  assert (Nf : "offsets"%string <> mf_name f) by (intro E; apply (fo_off _ Hfo); rewrite E; exact Hin).
  assert (Kb : "byte_offset"%string <> k) by (intro E; apply (offsets_not_byte_offset (mf_name f)); symmetry; exact E).
  assert (Kl : "slice"%string <> k) by (intro E; apply (offsets_not_slice (mf_name f)); symmetry; exact E).
  assert (Ko : "offsets"%string <> k) by (intro E; apply (offsets_not_offsets (mf_name f)); symmetry; exact E).
  assert (Kf : mf_name f <> k) by (intro E; apply (fo_nested _ Hfo _ Hin); fold k; rewrite <- E; exact Hin).
  assert (Kt : t <> k) by (apply msg_not_offsets).
  (* names of the earlier and later fields *)
  assert (Hother : forall g, In g pre \/ In g fs -> mf_name g <> mf_name f /\ mf_name g <> t /\ mf_name g <> k /\
                               (mf_name g ++ "_offsets" <> mf_name f)%string /\ (mf_name g ++ "_offsets" <> k)%string /\
                               mf_name g <> "byte_offset"%string).
  { intros g Hg.
    assert (Hgi : In (mf_name g) (map mf_name (pre ++ f :: fs))).
    { apply in_map, in_or_app. destruct Hg as [Hg|Hg]; [left; exact Hg|right; right; exact Hg]. }
    assert (Hgf : mf_name g <> mf_name f).
    { intro E. pose proof (fi_dup _ Hf) as Hd. rewrite map_app in Hd. cbn [map] in Hd. apply NoDup_remove_2 in Hd.
      apply Hd. rewrite <- E. apply in_or_app. destruct Hg as [Hg|Hg]; [left|right]; apply in_map; exact Hg. }
    repeat split.
    - exact Hgf.
    - intro E. apply (fi_msg _ Hf _ Hin). fold t. rewrite <- E. exact Hgi.
    - intro E. apply (fo_nested _ Hfo _ Hin). fold k. rewrite <- E. exact Hgi.
    - intro E. apply (fo_nested _ Hfo _ Hgi). rewrite E. exact Hin.
    - intro E. apply Hgf. eapply sapp_inj_r; exact E.
    - intro E. apply (fi_off _ Hf). rewrite <- E. exact Hgi. }
  unfold offset_code. change (st_name (field_stmt path e f)) with (mf_name f). fold t k.
  rewrite run_code_app. cbn [run_code step]. rewrite Hs, Ho, Hc.
  destruct (slice_from b off) as [d|er|]; cbn [bind omap_res]; [|reflexivity..].
  rewrite (call_offsets m emb path e env prev f d He).
  destruct (read_field_offsets m emb e prev f d) as [[n [v o]]|er|] eqn:Hr; cbn [bind omap_res fst snd]; [|reflexivity..].
  rewrite (sget_skip "offsets" t), Hx by exact No. rewrite (sget_skip "byte_offset" t), Ho by exact Nt. rewrite Hp.
  cbn [omap_res fst snd]. rewrite sget_here. rewrite (sget_skip "byte_offset" t), Ho by exact Nt.
  destruct (uadd m off n) as [z|er|]; cbn [bind omap_res fst snd]; [|reflexivity..].
  set (vars1 := assign "byte_offset" (LUsize z) ((t, LRead n v o) :: vars)).
  assert (H1o : sget "offsets" vars1 = None) by (unfold vars1; rewrite assign_other by discriminate; rewrite sget_skip by exact No; exact Hx).
  assert (H1b : sget "byte_offset" vars1 = Some (LUsize z))
    by (unfold vars1; apply (assign_same _ _ _ (LUsize off)); rewrite sget_skip by exact Nt; exact Ho).
  assert (H1s : sget "slice" vars1 = Some (LSlice b))
    by (unfold vars1; rewrite assign_other by discriminate; rewrite sget_skip by exact Ns; exact Hs).
  assert (H1t : sget t vars1 = Some (LRead n v o))
    by (unfold vars1; rewrite assign_other by (intro E; apply Nt; symmetry; exact E); apply sget_here).
  assert (H1v : forall g, In g pre -> sget (mf_name g) vars1 = sget (mf_name g) vars).
  { intros g Hg. destruct (Hother g (or_introl Hg)) as (E1 & E2 & E3 & E4 & E5 & E6). unfold vars1.
    rewrite assign_other by exact E6. apply sget_skip. exact E2. }
  rewrite H1o, H1b. rewrite (oassign_same _ _ _ _ Hp). cbn [omap_res fst snd].
  set (offs1 := oassign (mf_name f) (MField off z) (oassign (mf_name f) (MField off z0) offs)).
  assert (O1f : sget (mf_name f) offs1 = Some (MField off z))
    by (unfold offs1; apply (oassign_same _ _ _ (MField off z0)); apply (oassign_same _ _ _ _ Hp)).
  assert (O1x : forall j, j <> mf_name f -> sget j offs1 = sget j offs)
    by (intros j Hj; unfold offs1; rewrite !oassign_other by exact Hj; reflexivity).
  (* the values seen afterwards *)
  assert (Hseen : forall vars2, sget (mf_name f) vars2 = Some (LValue v) ->
            (forall g, In g pre -> sget (mf_name g) vars2 = sget (mf_name g) vars1) ->
            seen vars2 (map mf_name (pre ++ [f])) (prev ++ [v])).
  { intros vars2 Hvf Hpre i j w H1 H2. rewrite map_app in H1. cbn [map] in H1.
    destruct (Nat.lt_ge_cases i (length prev)) as [L|L].
    - rewrite nth_error_app1 in H1 by (rewrite map_length; lia). rewrite nth_error_app1 in H2 by exact L.
      rewrite nth_error_map in H1. destruct (nth_error pre i) as [g|] eqn:Hg; [|discriminate]. cbn in H1. injection H1 as <-.
      rewrite Hpre, H1v by (eapply in_nth; exact Hg). apply (Hv i _ w); [|exact H2]. rewrite nth_error_map, Hg. reflexivity.
    - rewrite nth_error_app2 in H1 by (rewrite map_length; lia). rewrite nth_error_app2 in H2 by exact L.
      rewrite map_length, Hl in H1. destruct (i - length prev)%nat as [|q]; [|destruct q; discriminate].
      cbn in H1, H2. injection H1 as <-. injection H2 as <-. exact Hvf. }
  (* the members of [offsets] afterwards *)
  assert (Hmem : forall offs2, sget (mf_name f) offs2 = Some (MField off z) ->
            (if has_offsets (st_type (field_stmt path e f)) then sget k offs2 = Some (MNested o) else o = None) ->
            (forall j, j <> mf_name f -> j <> k -> sget j offs2 = sget j offs) ->
            oset offs2 path e (pre ++ [f]) (l ++ [(off, z, o)]) /\ opending offs2 path e fs).
  { intros offs2 H2f H2k H2x. split.
    - intros i g a' z' o' H1 H2. destruct (Nat.lt_ge_cases i (length pre)) as [L|L].
      + rewrite nth_error_app1 in H1 by exact L. rewrite nth_error_app1 in H2 by lia.
        destruct (Hother g (or_introl (in_nth _ _ _ H1))) as (E1 & E2 & E3 & E4 & E5 & E6).
        destruct (Hset i g a' z' o' H1 H2) as (S1 & S2). split; [rewrite H2x by assumption; exact S1|].
        destruct (has_offsets (st_type (field_stmt path e g))); [rewrite H2x by assumption|]; exact S2.
      + rewrite nth_error_app2 in H1 by exact L. rewrite nth_error_app2 in H2 by lia.
        rewrite Hl' in H1. destruct (i - length l)%nat as [|q]; [|destruct q; discriminate].
        cbn in H1, H2. injection H1 as <-. injection H2 as <- <- <-. split; [exact H2f|exact H2k].
    - intros g Hg. destruct (Hother g (or_intror Hg)) as (E1 & E2 & E3 & E4 & E5 & E6).
      destruct (Hpen g (or_intror Hg)) as (P1 & P2). rewrite !H2x by assumption. split; [exact P1|exact P2]. }
  destruct (has_offsets (st_type (field_stmt path e f))) eqn:Hflag.
  - cbn [run_code step]. rewrite H1t. cbn [omap_res fst snd].
    set (vars2 := (k, LNested o) :: (mf_name f, LValue v) :: assign t LMoved vars1).
    assert (H2o : sget "offsets" vars2 = None).
    { unfold vars2. rewrite sget_skip by exact Ko. rewrite sget_skip by exact Nf. rewrite assign_other by exact No. exact H1o. }
    rewrite H2o. unfold vars2 at 1. rewrite sget_here.
    destruct (Hpn eq_refl) as (o0 & Hk0). rewrite O1x, Hk0 by (intro E; apply Kf; symmetry; exact E). cbn [omap_res fst snd].
    exists vars2. eexists. split; [reflexivity|]. split; [|split; [exact H2o|]].
    + split; [|split].
      * unfold vars2. rewrite sget_skip by exact Kl. rewrite sget_skip by exact Nl. rewrite assign_other by exact Ns. exact H1s.
      * unfold vars2. rewrite sget_skip by exact Kb. rewrite sget_skip by exact Nb. rewrite assign_other by exact Nt. exact H1b.
      * apply Hseen.
        -- unfold vars2. rewrite sget_skip by exact Kf. apply sget_here.
        -- intros g Hg. destruct (Hother g (or_introl Hg)) as (E1 & E2 & E3 & E4 & E5 & E6). unfold vars2.
           rewrite sget_skip by exact E3. rewrite sget_skip by exact E1. apply assign_other. exact E2.
    + apply Hmem.
      * rewrite oassign_other by exact Kf. exact O1f.
      * apply (oassign_same _ _ _ (MNested o0)). rewrite O1x by (intro E; apply Kf; symmetry; exact E). exact Hk0.
      * intros j J1 J2. rewrite oassign_other by exact J2. apply O1x. exact J1.
  - assert (o = None) as ->.
    { rewrite field_offsets_flag in Hflag. eapply offsets_flag_none; eassumption. }
    cbn [run_code step]. rewrite H1t. cbn [omap_res fst snd].
    set (vars2 := (mf_name f, LValue v) :: assign t LMoved vars1).
    exists vars2. eexists. split; [reflexivity|]. split; [|split].
    + split; [|split].
      * unfold vars2. rewrite sget_skip by exact Nl. rewrite assign_other by exact Ns. exact H1s.
      * unfold vars2. rewrite sget_skip by exact Nb. rewrite assign_other by exact Nt. exact H1b.
      * apply Hseen.
        -- unfold vars2. apply sget_here.
        -- intros g Hg. destruct (Hother g (or_introl Hg)) as (E1 & E2 & E3 & E4 & E5 & E6). unfold vars2.
           rewrite sget_skip by exact E1. apply assign_other. exact E2.
    + unfold vars2. rewrite sget_skip by exact Nf. rewrite assign_other by exact No. exact H1o.
    + apply Hmem; [exact O1f|reflexivity|]. intros j J1 _. apply O1x. exact J1.
Qed.

Lemma run_reading_offsets : forall m emb path e b fs pre vars offs off prev l,
  ostate vars offs b off path e pre fs prev l -> fine_offsets (map mf_name (pre ++ fs)) ->
  length pre = length prev -> length pre = length l -> named_from pre fs ->
  omap_res (run_code m emb vars offs (flat_map offset_code (map (field_stmt path e) fs))) (fun st =>
    match sget "offsets" (fst st), sget "byte_offset" (fst st), literal (fst st) (map mf_name (pre ++ fs)),
          offsets_value (snd st) (map (field_stmt path e) (pre ++ fs)) with
    | None, Some (LUsize n), Some vs, Some os => Some (Ok (n, (VMsg vs, MkOffsets os)))
    | _, _, _, _ => None
    end) = Some (read_fields_offsets m emb e b fs off prev l).
Proof.
  intros m emb path e b fs. induction fs as [|f fs IH]; intros pre vars offs off prev l Hst Hf Hl Hl' Hn.
  - cbn [map flat_map run_code omap_res read_fields_offsets fst snd]. rewrite app_nil_r.
    destruct Hst as ((_ & Ho & Hv) & Hx & Hset & _). rewrite Hx, Ho.
    rewrite (literal_seen _ _ prev) by (try rewrite map_length; assumption).
    rewrite (offsets_value_set _ _ _ _ l) by assumption. reflexivity.
  - cbn [map flat_map]. rewrite run_code_app.
    pose proof (offset_code_runs m emb path e b vars offs off pre f fs prev l Hst Hf Hl Hl' Hn) as H.
    cbn [read_fields_offsets].
    destruct (slice_from b off) as [d|er|]; cbn [bind] in *; [|rewrite H; reflexivity..].
    destruct (read_field_offsets m emb e prev f d) as [[n [v o]]|er|]; cbn [bind] in *; [|rewrite H; reflexivity..].
    destruct (uadd m off n) as [z|er|]; cbn [bind] in *; [|rewrite H; reflexivity..].
    destruct H as (vars' & offs' & Hr & Hst'). rewrite Hr. cbn [omap_res fst snd].
    replace (pre ++ f :: fs) with ((pre ++ [f]) ++ fs) in * by (rewrite <- app_assoc; reflexivity).
    apply IH; [exact Hst'|exact Hf|rewrite !app_length; cbn; lia..|apply named_step; exact Hn].
Qed.
Lemma default_pending : forall path e fs, (forall n, In n (map mf_name fs) -> ~ In (n ++ "_offsets")%string (map mf_name fs)) ->
  opending (default_offsets (map (field_stmt path e) fs)) path e fs.
Proof.
  intros path e fs H f Hf.
  assert (HG : forall l, (forall g, In g l -> In g fs) ->
     (In f l -> exists a z, sget (mf_name f) (default_offsets (map (field_stmt path e) l)) = Some (MField a z)) /\
     (In f l -> has_offsets (st_type (field_stmt path e f)) = true ->
      exists o, sget (mf_name f ++ "_offsets")%string (default_offsets (map (field_stmt path e) l)) = Some (MNested o))).
  { induction l as [|g l IH]; intros Hs; [split; intros []|].
    assert (Hg : In g fs) by (apply Hs; left; reflexivity).
    destruct (IH (fun h Hh => Hs h (or_intror Hh))) as (I1 & I2).
    assert (Nf : mf_name f <> (mf_name g ++ "_offsets")%string).
    { intro E. apply (H (mf_name g)); [apply in_map; exact Hg|]. rewrite <- E. apply in_map. exact Hf. }
    assert (Ng : (mf_name f ++ "_offsets")%string <> mf_name g).
    { intro E. apply (H (mf_name f)); [apply in_map; exact Hf|]. rewrite E. apply in_map. exact Hg. }
    unfold default_offsets in *. cbn [map flat_map]. change (st_name (field_stmt path e g)) with (mf_name g).
    split.
    - intros Hi. cbn [List.app]. destruct (String.eqb_spec (mf_name f) (mf_name g)) as [E|E].
      + rewrite E, sget_here. eauto.
      + rewrite sget_skip by exact E. destruct Hi as [<-|Hi]; [congruence|].
        destruct (has_offsets (st_type (field_stmt path e g))); cbn [List.app];
          [rewrite sget_skip by exact Nf|]; apply I1; exact Hi.
    - intros Hi Hh. cbn [List.app]. rewrite sget_skip by exact Ng.
      destruct (String.eqb_spec (mf_name f) (mf_name g)) as [E|E].
      + destruct (has_offsets (st_type (field_stmt path e g))) eqn:Hgf; cbn [List.app].
        * rewrite E, sget_here. eauto.
        * destruct Hi as [<-|Hi]; [congruence|]. apply I2; assumption.
      + destruct Hi as [<-|Hi]; [congruence|].
        destruct (has_offsets (st_type (field_stmt path e g))); cbn [List.app]; [|apply I2; assumption].
        rewrite sget_skip; [apply I2; assumption|]. intro E'. apply E. eapply sapp_inj_r; exact E'. }
  destruct (HG fs (fun g Hg => Hg)) as (I1 & I2). split; [apply I1; exact Hf|apply I2; exact Hf].
Qed.
Theorem run_offsets_read : forall m emb path x b, no_hiding_offsets x -> unions_named x ->
  run_from_slice_with_offsets m emb b (program path emb x) = Some (read_msg_offsets m emb x b).
Proof.
  intros m emb path x b Hh Hn. rewrite read_msg_offsets_eq. unfold run_from_slice_with_offsets, program. rewrite map_map.
  change (map (fun f => st_name (field_stmt path (emb (m_id x)) f)) (m_fields x)) with (map mf_name ([] ++ m_fields x)).
  change (m_fields x) with ([] ++ m_fields x) at 4.
  apply (run_reading_offsets m emb path (emb (m_id x)) b (m_fields x) []).
  - split; [|split; [reflexivity|split]].
    + repeat split. intros [|i] n v H; discriminate.
    + intros [|i] f a z o H; discriminate.
    + apply default_pending. apply Hh.
  - apply fine_offsets_of. exact Hh.
  - reflexivity.
  - reflexivity.
  - apply named_start. exact Hn.
Qed.
