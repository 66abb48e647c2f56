(** Proofs for C96: what programs read and what is an encoding. *)

From Coq Require Import Arith NArith ZArith String List Bool Lia ZifyBool ZifyN ZifyNat.
From Verif Require Import Base Schema Bits BitsFacts Codec CodecFacts Compiler Access Runtime Gen SpecStruct SpecReadable SpecWire SpecLimit LimitComp StructFacts BEThms MsgFacts SpecKind KindComp KindMsg.
Import ListNotations.
Local Open Scope N_scope.
Ltac Zify.zify_post_hook ::= idtac.

(** The members that are structures, and always there, are the values that are. *)
Definition typed (pre : list mfield) (prev : list value) : Prop :=
  length prev = length pre /\ forall i, struct_at pre i <-> exists data, nth_error prev i = Some (VStruct data).
Lemma typed_nil : typed [] [].
Proof. split; [reflexivity|]. intros [|i]; split; intros H; [destruct H as (f & s & H & _)|destruct H as (d & H)|destruct H as (f & s & H & _)|destruct H as (d & H)]; discriminate. Qed.
Lemma nth_snoc : forall {A} (l : list A) a i, nth_error (l ++ [a]) i = if (i <? length l)%nat then nth_error l i else if (i =? length l)%nat then Some a else None.
Proof.
  intros A l a i. destruct (i <? length l)%nat eqn:H; [apply nth_error_app1; lia|]. rewrite nth_error_app2 by lia.
  destruct (i =? length l)%nat eqn:K; [replace (i - length l)%nat with O by lia; reflexivity|].
  apply nth_error_None. cbn. lia.
Qed.
Lemma typed_snoc : forall pre prev f v, typed pre prev ->
  ((exists s, mf_ty f = TRef (RStruct s)) /\ mf_optional f = false <-> exists data, v = VStruct data) -> typed (pre ++ [f]) (prev ++ [v]).
Proof.
  intros pre prev f v [Hl H] K. split; [rewrite !app_length; cbn; lia|]. intro i. specialize (H i). unfold struct_at in *.
  setoid_rewrite nth_snoc. rewrite Hl. destruct (i <? length pre)%nat; [exact H|]. destruct (i =? length pre)%nat.
  - split.
    + intros (g & s & E & T & O). injection E as <-. destruct (proj1 K (conj (ex_intro _ s T) O)) as (d & ->). eauto.
    + intros (d & E). injection E as ->. destruct (proj2 K (ex_intro _ d eq_refl)) as ((s & T) & O). exists f, s. auto.
  - split; [intros (g & s & E & _)|intros (d & E)]; discriminate.
Qed.
Lemma typed_on : forall pre pre' prev prev' i, typed pre prev -> typed pre' prev' -> Forall2 same_value prev prev' -> (struct_at pre i <-> struct_at pre' i) ->
  (exists data, nth_error prev i = Some (VStruct data) /\ nth_error prev' i = Some (VStruct data)) \/
  ((forall data, nth_error prev i <> Some (VStruct data)) /\ (forall data, nth_error prev' i <> Some (VStruct data))).
Proof.
  intros pre pre' prev prev' i [_ T] [_ T'] F Hi. specialize (T i). specialize (T' i). pose proof (forall2_nth _ _ _ F i) as K.
  destruct (nth_error prev i) as [[]|]; try (right; split; [congruence|]; intros d Hd; destruct (proj1 T (proj2 Hi (proj2 T' (ex_intro _ d Hd)))) as (? & ?); discriminate).
  left. destruct (proj1 T' (proj1 Hi (proj2 T (ex_intro _ data eq_refl)))) as (d' & E). rewrite E in K |- *. inversion K; subst. eauto.
Qed.

(** ** Reading *)

Lemma alike_then : forall (f f' : value -> value) r r', read_alike r r' -> (forall v v', same_value v v' -> same_value (f v) (f' v')) ->
  read_alike ('(n, v) <- r ;; Ok (n, f v)) ('(n, v) <- r' ;; Ok (n, f' v)).
Proof. intros f f' [[n v]|e|] [[n' v']|e'|] H K; cbn in *; try contradiction; auto. destruct H; auto. Qed.
Lemma alike_same : forall r, (forall n v, r = Ok (n, v) -> same_value v v) -> read_alike r r.
Proof. intros [[n v]|e|] H; cbn; auto. split; [reflexivity|]. eapply H. reflexivity. Qed.

Lemma value_reads : forall e ty b, value_reader e ty b = if len b <? N.of_nat (get_byte_size ty) then Err Truncated
  else Ok (N.of_nat (get_byte_size ty), match e with Little => le_dec (firstn (get_byte_size ty) b) | Big => le_dec (rev (firstn (get_byte_size ty) b)) end).
Proof.
  intros e ty b. unfold value_reader, value_from_slice. destruct (len b <? _) eqn:H; [reflexivity|]. unfold len in H. unfold read_bytes.
  replace (length b <? get_byte_size ty)%nat with false by lia. destruct e; reflexivity.
Qed.
Lemma struct_reads : forall n b, struct_from_slice n b = if len b <? n then Err Truncated else Ok (n, firstn (N.to_nat n) b).
Proof.
  intros n b. unfold struct_from_slice. destruct (len b <? n) eqn:H; [reflexivity|]. unfold slice. replace ((0 <=? n) && (n <=? len b)) with true by lia.
  cbn [bind]. rewrite N.sub_0_r. reflexivity.
Qed.
Lemma number_of : forall n b, (n <= length b)%nat -> bytes_ok b -> number Little (length (firstn n b)) (le_dec (firstn n b)) (firstn n b).
Proof.
  intros n b Hn Hb. split; [reflexivity|]. split; [apply bytes_ok_firstn, Hb|]. rewrite be_value_rev, rev_involutive. reflexivity.
Qed.

Section Read.
Variables (m : mode) (emb : N -> bool).

Definition fields_alike (r r' : rres (N * list value)) : Prop :=
  match r, r' with
  | Ok (n, v), Ok (n', v') => n' = n /\ Forall2 same_value v v'
  | Err e, Err e' => e' = e
  | Panic, Panic => True
  | _, _ => False
  end.
Definition R_ref r r' := forall b, bytes_ok b -> read_alike (read_ref m emb r b) (read_ref m emb r' b).
Definition R_ty e pre pre' t t' := forall flag prev prev' b, bytes_ok b -> typed pre prev -> typed pre' prev' -> Forall2 same_value prev prev' ->
  read_alike (read_ty m emb flag e prev t b) (read_ty m emb flag e prev' t' b).
Definition R_mf pre pre' f f' := forall flag prev prev' b, bytes_ok b -> typed pre prev -> typed pre' prev' -> Forall2 same_value prev prev' ->
  read_alike (read_optional m (mf_optional f) (read_ty m emb flag (mf_endi f) prev (mf_ty f)) b)
             (read_optional m (mf_optional f') (read_ty m emb flag (mf_endi f') prev' (mf_ty f')) b).
Definition R_fs pre pre' fs fs' := forall flag prev prev' b off, bytes_ok b -> typed pre prev -> typed pre' prev' -> Forall2 same_value prev prev' ->
  fields_alike (read_fields m emb flag b fs off prev) (read_fields m emb flag b fs' off prev').
Definition R_msg x x' := forall b, bytes_ok b -> read_alike (read_msg m emb x b) (read_msg m emb x' b).
Definition R_cases cs cs' := forall disc k, match find_case disc k cs, find_case disc k cs' with
  | Some (i, c), Some (i', c') => i' = i /\ match uc_item c, uc_item c' with Some r, Some r' => R_ref r r' | None, None => True | _, _ => False end
  | None, None => True
  | _, _ => False end.
Definition R_union u u' := forall b, bytes_ok b -> R_cases (u_cases u) (u_cases u') /\
  forall data, path_get (E:=rerror) m (d_root (u_disc u')) (d_index_list (u_disc u')) data = path_get m (d_root (u_disc u)) (d_index_list (u_disc u)) data.

Lemma optional_alike : forall opt r r' b, bytes_ok b -> (forall b, bytes_ok b -> read_alike (r b) (r' b)) ->
  read_alike (read_optional m opt r b) (read_optional m opt r' b).
Proof.
  intros [] r r' b Hb H; unfold read_optional; [|apply H, Hb]. unfold rmap, optional_from_slice. destruct (len b <? 1); [reflexivity|].
  destruct (nth_error b 0) as [fl|]; cbn [unwrap bind]; [|exact I]. destruct (0 <? fl); [|cbn; split; [reflexivity|constructor]].
  unfold slice_from. destruct (1 <=? len b); cbn [bind]; [|exact I].
  specialize (H (skipn (N.to_nat 1) b) (bytes_ok_skipn _ _ Hb)).
  destruct (r _) as [[n v]|e|], (r' _) as [[n' v']|e'|]; cbn in H; try contradiction; cbn [bind]; auto. destruct H as [-> H].
  destruct (uadd m n 1); cbn [bind]; cbn; auto. split; [reflexivity|]. constructor. exact H.
Qed.
Lemma loop_alike : forall (r r' : reader value), (forall b, bytes_ok b -> read_alike (r b) (r' b)) -> forall n data tot, bytes_ok data ->
  list_loop m r' data n tot = list_loop m r data n tot.
Proof.
  intros r r' H n. induction n as [|n IH]; intros data tot Hd; cbn [list_loop]; [reflexivity|]. unfold slice_from.
  destruct (tot <=? len data); cbn [bind]; [|reflexivity]. specialize (H (skipn (N.to_nat tot) data) (bytes_ok_skipn _ _ Hd)).
  destruct (r _) as [[k v]|e|], (r' _) as [[k' v']|e'|]; cbn in H; try contradiction; cbn [bind]; subst; auto. destruct H as [-> _].
  destruct (uadd m tot k); cbn [bind]; auto.
Qed.
(** A value is a structure if the member is one. *)
Lemma ty_struct : forall flag e prev t b n v, read_ty m emb flag e prev t b = Ok (n, v) -> (exists s, t = TRef (RStruct s)) <-> exists data, v = VStruct data.
Proof.
  intros flag e prev t b n v H.
  assert (Map : forall A (f : A -> value) (r : reader A), (forall a d, f a <> VStruct d) -> rmap f r b = Ok (n, v) -> forall d, v <> VStruct d).
  { intros A f r Hf K. unfold rmap in K. apply bind_ok in K. destruct K as ([k a] & _ & K). injection K as _ <-. apply Hf. }
  destruct t as [ty|[s|x]| |ty|ty s|u on i|ty x|]; cbn [read_ty read_ref] in H;
    try (assert (Hn : forall d, v <> VStruct d) by (eapply Map; [|exact H]; intros ? ? K; discriminate K); split; [intros (? & ?); discriminate|intros (d & E); destruct (Hn d E)]).
  - unfold rmap in H. apply bind_ok in H. destruct H as ([k a] & _ & K). injection K as _ <-. split; intros _; eexists; reflexivity.
  - change (read_msg m emb x b = Ok (n, v)) in H. rewrite read_msg_eq in H. apply bind_ok in H. destruct H as ([k vs] & _ & K). injection K as _ <-. split; intros (? & ?); discriminate.
  - change (read_union m emb u (nth_error prev i) b = Ok (n, v)) in H. rewrite read_union_eq in H. apply bind_ok in H. destruct H as (disc & _ & H). destruct (find_case disc 0 (u_cases u)) as [[i0 c]|]; [|discriminate].
    destruct (uc_item c); [apply bind_ok in H; destruct H as ([k w] & _ & H)|]; injection H as _ <-; split; intros (? & ?); discriminate.
Qed.
Lemma mf_struct : forall flag prev f b n v, read_optional m (mf_optional f) (read_ty m emb flag (mf_endi f) prev (mf_ty f)) b = Ok (n, v) ->
  (exists s, mf_ty f = TRef (RStruct s)) /\ mf_optional f = false <-> exists data, v = VStruct data.
Proof.
  intros flag prev f b n v H. destruct (mf_optional f); unfold read_optional in H.
  - unfold rmap in H. apply bind_ok in H. destruct H as ([k a] & _ & K). injection K as _ <-. split; [intros [_ E]|intros (d & E)]; discriminate.
  - apply ty_struct in H. rewrite <- H. tauto.
Qed.

Lemma like_reads : (forall r r', like_ref r r' -> R_ref r r') /\ (forall e pre pre' t t', like_ty e pre pre' t t' -> R_ty e pre pre' t t') /\
  (forall pre pre' f f', like_mf pre pre' f f' -> R_mf pre pre' f f') /\ (forall pre pre' fs fs', like_fs pre pre' fs fs' -> R_fs pre pre' fs fs') /\
  (forall x x', like_msg x x' -> R_msg x x') /\ (forall cs cs', like_cases cs cs' -> R_cases cs cs') /\ (forall u u', like_union u u' -> R_union u u').
Proof.
  apply like_mut.
  - intros s s' H b Hb. cbn [read_ref]. rewrite (proj2 (proj2 (proj2 (like_sizes _ _ H)))). apply alike_same.
    intros n v E. unfold rmap in E. apply bind_ok in E. destruct E as ([k a] & _ & E). injection E as _ <-. constructor.
  - intros x x' _ H b Hb. apply H, Hb.
  - intros e pre pre' t t' E flag prev prev' b Hb _ _ _. cbn [read_ty]. unfold rmap. rewrite !value_reads, E. destruct (len b <? _); cbn; auto. split; [reflexivity|constructor].
  - intros pre pre' t s E flag prev prev' b Hb _ _ _. cbn [read_ty read_ref]. unfold rmap. rewrite value_reads, struct_reads, <- E.
    destruct (len b <? N.of_nat (get_byte_size t)) eqn:L; cbn; auto. split; [reflexivity|]. rewrite Nnat.Nat2N.id. constructor. apply number_of; [unfold len in L; lia|exact Hb].
  - intros pre pre' t s E flag prev prev' b Hb _ _ _. cbn [read_ty read_ref]. unfold rmap. rewrite value_reads, struct_reads, <- E.
    destruct (len b <? N.of_nat (get_byte_size t)) eqn:L; cbn; auto. split; [reflexivity|]. rewrite Nnat.Nat2N.id. constructor. apply number_of; [unfold len in L; lia|exact Hb].
  - intros e pre pre' r r' _ H flag prev prev' b Hb _ _ _. cbn [read_ty]. apply H, Hb.
  - intros e pre pre' flag prev prev' b Hb _ _ _. cbn [read_ty]. apply alike_same. intros n v E. unfold rmap in E. apply bind_ok in E. destruct E as ([k a] & _ & E). injection E as _ <-. constructor.
  - intros e pre pre' t flag prev prev' b Hb _ _ _. cbn [read_ty]. apply alike_same. intros n v E. unfold rmap in E. apply bind_ok in E. destruct E as ([k a] & _ & E). injection E as _ <-. constructor.
  - intros e pre pre' t s s' E0 flag prev prev' b Hb _ _ _. cbn [read_ty]. rewrite E0. apply alike_same. intros n v E. unfold rmap in E. apply bind_ok in E. destruct E as ([k a] & _ & E). injection E as _ <-. constructor.
  - intros e pre pre' u u' on i _ H Hi flag prev prev' b Hb T T' F.
    change (read_alike (read_union m emb u (nth_error prev i) b) (read_union m emb u' (nth_error prev' i) b)). rewrite !read_union_eq.
    destruct (H b Hb) as [Hc Hd]. destruct (typed_on _ _ _ _ _ T T' F Hi) as [(data & E & E')|[E E']].
    + rewrite E, E'. cbn [read_discriminant]. rewrite Hd. destruct (path_get m (d_root (u_disc u)) (d_index_list (u_disc u)) data) as [disc|er|]; cbn [bind]; [|reflexivity|exact I].
      specialize (Hc disc O). destruct (find_case disc 0 (u_cases u)) as [[k c]|], (find_case disc 0 (u_cases u')) as [[k' c']|]; try contradiction; [|reflexivity].
      destruct Hc as [-> Hc]. destruct (uc_item c) as [r|], (uc_item c') as [r'|]; try contradiction; [|cbn; split; [reflexivity|constructor]].
      apply (alike_then (fun v => VUnion k (Some v)) (fun v => VUnion k (Some v))); [apply Hc, Hb|]. intros v v' Hv. constructor. exact Hv.
    + assert (P : forall d on, (forall data, on <> Some (VStruct data)) -> read_discriminant m d on = Panic).
      { intros d [[]|] K; cbn; try reflexivity. destruct (K data eq_refl). }
      rewrite !P by assumption. exact I.
  - intros e pre pre' t x x' _ H flag prev prev' b Hb _ _ _. cbn [read_ty].
    match goal with |- read_alike ?a ?c => assert (EE : c = a) end.
    { unfold rmap. destruct flag; [|reflexivity]. unfold list_from_slice. destruct (value_reader e t b) as [[k n]|er|]; cbn [bind]; try reflexivity.
      unfold slice_from. destruct (k <=? len b); cbn [bind]; [|reflexivity]. rewrite (loop_alike (read_msg m emb x) (read_msg m emb x') H) by (apply bytes_ok_skipn, Hb). reflexivity. }
    rewrite EE. apply alike_same. intros n v E. unfold rmap in E. apply bind_ok in E. destruct E as ([k a] & _ & E). injection E as _ <-. constructor.
  - intros e pre pre' flag prev prev' b Hb _ _ _. cbn [read_ty]. apply alike_same. intros n v E. unfold rmap in E. apply bind_ok in E. destruct E as ([k a] & _ & E). injection E as _ <-. constructor.
  - intros pre pre' n t t' o z e _ H flag prev prev' b Hb T T' F. cbn [mf_optional mf_endi mf_ty]. apply optional_alike; [exact Hb|]. intros c Hc. apply H; assumption.
  - intros pre pre' flag prev prev' b off Hb T T' F. cbn. auto.
  - intros pre pre' f f' r r' _ H _ IH flag prev prev' b off Hb T T' F.
    assert (U : forall g l prev, read_fields m emb flag b (g :: l) off prev = (d <- slice_from b off ;; '(n, v) <- read_optional m (mf_optional g) (read_ty m emb flag (mf_endi g) prev (mf_ty g)) d ;;
      byte_offset <- uadd m off n ;; read_fields m emb flag b l byte_offset (prev ++ [v]))) by (intros [] l pv; reflexivity).
    rewrite !U. clear U. unfold slice_from. destruct (off <=? len b); cbn [bind]; [|exact I].
    specialize (H flag prev prev' _ (bytes_ok_skipn (N.to_nat off) _ Hb) T T' F). pose proof (mf_struct flag prev f (skipn (N.to_nat off) b)) as S1.
    pose proof (mf_struct flag prev' f' (skipn (N.to_nat off) b)) as S2.
    destruct (read_optional m (mf_optional f) _ _) as [[n v]|er|], (read_optional m (mf_optional f') _ _) as [[n' v']|er'|]; cbn in H; try contradiction; cbn [bind]; [|exact H|exact I].
    destruct H as [-> H]. destruct (uadd m off n) as [off'|er|]; cbn [bind]; [|reflexivity|exact I].
    apply IH; [exact Hb|apply typed_snoc; [exact T|eapply S1; reflexivity]|apply typed_snoc; [exact T'|eapply S2; reflexivity]|].
    apply Forall2_app; [exact F|constructor; [exact H|constructor]].
  - intros i n fs fs' z _ H b Hb. rewrite !read_msg_eq. cbn [m_id m_fields]. specialize (H (emb i) [] [] b 0 Hb typed_nil typed_nil (Forall2_nil _)).
    destruct (read_fields m emb (emb i) b fs 0 []) as [[k vs]|er|], (read_fields m emb (emb i) b fs' 0 []) as [[k' vs']|er'|]; cbn in H; try contradiction; cbn; auto.
    destruct H as [-> H]. split; [reflexivity|]. constructor. exact H.
  - intros disc k. exact I.
  - intros n k r r' _ IH disc i. cbn [find_case uc_case]. destruct (disc =? k); [cbn; auto|apply IH].
  - intros n k t t' r r' _ H _ IH disc i. cbn [find_case uc_case]. destruct (disc =? k); [cbn; auto|apply IH].
  - intros n d d' cs cs' z Hs Hi _ H b Hb. cbn [u_cases u_disc]. split; [exact H|]. intro data. rewrite Hi. apply like_get, Hs.
Qed.
End Read.

(** ** Encodings *)

Fixpoint same_value_sym (v v' : value) (H : same_value v v') {struct H} : same_value v' v :=
  match H in same_value a a' return same_value a' a with
  | sv_scalar n => sv_scalar n
  | sv_struct d => sv_struct d
  | sv_bytes n d K => sv_number n d K
  | sv_number n d K => sv_bytes n d K
  | sv_str s => sv_str s
  | sv_listing d n => sv_listing d n
  | sv_payload b => sv_payload b
  | sv_none => sv_none
  | sv_some v v' K => sv_some v' v (same_value_sym v v' K)
  | sv_case k => sv_case k
  | sv_union k v v' K => sv_union k v' v (same_value_sym v v' K)
  | sv_msg vs vs' F => sv_msg vs' vs
      ((fix go (l l' : list value) (F : Forall2 same_value l l') {struct F} : Forall2 same_value l' l :=
          match F in Forall2 _ a a' return Forall2 same_value a' a with
          | Forall2_nil _ => Forall2_nil _
          | Forall2_cons x y K G => Forall2_cons y x (same_value_sym x y K) (go _ _ G)
          end) vs vs' F)
  end.
Fixpoint like_struct_symm (s s' : structure) (H : like_struct s s') {struct H} : like_struct s' s :=
  match H in like_struct a a' return like_struct a' a with
  | like_mk i n fs fs' b k F => like_mk i n fs' fs b k
      ((fix go (l l' : list field) (F : Forall2 like_field l l') {struct F} : Forall2 like_field l' l :=
          match F in Forall2 _ a a' return Forall2 like_field a' a with
          | Forall2_nil _ => Forall2_nil _
          | Forall2_cons x y K G => Forall2_cons y x (like_field_symm x y K) (go _ _ G)
          end) fs fs' F)
  end
with like_field_symm (f f' : field) (H : like_field f f') {struct H} : like_field f' f :=
  match H in like_field a a' return like_field a' a with
  | like_fixed f f' A B C => like_fixed f' f (eq_sym A) (eq_sym B) (eq_sym C)
  | like_array f f' A B C D => like_array f' f (eq_sym A) (eq_sym B) (eq_sym C) (eq_sym D)
  | like_nested n s s' l K => like_nested n s' s l (like_struct_symm s s' K)
  end.
Lemma like_symm : (forall r r', like_ref r r' -> like_ref r' r) /\ (forall e pre pre' t t', like_ty e pre pre' t t' -> like_ty e pre' pre t' t) /\
  (forall pre pre' f f', like_mf pre pre' f f' -> like_mf pre' pre f' f) /\ (forall pre pre' fs fs', like_fs pre pre' fs fs' -> like_fs pre' pre fs' fs) /\
  (forall x x', like_msg x x' -> like_msg x' x) /\ (forall cs cs', like_cases cs cs' -> like_cases cs' cs) /\ (forall u u', like_union u u' -> like_union u' u).
Proof.
  apply like_mut; intros; try (constructor; auto; fail).
  - constructor. apply like_struct_symm. assumption.
  - constructor; [assumption|]. symmetry. assumption.
  - constructor; [apply like_struct_symm; assumption|auto|assumption].
Qed.

Section Enc.
Variables (m : mode) (pr : N -> Prop).
Definition E_ref r r' := forall v b, enc_ref m pr r v b -> exists v', same_value v v' /\ enc_ref m pr r' v' b.
Definition E_ty e pre pre' t t' := forall prev prev' v b, typed pre prev -> typed pre' prev' -> Forall2 same_value prev prev' ->
  enc_ty m pr e prev t v b -> exists v', same_value v v' /\ enc_ty m pr e prev' t' v' b.
Definition E_mf pre pre' f f' := forall prev prev' v b, typed pre prev -> typed pre' prev' -> Forall2 same_value prev prev' ->
  enc_optional pr (mf_optional f) (enc_ty m pr (mf_endi f) prev (mf_ty f)) v b ->
  exists v', same_value v v' /\ enc_optional pr (mf_optional f') (enc_ty m pr (mf_endi f') prev' (mf_ty f')) v' b.
Definition E_fs pre pre' fs fs' := forall prev prev' vs b, typed pre prev -> typed pre' prev' -> Forall2 same_value prev prev' ->
  enc_fields m pr fs prev vs b -> exists vs', Forall2 same_value vs vs' /\ enc_fields m pr fs' prev' vs' b.
Definition E_msg x x' := forall v b, enc_msg m pr x v b -> exists v', same_value v v' /\ enc_msg m pr x' v' b.
Definition same_item (i i' : option value) := match i, i' with Some v, Some v' => same_value v v' | None, None => True | _, _ => False end.
Definition E_cases cs cs' := forall disc k i c, find_case disc k cs = Some (i, c) -> exists c', find_case disc k cs' = Some (i, c') /\
  forall item b, enc_item m pr (uc_item c) item b -> exists item', same_item item item' /\ enc_item m pr (uc_item c') item' b.
Definition E_union u u' := E_cases (u_cases u) (u_cases u') /\
  forall data, path_get (E:=rerror) m (d_root (u_disc u')) (d_index_list (u_disc u')) data = path_get m (d_root (u_disc u)) (d_index_list (u_disc u)) data.

Lemma enc_struct : forall e prev t v b, enc_ty m pr e prev t v b -> (exists s, t = TRef (RStruct s)) <-> exists data, v = VStruct data.
Proof.
  intros e prev t v b H. destruct t as [ty|[s|x]| |ty|ty s|u on i|ty x|]; destruct v; cbn in H; try contradiction;
    try (split; intros (? & ?); discriminate); try (split; intros _; eexists; reflexivity); destruct x; cbn in H; contradiction.
Qed.
Lemma enc_mf_struct : forall prev f v b, enc_optional pr (mf_optional f) (enc_ty m pr (mf_endi f) prev (mf_ty f)) v b ->
  (exists s, mf_ty f = TRef (RStruct s)) /\ mf_optional f = false <-> exists data, v = VStruct data.
Proof.
  intros prev f v b H. destruct (mf_optional f); cbn in H.
  - destruct v; try contradiction. split; [intros [_ K]|intros (? & K)]; discriminate.
  - apply enc_struct in H. rewrite <- H. tauto.
Qed.
Lemma enc_items : forall x x' items chunks, E_msg x x' -> Forall2 (enc_msg m pr x) items chunks ->
  exists items', length items' = length items /\ Forall2 (enc_msg m pr x') items' chunks.
Proof.
  intros x x' items chunks H F. induction F as [|v b items chunks Hv F (l & El & IH)]; [exists []; auto|].
  destruct (H _ _ Hv) as (v' & _ & Hv'). exists (v' :: l). cbn. auto.
Qed.

Lemma like_encs : (forall r r', like_ref r r' -> E_ref r r') /\ (forall e pre pre' t t', like_ty e pre pre' t t' -> E_ty e pre pre' t t') /\
  (forall pre pre' f f', like_mf pre pre' f f' -> E_mf pre pre' f f') /\ (forall pre pre' fs fs', like_fs pre pre' fs fs' -> E_fs pre pre' fs fs') /\
  (forall x x', like_msg x x' -> E_msg x x') /\ (forall cs cs', like_cases cs cs' -> E_cases cs cs') /\ (forall u u', like_union u u' -> E_union u u').
Proof.
  apply like_mut.
  - intros s s' H v b He. destruct v; cbn in He; try contradiction. exists (VStruct data). split; [constructor|]. cbn.
    rewrite (proj2 (proj2 (proj2 (like_sizes _ _ H)))). exact He.
  - intros x x' _ H v b He. destruct (H v b) as (v' & K & He'); [destruct v; exact He|]. exists v'. split; [exact K|]. destruct v'; exact He'.
  - intros e pre pre' t t' E prev prev' v b _ _ _ He. destruct v; cbn in He; try contradiction. exists (VScalar n). split; [constructor|]. cbn. rewrite E. exact He.
  - intros pre pre' t s E prev prev' v b _ _ _ He. destruct v; cbn in He; try contradiction. exists (VStruct b).
    pose proof (number_length _ _ _ _ He) as Hl. split; [constructor; rewrite Hl; exact He|]. cbn. split; [unfold len; rewrite Hl; exact E|]. split; [apply He|reflexivity].
  - intros pre pre' t s E prev prev' v b _ _ _ He. destruct v; cbn in He; try contradiction. destruct He as (Hl & Hb & ->). exists (VScalar (le_dec data)).
    assert (Hn : number Little (get_byte_size t) (le_dec data) data).
    { unfold len in Hl. split; [lia|]. split; [exact Hb|]. rewrite be_value_rev, rev_involutive. reflexivity. }
    split; [constructor; rewrite (number_length _ _ _ _ Hn); exact Hn|exact Hn].
  - intros e pre pre' r r' _ H prev prev' v b _ _ _ He. destruct (H v b) as (v' & K & He'); [destruct v; exact He|]. exists v'. split; [exact K|]. destruct v'; exact He'.
  - intros e pre pre' prev prev' v b _ _ _ He. destruct v; cbn in He; try contradiction. eexists; split; [constructor|exact He].
  - intros e pre pre' t prev prev' v b _ _ _ He. destruct v; cbn in He; try contradiction. eexists; split; [constructor|exact He].
  - intros e pre pre' t s s' E prev prev' v b _ _ _ He. destruct v; cbn in He; try contradiction. eexists; split; [constructor|]. cbn. rewrite E. exact He.
  - intros e pre pre' u u' on i _ [Hc Hd] Hi prev prev' v b T T' F He. destruct v; try contradiction.
    change (enc_union m pr u (nth_error prev i) variant item b) in He. apply enc_union_iff in He. destruct He as (data & disc & c & On & G & Fc & He).
    destruct (Hc _ _ _ _ Fc) as (c' & Fc' & K). destruct (K _ _ He) as (item' & Hi' & He').
    exists (VUnion variant item'). split; [destruct item, item'; try contradiction; constructor; exact Hi'|].
    change (enc_union m pr u' (nth_error prev' i) variant item' b). apply enc_union_iff. exists data, disc, c'. rewrite Hd.
    split; [|split; [exact G|split; [exact Fc'|exact He']]].
    destruct (typed_on _ _ _ _ _ T T' F Hi) as [(d & E & E')|[E _]]; [rewrite E in On; congruence|destruct (E data On)].
  - intros e pre pre' t x x' _ H prev prev' v b _ _ _ He. destruct v; try contradiction. exists (VListing data n). split; [constructor|].
    destruct He as (p & items & chunks & Hp & Hn & Fi & Ed & Eb). destruct (enc_items x x' items chunks H Fi) as (items' & El & Fi').
    exists p, items', chunks. split; [exact Hp|]. split; [unfold len in *; rewrite El; exact Hn|]. auto.
  - intros e pre pre' prev prev' v b _ _ _ He. destruct v; cbn in He; try contradiction. eexists; split; [constructor|exact He].
  - intros pre pre' n t t' o z e _ H prev prev' v b T T' F He. cbn [mf_optional mf_endi mf_ty] in *. destruct o; cbn [enc_optional] in *.
    + destruct v as [| | | | | | |[v|]]; try contradiction.
      * destruct He as (p & b' & Hp & Hpr & -> & He). destruct (H _ _ _ _ T T' F He) as (v' & K & He'). exists (VOpt (Some v')). split; [constructor; exact K|].
        exists p, b'. auto.
      * exists (VOpt None). split; [constructor|exact He].
    + apply (H _ _ _ _ T T' F He).
  - intros pre pre' prev prev' vs b _ _ _ He. destruct vs; [|contradiction]. exists []. auto.
  - intros pre pre' f f' r r' _ H _ IH prev prev' vs b T T' F He. destruct vs as [|v vs]; [contradiction|]. cbn [enc_fields] in He.
    destruct He as (b1 & b2 & -> & H1 & H2). destruct (H _ _ _ _ T T' F H1) as (v' & K & H1').
    destruct (IH (prev ++ [v]) (prev' ++ [v']) vs b2) as (vs' & K' & H2'); [| | |exact H2|].
    + apply typed_snoc; [exact T|]. eapply enc_mf_struct, H1.
    + apply typed_snoc; [exact T'|]. eapply enc_mf_struct, H1'.
    + apply Forall2_app; auto.
    + exists (v' :: vs'). split; [constructor; assumption|]. cbn [enc_fields]. exists b1, b2. auto.
  - intros i n fs fs' z _ H v b He. apply enc_msg_inv in He. destruct He as (vs & -> & He).
    destruct (H [] [] vs b typed_nil typed_nil (Forall2_nil _) He) as (vs' & K & He'). exists (VMsg vs'). split; [constructor; exact K|]. apply enc_msg_eq. exact He'.
  - intros disc k i c E. discriminate.
  - intros n k r r' _ IH disc j i c E. cbn [find_case uc_case] in *. destruct (disc =? k); [|apply IH, E]. injection E as <- <-. eexists; split; [reflexivity|].
    intros [it|] b He; [contradiction|]. exists None. split; [exact I|exact He].
  - intros n k t t' r r' _ H _ IH disc j i c E. cbn [find_case uc_case] in *. destruct (disc =? k); [|apply IH, E]. injection E as <- <-. eexists; split; [reflexivity|].
    intros [it|] b He; [|contradiction]. destruct (H _ _ He) as (v' & K & He'). exists (Some v'). split; [exact K|exact He'].
  - intros n d d' cs cs' z Hs Hi _ H. split; [exact H|]. intro data. cbn [u_disc]. rewrite Hi. apply like_get, Hs.
Qed.
End Enc.

Lemma like_format : forall x x', like_msg x x' -> same_format x x'.
Proof.
  intros x x' H. split; [|split].
  - intros m emb b Hb. apply (proj1 (proj2 (proj2 (proj2 (proj2 (like_reads m emb))))) x x' H b Hb).
  - intros m v b He. apply (proj1 (proj2 (proj2 (proj2 (proj2 (like_encs m (fun p => p = 1)))))) x x' H v b He).
  - intros m v' b He. pose proof (proj1 (proj2 (proj2 (proj2 (proj2 like_symm)))) x x' H) as H'.
    destruct (proj1 (proj2 (proj2 (proj2 (proj2 (like_encs m (fun p => p = 1)))))) x' x H' v' b He) as (v & K & Hv).
    exists v. split; [apply same_value_sym, K|exact Hv].
Qed.
