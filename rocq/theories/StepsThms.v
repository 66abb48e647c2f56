(** Proofs for C89: the work of reading is bounded by the input. *)

From Coq Require Import Arith NArith ZArith List Bool Lia ZifyBool ZifyN ZifyNat.
From Verif Require Import Base Schema Codec Compiler Access Bits BitsFacts CodecFacts StructFacts ArrayThms BEThms
  Runtime Gen SpecWire MsgFacts WriteThms ReadThms SoundThms SpecSteps.
Import ListNotations.
Local Open Scope N_scope.

Lemma fst_andthen : forall {A B} (t : tally A) (f : A -> tally B), fst (andthen t f) = bind (fst t) (fun a => fst (f a)).
Proof. intros A B [[a|e|] k] f; cbn; [|reflexivity..]. destruct (f a). reflexivity. Qed.
Lemma bind_ext : forall {E A B} (r : outcome E A) (f g : A -> outcome E B), (forall a, f a = g a) -> bind r f = bind r g.
Proof. intros E A B [a|e|] f g H; cbn; auto. Qed.
Section Reader.
Variables (m : mode) (emb : N -> bool).
Definition counts (x : message) : Prop := forall b, fst (count_msg m emb x b) = read_msg m emb x b.
Lemma count_loop_reads : forall A (c : counter A) (r : reader A), (forall b, fst (c b) = r b) -> forall data n t,
  fst (count_loop m c data n t) = list_loop m r data n t.
Proof.
  intros A c r H data n. induction n as [|n IH]; intro t; [reflexivity|]. cbn [count_loop list_loop].
  rewrite fst_andthen. apply bind_ext. intro d. rewrite fst_andthen. specialize (H d). destruct (c d) as [q k]. cbn [fst] in *. subst q. apply bind_ext. intros [s v].
  rewrite fst_andthen. apply bind_ext. intro t'. apply IH.
Qed.
Lemma count_list_reads : forall A (t : reader N) (c : counter A) (r : reader A), (forall b, fst (c b) = r b) -> forall b,
  fst (count_list m t c b) = list_from_slice m t r b.
Proof.
  intros A t c r H b. unfold count_list, list_from_slice. rewrite fst_andthen. apply bind_ext. intros [k n]. rewrite fst_andthen. apply bind_ext. intro data.
  rewrite fst_andthen. rewrite (count_loop_reads A c r H). apply bind_ext. intro total. reflexivity.
Qed.
Lemma cmap_reads : forall A B (f : A -> B) (c : counter A) (r : reader A), (forall b, fst (c b) = r b) -> forall b, fst (cmap f c b) = rmap f r b.
Proof. intros A B f c r H b. unfold cmap, rmap. rewrite fst_andthen, H. apply bind_ext. intros [n a]. reflexivity. Qed.
Lemma count_optional_reads : forall opt (c : counter value) (r : reader value), (forall b, fst (c b) = r b) -> forall b,
  fst (count_optional m opt c b) = read_optional m opt r b.
Proof.
  intros [|] c r H b; [|apply H]. unfold count_optional, read_optional, rmap, optional_from_slice. destruct (len b <? 1); [reflexivity|].
  rewrite fst_andthen. cbn [fst plain]. destruct (unwrap (nth_error b 0)) as [flag|e|]; [|reflexivity..]. cbn [bind]. destruct (0 <? flag); [|reflexivity].
  rewrite fst_andthen. cbn [fst plain]. destruct (slice_from b 1) as [d|e|]; [|reflexivity..]. cbn [bind]. rewrite fst_andthen, H.
  destruct (r d) as [[n v]|e|]; [|reflexivity..]. cbn [bind fst snd plain]. destruct (uadd m n 1) as [n'|e|]; reflexivity.
Qed.
Definition count_pick (disc : N) (b : bytes) :=
  fix pick (i : nat) (cs : list ucase) : tally (N * value) :=
         match cs with
         | [] => plain (Err (InvalidUnionDiscriminant disc))
         | MkUCase _ case item :: r =>
             if disc =? case then
               match item with
               | None => plain (Ok (0, VUnion i None))
               | Some t => andthen (count_ref m emb t b) (fun p => plain (Ok (fst p, VUnion i (Some (snd p)))))
               end
             else pick (S i) r
         end.
Lemma count_union_eq : forall u on b, count_union m emb u on b =
  andthen (plain (read_discriminant m (u_disc u) on)) (fun disc =>
   match find_case disc 0 (u_cases u) with
   | None => plain (Err (InvalidUnionDiscriminant disc))
   | Some (i, c) =>
       match uc_item c with
       | None => plain (Ok (0, VUnion i None))
       | Some t => cmap (fun v => VUnion i (Some v)) (count_ref m emb t) b
       end
   end).
Proof.
  intros [name d cs s] on b.
  change (count_union m emb (MkUnion name d cs s) on b) with (andthen (plain (read_discriminant m d on)) (fun disc => count_pick disc b O cs)).
  cbn [u_disc u_cases]. destruct (read_discriminant m d on) as [disc|e|]; [|reflexivity..]. cbn [plain andthen].
  enough (K : forall i, count_pick disc b i cs = match find_case disc i cs with
   | None => plain (Err (InvalidUnionDiscriminant disc))
   | Some (i, c) =>
       match uc_item c with
       | None => plain (Ok (0, VUnion i None))
       | Some t => cmap (fun v => VUnion i (Some v)) (count_ref m emb t) b
       end
   end) by (rewrite K; reflexivity).
  induction cs as [|[n k it] cs IH]; intro i; [reflexivity|]. cbn [find_case count_pick uc_case]. destruct (disc =? k); [|apply IH]. reflexivity.
Qed.
Lemma count_ref_reads : forall t, (forall y, t = RMessage y -> counts y) -> forall b, fst (count_ref m emb t b) = read_ref m emb t b.
Proof. intros [s|y] H b; [reflexivity|]. apply (H y eq_refl). Qed.
Lemma count_ty_reads : forall e endi prev t, (forall y, inside t y -> counts y) -> forall b,
  fst (count_ty m emb e endi prev t b) = read_ty m emb e endi prev t b.
Proof.
  intros e endi prev t H b. destruct t as [ty|r| |ty|ty s|u on i|ty x|]; try reflexivity.
  - apply count_ref_reads. intros y ->. apply H. constructor.
  - assert (Hc : forall c y, In c (u_cases u) -> uc_item c = Some (RMessage y) -> counts y) by (intros c y Hc Hy; apply H; econstructor; eassumption).
    rewrite read_ty_union, read_union_eq. change (count_ty m emb e endi prev (TUnion u on i) b) with (count_union m emb u (nth_error prev i) b). rewrite count_union_eq, fst_andthen.
    apply bind_ext. intro disc. destruct (find_case disc 0 (u_cases u)) as [[j c]|] eqn:F; [|reflexivity]. apply find_case_in in F. destruct F as (Hin & _).
    destruct (uc_item c) as [t|] eqn:Et; [|reflexivity]. apply (cmap_reads _ _ (fun v => VUnion j (Some v)) _ (read_ref m emb t)). apply count_ref_reads. intros y ->. eapply Hc; eassumption.
  - cbn [count_ty read_ty]. apply cmap_reads. intro d. destruct e; [|reflexivity]. apply count_list_reads. intro d'. apply H. constructor.
Qed.
Definition count_go (id : N) (b : bytes) :=
  fix go (fs : list mfield) (byte_offset : N) (prev : list value) : tally (N * value) :=
         match fs with
         | [] => plain (Ok (byte_offset, VMsg prev))
         | MkMField _ ty opt _ endi :: r =>
             andthen (plain (slice_from b byte_offset)) (fun d =>
             andthen (count_optional m opt (count_ty m emb (emb id) endi prev ty) d) (fun p =>
             andthen (plain (uadd m byte_offset (fst p))) (fun byte_offset =>
             go r byte_offset (prev ++ [snd p]))))
         end.
Theorem counts_reader : forall x, counts x.
Proof.
  apply (message_ind_inside counts). intros [id name fs size] IH b. cbn [m_fields] in IH. change (count_msg m emb (MkMessage id name fs size) b) with (count_go id b fs 0 []).
  change (read_msg m emb (MkMessage id name fs size) b) with (read_go m emb id b fs 0 []).
  generalize 0 (@nil value). induction fs as [|[nm ty opt s endi] fs IHf]; intros off prev; [reflexivity|]. cbn [count_go read_go].
  rewrite fst_andthen. apply bind_ext. intro d. rewrite fst_andthen. rewrite (count_optional_reads opt _ (read_ty m emb (emb id) endi prev ty)).
  - apply bind_ext. intros [n v]. rewrite fst_andthen. apply bind_ext. intro off'. apply IHf. intros g y Hg. apply (IH g y). right. exact Hg.
  - apply count_ty_reads. intros y Hy. apply (IH (MkMField nm ty opt s endi) y); [left; reflexivity|exact Hy].
Qed.

(** ** Messages that take bytes *)
Definition positive {A} (r : reader A) : Prop := forall b n v, len b < 2 ^ 64 -> r b = Ok (n, v) -> 0 < n.
Lemma positive_rmap : forall A B (f : A -> B) r, positive r -> positive (rmap f r).
Proof. intros A B f r H b n v Hl E. apply rmap_ok in E. destruct E as (a & E & _). eapply H; eauto. Qed.
Lemma byte_size_pos : forall ty, (0 < get_byte_size ty)%nat.
Proof. intros []; cbn; lia. Qed.
Lemma value_pos : forall e ty b n v, value_reader e ty b = Ok (n, v) -> 0 < n /\ n <= len b.
Proof. intros e ty b n v H. apply value_reader_size in H. pose proof (byte_size_pos ty). lia. Qed.
Lemma positive_type : forall e endi prev t, takes_type t -> (forall y, t = TRef (RMessage y) -> takes_bytes y -> positive (read_msg m emb y)) -> positive (read_ty m emb e endi prev t).
Proof.
  intros e endi prev t T H. destruct T as [ty| |ty|ty s|ty y|s Hs|y Hy].
  - apply positive_rmap. intros b n v Hl E. apply value_pos in E. lia.
  - apply positive_rmap. intros b n v Hl E. unfold nts_from_slice in E. destruct (find_zero 0 b) as [p|] eqn:F; [|discriminate]. apply find_zero_spec in F. rewrite N.sub_0_r in F.
    apply bind_ok in E. destruct E as (d & Hd & E). apply slice_inv in Hd. destruct Hd as (_ & Hp & ->).
    apply bind_ok in E. destruct E as (s & Hs & E). apply str_inv in Hs. destruct Hs as (-> & _).
    apply bind_ok in E. destruct E as (k & Hk & E). inversion E; subst. apply uadd_inv in Hk; unfold len in *; rewrite ?firstn_length, ?skipn_length in *; lia.
  - apply positive_rmap. intros b n v Hl E. unfold varchar_from_slice in E.
    apply bind_ok in E. destruct E as ([k c] & Hk & E). apply value_pos in Hk. apply bind_ok in E. destruct E as (q & Hq & E).
    apply bind_ok in E. destruct E as (d & Hd & E). apply slice_inv in Hd. destruct Hd as (H1 & H2 & ->).
    apply bind_ok in E. destruct E as (s & Hs & E). apply str_inv in Hs. destruct Hs as (-> & _).
    apply bind_ok in E. destruct E as (t & Ht & E). inversion E; subst. apply uadd_inv in Ht; unfold len in *; rewrite ?firstn_length, ?skipn_length in *; lia.
  - apply positive_rmap. intros b n v Hl E. unfold array_from_slice in E.
    apply bind_ok in E. destruct E as ([k c] & Hk & E). apply value_pos in Hk. apply bind_ok in E. destruct E as (q & Hq & E).
    apply bind_ok in E. destruct E as (t & Ht & E). destruct (len b <? t) eqn:C; [discriminate|]. apply bind_ok in E. destruct E as (d & Hd & E). inversion E; subst.
    apply slice_inv in Hd. destruct Hd as (H1 & H2 & _). lia.
  - rewrite read_ty_list. apply positive_rmap. destruct e.
    + intros b n v Hl E. unfold list_from_slice in E.
      apply bind_ok in E. destruct E as ([k c] & Hk & E). apply value_pos in Hk. apply bind_ok in E. destruct E as (data & Hd & E). apply slice_from_inv in Hd. destruct Hd as (Hk2 & ->).
      apply bind_ok in E. destruct E as (t & Ht & E). apply list_loop_bound in Ht; [|intros b' n' v' Hb' E'; eapply read_bounded; eassumption|rewrite len_skipn; lia|lia]. rewrite len_skipn in Ht.
      apply bind_ok in E. destruct E as (q & Hq & E). apply bind_ok in E. destruct E as (d & _ & E). apply bind_ok in E. destruct E as (sz & Hs & E). inversion E; subst. apply uadd_inv in Hs; lia.
    + intros b n v Hl E. unfold unsized_from_slice in E. apply bind_ok in E. destruct E as ([k c] & Hk & E). apply value_pos in Hk. apply bind_ok in E. destruct E as (d & _ & E). inversion E; subst. lia.
  - rewrite read_ty_ref. cbn [read_ref]. apply positive_rmap. intros b n v Hl E. unfold struct_from_slice in E. destruct (len b <? s_byte_size s) eqn:C; [discriminate|].
    apply bind_ok in E. destruct E as (d & _ & E). inversion E; subst. lia.
  - rewrite read_ty_ref. cbn [read_ref]. apply (H y eq_refl Hy).
Qed.
Lemma bounded_all : forall x, bounded (read_msg m emb x).
Proof. intros x b n v. apply read_bounded. Qed.
Lemma optional_pos : forall (r : reader value), bounded r -> positive (read_optional m true r).
Proof.
  intros r H. unfold read_optional. apply positive_rmap. intros b n v Hl E. unfold optional_from_slice in E. destruct (len b <? 1) eqn:C; [discriminate|].
  apply bind_ok in E. destruct E as (fl & _ & E). destruct (0 <? fl).
  - apply bind_ok in E. destruct E as (d & Hd & E). apply slice_from_inv in Hd. destruct Hd as (_ & ->). apply bind_ok in E. destruct E as ([k w] & Hk & E).
    apply H in Hk; [|rewrite len_skipn; lia]. rewrite len_skipn in Hk. apply bind_ok in E. destruct E as (q & Hq & E). inversion E; subst. apply uadd_inv in Hq; lia.
  - inversion E; subst. lia.
Qed.
Theorem takes_reads : forall x, takes_bytes x -> positive (read_msg m emb x).
Proof.
  apply (message_ind_inside (fun x => takes_bytes x -> positive (read_msg m emb x))). intros x IH T b n v Hl E. inversion T as [? f Hf Hm]; subst. clear T.
  rewrite read_msg_eq in E. apply bind_ok in E. destruct E as ([k vs] & Hk & E). inversion E; subst. clear E.
  enough (K : forall e prev off, off <= len b -> read_fields m emb e b (m_fields x) off prev = Ok (n, vs) -> off < n) by (apply (K _ _ _ (N.le_0_l _) Hk)). clear Hk.
  intro e. assert (Hb : forall g y, In g (m_fields x) -> inside (mf_ty g) y -> bounded (read_msg m emb y)) by (intros; apply bounded_all).
  induction (m_fields x) as [|[nm ty opt s endi] fs IHf]; intros prev off Ho Hk; [destruct Hf|]. cbn [read_fields] in Hk.
  apply bind_ok in Hk. destruct Hk as (d & Hd & E). apply slice_from_inv in Hd. destruct Hd as (_ & ->). apply bind_ok in E. destruct E as ([k v] & Hk & E).
  assert (K : k <= len (skipn (N.to_nat off) b)).
  { eapply bounded_optional; [apply bounded_ty; intros; apply bounded_all| |exact Hk]. rewrite len_skipn; lia. }
  pose proof K as K'. rewrite len_skipn in K'. apply bind_ok in E. destruct E as (off' & Hoff & E). apply uadd_inv in Hoff; [|lia]. destruct Hf as [<-|Hf].
  - cbn [mf_optional mf_ty] in Hm. apply bounded_fields in E; [|intros; apply bounded_all|exact Hl|lia]. enough (0 < k) by lia.
    destruct opt.
    + eapply (optional_pos (read_ty m emb e endi prev ty)); [apply bounded_ty; intros; apply bounded_all| |exact Hk]. rewrite len_skipn; lia.
    + destruct Hm as [Hm|Hm]; [discriminate|]. eapply (positive_type e endi prev ty Hm); [| |exact Hk]; [|rewrite len_skipn; lia].
      intros y -> Hy. eapply IH; [left; reflexivity|constructor|exact Hy].
  - assert (off <= n). { apply bounded_fields in E; [lia|intros; apply bounded_all|exact Hl|lia]. }
    enough (off' < n) by lia. eapply IHf; [|exact Hf|intros; apply bounded_all| |exact E]; [|lia]. intros g y Hg. apply (IH g y). right. exact Hg.
Qed.

(** ** The bound *)
Definition measured {A} (l : N) (t : tally (N * A)) : Prop :=
  match t with
  | (Ok (n, _), c) => n <= l /\ (c = 0 \/ c + 1 <= n)
  | (_, c) => c <= l
  end.
Definition measures {A} (c : counter A) : Prop := forall b, len b < 2 ^ 64 -> measured (len b) (c b).
Lemma measures_plain : forall A (r : reader A), bounded r -> measures (fun b => plain (r b)).
Proof. intros A r H b Hl. unfold plain, measured. destruct (r b) as [[n v]|e|] eqn:E; [|lia|lia]. split; [eapply H; eauto|]. left. reflexivity. Qed.
Lemma measures_cmap : forall A B (f : A -> B) c, measures c -> measures (cmap f c).
Proof. intros A B f c H b Hl. specialize (H b Hl). unfold cmap. destruct (c b) as [[[n v]|e|] k]; cbn in *; try exact H. rewrite N.add_0_r. exact H. Qed.
Lemma loop_measured : forall A (c : counter A) (r : reader A), measures c -> (forall b, fst (c b) = r b) -> positive r -> forall data, len data < 2 ^ 64 -> forall n t, t <= len data ->
  match count_loop m c data n t with
  | (Ok r, k) => t + k <= r /\ r <= len data
  | (_, k) => t + k <= len data + 1
  end.
Proof.
  intros A c r H F P data Hl n. induction n as [|n IH]; intros t Ht; cbn [count_loop]; [cbn; lia|]. unfold slice_from, plain at 1. replace (t <=? len data) with true by lia. cbn [andthen].
  assert (Hd : len (skipn (N.to_nat t) data) = len data - t) by (rewrite len_skipn; lia). specialize (H (skipn (N.to_nat t) data)). rewrite Hd in H. specialize (H ltac:(lia)).
  specialize (F (skipn (N.to_nat t) data)). specialize (P (skipn (N.to_nat t) data)). rewrite Hd in P. rewrite <- F in P. destruct (c (skipn (N.to_nat t) data)) as [[[s v]|e|] k]; cbn [andthen measured fst] in *; [|lia|lia].
  specialize (P s v ltac:(lia) eq_refl). destruct H as (H1 & H2). rewrite (uadd_fit m t s) by lia. cbn [plain andthen]. specialize (IH (t + s) ltac:(lia)).
  destruct (count_loop m c data n (t + s)) as [[q|e|] k']; cbn [plain andthen]; lia.
Qed.
Lemma list_measured : forall A (c : counter A) (r : reader A) endi ty, measures c -> (forall b, fst (c b) = r b) -> positive r -> measures (count_list m (value_reader endi ty) c).
Proof.
  intros A c r endi ty H F P b Hl. unfold count_list. destruct (value_reader endi ty b) as [[k n]|e|] eqn:E; cbn [plain andthen measured]; [|lia|lia]. apply value_pos in E.
  unfold slice_from. replace (k <=? len b) with true by lia. cbn [plain andthen]. assert (Hd : len (skipn (N.to_nat k) b) = len b - k) by (rewrite len_skipn; lia).
  pose proof (loop_measured A c r H F P (skipn (N.to_nat k) b) ltac:(rewrite Hd; lia) (N.to_nat n) 0 ltac:(lia)) as L. rewrite Hd in L.
  destruct (count_loop m c (skipn (N.to_nat k) b) (N.to_nat n) 0) as [[t|e|] j]; cbn [plain andthen]; [|cbn; lia|cbn; lia].
  rewrite !uadd_fit by lia. cbn [bind]. unfold slice. destruct ((k <=? k + t) && (k + t <=? len b)) eqn:C; cbn [bind]; cbn; lia.
Qed.
Definition light (x : message) : Prop := items_take_bytes emb x -> measures (count_msg m emb x).
Lemma ref_measured : forall t, (forall y, t = RMessage y -> measures (count_msg m emb y)) -> measures (count_ref m emb t).
Proof.
  intros [s|y] H; [|apply (H y eq_refl)]. apply (measures_plain _ (rmap VStruct (struct_from_slice (s_byte_size s)))). apply (bounded_ref m emb (RStruct s)). intros y D. discriminate.
Qed.
Lemma type_measured : forall e endi prev t, (forall y, inside t y -> measures (count_msg m emb y)) -> (forall ty y, e = true -> t = TList ty y -> takes_bytes y) -> measures (count_ty m emb e endi prev t).
Proof.
  intros e endi prev t H T. assert (B : bounded (read_ty m emb e endi prev t)) by (apply bounded_ty; intros; apply bounded_all). destruct t as [ty|r| |ty|ty s|u on i|ty x|].
  - exact (measures_plain _ _ B).
  - apply (ref_measured r). intros y ->. apply H. constructor.
  - exact (measures_plain _ _ B).
  - exact (measures_plain _ _ B).
  - exact (measures_plain _ _ B).
  - assert (Hc : forall c y, In c (u_cases u) -> uc_item c = Some (RMessage y) -> measures (count_msg m emb y)) by (intros c y Hc Hy; apply H; econstructor; eassumption).
    intros b Hl. change (count_ty m emb e endi prev (TUnion u on i) b) with (count_union m emb u (nth_error prev i) b). rewrite count_union_eq.
    destruct (read_discriminant m (u_disc u) (nth_error prev i)) as [disc|e0|]; cbn [plain andthen]; [|cbn; lia|cbn; lia].
    assert (K : measured (len b) (match find_case disc 0 (u_cases u) with
      | None => plain (Err (InvalidUnionDiscriminant disc))
      | Some (i, c) => match uc_item c with None => plain (Ok (0, VUnion i None)) | Some t => cmap (fun v => VUnion i (Some v)) (count_ref m emb t) b end end)).
    { destruct (find_case disc 0 (u_cases u)) as [[j c]|] eqn:F; [|cbn; lia]. apply find_case_in in F. destruct F as (Hin & _). destruct (uc_item c) as [t|] eqn:Et; [|cbn; lia].
      apply measures_cmap; [|exact Hl]. apply ref_measured. intros y ->. eapply Hc; eassumption. }
    match goal with |- measured _ (let '(r, k') := ?a in _) => destruct a as [q k] end. exact K.
  - cbn [count_ty]. apply measures_cmap. destruct e.
    + eapply list_measured; [apply H; constructor|intro b; apply counts_reader|]. apply takes_reads. eapply T; reflexivity.
    + apply measures_plain. intros b n v Hl E. unfold unsized_from_slice in E. apply bind_ok in E. destruct E as ([k c] & Hk & E). apply bind_ok in E. destruct E as (d & _ & E). inversion E; subst. lia.
  - exact (measures_plain _ _ B).
Qed.
Lemma optional_measured : forall opt c, measures c -> measures (count_optional m opt c).
Proof.
  intros [|] c H; [|exact H]. intros b Hl. unfold count_optional. destruct (len b <? 1) eqn:C; [cbn; lia|]. destruct (nth_error b 0) as [flag|]; cbn [unwrap plain andthen]; [|cbn; lia].
  destruct (0 <? flag); [|cbn; lia]. unfold slice_from. replace (1 <=? len b) with true by lia. cbn [plain andthen].
  assert (Hd : len (skipn (N.to_nat 1) b) = len b - 1) by (rewrite len_skipn; lia). specialize (H (skipn (N.to_nat 1) b)). rewrite Hd in H. specialize (H ltac:(lia)).
  destruct (c (skipn (N.to_nat 1) b)) as [[[n v]|e|] k]; cbn [andthen fst snd]; [|cbn in *; lia|cbn in *; lia]. cbn in H. rewrite uadd_fit by lia. cbn. lia.
Qed.
Theorem all_light : forall x, light x.
Proof.
  apply (message_ind_inside light). intros [id name fs size] IH T b Hl. cbn [m_fields] in IH. change (count_msg m emb (MkMessage id name fs size) b) with (count_go id b fs 0 []).
  assert (Hi : forall g y, In g fs -> inside (mf_ty g) y -> measures (count_msg m emb y)).
  { intros g y Hg Hy. apply (IH g y Hg Hy). intros f ty z Hp. apply (T f ty z). eapply part_deep; [exact Hg|exact Hy|exact Hp]. }
  assert (Ht : forall g ty y, In g fs -> emb id = true -> mf_ty g = TList ty y -> takes_bytes y).
  { intros g ty y Hg He Ey. apply (T g ty y); [|exact Ey]. apply part_here; [exact Hg|symmetry; exact He]. }
  clear IH T. assert (K : forall off prev, off <= len b -> match count_go id b fs off prev with
    | (Ok (n, _), c) => off <= n /\ n <= len b /\ (c = 0 \/ off + c + 1 <= n) | (_, c) => off + c <= len b end).
  { induction fs as [|[nm ty opt s endi] fs IHf]; intros off prev Ho; [cbn; lia|]. cbn [count_go]. unfold slice_from. replace (off <=? len b) with true by lia. cbn [plain andthen].
    assert (Hd : len (skipn (N.to_nat off) b) = len b - off) by (rewrite len_skipn; lia).
    assert (M : measures (count_optional m opt (count_ty m emb (emb id) endi prev ty))).
    { apply optional_measured, type_measured; [intros y Hy; apply (Hi (MkMField nm ty opt s endi) y); [left; reflexivity|exact Hy]|].
      intros ty' y He Ey. apply (Ht (MkMField nm ty opt s endi) ty' y); [left; reflexivity|exact He|exact Ey]. }
    specialize (M (skipn (N.to_nat off) b)). rewrite Hd in M. specialize (M ltac:(lia)).
    destruct (count_optional m opt (count_ty m emb (emb id) endi prev ty) (skipn (N.to_nat off) b)) as [[[n v]|e|] k]; cbn [andthen fst snd]; [|cbn in M; lia|cbn in M; lia]. cbn in M.
    rewrite uadd_fit by lia. cbn [plain andthen].
    assert (F : forall g y, In g fs -> inside (mf_ty g) y -> measures (count_msg m emb y)) by (intros g y Hg; apply (Hi g y); right; exact Hg).
    assert (F' : forall g ty y, In g fs -> emb id = true -> mf_ty g = TList ty y -> takes_bytes y) by (intros g ty' y Hg; apply (Ht g ty' y); right; exact Hg).
    specialize (IHf F F' (off + n) (prev ++ [v]) ltac:(lia)). destruct (count_go id b fs (off + n) (prev ++ [v])) as [[[q w]|e|] k']; cbn [plain andthen]; lia. }
  specialize (K 0 [] ltac:(lia)). destruct (count_go id b fs 0 []) as [[[q w]|e|] k']; cbn; lia.
Qed.
End Reader.

(** The reader tries no more items than there are bytes. *)
Theorem reading_bounded : forall m emb x b, items_take_bytes emb x -> len b < 2 ^ 64 -> items_tried m emb x b <= len b.
Proof.
  intros m emb x b T Hl. pose proof (all_light m emb x T b Hl) as H. unfold items_tried. destruct (count_msg m emb x b) as [[[n v]|e|] k]; cbn in *; lia.
Qed.
(** A list of items that are read from nothing: the input says how many are tried. *)
Theorem empty_items : forall m emb x f r ty y v n p, m_fields x = f :: r -> mf_optional f = false -> mf_ty f = TList ty y -> emb (m_id x) = true ->
  read_msg m emb y [] = Ok (0, v) -> number (mf_endi f) (get_byte_size ty) n p -> n <= items_tried m emb x p.
Proof.
  intros m emb [id name fs size] [nm t opt s endi] r ty y v n p E Eo Et He Hr Hn. cbn [m_fields mf_optional mf_ty m_id mf_endi] in *. subst. unfold items_tried.
  change (count_msg m emb (MkMessage id name (MkMField nm (TList ty y) false s endi :: r) size) p) with (count_go m emb id p (MkMField nm (TList ty y) false s endi :: r) 0 []). cbn [count_go].
  assert (S : forall A B (t : tally A) (f : A -> tally B), snd t <= snd (andthen t f)) by (intros A B [[a|e|] k] f; cbn; [destruct (f a); cbn; lia|lia|lia]).
  assert (Z : slice_from (E:=rerror) p 0 = Ok p) by (unfold slice_from; replace (0 <=? len p) with true by lia; reflexivity).
  rewrite Z. cbn [plain andthen].
  match goal with |- n <= snd (let '(r, k') := ?a in _) => enough (K : n <= snd a) by (destruct a; exact K) end.
  eapply N.le_trans; [|apply S]. cbn [count_optional]. change (count_ty m emb (emb id) endi [] (TList ty y) p) with
    (cmap (fun p => VListing (fst p) (snd p)) (if emb id then count_list m (value_reader endi ty) (count_msg m emb y) else fun b => plain (unsized_from_slice (value_reader endi ty) b)) p).
  rewrite He. unfold cmap. eapply N.le_trans; [|apply S]. unfold count_list. pose proof (value_reader_app endi ty n p [] Hn) as V. rewrite app_nil_r in V. rewrite V. cbn [plain andthen].
  match goal with |- n <= snd (let '(r, k') := ?a in _) => enough (K : n <= snd a) by (destruct a; exact K) end.
  pose proof (number_len _ _ _ _ Hn) as L. assert (Z' : slice_from (E:=rerror) p (N.of_nat (get_byte_size ty)) = Ok []).
  { unfold slice_from. replace (N.of_nat (get_byte_size ty) <=? len p) with true by lia. rewrite skipn_all2; [reflexivity|]. unfold len in L. lia. }
  rewrite Z'. cbn [plain andthen].
  match goal with |- n <= snd (let '(r, k') := ?a in _) => enough (K : n <= snd a) by (destruct a; exact K) end.
  eapply N.le_trans; [|apply S]. pose proof (counts_reader m emb y []) as C. rewrite Hr in C. destruct (count_msg m emb y []) as [q k] eqn:Q. cbn [fst] in C. subst q.
  assert (W : forall j, N.of_nat j <= snd (count_loop m (count_msg m emb y) [] j 0)).
  { induction j as [|j IH]; [cbn; lia|]. cbn [count_loop]. change (slice_from (E:=rerror) (@nil N) 0) with (Ok (E:=rerror) (@nil N)). cbn [plain andthen]. rewrite Q. cbn [andthen fst].
    rewrite uadd_fit by lia. cbn [plain andthen N.add]. destruct (count_loop m (count_msg m emb y) [] j 0) as [q k']. cbn [snd] in *. lia. }
  specialize (W (N.to_nat n)). rewrite N2Nat.id in W. exact W.
Qed.
