(** C91: members of a message that are put into a message of their own. The readers and writers. *)

From Coq Require Import Arith NArith ZArith String List Bool Lia ZifyBool ZifyN ZifyNat.
From Verif Require Import Base Schema Codec Compiler Access Runtime Gen SpecWire SpecStruct StructFacts CompFacts MsgFacts WriteThms ReadThms SoundThms
  EvolveMore OrderThms DecodeThms.
Import ListNotations.
Local Open Scope N_scope.

(** The field with the place of the structure that a union takes its discriminant from changed. *)
Definition reindex_ty (h : nat -> nat) (t : mfield_type) : mfield_type :=
  match t with TUnion u on i => TUnion u on (h i) | t => t end.
Definition reindex (h : nat -> nat) (f : mfield) : mfield :=
  MkMField (mf_name f) (reindex_ty h (mf_ty f)) (mf_optional f) (mf_size f) (mf_endi f).
(** The place of a member behind the group, which is member [nb] and has [ny] members. *)
Definition behind (nb ny i : nat) : nat := if (i <? nb)%nat then i else (i + ny - 1)%nat.

(** The unions of [l] find in [P] what they find at their new place in [Q]. *)
Definition agrees (h : nat -> nat) (P Q : list value) (l : list mfield) : Prop :=
  forall f u on i acc, In f l -> mf_ty f = TUnion u on i -> nth_error (P ++ acc) i = nth_error (Q ++ acc) (h i).

Lemma agrees_tail : forall h P Q f l, agrees h P Q (f :: l) -> agrees h P Q l.
Proof. intros h P Q f l H g u on i acc Hg. apply H. right. exact Hg. Qed.

Lemma agrees_inside : forall pre l, agrees (Nat.add (length pre)) [] pre l.
Proof. intros pre l f u on i acc _ _. cbn [app]. rewrite nth_error_app2 by lia. f_equal. lia. Qed.

Lemma agrees_behind : forall vb g vg l, (forall f u on i, In f l -> mf_ty f = TUnion u on i -> i <> length vb) ->
  agrees (behind (length vb) (length vg)) (vb ++ [g]) (vb ++ vg) l.
Proof.
  intros vb g vg l H f u on i acc Hf Ht. specialize (H _ _ _ _ Hf Ht). unfold behind.
  rewrite <- !app_assoc. destruct (Nat.ltb_spec i (length vb)).
  - rewrite !nth_error_app1 by lia. reflexivity.
  - rewrite nth_error_app2 by lia. cbn [app]. rewrite (nth_error_app2 vb) by lia. rewrite nth_error_app2 by lia.
    replace (i - length vb)%nat with (S (i - length vb - 1)) by lia. cbn [nth_error]. f_equal. lia.
Qed.

(** ** Reading *)
Lemma skipn_skipn' : forall A (l : list A) a b, skipn a (skipn b l) = skipn (b + a) l.
Proof. intros A l a b. revert l. induction b as [|b IH]; intro l; [reflexivity|]. destruct l as [|x l]; [rewrite !skipn_nil; reflexivity|]. apply IH. Qed.
Lemma read_ty_reindex : forall m emb e endi h t P Q, (forall u on i, t = TUnion u on i -> nth_error P i = nth_error Q (h i)) ->
  forall b, read_ty m emb e endi Q (reindex_ty h t) b = read_ty m emb e endi P t b.
Proof.
  intros m emb e endi h t P Q H b. destruct t; try reflexivity. cbn [reindex_ty read_ty]. erewrite H by reflexivity. reflexivity.
Qed.
Lemma read_optional_eq : forall m opt (r r' : reader value), (forall b, r' b = r b) -> forall b, read_optional m opt r' b = read_optional m opt r b.
Proof.
  intros m opt r r' H b. unfold read_optional. destruct opt; [|apply H]. apply eq_bind; [apply eq_optional, H|reflexivity].
Qed.
Lemma read_fields_ext : forall m emb emb' e b fs, (forall f u, In f fs -> inside (mf_ty f) u -> forall b, read_msg m emb' u b = read_msg m emb u b) ->
  forall off prev, read_fields m emb' e b fs off prev = read_fields m emb e b fs off prev.
Proof.
  intros m emb emb' e b. induction fs as [|[nm ty opt sz endi] fs IHf]; intros IH off prev; [reflexivity|]. cbn [read_fields].
  apply eq_bind; [reflexivity|intro d]. apply eq_bind; [|intros [k v]; apply eq_bind; [reflexivity|intro]; apply IHf; intros g u Hg; apply (IH g); right; exact Hg].
  assert (IHy : forall y, inside ty y -> forall b, read_msg m emb' y b = read_msg m emb y b).
  { intros y Hy. apply (IH (MkMField nm ty opt sz endi)); [left; reflexivity|exact Hy]. }
  apply read_optional_eq. intro b'. destruct ty as [t|r| | |t s|u on i|t y|]; try reflexivity.
  - rewrite !read_ty_ref. destruct r as [s|y]; [reflexivity|]. rewrite !read_ref_msg. apply IHy. constructor.
  - change (read_union m emb' u (nth_error prev i) b' = read_union m emb u (nth_error prev i) b'). rewrite !read_union_eq. apply eq_bind; [reflexivity|intro disc].
    destruct (find_case disc 0 (u_cases u)) as [[k c]|] eqn:F; [|reflexivity].
    destruct (uc_item c) as [r|] eqn:Ec; [|reflexivity]. apply eq_bind; [|reflexivity].
    destruct r as [s|y]; [reflexivity|]. rewrite !read_ref_msg. apply IHy. econstructor; [|exact Ec].
    apply (find_case_first emb) in F. destruct F as (_ & F & _). eapply nth_error_In; exact F.
  - rewrite !read_ty_list. apply eq_rmap. intro b2. destruct e; [|reflexivity]. apply eq_list. apply IHy. constructor.
Qed.
Lemma read_within : forall m emb emb' x, (forall u, within x u -> emb' (m_id u) = emb (m_id u)) -> forall b, read_msg m emb' x b = read_msg m emb x b.
Proof.
  intros m emb emb'. apply (message_ind_inside (fun x => (forall u, within x u -> emb' (m_id u) = emb (m_id u)) -> forall b, read_msg m emb' x b = read_msg m emb x b)).
  intros x IH H b. rewrite !read_msg_eq, H by constructor. apply eq_bind; [|reflexivity]. apply read_fields_ext. intros f u Hf Hu.
  apply (IH f); [exact Hf|exact Hu|]. intros t Ht. apply H. econstructor; eassumption.
Qed.
Lemma read_ext : forall m emb emb', (forall i, emb' i = emb i) -> forall x b, read_msg m emb' x b = read_msg m emb x b.
Proof. intros m emb emb' H x b. apply read_within. intros u _. apply H. Qed.

Lemma read_member_bounded : forall m emb e endi prev opt ty, bounded (read_optional m opt (read_ty m emb e endi prev ty)).
Proof. intros. apply bounded_optional, bounded_ty. intros y _ ? ? ?. apply read_bounded. Qed.

Lemma read_fields_count : forall m emb e b fs off prev n vs, read_fields m emb e b fs off prev = Ok (n, vs) ->
  exists acc, vs = (prev ++ acc)%list /\ length acc = length fs.
Proof.
  intros m emb e b. induction fs as [|[nm ty opt sz endi] fs IH]; intros off prev n vs H; cbn [read_fields] in H.
  - injection H as <- <-. exists []. rewrite app_nil_r. auto.
  - apply bind_ok in H. destruct H as (d & _ & H). apply bind_ok in H. destruct H as ([k v] & _ & H).
    apply bind_ok in H. destruct H as (o & _ & H). apply IH in H. destruct H as (acc & -> & H).
    exists (v :: acc). rewrite <- app_assoc. cbn [app length]. auto.
Qed.
Lemma read_fields_end : forall m emb e b, len b < 2 ^ 64 -> forall fs off prev n vs, off <= len b ->
  read_fields m emb e b fs off prev = Ok (n, vs) -> off <= n /\ n <= len b.
Proof.
  intros m emb e b Hl. induction fs as [|[nm ty opt sz endi] fs IH]; intros off prev n vs Ho H; cbn [read_fields] in H.
  - injection H as <- <-. lia.
  - rewrite slice_from_ok in H by exact Ho. cbn [bind] in H. apply bind_ok in H. destruct H as ([k v] & Hk & H).
    apply read_member_bounded in Hk; [|rewrite len_skipn; lia]. rewrite len_skipn in Hk.
    rewrite uadd_fit in H by lia. cbn [bind] in H. apply IH in H; lia.
Qed.

Definition carried {A} (r : rres (N * list A)) (c : N) (P Q : list A) (r' : rres (N * list A)) : Prop :=
  match r with
  | Ok (n, vs) => exists acc, vs = (P ++ acc)%list /\ r' = Ok (c + n, (Q ++ acc)%list)
  | Err e => r' = Err e
  | Panic => r' = Panic
  end.

Lemma read_carried : forall m emb e b c h P Q, len b < 2 ^ 64 -> c <= len b ->
  forall l o acc, agrees h P Q l -> c + o <= len b ->
  carried (read_fields m emb e (skipn (N.to_nat c) b) l o (P ++ acc)) c P Q
          (read_fields m emb e b (map (reindex h) l) (c + o) (Q ++ acc)).
Proof.
  intros m emb e b c h P Q Hl Hc. induction l as [|[nm ty opt sz endi] l IH]; intros o acc Ha Ho; cbn [map read_fields reindex mf_name mf_ty mf_optional mf_size mf_endi].
  - cbn [carried]. exists acc. auto.
  - rewrite !slice_from_ok by (rewrite ?len_skipn; lia). cbn [bind].
    replace (skipn (N.to_nat (c + o)) b) with (skipn (N.to_nat o) (skipn (N.to_nat c) b))
      by (rewrite skipn_skipn'; f_equal; lia).
    rewrite (read_optional_eq m opt (read_ty m emb e endi (P ++ acc) ty) (read_ty m emb e endi (Q ++ acc) (reindex_ty h ty))).
    2:{ intro b'. apply read_ty_reindex. intros u on i ->. apply (Ha (MkMField nm (TUnion u on i) opt sz endi) u on i); [left; reflexivity|reflexivity]. }
    destruct (read_optional m opt (read_ty m emb e endi (P ++ acc) ty) (skipn (N.to_nat o) (skipn (N.to_nat c) b))) as [[k v]|er|] eqn:E;
      cbn [bind carried]; [|reflexivity..].
    apply read_member_bounded in E; [|rewrite !len_skipn; lia]. rewrite !len_skipn in E.
    rewrite !uadd_fit by lia. cbn [bind]. rewrite <- !app_assoc, <- N.add_assoc. apply IH; [exact (agrees_tail _ _ _ _ _ Ha)|lia].
Qed.

(** ** The whole message *)
Section Grouped.
Variables (m : mode) (x y z : message) (fb fa : list mfield) (gn : string) (gs : size_info) (ge : endianness).
Hypothesis Fx : m_fields x = (fb ++ MkMField gn (TRef (RMessage y)) false gs ge :: fa)%list.
Hypothesis Fz : m_fields z =
  (fb ++ map (reindex (Nat.add (length fb))) (m_fields y) ++ map (reindex (behind (length fb) (length (m_fields y)))) fa)%list.
Hypothesis Fu : forall f u on i, In f fa -> mf_ty f = TUnion u on i -> i <> length fb.

Definition flat_result (r : rres (N * value)) (r' : rres (N * value)) : Prop :=
  match r with
  | Ok (n, v) => exists vb vg va, length vb = length fb /\ length vg = length (m_fields y) /\ length va = length fa /\
      v = VMsg (vb ++ VMsg vg :: va) /\ r' = Ok (n, VMsg (vb ++ vg ++ va))
  | Err e => r' = Err e
  | Panic => r' = Panic
  end.

(** Only lists depend on the mark of the message they are in. *)
Lemma read_unlisted : forall emb e e' b l n vs, (forall f ty u, In f l -> mf_ty f <> TList ty u) -> read_fields m emb e b l n vs = read_fields m emb e' b l n vs.
Proof.
  intros emb e e' b. induction l as [|[nm ty opt sz endi] l IH]; intros n vs H; [reflexivity|]. cbn [read_fields].
  replace (read_ty m emb e' endi vs ty) with (read_ty m emb e endi vs ty).
  2:{ destruct ty; try reflexivity. exfalso. eapply H; [left; reflexivity|reflexivity]. }
  destruct (slice_from b n) as [d| |]; [|reflexivity..]. cbn [bind].
  destruct (read_optional m opt (read_ty m emb e endi vs ty) d) as [[k v]| |]; [|reflexivity..]. cbn [bind].
  destruct (uadd m n k) as [n'| |]; [|reflexivity..]. cbn [bind]. apply IH. intros f t u Hf. apply H. right. exact Hf.
Qed.
Theorem read_grouped : forall emb emb' b, emb (m_id y) = emb (m_id x) \/ (forall f ty u, In f (m_fields y) -> mf_ty f <> TList ty u) ->
  emb' (m_id z) = emb (m_id x) -> (forall f u t, In f (m_fields z) -> inside (mf_ty f) u -> within u t -> emb' (m_id t) = emb (m_id t)) -> len b < 2 ^ 64 ->
  flat_result (read_msg m emb x b) (read_msg m emb' z b).
Proof.
  intros emb emb' b Ey Ez Ei Hl. rewrite !read_msg_eq, (read_fields_ext m emb emb')
    by (intros f u Hf Hu; apply read_within; intros t Ht; exact (Ei f u t Hf Hu Ht)). rewrite Fx, Fz, Ez, !read_fields_app.
  destruct (read_fields m emb (emb (m_id x)) b fb 0 []) as [[n1 vb]|e|] eqn:E1; [|reflexivity..]. cbn [bind]. rewrite read_fields_app.
  pose proof (read_fields_end m emb _ b Hl _ _ _ _ _ (N.le_0_l _) E1) as (_ & L1).
  apply read_fields_count in E1. destruct E1 as (vb' & E1 & C1). cbn [app] in E1. subst vb'.
  cbn [read_fields read_optional]. rewrite slice_from_ok by exact L1. cbn [bind].
  rewrite read_ty_ref, read_ref_msg, read_msg_eq.
  replace (read_fields m emb (emb (m_id y)) (skipn (N.to_nat n1) b) (m_fields y) 0 []) with (read_fields m emb (emb (m_id x)) (skipn (N.to_nat n1) b) (m_fields y) 0 [])
    by (destruct Ey as [-> | Ey]; [reflexivity|apply read_unlisted, Ey]).
  pose proof (read_carried m emb (emb (m_id x)) b n1 (Nat.add (length vb)) [] vb Hl L1 (m_fields y) 0 [] (agrees_inside vb _)) as G.
  rewrite N.add_0_r in G. specialize (G L1). rewrite !app_nil_r in G. cbn [app] in G. rewrite C1 in G. unfold carried in G.
  destruct (read_fields m emb (emb (m_id x)) (skipn (N.to_nat n1) b) (m_fields y) 0 []) as [[n2 vg]|e|] eqn:E2; [|rewrite G; reflexivity..].
  cbn [bind]. destruct G as (vg' & E0 & G). cbn [app] in E0. subst vg'. rewrite G. cbn [bind].
  pose proof (read_fields_end m emb _ (skipn (N.to_nat n1) b) ltac:(rewrite len_skipn; lia) _ _ _ _ _ (N.le_0_l _) E2) as (_ & L2).
  rewrite len_skipn in L2. apply read_fields_count in E2. destruct E2 as (vg' & E2 & C2). cbn [app] in E2. subst vg'.
  rewrite uadd_fit by lia. cbn [bind].
  pose proof (read_carried m emb (emb (m_id x)) b 0 (behind (length fb) (length (m_fields y))) (vb ++ [VMsg vg]) (vb ++ vg) Hl (N.le_0_l _) fa (n1 + n2) []) as K.
  rewrite !app_nil_r, !N.add_0_l in K. cbn [N.to_nat skipn] in K.
  assert (A : agrees (behind (length fb) (length (m_fields y))) (vb ++ [VMsg vg]) (vb ++ vg) fa).
  { rewrite <- C1, <- C2. apply agrees_behind. rewrite C1. exact Fu. }
  specialize (K A ltac:(lia)). unfold carried in K.
  destruct (read_fields m emb (emb (m_id x)) b fa (n1 + n2) (vb ++ [VMsg vg])) as [[n3 vs]|e|] eqn:E3; cbn [bind flat_result]; [|rewrite K; reflexivity..].
  destruct K as (va & -> & K). rewrite K. cbn [bind]. apply read_fields_count in E3. destruct E3 as (va' & E3 & C3).
  apply app_inv_head in E3. subst va'. exists vb, vg, va. repeat split; try assumption.
  - rewrite <- app_assoc. reflexivity.
  - rewrite <- app_assoc. reflexivity.
Qed.

(** ** Writing *)
Section Write.
Context {St : Type} (o : sink St).
Lemma write_optional_eq : forall opt (f f' : value -> wr St) v, (forall v s, f' v s = f v s) -> forall s, write_optional o opt f' v s = write_optional o opt f v s.
Proof.
  intros opt f f' v H s. unfold write_optional. destruct opt; [|apply H]. destruct v; try reflexivity. destruct o0 as [v|]; [|reflexivity].
  unfold optional_write, wseq. destruct (put o [1] s) as [s' [| |]]; [|reflexivity..]. apply H.
Qed.
Lemma write_ty_reindex : forall endi h t P Q, (forall u on i, t = TUnion u on i -> nth_error P i = nth_error Q (h i)) ->
  forall v s, write_ty m o endi Q (reindex_ty h t) v s = write_ty m o endi P t v s.
Proof.
  intros endi h t P Q H v s. destruct t; try reflexivity. cbn [reindex_ty]. destruct v; cbn [write_ty]; erewrite H by reflexivity; reflexivity.
Qed.
Lemma write_reindex : forall h P Q l, (forall f u on i, In f l -> mf_ty f = TUnion u on i -> nth_error P i = nth_error Q (h i)) ->
  forall vs s, write_fields m o Q (map (reindex h) l) vs s = write_fields m o P l vs s.
Proof.
  intros h P Q. induction l as [|[nm ty opt sz endi] l IH]; intros H vs s; [reflexivity|].
  destruct vs as [|v vs]; [reflexivity|]. cbn [map reindex write_fields mf_name mf_ty mf_optional mf_size mf_endi]. unfold wseq.
  rewrite (write_optional_eq opt (write_ty m o endi P ty) (write_ty m o endi Q (reindex_ty h ty))).
  - destruct (write_optional o opt (write_ty m o endi P ty) v s) as [s' [| |]]; [|reflexivity..]. apply IH.
    intros f u on i Hf. apply H. right. exact Hf.
  - intros v' s'. apply write_ty_reindex. intros u on i ->. apply (H (MkMField nm (TUnion u on i) opt sz endi) u on i); [left; reflexivity|reflexivity].
Qed.
Lemma reindex_same : forall l, map (reindex (fun i => i)) l = l.
Proof. induction l as [|[nm ty opt sz endi] l IH]; [reflexivity|]. cbn [map]. rewrite IH. f_equal. destruct ty; reflexivity. Qed.
Lemma write_split : forall Q l tail vs tailv, length vs = length l -> forall s,
  write_fields m o Q (l ++ tail) (vs ++ tailv) s = wseq (write_fields m o Q l vs) (write_fields m o Q tail tailv) s.
Proof.
  intros Q. induction l as [|[nm ty opt sz endi] l IH]; intros tail vs tailv L s; destruct vs as [|v vs]; try discriminate L; [reflexivity|].
  cbn [app write_fields]. unfold wseq at 1 3. destruct (write_optional o opt (write_ty m o endi Q ty) v s) as [s' [| |]] eqn:E; cycle 1.
  1-2: unfold wseq; rewrite E; reflexivity.
  rewrite IH by (cbn in L; lia). unfold wseq. rewrite E. reflexivity.
Qed.

Hypothesis Fb : forall f u on i, In f fb -> mf_ty f = TUnion u on i -> (i < length fb)%nat.
Hypothesis Fy : forall f u on i, In f (m_fields y) -> mf_ty f = TUnion u on i -> (i < length (m_fields y))%nat.
Theorem write_grouped : forall vb vg va s, length vb = length fb -> length vg = length (m_fields y) ->
  write_msg m o z (VMsg (vb ++ vg ++ va)) s = write_msg m o x (VMsg (vb ++ VMsg vg :: va)) s.
Proof.
  intros vb vg va s C1 C2. rewrite !write_msg_eq, Fx, Fz. rewrite !write_split by (rewrite ?map_length; congruence).
  set (P := (vb ++ VMsg vg :: va)%list). set (Q := (vb ++ vg ++ va)%list).
  assert (E1 : forall s, write_fields m o Q fb vb s = write_fields m o P fb vb s).
  { intro t. rewrite <- (reindex_same fb) at 1. apply write_reindex. intros f u on i Hf Hu. specialize (Fb _ _ _ _ Hf Hu).
    unfold P, Q. rewrite !nth_error_app1 by lia. reflexivity. }
  unfold wseq at 1 2. rewrite E1. destruct (write_fields m o P fb vb s) as [t [| |]]; [|reflexivity..].
  rewrite write_split by (rewrite map_length; congruence). cbn [write_fields write_optional].
  change (write_ty m o ge P (TRef (RMessage y)) (VMsg vg)) with (write_msg m o y (VMsg vg)). rewrite write_msg_eq. unfold wseq.
  rewrite (write_reindex (Nat.add (length fb)) vg Q).
  2:{ intros f u on i Hf Hu. specialize (Fy _ _ _ _ Hf Hu). unfold Q. rewrite nth_error_app2 by lia.
      rewrite nth_error_app1 by lia. f_equal. lia. }
  destruct (write_fields m o vg (m_fields y) vg t) as [t' [| |]]; [|reflexivity..].
  apply write_reindex. intros f u on i Hf Hu. unfold P, Q. rewrite <- C1, <- C2.
  pose proof (agrees_behind vb (VMsg vg) vg fa ltac:(rewrite C1; exact Fu)) as A. specialize (A f u on i va Hf Hu).
  rewrite <- !app_assoc in A. exact A.
Qed.
End Write.

(** ** The format *)
Lemma enc_ty_reindex : forall pres endi h t P Q, (forall u on i, t = TUnion u on i -> nth_error P i = nth_error Q (h i)) ->
  forall v b, enc_ty m pres endi Q (reindex_ty h t) v b <-> enc_ty m pres endi P t v b.
Proof.
  intros pres endi h t P Q H v b. destruct t; try reflexivity. cbn [reindex_ty]. destruct v; cbn [enc_ty]; try reflexivity. erewrite H by reflexivity. reflexivity.
Qed.
Lemma enc_optional_iff : forall (pres : N -> Prop) opt (f f' : value -> bytes -> Prop), (forall v b, f' v b <-> f v b) -> forall v b, enc_optional pres opt f' v b <-> enc_optional pres opt f v b.
Proof.
  intros pres opt f f' H v b. unfold enc_optional. destruct opt; [|apply H]. destruct v; try reflexivity. destruct o as [v|]; [|reflexivity].
  split; intros (p & b' & K1 & K2 & K3 & K4); exists p, b'; repeat (split; [assumption|]); apply H, K4.
Qed.
Lemma enc_carried : forall pres h P Q l, agrees h P Q l -> forall acc vs b,
  enc_fields m pres (map (reindex h) l) (Q ++ acc) vs b <-> enc_fields m pres l (P ++ acc) vs b.
Proof.
  intros pres h P Q. induction l as [|f l IH]; intros Ha acc vs b; [reflexivity|].
  destruct vs as [|v vs]; [reflexivity|]. cbn [map enc_fields reindex mf_name mf_ty mf_optional mf_size mf_endi].
  assert (G : forall b1, enc_optional pres (mf_optional f) (enc_ty m pres (mf_endi f) (Q ++ acc) (reindex_ty h (mf_ty f))) v b1 <->
                         enc_optional pres (mf_optional f) (enc_ty m pres (mf_endi f) (P ++ acc) (mf_ty f)) v b1).
  { intro b1. apply enc_optional_iff. intros v' b'. apply enc_ty_reindex. intros u on i Hu. apply (Ha f u on i); [left; reflexivity|exact Hu]. }
  split; intros (b1 & b2 & K1 & K2 & K3); exists b1, b2; (split; [exact K1|]); (split; [apply G, K2|]);
    rewrite <- app_assoc in *; (apply (IH (agrees_tail _ _ _ _ _ Ha)); exact K3).
Qed.
Lemma enc_split : forall pres l1 l2 prev r1 r2 b, length r1 = length l1 ->
  (enc_fields m pres (l1 ++ l2) prev (r1 ++ r2) b <->
   exists b1 b2, b = (b1 ++ b2)%list /\ enc_fields m pres l1 prev r1 b1 /\ enc_fields m pres l2 (prev ++ r1) r2 b2).
Proof.
  intros pres. induction l1 as [|f l1 IH]; intros l2 prev r1 r2 b L; destruct r1 as [|v r1]; try discriminate L; cbn [app enc_fields].
  - rewrite app_nil_r. split; [intro K; exists [], b; auto|]. intros (b1 & b2 & -> & -> & K). exact K.
  - assert (L' : length r1 = length l1) by (cbn in L; lia). split.
    + intros (b1 & b2 & -> & K1 & K2). apply IH in K2; [|exact L']. destruct K2 as (b3 & b4 & -> & K2 & K3).
      exists (b1 ++ b3)%list, b4. split; [rewrite app_assoc; reflexivity|]. split; [exists b1, b3; auto|]. rewrite <- app_assoc in K3. exact K3.
    + intros (b1 & b2 & -> & (b3 & b4 & -> & K1 & K2) & K3). exists b3, (b4 ++ b2)%list. split; [rewrite app_assoc; reflexivity|]. split; [exact K1|].
      apply IH; [exact L'|]. exists b4, b2. split; [reflexivity|]. split; [exact K2|]. rewrite <- app_assoc. exact K3.
Qed.
Theorem enc_grouped : forall pres vb vg va b, length vb = length fb -> length vg = length (m_fields y) ->
  (enc_msg m pres z (VMsg (vb ++ vg ++ va)) b <-> enc_msg m pres x (VMsg (vb ++ VMsg vg :: va)) b).
Proof.
  intros pres vb vg va b C1 C2. rewrite !enc_msg_eq, Fx, Fz. rewrite !enc_split by congruence. cbn [app].
  assert (Y : forall b1, enc_fields m pres (map (reindex (Nat.add (length fb))) (m_fields y)) vb vg b1 <-> enc_msg m pres y (VMsg vg) b1).
  { intro b1. rewrite enc_msg_eq, <- C1. pose proof (enc_carried pres (Nat.add (length vb)) [] vb (m_fields y) (agrees_inside vb _) [] vg b1) as K.
    rewrite !app_nil_r in K. exact K. }
  assert (A : forall b1, enc_fields m pres (map (reindex (behind (length fb) (length (m_fields y)))) fa) (vb ++ vg) va b1 <-> enc_fields m pres fa (vb ++ [VMsg vg]) va b1).
  { intro b1. pose proof (agrees_behind vb (VMsg vg) vg fa ltac:(rewrite C1; exact Fu)) as A.
    pose proof (enc_carried pres _ _ _ _ A [] va b1) as K. rewrite !app_nil_r, C1, C2 in K. exact K. }
  split.
  - intros (b1 & b2 & -> & K1 & K2). exists b1, b2. split; [reflexivity|]. split; [exact K1|].
    apply enc_split in K2; [|rewrite map_length; exact C2]. destruct K2 as (b3 & b4 & -> & K2 & K3).
    cbn [enc_fields mf_optional mf_endi mf_ty enc_optional]. exists b3, b4. split; [reflexivity|]. split; [apply Y, K2|apply A, K3].
  - intros (b1 & b2 & -> & K1 & K2). exists b1, b2. split; [reflexivity|]. split; [exact K1|].
    cbn [enc_fields mf_optional mf_endi mf_ty enc_optional] in K2. destruct K2 as (b3 & b4 & -> & K2 & K3).
    apply enc_split; [rewrite map_length; exact C2|]. exists b3, b4. split; [reflexivity|]. split; [apply Y, K2|apply A, K3].
Qed.
End Grouped.
