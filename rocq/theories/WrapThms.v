(** Proofs for C97: messages in which lists are arrays. *)

From Coq Require Import Arith NArith ZArith String List Bool Lia ZifyBool ZifyN ZifyNat.
From Verif Require Import Base Schema Bits Codec Compiler Access Runtime Gen SpecStruct SpecComp SpecReadable SpecWire StructFacts MsgFacts WriteThms SpecKind SpecWrap.
Import ListNotations.
Local Open Scope N_scope.
Ltac Zify.zify_post_hook ::= idtac.

Definition holds (x : message) (s : structure) : Prop := exists i n k t z z', x = MkMessage i n [MkMField k t false z Little] z' /\
  (t = TRef (RStruct s) \/ exists ty, t = TFixed ty /\ N.of_nat (get_byte_size ty) = s_byte_size s).

(** What the compiler notes about sizes. *)
Definition less_open (z z' : size_info) : Prop := is_dyn_sized z' = is_dyn_sized z /\ (is_element_dyn_sized z' = true -> is_element_dyn_sized z = true).

Inductive alt_ty : mfield_type -> mfield_type -> Prop :=
| at_same : forall t, alt_ty t t
| at_msg : forall x x', alt_msg x x' -> alt_ty (TRef (RMessage x)) (TRef (RMessage x'))
| at_list : forall ty x x', alt_msg x x' -> alt_ty (TList ty x) (TList ty x')
| at_array : forall ty x s, holds x s -> alt_ty (TList ty x) (TArray ty s)
with alt_fs : list mfield -> list mfield -> Prop :=
| af_nil : alt_fs [] []
| af_cons : forall n t t' o z z' e r r', alt_ty t t' -> less_open z z' -> alt_fs r r' -> alt_fs (MkMField n t o z e :: r) (MkMField n t' o z' e :: r')
with alt_msg : message -> message -> Prop :=
| am_mk : forall i n fs fs' z z', alt_fs fs fs' -> less_open z z' -> alt_msg (MkMessage i n fs z) (MkMessage i n fs' z').
Scheme alt_ty_mut := Minimality for alt_ty Sort Prop
with alt_fs_mut := Minimality for alt_fs Sort Prop
with alt_msg_mut := Minimality for alt_msg Sort Prop.
Combined Scheme alt_mut from alt_ty_mut, alt_fs_mut, alt_msg_mut.

Lemma alt_msg_refl : forall x, alt_msg x x.
Proof. intros [i n fs z]. constructor; [|split; auto]. induction fs as [|[k t o y e] fs IH]; constructor; [constructor|split; auto|exact IH]. Qed.

(** ** Encodings *)

Section Enc.
Variables (m : mode) (pres : N -> Prop).

Lemma holds_enc : forall x s, holds x s -> forall b, (exists v, enc_msg m pres x v b) <-> (len b = s_byte_size s /\ bytes_ok b).
Proof.
  intros x s (i & n & k & t & z & z' & -> & Ht) b. split.
  - intros ([| | | | |vs| |] & H); try contradiction. apply enc_msg_eq in H. cbn [m_fields enc_fields] in H. destruct vs as [|v [|? ?]]; try contradiction.
    2:{ destruct H as (? & ? & _ & _ & []). }
    destruct H as (b1 & b2 & -> & H & ->). rewrite app_nil_r. cbn [mf_optional mf_ty mf_endi enc_optional] in H.
    destruct Ht as [->|(ty & -> & Hty)].
    + cbn in H. destruct v; try contradiction. destruct H as (H1 & H2 & ->). auto.
    + cbn in H. destruct v; try contradiction. destruct H as (H1 & H2 & _). split; [unfold len; lia|exact H2].
  - intros [H1 H2]. destruct Ht as [->|(ty & -> & Hty)].
    + exists (VMsg [VStruct b]). apply enc_msg_eq. cbn. exists b, []. rewrite app_nil_r. auto.
    + exists (VMsg [VScalar (be_value (rev b))]). apply enc_msg_eq. cbn. exists b, []. rewrite app_nil_r. split; [reflexivity|]. split; [|reflexivity].
      split; [unfold len in H1; lia|]. auto.
Qed.
Lemma chunks_data : forall x s, holds x s -> forall items chunks, Forall2 (enc_msg m pres x) items chunks ->
  len (concat chunks) = len items * s_byte_size s /\ bytes_ok (concat chunks).
Proof.
  intros x s H items chunks F. induction F as [|v c items chunks Hc F IH]; [split; [reflexivity|constructor]|]. cbn [concat].
  destruct (proj1 (holds_enc _ _ H c) (ex_intro _ v Hc)) as [L B]. destruct IH as [L' B']. split.
  - unfold len in *. rewrite app_length. cbn [length]. rewrite Nat2N.inj_add, Nat2N.inj_succ, N.mul_succ_l, L, L'. lia.
  - apply Forall_app; auto.
Qed.
Lemma data_chunks : forall x s, holds x s -> forall n data, len data = N.of_nat n * s_byte_size s -> bytes_ok data ->
  exists items chunks, length items = n /\ Forall2 (enc_msg m pres x) items chunks /\ data = concat chunks.
Proof.
  intros x s H n. induction n as [|n IH]; intros data L B.
  - exists [], []. split; [reflexivity|]. split; [constructor|]. destruct data; [reflexivity|]. unfold len in L. cbn [length] in L. lia.
  - rewrite Nat2N.inj_succ, N.mul_succ_l in L. set (k := N.to_nat (s_byte_size s)). assert (Lk : (k <= length data)%nat) by (unfold len in L; subst k; lia).
    destruct (IH (skipn k data)) as (items & chunks & E1 & E2 & E3).
    + unfold len in *. rewrite skipn_length. subst k. lia.
    + rewrite <- (firstn_skipn k data) in B. apply Forall_app in B. apply B.
    + destruct (proj2 (holds_enc _ _ H (firstn k data))) as (v & Hv).
      * split; [unfold len; rewrite firstn_length; subst k; lia|]. rewrite <- (firstn_skipn k data) in B. apply Forall_app in B. apply B.
      * exists (v :: items), (firstn k data :: chunks). cbn. rewrite <- E3, firstn_skipn. split; [lia|]. split; [constructor; assumption|reflexivity].
Qed.

Lemma alt_encs :
  (forall t t', alt_ty t t' -> forall e prev v b, enc_ty m pres e prev t' v b <-> enc_ty m pres e prev t v b) /\
  (forall fs fs', alt_fs fs fs' -> forall prev rest b, enc_fields m pres fs' prev rest b <-> enc_fields m pres fs prev rest b) /\
  (forall x x', alt_msg x x' -> forall v b, enc_msg m pres x' v b <-> enc_msg m pres x v b).
Proof.
  apply alt_mut.
  - intros. reflexivity.
  - intros x x' _ IH e prev v b. exact (IH v b).
  - intros ty x x' _ IH e prev v b. destruct v; try reflexivity. cbn [enc_ty].
    assert (K : forall items chunks, Forall2 (enc_msg m pres x') items chunks <-> Forall2 (enc_msg m pres x) items chunks).
    { intros items chunks. split; intro F; induction F; constructor; auto; apply IH; assumption. }
    split; intros (p & items & chunks & H1 & H2 & H3 & H4); exists p, items, chunks; (split; [exact H1|]; split; [exact H2|]; split; [apply K; exact H3|exact H4]).
  - intros ty x s H e prev v b. destruct v as [| | |data n| | | |]; try reflexivity. cbn [enc_ty]. split.
    + intros (L & B & p & Hp & ->). destruct (data_chunks x s H (N.to_nat n) data) as (items & chunks & E1 & E2 & E3); [rewrite N2Nat.id; exact L|exact B|].
      exists p, items, chunks. split; [exact Hp|]. split; [unfold len; lia|]. auto.
    + intros (p & items & chunks & Hp & Hn & F & -> & ->). destruct (chunks_data x s H items chunks F) as [L B]. rewrite Hn. split; [exact L|].
      split; [exact B|]. exists p. rewrite <- Hn. auto.
  - intros. reflexivity.
  - intros n t t' o z z' e r r' _ IHt _ _ IHr prev rest b. destruct rest as [|y rest]; [reflexivity|]. cbn [enc_fields mf_optional mf_endi mf_ty].
    assert (K : forall b1, enc_optional pres o (enc_ty m pres e prev t') y b1 <-> enc_optional pres o (enc_ty m pres e prev t) y b1).
    { intro b1. unfold enc_optional. destruct o; [|apply IHt]. destruct y as [| | | | | | |[y|]]; try reflexivity.
      split; intros (p & b' & H1 & H2 & H3 & H4); exists p, b'; (split; [exact H1|]; split; [exact H2|]; split; [exact H3|apply IHt; exact H4]). }
    split; intros (b1 & b2 & H1 & H2 & H3); exists b1, b2; (split; [exact H1|]; split; [apply K; exact H2|apply IHr; exact H3]).
  - intros i n fs fs' z z' _ IH _ v b. destruct v as [| | | | |vs| |]; try reflexivity. rewrite !enc_msg_eq. apply IH.
Qed.
End Enc.

(** ** Writing *)

Lemma wseq_ext : forall St (a a' c c' : wr St), (forall s, a' s = a s) -> (forall s, c' s = c s) -> forall s, wseq a' c' s = wseq a c s.
Proof. intros St a a' c c' H1 H2 s. unfold wseq. rewrite H1. destruct (a s) as [s' [|e|]]; auto. Qed.
Lemma alt_writes : forall m St (o : sink St),
  (forall t t', alt_ty t t' -> forall e all v s, write_ty m o e all t' v s = write_ty m o e all t v s) /\
  (forall fs fs', alt_fs fs fs' -> forall all rest s, write_fields m o all fs' rest s = write_fields m o all fs rest s) /\
  (forall x x', alt_msg x x' -> forall v s, write_msg m o x' v s = write_msg m o x v s).
Proof.
  intros m St o. apply alt_mut.
  - intros. reflexivity.
  - intros x x' _ IH e all v s. exact (IH v s).
  - intros. destruct v; reflexivity.
  - intros. destruct v; reflexivity.
  - intros. reflexivity.
  - intros n t t' op z z' e r r' _ IHt _ _ IHr all rest s. destruct rest as [|y rest]; [reflexivity|]. cbn [write_fields].
    apply wseq_ext; [|intro; apply IHr]. intro s0. unfold write_optional. destruct op; [|apply IHt]. 
    destruct y as [| | | | | | |[y|]]; try reflexivity. unfold optional_write. apply wseq_ext; [reflexivity|]. intro; apply IHt.
  - intros i n fs fs' z z' _ IH _ v s. destruct v as [| | | | |vs| |]; try reflexivity. rewrite !write_msg_eq. apply IH.
Qed.

Lemma alt_written : forall x x', alt_msg x x' -> written_alike x x'.
Proof.
  intros x x' H. split; [intros; apply alt_encs; exact H|]. split; [intros; apply alt_encs; exact H|]. intros. apply alt_writes, H.
Qed.

(** ** Messages that are tidy stay so *)

Lemma alt_open :
  (forall t t', alt_ty t t' -> open_ended t' -> open_ended t) /\
  (forall fs fs', alt_fs fs fs' -> forall l' f' r', fs' = l' ++ f' :: r' -> exists l f r, fs = l ++ f :: r /\ length r = length r' /\ alt_ty (mf_ty f) (mf_ty f') /\ (open_ended (mf_ty f') -> open_ended (mf_ty f))) /\
  (forall x x', alt_msg x x' -> forall f', In f' (m_fields x') -> exists f, In f (m_fields x) /\ alt_ty (mf_ty f) (mf_ty f') /\ (open_ended (mf_ty f') -> open_ended (mf_ty f))).
Proof.
  apply alt_mut.
  - auto.
  - intros x x' _ IH H. inversion H; subst. destruct (IH _ H1) as (g & G1 & _ & G2). econstructor; eauto.
  - intros. constructor.
  - intros. constructor.
  - intros l' f' r' E. destruct l'; discriminate.
  - intros n t t' o z z' e r r' Ht IHt _ Hr IHr l' f' r1 E. destruct l' as [|g l']; cbn in E; injection E as E1 E2.
    + subst f' r1. exists [], (MkMField n t o z e), r. cbn. split; [reflexivity|]. split; [|auto].
      clear -Hr. induction Hr; cbn; [reflexivity|f_equal; assumption].
    + destruct (IHr l' f' r1 E2) as (l & f & r0 & -> & H). exists (MkMField n t o z e :: l), f, r0. split; [reflexivity|exact H].
  - intros i n fs fs' z z' _ IH _ f' Hf. cbn [m_fields] in *. apply in_split in Hf. destruct Hf as (l' & r' & ->).
    destruct (IH l' f' r' eq_refl) as (l & f & r & -> & _ & H). exists f. split; [apply in_elt|exact H].
Qed.
Lemma tidy_inside : forall x f y, tidy x -> In f (m_fields x) -> inside (mf_ty f) y -> tidy y.
Proof.
  intros x f y [H1 H2] Hf Hy. split.
  - intros z l g r W. apply H1. exact (within_deep _ f y z Hf Hy W).
  - intros z g ty q h W. apply H2. exact (within_deep _ f y z Hf Hy W).
Qed.
Lemma tidy_make : forall x, (forall l f r, m_fields x = l ++ f :: r -> r <> [] -> ~ open_ended (mf_ty f)) ->
  (forall f ty z g, In f (m_fields x) -> mf_ty f = TList ty z -> In g (m_fields z) -> ~ open_ended (mf_ty g)) ->
  (forall f y, In f (m_fields x) -> inside (mf_ty f) y -> tidy y) -> tidy x.
Proof.
  intros x H1 H2 H3. split.
  - intros y l f r W E. destruct W as [x|x g y z Hg Hy W]; [eapply H1; eauto|]. exact (proj1 (H3 g y Hg Hy) z l f r W E).
  - intros y f ty z g W Hf E. destruct W as [x|x h y y' Hh Hy W]; [eapply H2; eauto|]. exact (proj2 (H3 h y Hh Hy) y' f ty z g W Hf E).
Qed.
Lemma alt_tidy : 
  (forall t t', alt_ty t t' -> (forall y, inside t y -> tidy y) -> forall y, inside t' y -> tidy y) /\
  (forall fs fs', alt_fs fs fs' -> (forall f y, In f fs -> inside (mf_ty f) y -> tidy y) -> forall f y, In f fs' -> inside (mf_ty f) y -> tidy y) /\
  (forall x x', alt_msg x x' -> tidy x -> tidy x').
Proof.
  apply alt_mut.
  - auto.
  - intros x x' _ IH H y Hy. inversion Hy; subst. apply IH, H. constructor.
  - intros ty x x' _ IH H y Hy. inversion Hy; subst. apply IH, H. constructor.
  - intros ty x s _ _ y Hy. inversion Hy.
  - intros _ f y [].
  - intros n t t' o z z' e r r' _ IHt _ _ IHr H f y [<-|Hf] Hy.
    + eapply IHt; [|exact Hy]. intros y0 Hy0. eapply (H (MkMField n t o z e)); [left; reflexivity|exact Hy0].
    + eapply IHr; [|exact Hf|exact Hy]. intros f0 y0 Hf0. apply H. right. exact Hf0.
  - intros i n fs fs' z z' Hfs IH Hz Ht. destruct alt_open as (A1 & A2 & A3).
    assert (K : forall f y, In f fs -> inside (mf_ty f) y -> tidy y) by (intros f y Hf Hy; exact (tidy_inside _ f y Ht Hf Hy)).
    apply tidy_make; cbn [m_fields].
    + intros l' f' r' -> Hr Ho. destruct (A2 _ _ Hfs l' f' r' eq_refl) as (l & f & r & -> & Lr & _ & Hop).
      refine (proj1 Ht (MkMessage i n (l ++ f :: r) z) l f r (within_here _) eq_refl _ (Hop Ho)). destruct r; [|discriminate]. destruct r'; [exact (False_ind _ (Hr eq_refl))|discriminate].
    + intros f' ty y' g' Hf E Hg Ho. destruct (A3 _ _ (am_mk i n fs fs' z z' Hfs Hz) f' Hf) as (f & Hf0 & Ha & _). rewrite E in Ha. inversion Ha as [t0 E0|x0 x0' K0|ty0 x0 x0' K0 E0|]; subst.
      * refine (proj2 Ht _ f ty y' g' (within_here _) Hf0 _ Hg Ho). congruence.
      * destruct (A3 _ _ K0 g' Hg) as (g & G1 & _ & G2). refine (proj2 Ht _ f ty x0 g (within_here _) Hf0 _ G1 (G2 Ho)). congruence.
    + apply IH, K.
Qed.
