(** C93: an array field as separate fields. The theorems. *)

From Coq Require Import Arith NArith ZArith Ascii String List Bool Lia ZifyBool ZifyN ZifyNat.
From Verif Require Import Base Schema Bits Codec Compiler Access SpecStruct StructFacts StructThms BitsFacts NestedThms ItemsThms ArrayThms ArrayExact LayoutExact EvolveThms NestThms SpecUnroll UnrollThms.
Import ListNotations.
Local Open Scope N_scope.
Local Open Scope list_scope.
Ltac Zify.zify_post_hook ::= idtac.

Theorem unroll_accepted : forall m endi enums structs before df items after d d' b, unrolled before df items after d d' ->
  get_bit_size (sf_info df) = Some b -> (forall t, declared_total structs (ss_fields d) = Some t -> t < 2 ^ 64) ->
  forall i j, (exists s, structure_from_model m endi enums structs i d = Ok s) <->
    (exists s', structure_from_model m endi enums structs j d' = Ok s') /\ (b * N.of_nat (length items)) mod 8 = 0.
Proof.
  intros m endi enums structs before df items after d d' b Hu Hb Hf i j. split.
  - intros (s & Hs). destruct (unroll_array m endi enums structs before df items after d d' b Hu Hb Hf i j s Hs) as (Hm & s' & o & ty & view & fb & fa & Hs' & _).
    split; [exists s'; exact Hs'|exact Hm].
  - intros ((s' & Hs') & Hm). eapply unroll_items; eassumption.
Qed.

Lemma unroll_all : forall m endi enums structs before df items after d d' b, unrolled before df items after d d' ->
  get_bit_size (sf_info df) = Some b -> (forall t, declared_total structs (ss_fields d) = Some t -> t < 2 ^ 64) ->
  forall i j s s', structure_from_model m endi enums structs i d = Ok s -> structure_from_model m endi enums structs j d' = Ok s' ->
  exists o ty view fb fa, unroll_shape endi structs before df items b s s' o ty view fb fa.
Proof.
  intros m endi enums structs before df items after d d' b Hu Hb Hf i j s s' Hs Hs'.
  destruct (unroll_array m endi enums structs before df items after d d' b Hu Hb Hf i j s Hs) as (_ & s0 & o & ty & view & fb & fa & H0 & H).
  rewrite Hs' in H0. injection H0 as <-. exists o, ty, view, fb, fa. exact H.
Qed.

Theorem unroll_layout : forall m endi enums structs before df items after d d' b, unrolled before df items after d d' ->
  get_bit_size (sf_info df) = Some b -> (forall t, declared_total structs (ss_fields d) = Some t -> t < 2 ^ 64) ->
  forall i j s s', structure_from_model m endi enums structs i d = Ok s -> structure_from_model m endi enums structs j d' = Ok s' ->
  s_name s' = s_name s /\ s_bit_size s' = s_bit_size s /\ s_byte_size s' = s_byte_size s /\
  (forall n, (n < length before)%nat -> nth_error (s_fields s') n = nth_error (s_fields s) n) /\
  (forall n, nth_error (s_fields s') (length before + length items + n) = nth_error (s_fields s) (length before + 1 + n)) /\
  exists f, nth_error (s_fields s) (length before) = Some (FArray f) /\ fa_array_len f = N.of_nat (length items) /\
  forall n v, nth_error items n = Some v -> exists f', nth_error (s_fields s') (length before + n) = Some (FFixed f') /\
    ff_name f' = sf_name v /\ ff_ty f' = fa_ty f.
Proof.
  intros m endi enums structs before df items after d d' b Hu Hb Hf i j s s' Hs Hs'.
  destruct (unroll_all m endi enums structs before df items after d d' b Hu Hb Hf i j s s' Hs Hs') as (o & ty & view & fb & fa & [U1 U2 U3 U4 U5 U6 U7]).
  split; [exact U5|]. split; [exact U6|]. split; [exact U7|]. rewrite U3, U4, <- U2. split; [|split; [|eexists; split; [rewrite nth_error_app2, Nat.sub_diag by lia; reflexivity|split; [reflexivity|]]]].
  - intros n Hn. rewrite !nth_error_app1 by exact Hn. reflexivity.
  - intros n. rewrite (nth_error_app2 fb (FArray _ :: fa)) by lia. rewrite nth_error_app2 by lia. rewrite nth_error_app2 by (rewrite items_length; lia). rewrite items_length.
    replace (length fb + length items + n - length fb - length items)%nat with n by lia. replace (length fb + 1 + n - length fb)%nat with (S n) by lia. reflexivity.
  - intros n v Hv. rewrite nth_error_app2 by lia. replace (length fb + n - length fb)%nat with n by lia.
    assert (L : (n < length items)%nat) by (apply nth_error_Some; congruence). rewrite nth_error_app1 by (rewrite items_length; exact L).
    erewrite items_nth by (first [exact Hu | exact Hb | exact Hv | eassumption]). eexists. split; [reflexivity|]. split; reflexivity.
Qed.

Lemma update_unique : forall buf o w v b1 b2, is_field_update buf o w v b1 -> is_field_update buf o w v b2 -> b1 = b2.
Proof.
  intros buf o w v b1 b2 (L1 & O1 & U1) (L2 & O2 & U2). apply bits_ext; [exact O1|exact O2|congruence|]. intro i. rewrite U1, U2. reflexivity.
Qed.
Lemma total_firstn : forall structs l n o, declared_total structs l = Some o -> exists o', declared_total structs (firstn n l) = Some o'.
Proof.
  intros structs l n o H. rewrite <- (firstn_skipn n l) in H. apply StructThms.declared_total_app in H. destruct H as (a & ? & H & _). exists a. exact H.
Qed.

Section Access.
Variables (m mr : mode) (enums : smap enum_) (structs : smap structure) (before : list sfield) (df : sfield) (items after : list sfield) (d d' : sstruct) (b o : N).
Hypothesis Hu : unrolled before df items after d d'.
Hypothesis Hb : get_bit_size (sf_info df) = Some b.
Hypothesis Hnb : get_simple_type (sf_info df) <> Boolean.
Hypothesis Hf : forall t, declared_total structs (ss_fields d) = Some t -> t < 2 ^ 64.
Hypothesis Ho : declared_total structs before = Some o.
Variables (i j : N) (s s' : structure) (f : array_field).
Hypothesis Hs : structure_from_model m Little enums structs i d = Ok s.
Hypothesis Hs' : structure_from_model m Little enums structs j d' = Ok s'.
Hypothesis Hfa : nth_error (s_fields s) (length before) = Some (FArray f).
Let k := N.of_nat (length items).

Lemma at_array : declared_at structs d (length before) o (b * k).
Proof.
  pose proof (array_bits structs before df items after d d' b Hu Hb) as Ha. destruct Hu as (E1 & _). split.
  - rewrite E1, firstn_app, Nat.sub_diag, firstn_all, firstn_O, app_nil_r. exact Ho.
  - exists df. split; [rewrite E1, nth_error_app2, Nat.sub_diag by lia; reflexivity|exact Ha].
Qed.
Lemma at_item : forall n, (n < length items)%nat -> declared_at structs d' (length before + n) (o + b * N.of_nat n) b.
Proof.
  intros n Hn. destruct (nth_error items n) as [v|] eqn:Hv; [|apply nth_error_None in Hv; lia].
  pose proof (item_bits structs before df items after d d' b Hu Hb v (nth_error_In _ _ Hv)) as Hi.
  pose proof (items_total structs before df items after d d' b Hu Hb (firstn n items)) as Ht. rewrite firstn_length_le in Ht by lia.
  destruct Hu as (_ & E2 & _). split.
  - rewrite E2, firstn_app. rewrite firstn_all2 by lia. replace (length before + n - length before)%nat with n by lia.
    rewrite firstn_app. replace (n - length items)%nat with 0%nat by lia. rewrite firstn_O, app_nil_r. apply total_app; [exact Ho|].
    apply Ht. intros x Hx. rewrite <- (firstn_skipn n items). apply in_or_app. left. exact Hx.
  - exists v. split; [|exact Hi]. rewrite E2, nth_error_app2 by lia. replace (length before + n - length before)%nat with n by lia. rewrite nth_error_app1 by lia. exact Hv.
Qed.
Lemma item_there : forall n, (n < length items)%nat -> exists f', nth_error (s_fields s') (length before + n) = Some (FFixed f').
Proof.
  intros n Hn. destruct (nth_error items n) as [v|] eqn:Hv; [|apply nth_error_None in Hv; lia].
  destruct (unroll_layout m Little enums structs before df items after d d' b Hu Hb Hf i j s s' Hs Hs') as (_ & _ & _ & _ & _ & f0 & _ & _ & H).
  destruct (H n v Hv) as (f' & H' & _). exists f'. exact H'.
Qed.
Lemma bytes_same : s_byte_size s' = s_byte_size s.
Proof. destruct (unroll_layout m Little enums structs before df items after d d' b Hu Hb Hf i j s s' Hs Hs') as (_ & _ & H & _). exact H. Qed.
Lemma no_over : no_overflow m structs d /\ no_overflow m structs d'.
Proof.
  split; [right; exact Hf|]. right. intros t Ht. apply Hf. rewrite <- Ht. symmetry. eapply same_total; eassumption.
Qed.
Lemma df_at : nth_error (ss_fields d) (length before) = Some df.
Proof. destruct Hu as (E1 & _). rewrite E1, nth_error_app2, Nat.sub_diag by lia. reflexivity. Qed.
Lemma df_len : sf_array_len df = Some k.
Proof. destruct Hu as (_ & _ & _ & H & _). exact H. Qed.

Theorem item_same : forall E, b mod 8 = 0 -> o mod 8 = 0 -> forall n f', n < k -> nth_error (s_fields s') (length before + N.to_nat n) = Some (FFixed f') ->
  forall data, s_byte_size s <= len data -> bytes_ok data ->
  arr_get (E:=E) mr f data n = get_raw mr f' data /\ forall v, arr_set (E:=E) mr f data n v = set_raw mr f' data v.
Proof.
  intros E Hm Hom n f' Hn Hf' data Hl Hd. destruct no_over as (N1 & N2).
  destruct (array_field_correct (E:=E) m mr enums structs i d s (length before) df f b k o Hs N1 df_at Hb Hnb df_len Hfa at_array Hm Hom) as (_ & Hw & H).
  destruct (H data Hl Hd) as (_ & H1 & H2 & _).
  pose proof (at_item (N.to_nat n) ltac:(unfold k in Hn; lia)) as Ha. rewrite N2Nat.id in Ha.
  assert (Had : addressable (o + b * n) b).
  { unfold addressable. rewrite Hm. change (0 =? 0) with true. cbv iota. rewrite N.add_mod, Hom, N.mul_mod, Hm by discriminate. reflexivity. }
  assert (Hl' : s_byte_size s' <= len data) by (rewrite bytes_same; exact Hl).
  split.
  - destruct (H1 n Hn) as (v & -> & Hv).
    destruct (get_raw_exact (E:=E) m mr enums structs j d' s' _ f' _ _ data Hs' N2 Hf' Ha ltac:(lia) Had Hl' Hd) as (v' & -> & Hv').
    rewrite (is_field_value_unique _ _ _ _ _ Hv Hv'). reflexivity.
  - intro x. destruct (H2 n x Hn) as (v & -> & Hv).
    destruct (set_raw_exact (E:=E) m mr enums structs j d' s' _ f' _ _ data x Hs' N2 Hf' Ha ltac:(lia) Had Hl' Hd) as (v' & -> & Hv').
    rewrite (update_unique _ _ _ _ _ _ Hv Hv'). reflexivity.
Qed.
Theorem item_exact : forall E, 0 < b <= 64 -> (forall n, n < k -> addressable (o + b * n) b) ->
  ((forall n f' data, n < k -> nth_error (s_fields s') (length before + N.to_nat n) = Some (FFixed f') -> s_byte_size s <= len data -> bytes_ok data ->
      arr_get (E:=E) mr f data n = get_raw mr f' data) <-> b mod 8 = 0 /\ o mod 8 = 0) /\
  ((forall n f' data v, n < k -> nth_error (s_fields s') (length before + N.to_nat n) = Some (FFixed f') -> s_byte_size s <= len data -> bytes_ok data ->
      arr_set (E:=E) mr f data n v = set_raw mr f' data v) <-> b mod 8 = 0 /\ o mod 8 = 0).
Proof.
  intros E Hw Had. destruct no_over as (N1 & N2).
  destruct (array_exact (E:=E) m mr enums structs i d s (length before) df f b k o Hs N1 df_at Hb Hnb df_len Hfa at_array) as ((G & _) & (S & _)).
  split; split.
  - intro H. apply G. intros data n Hl Hd Hn. destruct (item_there (N.to_nat n) ltac:(unfold k in Hn; lia)) as (f' & Hf').
    rewrite (H n f' data Hn Hf' Hl Hd). pose proof (at_item (N.to_nat n) ltac:(unfold k in Hn; lia)) as Ha. rewrite N2Nat.id in Ha.
    apply (get_raw_exact (E:=E) m mr enums structs j d' s' _ f' _ _ data Hs' N2 Hf' Ha Hw (Had n Hn)); [rewrite bytes_same; exact Hl|exact Hd].
  - intros (Hm & Hom) n f' data Hn Hf' Hl Hd. apply (item_same E Hm Hom n f' Hn Hf' data Hl Hd).
  - intro H. apply S. intros data n v Hl Hd Hn. destruct (item_there (N.to_nat n) ltac:(unfold k in Hn; lia)) as (f' & Hf').
    rewrite (H n f' data v Hn Hf' Hl Hd). pose proof (at_item (N.to_nat n) ltac:(unfold k in Hn; lia)) as Ha. rewrite N2Nat.id in Ha.
    apply (set_raw_exact (E:=E) m mr enums structs j d' s' _ f' _ _ data v Hs' N2 Hf' Ha Hw (Had n Hn)); [rewrite bytes_same; exact Hl|exact Hd].
  - intros (Hm & Hom) n f' data v Hn Hf' Hl Hd. apply (item_same E Hm Hom n f' Hn Hf' data Hl Hd).
Qed.
End Access.
