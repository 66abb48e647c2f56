(** The reader gives exactly what SpecDecode says, for C78. *)

From Coq Require Import Arith NArith ZArith List Bool Lia ZifyBool ZifyN ZifyNat.
From Verif Require Import Base Schema Codec Compiler Access Bits BitsFacts CodecFacts StructFacts ArrayThms BEThms
  Utf8 SpecUtf8 Utf8Thms Runtime Gen SpecWire SpecUnion MsgFacts WriteThms ReadThms SoundThms SpecDecode.
Import ListNotations.
Local Open Scope N_scope.

Definition as_found {A} (b : bytes) (o : rres (N * A)) : found A :=
  match o with
  | Ok (n, v) => Found (firstn (N.to_nat n) b) v (skipn (N.to_nat n) b)
  | Err e => Stops (Reports e)
  | Panic => Stops Crashes
  end.
Definition tells {A} (D : bytes -> found A -> Prop) (r : reader A) : Prop :=
  forall b, len b < 2 ^ 64 -> bytes_ok b -> forall o, D b o <-> o = as_found b (r b).

Lemma as_found_app : forall A (c r : bytes) (v : A) n, n = len c -> as_found (c ++ r) (Ok (n, v)) = Found c v r.
Proof. intros A c r v n ->. unfold as_found. rewrite firstn_len_app, skipn_len_app. reflexivity. Qed.

Lemma app_unique : forall (p q r s : bytes), length p = length q -> p ++ r = q ++ s -> p = q /\ r = s.
Proof.
  intros p. induction p as [|x p IH]; intros [|y q] r s Hl E; try discriminate; [auto|].
  inversion E. subst. inversion Hl as [Hl']. destruct (IH q r s Hl' H1) as (-> & ->). auto.
Qed.

Lemma number_same : forall e sz n n' p, number e sz n p -> number e sz n' p -> n = n'.
Proof. intros e sz n n' p (_ & _ & ->) (_ & _ & ->). reflexivity. Qed.

Lemma number_unique : forall e sz n n' p p' r r', number e sz n p -> number e sz n' p' -> p ++ r = p' ++ r' ->
  n = n' /\ p = p' /\ r = r'.
Proof.
  intros e sz n n' p p' r r' H H' E. pose proof (number_length _ _ _ _ H). pose proof (number_length _ _ _ _ H').
  apply app_unique in E; [|congruence]. destruct E as (-> & ->). split; [|auto]. eapply number_same; eauto.
Qed.

Lemma prefix_cases : forall endi ty b, bytes_ok b ->
  ((length b < get_byte_size ty)%nat /\ value_reader endi ty b = Err Truncated) \/
  exists n p r, b = p ++ r /\ number endi (get_byte_size ty) n p /\ value_reader endi ty b = Ok (len p, n) /\
    len p = N.of_nat (get_byte_size ty) /\ n < 2 ^ 64.
Proof.
  intros endi ty b Hb. destruct (value_reader_cases endi ty b) as [E|(n & E)].
  - left. split; [|exact E]. destruct (lt_dec (length b) (get_byte_size ty)) as [H|H]; [exact H|].
    destruct (value_reader_long endi ty b) as (n & E'); [unfold len; lia|congruence].
  - right. destruct (value_reader_ok _ _ _ _ _ E Hb) as (_ & Hl & Hn).
    exists n, (firstn (get_byte_size ty) b), (skipn (get_byte_size ty) b).
    split; [symmetry; apply firstn_skipn|]. split; [exact Hn|].
    assert (L : len (firstn (get_byte_size ty) b) = N.of_nat (get_byte_size ty)) by (apply len_firstn; unfold len in Hl; lia).
    rewrite L. split; [exact E|]. split; [reflexivity|].
    apply number_iff in Hn. destruct Hn as (Hn & _). pose proof (byte_size_8 ty).
    assert (tmod (get_byte_size ty) <= 2 ^ 64) by (unfold tmod; apply N.pow_le_mono_r; lia). lia.
Qed.

Ltac nolen := match goal with
  | H : (length (?p ++ _) < ?k)%nat, N : number _ ?k _ ?p |- _ =>
      exfalso; pose proof (number_length _ _ _ _ N); rewrite app_length in H; lia
  end.

Section Tells.
Variables (m : mode) (emb : N -> bool).

Lemma tells_fixed : forall e endi prev ty, tells (content m emb e endi prev (TFixed ty)) (read_ty m emb e endi prev (TFixed ty)).
Proof.
  intros e endi prev ty b Hl Hb o. cbn [read_ty]. unfold rmap.
  destruct (prefix_cases endi ty b Hb) as [(Hs & E)|(n & p & r & -> & Hn & E & Hp & Hn64)]; rewrite E; cbn [bind].
  - cbn [as_found]. split; intro H; [inversion H; subst; [nolen|reflexivity]|subst o; apply number_cut; exact Hs].
  - rewrite as_found_app by reflexivity. split; intro H.
    + inversion H; subst; [|nolen].
      match goal with X : _ ++ _ = _ ++ _ |- _ => rename X into EE end.
      eapply number_unique in EE; [|eassumption..]. destruct EE as (-> & -> & ->). reflexivity.
    + subst o. apply number_there. exact Hn.
Qed.

Lemma no_nul_split : forall s r s' r', no_nul s -> no_nul s' -> s ++ [0] ++ r = s' ++ [0] ++ r' -> s = s' /\ r = r'.
Proof.
  induction s as [|x s IH]; intros r [|y s'] r' H H' E; cbn in E.
  - inversion E. auto.
  - inversion E; subst. inversion H'; subst. congruence.
  - inversion E; subst. inversion H; subst. congruence.
  - inversion E; subst. inversion H; inversion H'; subst. destruct (IH r s' r') as (-> & ->); auto.
Qed.
Lemma no_nul_zero : forall s r, ~ no_nul (s ++ [0] ++ r).
Proof. intros s r H. unfold no_nul in H. rewrite Forall_app in H. destruct H as (_ & H). inversion H. congruence. Qed.

Lemma find_zero_split : forall b p, find_zero 0 b = Some p -> exists s r, b = s ++ [0] ++ r /\ no_nul s /\ p = len s.
Proof.
  intros b p H. apply find_zero_spec in H. rewrite N.sub_0_r in H. destruct H as (_ & Hp & Hn & Hz).
  exists (firstn (N.to_nat p) b), (skipn (S (N.to_nat p)) b). split; [|split; [exact Hn|]].
  - rewrite <- (firstn_skipn (N.to_nat p) b) at 1. f_equal. clear - Hz. revert b Hz.
    induction (N.to_nat p) as [|q IH]; intros [|y b] Hz; try discriminate; [inversion Hz; reflexivity|].
    cbn in Hz. cbn [skipn]. rewrite (IH b Hz). reflexivity.
  - rewrite len_firstn; [lia|unfold len in Hp; lia].
Qed.

Lemma tells_text : forall e endi prev,
  tells (content m emb e endi prev TNullTerminatedString) (read_ty m emb e endi prev TNullTerminatedString).
Proof.
  intros e endi prev b Hl Hb o. cbn [read_ty]. unfold rmap, nts_from_slice.
  destruct (find_zero 0 b) as [p|] eqn:F.
  - apply find_zero_split in F. destruct F as (s & r & -> & Hs & ->).
    rewrite slice_prefix. cbn [bind]. unfold str_from_utf8. destruct (from_utf8 s) eqn:U.
    + assert (Hu : is_utf8 s) by (apply utf8_iff; exact U). cbn [bind].
      rewrite uadd_fit by (rewrite !len_app in Hl; unfold len in *; cbn [length] in *; lia). cbn [bind].
      rewrite app_assoc, as_found_app by (rewrite len_app; reflexivity). rewrite <- app_assoc. split; intro H.
      * inversion H; subst.
        -- match goal with X : _ ++ _ = _ ++ _ |- _ => apply (no_nul_split _ _ _ _) in X; [|assumption..]; destruct X as (-> & ->) end. reflexivity.
        -- match goal with X : _ ++ _ = _ ++ _ |- _ => apply (no_nul_split _ _ _ _) in X; [|assumption..]; destruct X as (-> & ->) end. contradiction.
        -- exfalso. eapply no_nul_zero; eassumption.
      * subst o. apply text_there; assumption.
    + assert (Hu : ~ is_utf8 s) by (intro X; apply utf8_iff in X; congruence). cbn [bind as_found]. split; intro H.
      * inversion H; subst.
        -- match goal with X : _ ++ _ = _ ++ _ |- _ => apply (no_nul_split _ _ _ _) in X; [|assumption..]; destruct X as (-> & ->) end. contradiction.
        -- reflexivity.
        -- exfalso. eapply no_nul_zero; eassumption.
      * subst o. apply text_invalid; assumption.
  - apply find_zero_none in F. cbn [bind as_found]. split; intro H.
    + inversion H; subst; try (exfalso; eapply no_nul_zero; eassumption). reflexivity.
    + subst o. apply text_cut. exact F.
Qed.

Lemma uadd_large : forall {E} a b, 2 ^ 64 <= a + b -> a < 2 ^ 64 -> b < 2 ^ 64 ->
  uadd (E:=E) m a b = match m with Debug => Panic | Release => Ok (a + b - 2 ^ 64) end.
Proof.
  intros E a b H Ha Hb. unfold uadd, overflow. change usize_mod with (2 ^ 64).
  replace (a + b <? 2 ^ 64) with false by (symmetry; apply N.ltb_ge; exact H).
  destruct m; [reflexivity|]. f_equal. rewrite <- (N.mod_small (a + b - 2 ^ 64) (2 ^ 64)) by lia.
  replace (a + b) with (a + b - 2 ^ 64 + 1 * 2 ^ 64) at 1 by lia. apply N.mod_add. discriminate.
Qed.

Lemma slice_none : forall A (b : list A) lo hi, len b < hi \/ hi < lo -> slice (E:=rerror) b lo hi = Panic.
Proof.
  intros A b lo hi H. unfold slice. replace ((lo <=? hi) && (hi <=? len b)) with false; [reflexivity|].
  symmetry. apply andb_false_iff. rewrite !N.leb_gt. lia.
Qed.

Lemma take_prefix : forall (r : bytes) n, n <= len r -> exists d s, r = d ++ s /\ len d = n.
Proof.
  intros r n H. exists (firstn (N.to_nat n) r), (skipn (N.to_nat n) r). split; [symmetry; apply firstn_skipn|].
  rewrite len_firstn; unfold len in *; lia.
Qed.

Ltac same := match goal with
  | X : ?p ++ _ = ?q ++ _, N1 : number ?e ?k _ ?p, N2 : number ?e ?k _ ?q |- _ =>
      let E1 := fresh in let E2 := fresh in let E3 := fresh in
      destruct (number_unique _ _ _ _ _ _ _ _ N1 N2 X) as (E1 & E2 & E3); clear X; subst
  end.
Lemma len_split : forall (a b c d : bytes), len a = len c -> a ++ b = c ++ d -> a = c /\ b = d.
Proof. intros a b c d H E. apply app_unique in E; [exact E|unfold len in H; lia]. Qed.

Lemma tells_string : forall e endi prev ty,
  tells (content m emb e endi prev (TVarcharString ty)) (read_ty m emb e endi prev (TVarcharString ty)).
Proof.
  intros e endi prev ty b Hl Hb o. cbn [read_ty]. unfold rmap, varchar_from_slice.
  destruct (prefix_cases endi ty b Hb) as [(Hs & E)|(n & p & r & -> & Hn & E & Hp & Hn64)]; rewrite E; cbn [bind].
  - cbn [as_found]. split; intro H; [inversion H; subst; try nolen; reflexivity|subst o; apply string_no_length; exact Hs].
  - rewrite len_app in Hl. destruct (N.lt_ge_cases (len r) n) as [Hc|Hc].
    + match goal with |- context [bind (bind ?X _) _] => assert (EP : bind X (fun end_ => slice (E:=rerror) (p ++ r) (len p) end_) = Panic) end.
      { destruct (N.lt_ge_cases (len p + n) (2 ^ 64)) as [Hf|Hf].
        - rewrite uadd_fit by exact Hf. cbn [bind]. apply slice_none. left. rewrite len_app. lia.
        - rewrite uadd_large by lia. destruct m; [reflexivity|]. cbn [bind]. apply slice_none. right. lia. }
      destruct (uadd (E:=rerror) m (len p) n) as [q|er|] eqn:Eq; cbn [bind] in *; try discriminate EP.
      * rewrite EP. cbn [bind as_found]. split; intro H.
        -- inversion H; subst; try nolen; try reflexivity; same; rewrite len_app in Hc; lia.
        -- subst o. eapply string_cut; eassumption.
      * cbn [as_found]. split; intro H.
        -- inversion H; subst; try nolen; try reflexivity; same; rewrite len_app in Hc; lia.
        -- subst o. eapply string_cut; eassumption.
    + destruct (take_prefix r n Hc) as (s & r' & -> & Hsn). subst n. rewrite len_app in Hl.
      rewrite uadd_fit by lia. cbn [bind]. rewrite slice_middle. cbn [bind]. unfold str_from_utf8.
      destruct (from_utf8 s) eqn:U.
      * assert (Hu : is_utf8 s) by (apply utf8_iff; exact U). cbn [bind]. rewrite uadd_fit by lia. cbn [bind].
        rewrite app_assoc, as_found_app by (rewrite len_app; reflexivity). rewrite <- app_assoc. split; intro H.
        -- inversion H; subst; try nolen; same.
           ++ match goal with X : _ ++ _ = _ ++ _, L : len _ = len _ |- _ => apply len_split in X; [destruct X as (-> & ->)|congruence] end. reflexivity.
           ++ match goal with X : _ ++ _ = _ ++ _, L : len _ = len _ |- _ => apply len_split in X; [destruct X as (-> & ->)|congruence] end. contradiction.
           ++ rewrite len_app in *. lia.
        -- subst o. apply string_there; assumption.
      * assert (Hu : ~ is_utf8 s) by (intro X; apply utf8_iff in X; congruence). cbn [bind as_found]. split; intro H.
        -- inversion H; subst; try nolen; try reflexivity; same.
           ++ match goal with X : _ ++ _ = _ ++ _, L : len _ = len _ |- _ => apply len_split in X; [destruct X as (-> & ->)|congruence] end. contradiction.
           ++ rewrite len_app in *. lia.
        -- subst o. apply string_invalid; assumption.
Qed.

Lemma umul_extent : forall n size, umul (E:=rerror) m n size = match extent m n size with Some k => Ok k | None => Panic end.
Proof.
  intros n size. unfold umul, extent, overflow. change usize_mod with (2 ^ 64). destruct (N.ltb_spec (n * size) (2 ^ 64)) as [H|H].
  - destruct m; [reflexivity|]. rewrite N.mod_small by exact H. reflexivity.
  - destruct m; reflexivity.
Qed.
Lemma extent_bound : forall n size k, extent m n size = Some k -> k < 2 ^ 64.
Proof.
  intros n size k H. unfold extent in H. destruct m.
  - destruct (N.ltb_spec (n * size) (2 ^ 64)); congruence.
  - inversion H. apply N.mod_lt. discriminate.
Qed.

Lemma tells_array : forall e endi prev ty s,
  tells (content m emb e endi prev (TArray ty s)) (read_ty m emb e endi prev (TArray ty s)).
Proof.
  intros e endi prev ty s b Hl Hb o. cbn [read_ty]. unfold rmap, array_from_slice.
  destruct (prefix_cases endi ty b Hb) as [(Hs & E)|(n & p & r & -> & Hn & E & Hp & Hn64)]; rewrite E; cbn [bind].
  - cbn [as_found]. split; intro H; [inversion H; subst; try nolen; reflexivity|subst o; apply array_no_length; exact Hs].
  - rewrite len_app in Hl. rewrite umul_extent. destruct (extent m n (s_byte_size s)) as [k|] eqn:Ek.
    + pose proof (extent_bound _ _ _ Ek) as Hk. cbn [bind]. destruct (N.lt_ge_cases (len p + k) (2 ^ 64)) as [Hf|Hf].
      * rewrite uadd_fit by exact Hf. cbn [bind]. rewrite len_app.
        destruct (N.ltb_spec (len p + len r) (len p + k)) as [Hc|Hc].
        -- cbn [as_found]. split; intro H.
           ++ inversion H; subst; try nolen; try reflexivity; same.
              ** exfalso. assert (len data = k) by congruence. rewrite len_app in Hc. lia.
              ** match goal with X : forall k, _ |- _ => pose proof (X k Ek) end. lia.
           ++ subst o. eapply array_cut; [exact Hn|exact Ek|lia|exact Hf].
        -- destruct (take_prefix r k ltac:(lia)) as (d & r' & -> & Hd). subst k. rewrite slice_middle. cbn [bind fst snd].
           rewrite app_assoc, as_found_app by (rewrite len_app; reflexivity). rewrite <- app_assoc. split; intro H.
           ++ inversion H; subst; try nolen; same.
              ** match goal with X : ?a ++ _ = ?c ++ _ |- _ => apply len_split in X; [destruct X as (-> & ->)|congruence] end. reflexivity.
              ** rewrite len_app in *. assert (k = len d) by congruence. lia.
              ** match goal with X : forall k, _ |- _ => pose proof (X _ Ek) end. lia.
           ++ subst o. apply array_there; assumption.
      * assert (R : (t <- uadd (E:=rerror) m (len p) k ;;
                     (if len (p ++ r) <? t then Err Truncated else d <- slice (p ++ r) (len p) t ;; Ok (t, (d, n)))) = Panic).
        { rewrite uadd_large by lia. destruct m; [reflexivity|]. cbn [bind].
          replace (len (p ++ r) <? len p + k - 2 ^ 64) with false by (rewrite len_app; symmetry; apply N.ltb_ge; lia).
          rewrite slice_none by (right; lia). reflexivity. }
        rewrite R. cbn [bind as_found]. split; intro H.
        -- inversion H; subst; try nolen; try reflexivity; same.
           ++ rewrite len_app in *. assert (k = len data) by congruence. lia.
           ++ assert (k = k0) by congruence. lia.
        -- subst o. eapply array_large; [exact Hn|]. intros k' Ek'. assert (k' = k) by congruence. lia.
    + cbn [bind as_found]. split; intro H.
      * inversion H; subst; try nolen; try reflexivity; same; congruence.
      * subst o. eapply array_large; [exact Hn|]. intros k' Ek'. congruence.
Qed.

Lemma tells_payload : forall e endi prev, tells (content m emb e endi prev TPayload) (read_ty m emb e endi prev TPayload).
Proof.
  intros e endi prev b Hl Hb o. cbn [read_ty]. unfold rmap, buffer_from_slice. cbn [bind as_found].
  replace (N.to_nat (len b)) with (length b) by (unfold len; lia). rewrite firstn_all, skipn_all. split; intro H.
  - inversion H; subst. reflexivity.
  - subst o. apply payload_all.
Qed.

Lemma tells_target : forall t, (forall y, t = RMessage y -> tells (decodes m emb y) (read_msg m emb y)) ->
  tells (target m emb t) (read_ref m emb t).
Proof.
  intros [s|y] H b Hl Hb o.
  - cbn [read_ref]. unfold rmap, struct_from_slice. destruct (N.ltb_spec (len b) (s_byte_size s)) as [Hc|Hc].
    + cbn [bind as_found]. split; intro X.
      * inversion X; subst; [|reflexivity]. rewrite len_app in Hc. lia.
      * subst o. apply structure_cut. exact Hc.
    + destruct (take_prefix b (s_byte_size s) Hc) as (d & r & -> & Hd). rewrite <- Hd, slice_prefix. cbn [bind].
      rewrite as_found_app by reflexivity. split; intro X.
      * inversion X; subst; [|rewrite len_app in *; lia].
        match goal with Y : _ ++ _ = _ ++ _ |- _ => apply len_split in Y; [destruct Y as (-> & ->)|congruence] end. reflexivity.
      * subst o. apply structure_there. exact Hd.
  - cbn [read_ref]. rewrite <- (H y eq_refl b Hl Hb o). split; intro X; [inversion X; assumption|constructor; exact X].
Qed.

Definition quiet {A} (o : rres A) : Prop := forall e, o <> Err e.
Lemma quiet_bind : forall A B (o : rres A) (f : A -> rres B), quiet o -> (forall a, quiet (f a)) -> quiet (bind o f).
Proof. intros A B [a|e|] f Ho Hf; cbn [bind]; [apply Hf|exfalso; exact (Ho e eq_refl)|intros e; discriminate]. Qed.
Lemma quiet_ok : forall A (a : A), quiet (Ok a).
Proof. intros A a e. discriminate. Qed.
Lemma quiet_panic : forall A, quiet (A:=A) Panic.
Proof. intros A e. discriminate. Qed.

Ltac quiet := repeat first
  [ apply quiet_ok | apply quiet_panic
  | apply quiet_bind; [|intro]
  | match goal with |- quiet (if ?c then _ else _) => destruct c end
  | match goal with |- quiet (match ?c with _ => _ end) => destruct c end ].

Lemma quiet_slice : forall A (b : list A) lo hi, quiet (slice b lo hi).
Proof. intros. unfold slice. quiet. Qed.

Lemma get_raw_quiet : forall f data, quiet (get_raw (E:=rerror) m f data).
Proof.
  intros f data. unfold get_raw, gen_fixed, ac_get, get_unsigned_integer_type. quiet.
  all: try apply quiet_slice.
  all: unfold bit_read_aligned, bit_read_unaligned, byte_read_aligned, byte_read_unaligned, read_bytes, pad8, bit_mask, be_shift,
    tshr, uadd, usub, umul, ushl1, udiv, reset_mask, overflow; quiet.
  unfold unwrap_res. quiet.
Qed.

Lemma path_get_quiet : forall path s data, quiet (path_get (E:=rerror) m s path data).
Proof.
  induction path as [|i path IH]; intros s data; cbn [path_get]; [apply quiet_panic|].
  destruct (nth_error (s_fields s) i) as [[f|f|nm r loc]|]; [|apply quiet_panic| |apply quiet_panic].
  - destruct path; [apply get_raw_quiet|apply quiet_panic].
  - apply quiet_bind; [apply quiet_slice|]. intro w. apply IH.
Qed.

Lemma find_case_first : forall d cs i k c, find_case d i cs = Some (k, c) ->
  (i <= k)%nat /\ nth_error cs (k - i) = Some c /\ uc_case c = d /\
  forall j c', (j < k - i)%nat -> nth_error cs j = Some c' -> uc_case c' <> d.
Proof.
  intros d. induction cs as [|x cs IH]; intros i k c H; [discriminate|]. cbn [find_case] in H.
  destruct (N.eqb_spec d (uc_case x)) as [E|E].
  - inversion H; subst. rewrite Nat.sub_diag. repeat split; [lia|]. intros j c' Hj. lia.
  - apply IH in H. destruct H as (Hle & Hn & Hd & Hj). split; [lia|]. replace (k - i)%nat with (S (k - S i)) by lia.
    split; [exact Hn|]. split; [exact Hd|]. intros [|j] c' Hlt Hc'; [cbn in Hc'; inversion Hc'; subst; congruence|].
    apply (Hj j); [lia|exact Hc'].
Qed.
Lemma find_case_none : forall d cs i, find_case d i cs = None -> forall c, In c cs -> uc_case c <> d.
Proof.
  intros d. induction cs as [|x cs IH]; intros i H c Hc; [destruct Hc|]. cbn [find_case] in H.
  destruct (N.eqb_spec d (uc_case x)) as [E|E]; [discriminate|]. destruct Hc as [<- | Hc]; [congruence|]. eapply IH; eauto.
Qed.
Lemma first_unique : forall u d k c k' c', first_case u d k c -> first_case u d k' c' -> k = k' /\ c = c'.
Proof.
  intros u d k c k' c' (H1 & H2 & H3) (H1' & H2' & H3'). assert (k = k').
  { destruct (lt_eq_lt_dec k k') as [[H|H]|H]; [|exact H|]; exfalso; [eapply H3'|eapply H3]; eauto. }
  subst k'. split; [reflexivity|congruence].
Qed.

Lemma tells_union : forall e endi prev u on i,
  (forall y, inside (TUnion u on i) y -> tells (decodes m emb y) (read_msg m emb y)) ->
  tells (content m emb e endi prev (TUnion u on i)) (read_ty m emb e endi prev (TUnion u on i)).
Proof.
  intros e endi prev u on i IH b Hl Hb o. rewrite read_ty_union, read_union_eq.
  assert (Hdisc : (exists data d, nth_error prev i = Some (VStruct data) /\ discriminant m u data d /\
              read_discriminant m (u_disc u) (nth_error prev i) = Ok d) \/
            ((forall data d, nth_error prev i = Some (VStruct data) -> ~ discriminant m u data d) /\
             read_discriminant m (u_disc u) (nth_error prev i) = Panic)).
  { unfold read_discriminant, discriminant. destruct (nth_error prev i) as [[| data | | | | | |]|];
      try (right; split; [intros; discriminate|reflexivity]).
    destruct (path_get m (d_root (u_disc u)) (d_index_list (u_disc u)) data) as [d|er|] eqn:P.
    - left. exists data, d. auto.
    - exfalso. exact (path_get_quiet _ _ _ er P).
    - right. split; [|reflexivity]. intros data' d E. inversion E; subst. congruence. }
  destruct Hdisc as [(data & d & Hat & Hd & ->)|(Hno & ->)]; cbn [bind].
  2:{ cbn [as_found]. split; intro H.
      - inversion H; subst; try (exfalso; eapply Hno; eassumption). reflexivity.
      - subst o. apply union_stuck. exact Hno. }
  assert (Hsame : forall data' d', nth_error prev i = Some (VStruct data') -> discriminant m u data' d' -> d' = d).
  { intros data' d' H1 H2. assert (data' = data) by congruence. subst. unfold discriminant in *. congruence. }
  destruct (find_case d 0 (u_cases u)) as [[k c]|] eqn:F.
  - apply find_case_first in F. rewrite Nat.sub_0_r in F. destruct F as (_ & Hk & Hc & Hfirst).
    assert (Hfc : first_case u d k c) by (split; [exact Hk|split; [exact Hc|exact Hfirst]]).
    assert (Hnot : ~ forall c0, In c0 (u_cases u) -> uc_case c0 <> d) by (intro X; exact (X c (nth_error_In _ _ Hk) Hc)).
    clear Hc Hfirst.
    destruct (uc_item c) as [t|] eqn:Et.
    + assert (Ht : tells (target m emb t) (read_ref m emb t)).
      { apply tells_target. intros y ->. apply IH. econstructor; [eapply nth_error_In; exact Hk|exact Et]. }
      specialize (Ht b Hl Hb).
      destruct (read_ref m emb t b) as [[n v]|er|]; cbn [bind as_found] in *.
      * split; intro H.
        -- inversion H; subst.
           ++ assert (d0 = d) by eauto. subst d0. 
              match goal with X : first_case u d ?k0 ?c0, Y : uc_item ?c0 = None |- _ => destruct (first_unique _ _ _ _ _ _ Hfc X); subst end. congruence.
           ++ assert (d0 = d) by eauto. subst d0.
              match goal with X : first_case u d ?k0 ?c0 |- _ => lazymatch X with Hfc => fail | _ => destruct (first_unique _ _ _ _ _ _ Hfc X); subst end end.
              assert (t0 = t) by congruence. subst t0.
              match goal with X : target _ _ t b _ |- _ => apply Ht in X; inversion X; subst end. reflexivity.
           ++ assert (d0 = d) by eauto. subst d0.
              match goal with X : first_case u d ?k0 ?c0 |- _ => lazymatch X with Hfc => fail | _ => destruct (first_unique _ _ _ _ _ _ Hfc X); subst end end.
              assert (t0 = t) by congruence. subst t0.
              match goal with X : target _ _ t b _ |- _ => apply Ht in X; discriminate X end.
           ++ assert (d0 = d) by eauto. subst d0. exfalso.
              apply Hnot; assumption.
           ++ exfalso. match goal with X : forall data d, _ -> ~ _ |- _ => exact (X data d Hat Hd) end.
        -- subst o. eapply union_case; [exact Hat|exact Hd|exact Hfc|exact Et|]. apply Ht. reflexivity.
      * split; intro H.
        -- inversion H; subst.
           ++ assert (d0 = d) by eauto. subst d0.
              match goal with X : first_case u d ?k0 ?c0 |- _ => lazymatch X with Hfc => fail | _ => destruct (first_unique _ _ _ _ _ _ Hfc X); subst end end. congruence.
           ++ assert (d0 = d) by eauto. subst d0.
              match goal with X : first_case u d ?k0 ?c0 |- _ => lazymatch X with Hfc => fail | _ => destruct (first_unique _ _ _ _ _ _ Hfc X); subst end end.
              assert (t0 = t) by congruence. subst t0.
              match goal with X : target _ _ t b _ |- _ => apply Ht in X; discriminate X end.
           ++ assert (d0 = d) by eauto. subst d0.
              match goal with X : first_case u d ?k0 ?c0 |- _ => lazymatch X with Hfc => fail | _ => destruct (first_unique _ _ _ _ _ _ Hfc X); subst end end.
              assert (t0 = t) by congruence. subst t0.
              match goal with X : target _ _ t b _ |- _ => apply Ht in X; inversion X; subst end. reflexivity.
           ++ assert (d0 = d) by eauto. subst d0. exfalso.
              apply Hnot; assumption.
           ++ exfalso. match goal with X : forall data d, _ -> ~ _ |- _ => exact (X data d Hat Hd) end.
        -- subst o. eapply union_case_stops; [exact Hat|exact Hd|exact Hfc|exact Et|]. apply Ht. reflexivity.
      * split; intro H.
        -- inversion H; subst.
           ++ assert (d0 = d) by eauto. subst d0.
              match goal with X : first_case u d ?k0 ?c0 |- _ => lazymatch X with Hfc => fail | _ => destruct (first_unique _ _ _ _ _ _ Hfc X); subst end end. congruence.
           ++ assert (d0 = d) by eauto. subst d0.
              match goal with X : first_case u d ?k0 ?c0 |- _ => lazymatch X with Hfc => fail | _ => destruct (first_unique _ _ _ _ _ _ Hfc X); subst end end.
              assert (t0 = t) by congruence. subst t0.
              match goal with X : target _ _ t b _ |- _ => apply Ht in X; discriminate X end.
           ++ assert (d0 = d) by eauto. subst d0.
              match goal with X : first_case u d ?k0 ?c0 |- _ => lazymatch X with Hfc => fail | _ => destruct (first_unique _ _ _ _ _ _ Hfc X); subst end end.
              assert (t0 = t) by congruence. subst t0.
              match goal with X : target _ _ t b _ |- _ => apply Ht in X; inversion X; subst end. reflexivity.
           ++ assert (d0 = d) by eauto. subst d0. exfalso.
              apply Hnot; assumption.
           ++ reflexivity.
        -- subst o. eapply union_case_stops; [exact Hat|exact Hd|exact Hfc|exact Et|]. apply Ht. reflexivity.
    + cbn [as_found]. rewrite firstn_O, skipn_O. split; intro H.
      * inversion H; subst;
          try (exfalso; match goal with X : forall data d, _ -> ~ _ |- _ => exact (X data d Hat Hd) end);
          assert (d0 = d) by eauto; subst d0;
          try (exfalso; apply Hnot; assumption);
          match goal with X : first_case u d ?k0 ?c0 |- _ => lazymatch X with Hfc => fail | _ => destruct (first_unique _ _ _ _ _ _ Hfc X); subst end end;
          [reflexivity|congruence|congruence].
      * subst o. eapply union_empty; eassumption.
  - pose proof (find_case_none _ _ _ F) as Hnone. cbn [as_found]. split; intro H.
    + inversion H; subst;
        try (exfalso; match goal with X : forall data d, _ -> ~ _ |- _ => exact (X data d Hat Hd) end);
        assert (d0 = d) by eauto; subst d0;
        try (exfalso; match goal with X : first_case u d _ _ |- _ => destruct X as (X1 & X2 & _);
               exact (Hnone _ (nth_error_In _ _ X1) X2) end).
      reflexivity.
    + subst o. eapply union_unknown; eassumption.
Qed.

Lemma loop_tells : forall y data, tells (decodes m emb y) (read_msg m emb y) -> len data < 2 ^ 64 -> bytes_ok data ->
  forall k t, t <= len data -> forall o,
  items m emb y k (skipn (N.to_nat t) data) o <->
  o = match list_loop m (read_msg m emb y) data k t with
      | Ok t' => Found (firstn (N.to_nat (t' - t)) (skipn (N.to_nat t) data)) tt (skipn (N.to_nat t') data)
      | Err e => Stops (Reports e)
      | Panic => Stops Crashes
      end.
Proof.
  intros y data Hy Hl Hb. induction k as [|k IH]; intros t Ht o; cbn [list_loop].
  - rewrite N.sub_diag, firstn_O. split; intro H; [inversion H; subst; reflexivity|subst o; apply items_none].
  - rewrite slice_from_ok by exact Ht. cbn [bind].
    assert (Hl' : len (skipn (N.to_nat t) data) < 2 ^ 64) by (rewrite len_skipn; lia).
    assert (Hb' : bytes_ok (skipn (N.to_nat t) data)) by (apply bytes_ok_skipn; exact Hb).
    specialize (Hy _ Hl' Hb'). pose proof (read_bounded m emb y (skipn (N.to_nat t) data)) as Hbd.
    destruct (read_msg m emb y (skipn (N.to_nat t) data)) as [[n v]|er|]; cbn [bind as_found] in *.
    + specialize (Hbd n v Hl' eq_refl). rewrite len_skipn in Hbd.
      rewrite uadd_fit by lia. cbn [bind].
      assert (Hskip : skipn (N.to_nat n) (skipn (N.to_nat t) data) = skipn (N.to_nat (t + n)) data).
      { rewrite ArrayThms.skipn_add. f_equal. lia. }
      assert (IH' := IH (t + n) ltac:(lia)). clear IH.
      assert (Hd : decodes m emb y (skipn (N.to_nat t) data)
        (Found (firstn (N.to_nat n) (skipn (N.to_nat t) data)) v (skipn (N.to_nat (t + n)) data))).
      { apply Hy. rewrite Hskip. reflexivity. }
      pose proof (list_loop_bound _ m (read_msg m emb y) data k (t + n)) as Hlb.
      destruct (list_loop m (read_msg m emb y) data k (t + n)) as [t'|er|].
      * specialize (Hlb t' ltac:(intros bb nn vv; apply read_bounded) Hl ltac:(lia) eq_refl).
        assert (Hpre : firstn (N.to_nat (t' - t)) (skipn (N.to_nat t) data) =
          firstn (N.to_nat n) (skipn (N.to_nat t) data) ++ firstn (N.to_nat (t' - (t + n))) (skipn (N.to_nat (t + n)) data)).
        { replace (N.to_nat (t' - t)) with (N.to_nat n + N.to_nat (t' - (t + n)))%nat by lia. rewrite firstn_plus, Hskip. reflexivity. }
        rewrite Hpre. split; intro H.
        -- inversion H; subst.
           ++ match goal with X : decodes _ _ y _ _ |- _ => apply Hy in X; rewrite Hskip in X; inversion X; subst end.
              match goal with X : items _ _ y k _ _ |- _ => apply IH' in X; inversion X; subst end. reflexivity.
           ++ match goal with X : decodes _ _ y _ _ |- _ => apply Hy in X; discriminate X end.
           ++ match goal with X : decodes _ _ y _ _ |- _ => apply Hy in X; rewrite Hskip in X; inversion X; subst end.
              match goal with X : items _ _ y k _ _ |- _ => apply IH' in X; discriminate X end.
        -- subst o. eapply items_next; [exact Hd|]. apply IH'. reflexivity.
      * split; intro H.
        -- inversion H; subst.
           ++ match goal with X : decodes _ _ y _ _ |- _ => apply Hy in X; rewrite Hskip in X; inversion X; subst end.
              match goal with X : items _ _ y k _ _ |- _ => apply IH' in X; discriminate X end.
           ++ match goal with X : decodes _ _ y _ _ |- _ => apply Hy in X; discriminate X end.
           ++ match goal with X : decodes _ _ y _ _ |- _ => apply Hy in X; rewrite Hskip in X; inversion X; subst end.
              match goal with X : items _ _ y k _ _ |- _ => apply IH' in X; inversion X; subst end. reflexivity.
        -- subst o. eapply items_stop_later; [exact Hd|]. apply IH'. reflexivity.
      * split; intro H.
        -- inversion H; subst.
           ++ match goal with X : decodes _ _ y _ _ |- _ => apply Hy in X; rewrite Hskip in X; inversion X; subst end.
              match goal with X : items _ _ y k _ _ |- _ => apply IH' in X; discriminate X end.
           ++ match goal with X : decodes _ _ y _ _ |- _ => apply Hy in X; discriminate X end.
           ++ match goal with X : decodes _ _ y _ _ |- _ => apply Hy in X; rewrite Hskip in X; inversion X; subst end.
              match goal with X : items _ _ y k _ _ |- _ => apply IH' in X; inversion X; subst end. reflexivity.
        -- subst o. eapply items_stop_later; [exact Hd|]. apply IH'. reflexivity.
    + split; intro H.
      * inversion H; subst;
          match goal with X : decodes _ _ y _ _ |- _ => apply Hy in X; try discriminate X; inversion X; subst end; reflexivity.
      * subst o. apply items_stop. apply Hy. reflexivity.
    + split; intro H.
      * inversion H; subst;
          match goal with X : decodes _ _ y _ _ |- _ => apply Hy in X; try discriminate X; inversion X; subst end; reflexivity.
      * subst o. apply items_stop. apply Hy. reflexivity.
Qed.

Lemma tells_list : forall e endi prev ty y, tells (decodes m emb y) (read_msg m emb y) ->
  tells (content m emb e endi prev (TList ty y)) (read_ty m emb e endi prev (TList ty y)).
Proof.
  intros e endi prev ty y Hy b Hl Hb o. rewrite read_ty_list. unfold rmap, list_from_slice, unsized_from_slice.
  destruct (prefix_cases endi ty b Hb) as [(Hs & E)|(n & p & r & -> & Hn & E & Hp & Hn64)].
  - destruct e; rewrite E; cbn [bind as_found];
      (split; intro H; [inversion H; subst; try nolen; reflexivity|subst o; apply list_no_length; exact Hs]).
  - rewrite len_app in Hl. assert (Hbr : bytes_ok r) by (unfold bytes_ok in *; rewrite Forall_app in Hb; apply Hb).
    destruct e; rewrite E; cbn [bind]; rewrite slice_from_app; cbn [bind].
    + pose proof (loop_tells y r Hy ltac:(lia) Hbr (N.to_nat n) 0 ltac:(lia)) as HL. rewrite skipn_O in HL.
      pose proof (list_loop_bound _ m (read_msg m emb y) r (N.to_nat n) 0) as Hlb.
      destruct (list_loop m (read_msg m emb y) r (N.to_nat n) 0) as [t|er|]; cbn [bind].
      * specialize (Hlb t ltac:(intros bb nn vv; apply read_bounded) ltac:(lia) ltac:(lia) eq_refl).
        rewrite N.sub_0_r in HL. destruct (take_prefix r t ltac:(lia)) as (d & s & -> & Hd). subst t.
        rewrite uadd_fit by lia. cbn [bind]. rewrite slice_middle. cbn [bind]. rewrite uadd_fit by lia. cbn [bind fst snd].
        rewrite firstn_len_app, skipn_len_app in HL.
        rewrite app_assoc, as_found_app by (rewrite len_app; lia). rewrite <- app_assoc. split; intro H.
        -- inversion H; subst; try nolen; same.
           ++ match goal with X : items _ _ _ _ _ _, Y : ?a ++ ?c = ?a' ++ ?c' |- _ => rewrite Y in X; apply HL in X; inversion X; subst end. reflexivity.
           ++ match goal with X : items _ _ _ _ _ _ |- _ => apply HL in X; discriminate X end.
        -- subst o. apply list_walked; [exact Hn|]. apply HL. reflexivity.
      * cbn [as_found]. split; intro H.
        -- inversion H; subst; try nolen; same.
           ++ match goal with X : items _ _ _ _ _ _ |- _ => apply HL in X; discriminate X end.
           ++ match goal with X : items _ _ _ _ _ _ |- _ => apply HL in X; inversion X; subst end. reflexivity.
        -- subst o. eapply list_stops; [exact Hn|]. apply HL. reflexivity.
      * cbn [as_found]. split; intro H.
        -- inversion H; subst; try nolen; same.
           ++ match goal with X : items _ _ _ _ _ _ |- _ => apply HL in X; discriminate X end.
           ++ match goal with X : items _ _ _ _ _ _ |- _ => apply HL in X; inversion X; subst end. reflexivity.
        -- subst o. eapply list_stops; [exact Hn|]. apply HL. reflexivity.
    + cbn [as_found fst snd].
      replace (N.to_nat (len (p ++ r))) with (length (p ++ r)) by (unfold len; lia). rewrite firstn_all, skipn_all.
      split; intro H.
      * inversion H; subst; try nolen; same. reflexivity.
      * subst o. apply list_unwalked. exact Hn.
Qed.

Lemma tells_content : forall e endi prev t, (forall y, inside t y -> tells (decodes m emb y) (read_msg m emb y)) ->
  tells (content m emb e endi prev t) (read_ty m emb e endi prev t).
Proof.
  intros e endi prev t H. destruct t as [ty|r| |ty|ty st|u on idx|ty x|].
  - apply tells_fixed.
  - intros b Hl Hb o. rewrite read_ty_ref.
    rewrite <- (tells_target r (fun y E => H y ltac:(subst; constructor)) b Hl Hb o).
    split; intro X; [inversion X; assumption|constructor; exact X].
  - apply tells_text.
  - apply tells_string.
  - apply tells_array.
  - apply tells_union. exact H.
  - apply tells_list. apply H. constructor.
  - apply tells_payload.
Qed.

Lemma tells_member : forall e prev f, (forall y, inside (mf_ty f) y -> tells (decodes m emb y) (read_msg m emb y)) ->
  tells (member m emb e prev f) (read_optional m (mf_optional f) (read_ty m emb e (mf_endi f) prev (mf_ty f))).
Proof.
  intros e prev f H b Hl Hb o. pose proof (tells_content e (mf_endi f) prev (mf_ty f) H) as HC.
  pose proof (bounded_ty m emb e (mf_endi f) prev (mf_ty f) (fun y _ => fun bb nn vv => read_bounded m emb y bb nn vv)) as HB.
  unfold read_optional. destruct (mf_optional f) eqn:Eo.
  2:{ rewrite <- (HC b Hl Hb o). split; intro X; [inversion X; subst; try congruence; assumption|constructor; assumption]. }
  unfold rmap, optional_from_slice. destruct b as [|a b].
  { change (len (@nil N) <? 1) with true. cbn [bind as_found].
    split; intro X; [inversion X; subst; try congruence; reflexivity|subst o; apply member_cut; exact Eo]. }
  assert (Hl1 : len b < 2 ^ 64 - 1) by (unfold len in *; cbn [length] in *; lia).
  assert (Hb1 : bytes_ok b) by (inversion Hb; assumption).
  replace (len (a :: b) <? 1) with false by (symmetry; apply N.ltb_ge; unfold len; cbn [length]; lia).
  cbn [nth_error unwrap bind]. destruct (N.ltb_spec 0 a) as [Ha|Ha].
  - rewrite slice_from_ok by (unfold len; cbn [length]; lia). cbn [bind].
    replace (skipn (N.to_nat 1) (a :: b)) with b by reflexivity.
    specialize (HC b ltac:(lia) Hb1). specialize (HB b).
    destruct (read_ty m emb e (mf_endi f) prev (mf_ty f) b) as [[n v]|er|]; cbn [bind as_found] in *.
    + specialize (HB n v ltac:(lia) eq_refl). rewrite uadd_fit by lia. cbn [bind as_found].
      replace (N.to_nat (n + 1)) with (S (N.to_nat n)) by lia. cbn [firstn skipn]. split; intro X.
      * inversion X; subst; try congruence; try lia;
          match goal with Y : content _ _ _ _ _ _ b _ |- _ => apply HC in Y; try discriminate Y; inversion Y; subst end. reflexivity.
      * subst o. apply member_present; [exact Eo|exact Ha|]. apply HC. reflexivity.
    + split; intro X.
      * inversion X; subst; try congruence; try lia;
          match goal with Y : content _ _ _ _ _ _ b _ |- _ => apply HC in Y; try discriminate Y; inversion Y; subst end. reflexivity.
      * subst o. apply member_present_stops; [exact Eo|exact Ha|]. apply HC. reflexivity.
    + split; intro X.
      * inversion X; subst; try congruence; try lia;
          match goal with Y : content _ _ _ _ _ _ b _ |- _ => apply HC in Y; try discriminate Y; inversion Y; subst end. reflexivity.
      * subst o. apply member_present_stops; [exact Eo|exact Ha|]. apply HC. reflexivity.
  - assert (a = 0) by lia. subst a. cbn [bind as_found]. replace (N.to_nat 1) with 1%nat by reflexivity. cbn [firstn skipn].
    split; intro X.
    + inversion X; subst; try congruence; try lia; reflexivity.
    + subst o. apply member_absent. exact Eo.
Qed.

Lemma tells_members : forall e b, len b < 2 ^ 64 -> bytes_ok b -> forall fs,
  (forall g y, In g fs -> inside (mf_ty g) y -> tells (decodes m emb y) (read_msg m emb y)) ->
  forall off prev, off <= len b -> forall o,
  members m emb e prev fs (skipn (N.to_nat off) b) o <->
  o = match read_fields m emb e b fs off prev with
      | Ok (n, vs) => Found (firstn (N.to_nat (n - off)) (skipn (N.to_nat off) b)) (skipn (length prev) vs) (skipn (N.to_nat n) b)
      | Err er => Stops (Reports er)
      | Panic => Stops Crashes
      end.
Proof.
  intros e b Hl Hb. induction fs as [|f fs IH]; intros H off prev Ho o.
  { cbn [read_fields]. rewrite N.sub_diag, firstn_O, skipn_all.
    split; intro X; [inversion X; subst; reflexivity|subst o; apply members_none]. }
  assert (Hl' : len (skipn (N.to_nat off) b) < 2 ^ 64) by (rewrite len_skipn; lia).
  assert (Hb' : bytes_ok (skipn (N.to_nat off) b)) by (apply bytes_ok_skipn; exact Hb).
  pose proof (tells_member e prev f (fun y => H f y (or_introl eq_refl)) _ Hl' Hb') as HM.
  pose proof (bounded_optional m (mf_optional f) _
    (bounded_ty m emb e (mf_endi f) prev (mf_ty f) (fun y _ => fun bb nn vv => read_bounded m emb y bb nn vv))
    (skipn (N.to_nat off) b)) as HB.
  destruct f as [nm ty opt sz endi]. cbn [mf_optional mf_endi mf_ty] in HM, HB. cbn [read_fields].
  rewrite slice_from_ok by exact Ho. cbn [bind].
  destruct (read_optional m opt (read_ty m emb e endi prev ty) (skipn (N.to_nat off) b)) as [[n v]|er|]; cbn [bind as_found] in *.
  - specialize (HB n v Hl' eq_refl). rewrite len_skipn in HB. rewrite uadd_fit by lia. cbn [bind].
    assert (Hskip : skipn (N.to_nat n) (skipn (N.to_nat off) b) = skipn (N.to_nat (off + n)) b).
    { rewrite ArrayThms.skipn_add. f_equal. lia. }
    assert (IH' := IH (fun g y Hg => H g y (or_intror Hg)) (off + n) (prev ++ [v]) ltac:(lia)). clear IH.
    set (f := MkMField nm ty opt sz endi) in *.
    assert (Hd : member m emb e prev f (skipn (N.to_nat off) b)
      (Found (firstn (N.to_nat n) (skipn (N.to_nat off) b)) v (skipn (N.to_nat (off + n)) b))).
    { apply HM. rewrite Hskip. reflexivity. }
    pose proof (bounded_fields m emb e b fs (off + n) (prev ++ [v])) as Hlb.
    assert (Hvs : forall k vs, read_fields m emb e b fs (off + n) (prev ++ [v]) = Ok (k, vs) ->
        exists rest, vs = (prev ++ [v]) ++ rest).
    { clear. intros k vs E. revert E. generalize (off + n) (prev ++ [v]). revert k vs.
      induction fs as [|[a b0 c d g] fs IH]; intros k vs q l E; cbn [read_fields] in E.
      - inversion E; subst. exists []. rewrite app_nil_r. reflexivity.
      - apply bind_ok in E. destruct E as (d' & _ & E). apply bind_ok in E. destruct E as ([k' v'] & _ & E).
        apply bind_ok in E. destruct E as (q' & _ & E). apply IH in E. destruct E as (rest & ->).
        exists (v' :: rest). rewrite <- app_assoc. reflexivity. }
    destruct (read_fields m emb e b fs (off + n) (prev ++ [v])) as [[n' vs]|er|].
    + specialize (Hlb n' vs ltac:(intros g y _ _ bb nn vv; apply read_bounded) Hl ltac:(lia) eq_refl).
      destruct (Hvs n' vs eq_refl) as (rest & ->).
      assert (S1 : skipn (length prev) ((prev ++ [v]) ++ rest) = v :: rest).
      { rewrite <- app_assoc, skipn_app, skipn_all, Nat.sub_diag. reflexivity. }
      assert (S2 : skipn (length (prev ++ [v])) ((prev ++ [v]) ++ rest) = rest).
      { rewrite skipn_app, skipn_all, Nat.sub_diag. reflexivity. }
      rewrite S1. rewrite S2 in IH'.
      assert (Hpre : firstn (N.to_nat (n' - off)) (skipn (N.to_nat off) b) =
        firstn (N.to_nat n) (skipn (N.to_nat off) b) ++ firstn (N.to_nat (n' - (off + n))) (skipn (N.to_nat (off + n)) b)).
      { replace (N.to_nat (n' - off)) with (N.to_nat n + N.to_nat (n' - (off + n)))%nat by lia. rewrite firstn_plus, Hskip. reflexivity. }
      rewrite Hpre. split; intro X.
      * inversion X; subst.
        -- match goal with Y : member _ _ _ _ _ _ _ |- _ => apply HM in Y; rewrite Hskip in Y; inversion Y; subst end.
           match goal with Y : members _ _ _ _ fs _ _ |- _ => apply IH' in Y; inversion Y; subst end. reflexivity.
        -- match goal with Y : member _ _ _ _ _ _ _ |- _ => apply HM in Y; discriminate Y end.
        -- match goal with Y : member _ _ _ _ _ _ _ |- _ => apply HM in Y; rewrite Hskip in Y; inversion Y; subst end.
           match goal with Y : members _ _ _ _ fs _ _ |- _ => apply IH' in Y; discriminate Y end.
      * subst o. eapply members_next; [exact Hd|]. apply IH'. reflexivity.
    + split; intro X.
      * inversion X; subst.
        -- match goal with Y : member _ _ _ _ _ _ _ |- _ => apply HM in Y; rewrite Hskip in Y; inversion Y; subst end.
           match goal with Y : members _ _ _ _ fs _ _ |- _ => apply IH' in Y; discriminate Y end.
        -- match goal with Y : member _ _ _ _ _ _ _ |- _ => apply HM in Y; discriminate Y end.
        -- match goal with Y : member _ _ _ _ _ _ _ |- _ => apply HM in Y; rewrite Hskip in Y; inversion Y; subst end.
           match goal with Y : members _ _ _ _ fs _ _ |- _ => apply IH' in Y; inversion Y; subst end. reflexivity.
      * subst o. eapply members_stop_later; [exact Hd|]. apply IH'. reflexivity.
    + split; intro X.
      * inversion X; subst.
        -- match goal with Y : member _ _ _ _ _ _ _ |- _ => apply HM in Y; rewrite Hskip in Y; inversion Y; subst end.
           match goal with Y : members _ _ _ _ fs _ _ |- _ => apply IH' in Y; discriminate Y end.
        -- match goal with Y : member _ _ _ _ _ _ _ |- _ => apply HM in Y; discriminate Y end.
        -- match goal with Y : member _ _ _ _ _ _ _ |- _ => apply HM in Y; rewrite Hskip in Y; inversion Y; subst end.
           match goal with Y : members _ _ _ _ fs _ _ |- _ => apply IH' in Y; inversion Y; subst end. reflexivity.
      * subst o. eapply members_stop_later; [exact Hd|]. apply IH'. reflexivity.
  - split; intro X.
    + inversion X; subst;
        match goal with Y : member _ _ _ _ _ _ _ |- _ => apply HM in Y; try discriminate Y; inversion Y; subst end; reflexivity.
    + subst o. apply members_stop. apply HM. reflexivity.
  - split; intro X.
    + inversion X; subst;
        match goal with Y : member _ _ _ _ _ _ _ |- _ => apply HM in Y; try discriminate Y; inversion Y; subst end; reflexivity.
    + subst o. apply members_stop. apply HM. reflexivity.
Qed.

Theorem tells_message : forall x, tells (decodes m emb x) (read_msg m emb x).
Proof.
  apply (message_ind_inside (fun x => tells (decodes m emb x) (read_msg m emb x))). intros x IH b Hl Hb o.
  pose proof (tells_members (emb (m_id x)) b Hl Hb (m_fields x) IH 0 [] ltac:(lia)) as HM. rewrite skipn_O in HM.
  rewrite read_msg_eq. destruct (read_fields m emb (emb (m_id x)) b (m_fields x) 0 []) as [[n vs]|er|]; cbn [bind as_found] in *.
  - rewrite N.sub_0_r in HM. cbn [length skipn] in HM. split; intro X.
    + inversion X; subst; match goal with Y : members _ _ _ _ _ _ _ |- _ => apply HM in Y; try discriminate Y; inversion Y; subst end. reflexivity.
    + subst o. apply message_found. apply HM. reflexivity.
  - split; intro X.
    + inversion X; subst; match goal with Y : members _ _ _ _ _ _ _ |- _ => apply HM in Y; try discriminate Y; inversion Y; subst end. reflexivity.
    + subst o. apply message_stops. apply HM. reflexivity.
  - split; intro X.
    + inversion X; subst; match goal with Y : members _ _ _ _ _ _ _ |- _ => apply HM in Y; try discriminate Y; inversion Y; subst end. reflexivity.
    + subst o. apply message_stops. apply HM. reflexivity.
Qed.

End Tells.

Theorem decode_exact : forall m emb x b, len b < 2 ^ 64 -> bytes_ok b ->
  (forall n v, read_msg m emb x b = Ok (n, v) <-> exists c r, b = c ++ r /\ n = len c /\ decodes m emb x b (Found c v r)) /\
  (forall e, read_msg m emb x b = Err e <-> decodes m emb x b (Stops (Reports e))) /\
  (read_msg m emb x b = Panic <-> decodes m emb x b (Stops Crashes)).
Proof.
  intros m emb x b Hl Hb. pose proof (tells_message m emb x b Hl Hb) as H.
  pose proof (fun n v => read_bounded m emb x b n v Hl) as HB.
  destruct (read_msg m emb x b) as [[n v]|e|] eqn:E; cbn [as_found] in H.
  - specialize (HB n v eq_refl). split; [|split].
    + intros n' v'. split.
      * intro X. inversion X; subst. exists (firstn (N.to_nat n') b), (skipn (N.to_nat n') b).
        split; [rewrite firstn_skipn; reflexivity|]. split; [rewrite len_firstn; unfold len in *; lia|]. apply H. reflexivity.
      * intros (c & r & _ & -> & X). apply H in X. assert (Hc : c = firstn (N.to_nat n) b) by congruence.
        assert (v' = v) by congruence. subst v'. replace (len c) with n; [reflexivity|]. rewrite Hc, len_firstn; unfold len in *; lia.
    + intro e. split; [discriminate|]. intro X. apply H in X. discriminate.
    + split; [discriminate|]. intro X. apply H in X. discriminate.
  - split; [|split].
    + intros n' v'. split; [discriminate|]. intros (c & r & _ & _ & X). apply H in X. discriminate.
    + intro e'. split; intro X; [inversion X; subst; apply H; reflexivity|apply H in X; inversion X; reflexivity].
    + split; [discriminate|]. intro X. apply H in X. discriminate.
  - split; [|split].
    + intros n' v'. split; [discriminate|]. intros (c & r & _ & _ & X). apply H in X. discriminate.
    + intro e'. split; [discriminate|]. intro X. apply H in X. discriminate.
    + split; [intros _; apply H; reflexivity|reflexivity].
Qed.

Theorem decode_deterministic : forall m emb x b, len b < 2 ^ 64 -> bytes_ok b ->
  exists o, decodes m emb x b o /\ forall o', decodes m emb x b o' -> o' = o.
Proof.
  intros m emb x b Hl Hb. exists (as_found b (read_msg m emb x b)). split.
  - apply (tells_message m emb x b Hl Hb). reflexivity.
  - intros o' X. apply (tells_message m emb x b Hl Hb). exact X.
Qed.
