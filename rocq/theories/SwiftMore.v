(** More about the Swift runtime: agreement with Rust, reuse of buffers, soundness
    of reading, and the codecs. *)

From Coq Require Import Arith NArith ZArith List Bool Lia ZifyBool ZifyN ZifyNat.
From Verif Require Import Base Schema Codec CodecFacts Bits BitsFacts Compiler Utf8 SpecUtf8 Utf8Thms BEThms Access Runtime SpecWire MsgFacts
  StackThms Swift SpecSwift SwiftFacts SwiftThms.
Import ListNotations.
Local Open Scope N_scope.

(** ** The same bytes as Rust *)

Lemma rust_number : forall o sz n p s, number (endian o) sz n p ->
  value_write vec_sink o sz n s = (s ++ p, Ok tt).
Proof.
  intros o sz n p s H. apply number_iff in H. destruct H as (_ & ->). unfold value_write, put, num_bytes.
  destruct o; reflexivity.
Qed.

Lemma tmod_64 : forall sz, uint_size sz -> tmod sz <= 2 ^ 64.
Proof. intros sz H. unfold tmod. apply pow2_small. apply uint_pos in H. lia. Qed.

Lemma rust_items : forall (f : sval -> wr bytes) (P : sval -> bytes -> Prop) l chunks,
  (forall v e s, In v l -> P v e -> f v s = (s ++ e, Ok tt)) -> Forall2 P l chunks ->
  forall d n, n + len l <= 2 ^ 64 - 1 ->
  write_items Release (map f l) {| li_data := d; li_len := n |} =
    ({| li_data := d ++ concat chunks; li_len := n + len l |}, Ok tt).
Proof.
  intros f P l chunks Hf HF. induction HF as [|v e l chunks Hv HF IH]; intros d n Hn.
  - cbn. rewrite app_nil_r, N.add_0_r. reflexivity.
  - assert (El : len (v :: l) = 1 + len l) by (unfold len; cbn [length]; lia). rewrite El in Hn |- *.
    cbn [map write_items]. unfold write_item. cbn [li_data li_len]. rewrite (Hf v e d (or_introl eq_refl) Hv).
    unfold uadd. replace (n + 1 <? usize_mod) with true by (unfold usize_mod; lia).
    rewrite IH; [|intros; apply Hf; [right|]; assumption|lia].
    cbn [concat]. rewrite <- app_assoc, <- N.add_assoc. reflexivity.
Qed.

Theorem rust_writes : forall t v e s, well_typed t -> s_encodes t v e -> rust_write t v s = (s ++ e, Ok tt).
Proof.
  intros t. induction t as [o sz| |o sz|t IH|o sz t IH|o sz k t IH]; intros v e s Ht He;
    destruct v as [n|str|ov|l]; cbn [s_encodes s_enc] in He; try contradiction; cbn [rust_write].
  - apply rust_number. exact He.
  - destruct He as (_ & _ & ->). unfold nts_write, wseq, put. cbn. rewrite <- app_assoc. reflexivity.
  - destruct He as (_ & p & Hn & ->). unfold varchar_write, wseq.
    rewrite from_usize_small by (apply number_iff in Hn; apply Hn).
    rewrite (rust_number _ _ _ _ _ Hn). unfold put. cbn. rewrite <- app_assoc. reflexivity.
  - destruct ov as [x|].
    + destruct He as (p & e' & _ & -> & -> & He). unfold optional_write, wseq, put. cbn.
      rewrite (IH x e' _ Ht He). rewrite <- app_assoc. reflexivity.
    + subst e. reflexivity.
  - destruct He as (p & chunks & Hn & HF & ->). destruct Ht as (Hsz & Ht).
    assert (Hlt : len l < tmod sz) by (apply number_iff in Hn; apply Hn). pose proof (tmod_64 sz Hsz).
    unfold li_new, li_from_raw_parts.
    rewrite (rust_items (rust_write t) (s_encodes t) l chunks) by (try exact HF; try (cbn; lia); intros; apply IH; assumption).
    cbn [fst li_data li_len]. unfold listing_write, wseq. rewrite N.add_0_l, from_usize_small by exact Hlt.
    rewrite (rust_number _ _ _ _ _ Hn). unfold put. cbn. rewrite <- app_assoc. reflexivity.
  - destruct He as (p & chunks & Hn & HF & _ & ->). destruct Ht as (Hsz & Ht).
    assert (Hlt : len l < tmod sz) by (apply number_iff in Hn; apply Hn). pose proof (tmod_64 sz Hsz).
    unfold li_new, li_from_raw_parts.
    rewrite (rust_items (rust_write t) (s_encodes t) l chunks) by (try exact HF; try (cbn; lia); intros; apply IH; assumption).
    cbn [fst li_data li_len]. unfold listing_write, wseq. rewrite N.add_0_l, from_usize_small by exact Hlt.
    rewrite (rust_number _ _ _ _ _ Hn). unfold put. cbn. rewrite <- app_assoc. reflexivity.
Qed.

(** ** A write that returns wrote an encoding *)

Lemma from_uint_inv : forall sz n k, from_uint sz n = Ok k -> (sz = 2%nat -> n < 2 ^ 16) -> k = n /\ n < tmod sz.
Proof.
  intros sz n k H H2. unfold from_uint in H. destruct (Nat.eq_dec sz 2) as [->|Ne].
  - specialize (H2 eq_refl). change (tmod 2) with (2 ^ 16) in *. rewrite N.mod_small in H by exact H2. injection H as <-. auto.
  - assert (H' : (if n <? tmod sz then Ok n else Panic) = (Ok k : sres N)) by (destruct sz as [|[|[|]]]; try exact H; congruence).
    destruct (N.ltb_spec n (tmod sz)); [|discriminate]. injection H' as <-. auto.
Qed.

Lemma items_inv : forall (w : sval -> dbuf -> sres dbuf) (P : sval -> bytes -> Prop) l,
  (forall v b d b', In v l -> written b d -> w v b = Ok b' -> exists e, P v e /\ written b' (d ++ e)) ->
  forall b d b', written b d -> s_items_write w l b = Ok b' ->
  exists chunks, Forall2 P l chunks /\ written b' (d ++ concat chunks).
Proof.
  intros w P l. induction l as [|v l IH]; intros Hw b d b' Hb E; cbn [s_items_write] in E.
  - inversion E; subst. exists []. split; [constructor|]. cbn. rewrite app_nil_r. exact Hb.
  - destruct (w v b) as [b1| |] eqn:E1; try discriminate. cbn [bind] in E.
    destruct (Hw v b d b1 (or_introl eq_refl) Hb E1) as (e & He & H1).
    destruct (IH (fun v' b0 d0 b0' Hi => Hw v' b0 d0 b0' (or_intror Hi)) b1 _ b' H1 E) as (cs & HF & H2).
    exists (e :: cs). split; [constructor; assumption|]. cbn [concat]. rewrite app_assoc. exact H2.
Qed.

Lemma written_fun : forall b d d', written b d -> written b d' -> d = d'.
Proof. intros b d d' -> H. unfold written in H. congruence. Qed.

Theorem swift_wrote : forall t v b d b', representable t v -> written b d -> s_write t v b = Ok b' ->
  exists e, s_encodes t v e /\ written b' (d ++ e).
Proof.
  intros t. induction t as [o sz| |o sz|t IH|o sz t IH|o sz k t IH]; intros v b d b' Hr Hb E;
    destruct v as [n|str|ov|l]; cbn [representable] in Hr; try contradiction; cbn [s_write] in E.
  - unfold s_value_write in E. destruct (write_written b d (to_bytes o sz n) Hb) as (b1 & E1 & H1).
    rewrite E1 in E. inversion E; subst b1. exists (to_bytes o sz n). split; [|exact H1]. apply to_bytes_number. exact Hr.
  - destruct (swift_writes SNts (SS str) (str ++ [0]) b d) as (b1 & E1 & H1); [|exact Hb|].
    { cbn. split; [apply Hr|]. split; [apply Hr|reflexivity]. }
    cbn [s_write] in E1. rewrite E1 in E. inversion E; subst b1. eexists. split; [|exact H1].
    split; [apply Hr|]. split; [apply Hr|reflexivity].
  - unfold s_varchar_write in E. destruct Hr as (Hu & H16).
    destruct (from_uint sz (len str)) as [n| |] eqn:En; try discriminate. cbn [bind] in E.
    destruct (from_uint_inv _ _ _ En H16) as (-> & Hlt).
    destruct (swift_writes (SVarchar o sz) (SS str) (to_bytes o sz (len str) ++ str) b d) as (b1 & E1 & H1); [|exact Hb|].
    { cbn. split; [exact Hu|]. eexists. split; [apply to_bytes_number; exact Hlt|reflexivity]. }
    cbn [s_write] in E1. unfold s_varchar_write in E1. rewrite En in E1. cbn [bind] in E1. rewrite E1 in E. inversion E; subst b1.
    eexists. split; [|exact H1]. split; [exact Hu|]. eexists. split; [apply to_bytes_number; exact Hlt|reflexivity].
  - unfold s_optional_write in E. destruct ov as [x|].
    + destruct (write_byte_written b d 1 Hb) as (b1 & E1 & H1). rewrite E1 in E. cbn [bind] in E.
      destruct (IH x b1 _ b' Hr H1 E) as (e & He & H2). exists (1 :: e). split.
      * exists 1, e. split; [lia|]. split; [reflexivity|]. split; [reflexivity|exact He].
      * rewrite <- app_assoc in H2. exact H2.
    + destruct (write_byte_written b d 0 Hb) as (b1 & E1 & H1). rewrite E1 in E. inversion E; subst b1.
      exists [0]. split; [reflexivity|exact H1].
  - unfold s_list_write in E. destruct Hr as (H16 & Hr).
    destruct (from_uint sz (len l)) as [n| |] eqn:En; try discriminate. cbn [bind] in E.
    destruct (from_uint_inv _ _ _ En H16) as (-> & Hlt). unfold s_value_write in E.
    destruct (write_written b d (to_bytes o sz (len l)) Hb) as (b1 & E1 & H1). rewrite E1 in E. cbn [bind] in E.
    destruct (items_inv (s_write t) (s_encodes t) l) with (b := b1) (d := d ++ to_bytes o sz (len l)) (b' := b') as (cs & HF & H2);
      [|exact H1|exact E|].
    { intros v b0 d0 b0' Hi Hb0 E0. apply (IH v b0 d0 b0'); try assumption. rewrite Forall_forall in Hr. apply Hr, Hi. }
    exists (to_bytes o sz (len l) ++ concat cs). split; [|rewrite app_assoc; exact H2].
    exists (to_bytes o sz (len l)), cs. split; [apply to_bytes_number; exact Hlt|]. split; [exact HF|reflexivity].
  - unfold s_list_write in E. destruct Hr as (H16 & Hr & Hk).
    destruct (from_uint sz (len l)) as [n| |] eqn:En; try discriminate. cbn [bind] in E.
    destruct (from_uint_inv _ _ _ En H16) as (-> & Hlt). unfold s_value_write in E.
    destruct (write_written b d (to_bytes o sz (len l)) Hb) as (b1 & E1 & H1). rewrite E1 in E. cbn [bind] in E.
    destruct (items_inv (s_write t) (s_encodes t) l) with (b := b1) (d := d ++ to_bytes o sz (len l)) (b' := b') as (cs & HF & H2);
      [|exact H1|exact E|].
    { intros v b0 d0 b0' Hi Hb0 E0. apply (IH v b0 d0 b0'); try assumption. rewrite Forall_forall in Hr. apply Hr, Hi. }
    exists (to_bytes o sz (len l) ++ concat cs). split; [|rewrite app_assoc; exact H2].
    exists (to_bytes o sz (len l)), cs. split; [apply to_bytes_number; exact Hlt|]. split; [exact HF|]. split; [|reflexivity].
    clear - HF Hk. induction HF as [|v e l cs Hv _ IH]; constructor; inversion Hk; subst; auto.
Qed.

Lemma written_holds : forall b d, written b d -> (Z.of_nat (length d) < 2 ^ 63)%Z -> holds b d.
Proof.
  intros b d -> H. exists [], []. cbn [db_data db_start db_end app]. rewrite app_nil_r. repeat split; try assumption.
Qed.

Theorem swift_roundtrip : forall dec m t v b, decodes_utf8 dec -> well_typed t -> representable t v -> plain t v ->
  s_write t v db_empty = Ok b -> (db_size b < 2 ^ 63)%Z -> s_from dec m t b = Ok (db_size b, v).
Proof.
  intros dec m t v b Hd Ht Hr Hp E Hs.
  destruct (swift_wrote t v db_empty [] b Hr eq_refl E) as (e & He & H). cbn [app] in H.
  assert (Es : db_size b = Z.of_nat (length e)) by (rewrite H; unfold db_size; cbn; lia).
  rewrite Es in *. apply (swift_reads dec m t v e [] b Hd Ht Hp).
  - clear - He. revert v e He. unfold s_encodes, s_encodes_lax.
    induction t as [o sz| |o sz|t IH|o sz t IH|o sz k t IH]; intros v e He; destruct v as [n|str|ov|l]; cbn [s_enc] in *; try contradiction; auto.
    + destruct ov as [x|]; [|exact He]. destruct He as (p & b' & H1 & _ & H2 & H3). exists p, b'. eauto 6.
    + destruct He as (p & cs & H1 & HF & H3). exists p, cs. split; [exact H1|]. split; [|exact H3].
      clear - HF IH. induction HF; constructor; auto.
    + destruct He as (p & cs & H1 & HF & Hk & H3). exists p, cs. split; [exact H1|]. split; [|split; [exact Hk|exact H3]].
      clear - HF IH. induction HF; constructor; auto.
  - rewrite app_nil_r. apply written_holds; [exact H|exact Hs].
Qed.

(** ** Invalid UTF-8 is not refused *)

Theorem invalid_utf8 : forall dec m o sz s p r b, uint_size sz -> s <> [] ->
  number (endian o) sz (len s) p -> holds b (p ++ s ++ r) ->
  s_from dec m (SVarchar o sz) b = Ok (Z.of_nat (length p + length s), SS (dec s)).
Proof.
  intros dec m o sz s p r b Hsz Hs Hn H. destruct (holds_win _ _ H) as (pre & post & W). cbn [s_from]. unfold s_varchar_from.
  rewrite (s_value_ok m o sz _ p b pre _ post Hsz Hn W). cbn [bind].
  pose proof (number_length _ _ _ _ Hn) as Hl.
  pose proof (win_bound _ _ _ _ W) as L. rewrite !count_app in L.
  pose proof (count_nonneg pre). pose proof (count_nonneg r). pose proof (count_nonneg post).
  pose proof (count_nonneg s). pose proof (count_nonneg p).
  assert (Es : Z.of_N (len s) = count s) by (unfold len, count; lia).
  assert (Ep : Z.of_nat sz = count p) by (unfold count; lia).
  unfold int_of_uint. rewrite Es, Ep. rewrite int_ok' by lia. cbn [bind].
  unfold iadd. rewrite int_ok' by lia. cbn [bind].
  destruct (win_closed m b pre p s r post W) as (w & -> & W2). cbn [bind].
  rewrite (win_to_data _ _ _ _ W2 Hs). cbn [bind].
  rewrite int_ok' by lia. cbn [bind]. do 2 f_equal. unfold count. lia.
Qed.

(** ** Writing over a cleared buffer *)

(** The storage behind the cursor is [rest]. *)
Definition over (b : dbuf) (pre d rest : bytes) : Prop :=
  db_data b = pre ++ d ++ rest /\ db_start b = count pre /\
  db_end b = (count pre + count d)%Z /\ db_cursor b = db_end b.

Lemma splice_app : forall (a x y : bytes) z, length x = length z -> splice (a ++ z ++ y) (len a) x = a ++ x ++ y.
Proof.
  intros a x y z H. unfold splice, len. rewrite Nat2N.id, firstn_app, Nat.sub_diag, firstn_all, firstn_O, app_nil_r.
  do 2 f_equal. rewrite skipn_app. rewrite skipn_all2 by lia. cbn [app].
  replace (length a + length x - length a)%nat with (length z) by lia.
  rewrite skipn_app, skipn_all, Nat.sub_diag. reflexivity.
Qed.

Lemma write_over : forall b pre d rest x, over b pre d rest ->
  exists b', db_write b x = Ok b' /\ over b' pre (d ++ x) (skipn (length x) rest).
Proof.
  intros b pre d rest x (D & S & E & C). unfold db_write. rewrite D, C, E.
  pose proof (count_nonneg pre). pose proof (count_nonneg d). pose proof (count_nonneg x). pose proof (count_nonneg rest).
  assert (R : forall y, length y = length (firstn (length y) rest) ->
    replace_bytes (pre ++ d ++ rest) (count pre + count d) y = Ok (pre ++ d ++ y ++ skipn (length y) rest)).
  { intros y Hy. unfold replace_bytes. rewrite !count_app. rewrite firstn_length in Hy.
    replace ((0 <=? count pre + count d)%Z && (count pre + count d + count y <=? count pre + (count d + count rest))%Z)
      with true by (unfold count in *; lia).
    replace (Z.to_N (count pre + count d)) with (len (pre ++ d)) by (unfold count, len; rewrite app_length; lia).
    f_equal. rewrite <- (firstn_skipn (length y) rest) at 1. rewrite !app_assoc. rewrite <- (app_assoc (pre ++ d)).
    rewrite (splice_app (pre ++ d) y (skipn (length y) rest) (firstn (length y) rest)) by (rewrite firstn_length; lia).
    rewrite <- !app_assoc. reflexivity. }
  rewrite !count_app.
  destruct (Z.ltb_spec (count pre + count d + count x) (count pre + (count d + count rest))).
  - rewrite R by (rewrite firstn_length; unfold count in *; lia). cbn [bind]. eexists. split; [reflexivity|].
    unfold over. cbn [db_data db_start db_end db_cursor]. rewrite count_app, <- app_assoc. repeat split; try assumption; lia.
  - replace (count pre + (count d + count rest) - (count pre + count d))%Z with (count rest) by lia.
    replace (Z.to_nat (count rest)) with (length rest) by (unfold count; lia).
    assert (E1 : (if (0 <? count rest)%Z
      then replace_bytes (pre ++ d ++ rest) (count pre + count d) (firstn (length rest) x)
      else Ok (pre ++ d ++ rest)) = Ok (pre ++ d ++ firstn (length rest) x)).
    { destruct (Z.ltb_spec 0 (count rest)) as [C1|C1].
      - assert (Hl : length (firstn (length rest) x) = length rest) by (rewrite firstn_length; unfold count in *; lia).
        rewrite R by (rewrite Hl, firstn_all; reflexivity). rewrite Hl, skipn_all, app_nil_r. reflexivity.
      - assert (rest = []) as -> by (destruct rest; [reflexivity|unfold count in C1; cbn [length] in C1; lia]). reflexivity. }
    match goal with |- context [bind (bind ?X _) _] => replace X with (Ok (pre ++ d ++ firstn (length rest) x) : sres bytes) by (symmetry; exact E1) end.
    cbn [bind].
    assert (E2 : (if (0 <? count x - count rest)%Z
      then if (count rest <? 0)%Z then Panic
           else Ok ((pre ++ d ++ firstn (length rest) x) ++ skipn (length rest) x)
      else Ok (pre ++ d ++ firstn (length rest) x)) = (Ok (pre ++ d ++ x) : sres bytes)).
    { destruct (Z.ltb_spec 0 (count x - count rest)) as [C1|C1].
      - replace (count rest <? 0)%Z with false by lia. rewrite <- !app_assoc, firstn_skipn. reflexivity.
      - rewrite firstn_all2 by (unfold count in *; lia). reflexivity. }
    match goal with |- context [bind ?X _] => replace X with (Ok (pre ++ d ++ x) : sres bytes) by (symmetry; exact E2) end.
    cbn [bind]. eexists. split; [reflexivity|]. unfold over. cbn [db_data db_start db_end db_cursor].
    rewrite skipn_all2 by (unfold count in *; lia). rewrite app_nil_r, count_app. repeat split; try assumption; lia.
Qed.

Lemma write_items_over : forall {A} (w : A -> dbuf -> sres dbuf) (P : A -> bytes -> Prop) l chunks,
  (forall v e b pre d rest, In v l -> P v e -> over b pre d rest ->
    exists b', w v b = Ok b' /\ over b' pre (d ++ e) (skipn (length e) rest)) ->
  Forall2 P l chunks -> forall b pre d rest, over b pre d rest ->
  exists b', s_items_write w l b = Ok b' /\ over b' pre (d ++ concat chunks) (skipn (length (concat chunks)) rest).
Proof.
  intros A w P l chunks Hw HF. induction HF as [|v e l chunks Hv HF IH]; intros b pre d rest Hb.
  - exists b. split; [reflexivity|]. cbn. rewrite app_nil_r. exact Hb.
  - cbn [s_items_write concat]. destruct (Hw v e b pre d rest (or_introl eq_refl) Hv Hb) as (b1 & -> & Hb1). cbn [bind].
    destruct (IH (fun v' e' b' p' d' r' Hi => Hw v' e' b' p' d' r' (or_intror Hi)) b1 pre (d ++ e) _ Hb1) as (b2 & -> & Hb2).
    exists b2. split; [reflexivity|]. rewrite app_length. rewrite skipn_add, <- app_assoc in Hb2. exact Hb2.
Qed.

Lemma over_writes : forall t v e b pre d rest, no_flags t -> s_encodes t v e -> over b pre d rest ->
  exists b', s_write t v b = Ok b' /\ over b' pre (d ++ e) (skipn (length e) rest).
Proof.
  intros t. induction t as [o sz| |o sz|t IH|o sz t IH|o sz k t IH]; intros v e b pre d rest Hf He Hb; cbn [no_flags] in Hf; try contradiction;
    destruct v as [n|s|ov|l]; cbn [s_encodes s_enc] in He; try contradiction; cbn [s_write].
  - unfold s_value_write. rewrite (to_bytes_iff _ _ _ _ He). apply write_over. exact Hb.
  - destruct He as (_ & p & Hn & ->). unfold s_varchar_write. pose proof (proj1 (number_iff _ _ _ _) Hn) as (Hlt & _).
    rewrite (from_uint_ok _ _ Hlt). cbn [bind]. unfold s_value_write. rewrite (to_bytes_iff _ _ _ _ Hn).
    destruct (write_over b pre d rest p Hb) as (b1 & -> & H1). cbn [bind].
    destruct (write_over b1 pre _ _ s H1) as (b2 & -> & H2). exists b2. split; [reflexivity|].
    rewrite skipn_add in H2. rewrite <- app_assoc in H2. rewrite app_length. exact H2.
  - destruct He as (p & chunks & Hn & HF & ->). unfold s_list_write. pose proof (proj1 (number_iff _ _ _ _) Hn) as (Hlt & _).
    rewrite (from_uint_ok _ _ Hlt). cbn [bind]. unfold s_value_write. rewrite (to_bytes_iff _ _ _ _ Hn).
    destruct (write_over b pre d rest p Hb) as (b1 & -> & H1). cbn [bind].
    destruct (write_items_over (s_write t) (s_encodes t) l chunks) with (b := b1) (pre := pre) (d := d ++ p) (rest := skipn (length p) rest)
      as (b2 & -> & H2); [|exact HF|exact H1|].
    + intros v e b' pre' d' rest' _ Hv Hb'. apply (IH v e b' pre' d' rest' Hf Hv Hb').
    + exists b2. split; [reflexivity|]. rewrite skipn_add in H2. rewrite <- app_assoc in H2. rewrite app_length. exact H2.
  - destruct He as (p & chunks & Hn & HF & _ & ->). unfold s_list_write. pose proof (proj1 (number_iff _ _ _ _) Hn) as (Hlt & _).
    rewrite (from_uint_ok _ _ Hlt). cbn [bind]. unfold s_value_write. rewrite (to_bytes_iff _ _ _ _ Hn).
    destruct (write_over b pre d rest p Hb) as (b1 & -> & H1). cbn [bind].
    destruct (write_items_over (s_write t) (s_encodes t) l chunks) with (b := b1) (pre := pre) (d := d ++ p) (rest := skipn (length p) rest)
      as (b2 & -> & H2); [|exact HF|exact H1|].
    + intros v e b' pre' d' rest' _ Hv Hb'. apply (IH v e b' pre' d' rest' Hf Hv Hb').
    + exists b2. split; [reflexivity|]. rewrite skipn_add in H2. rewrite <- app_assoc in H2. rewrite app_length. exact H2.
Qed.

Theorem swift_reuse : forall t v e b d, no_flags t -> well_typed t -> s_encodes t v e -> holds b d ->
  exists b', s_write t v (db_clear b) = Ok b' /\ db_to_data b' = Ok e /\ db_size b' = Z.of_nat (length e).
Proof.
  intros t v e b d Hf Ht He H. destruct (holds_win _ _ H) as (pre & post & (D & S & E & L)).
  destruct (over_writes t v e (db_clear b) pre [] (d ++ post) Hf He) as (b' & -> & (D' & S' & E' & C')).
  { unfold over, db_clear. cbn [db_data db_start db_end db_cursor app]. change (count []) with 0%Z.
    repeat split; [exact D|exact S|lia]. }
  exists b'. split; [reflexivity|]. cbn [app] in *. split.
  - pose proof (enc_nonempty _ _ _ _ Ht He) as Hne. unfold db_to_data, data_range. rewrite D', S', E', !count_app.
    pose proof (count_pos e Hne). pose proof (count_nonneg pre).
    set (rest := skipn (length e) (d ++ post)) in *. pose proof (count_nonneg rest).
    replace ((count pre <=? count pre + count e - 1)%Z && (0 <=? count pre)%Z &&
      (count pre + count e - 1 <? count pre + (count e + count rest))%Z) with true by lia.
    f_equal. replace (Z.to_nat (count pre)) with (length pre + 0)%nat by (unfold count; lia).
    rewrite skipn_app. replace (length pre + 0 - length pre)%nat with 0%nat by lia.
    rewrite skipn_all2 by lia. cbn [skipn app].
    replace (Z.to_nat (count pre + count e - 1 - count pre + 1)) with (length e + 0)%nat by (unfold count; lia).
    rewrite firstn_app_2. cbn [firstn]. apply app_nil_r.
  - unfold db_size. rewrite E', S'. unfold count. lia.
Qed.

(** ** What is read is there *)

Lemma value_inv : forall m o sz b pre d post n k, win b pre d post -> bytes_ok d -> uint_size sz ->
  s_value_from m o sz b = Ok (k, n) ->
  k = Z.of_nat sz /\ exists p r, d = p ++ r /\ number (endian o) sz n p.
Proof.
  intros m o sz b pre d post n k W Hb Hs E. unfold s_value_from in E. rewrite (win_size _ _ _ _ W) in E.
  destruct (Z.ltb_spec (count d) (Z.of_nat sz)) as [C|C]; [discriminate|].
  assert (Hl : length (firstn sz d) = sz) by (rewrite firstn_length; unfold count in C; lia).
  rewrite <- (firstn_skipn sz d) in W.
  rewrite (win_scalar m o sz b pre (firstn sz d) _ post W Hs Hl (bytes_ok_firstn _ _ Hb)) in E. cbn [bind] in E.
  inversion E; subst. split; [reflexivity|]. exists (firstn sz d), (skipn sz d).
  split; [symmetry; apply firstn_skipn|]. apply number_of_val; [exact Hl|apply bytes_ok_firstn; exact Hb].
Qed.

Lemma from_inv : forall m b k b', db_from m b k = Ok b' -> b' = db_sub b (db_start b + k) (db_end b).
Proof.
  intros m b k b' E. unfold db_from in E. destruct (sassert m (k <=? db_size b)%Z); try discriminate. cbn [bind] in E.
  destruct (sassert m (0 <? k)%Z); try discriminate. cbn [bind] in E. inversion E. reflexivity.
Qed.

Lemma win_from' : forall m b pre d1 d2 post b', win b pre (d1 ++ d2) post -> db_from m b (count d1) = Ok b' ->
  win b' (pre ++ d1) d2 post.
Proof.
  intros m b pre d1 d2 post b' W E. rewrite (from_inv _ _ _ _ E).
  pose proof (win_size _ _ _ _ W) as S. rewrite count_app in S. unfold db_size in S.
  pose proof (win_sub b pre d1 d2 [] post) as Q. rewrite app_nil_r in Q. specialize (Q W).
  replace (db_end b) with (db_start b + count d1 + count d2)%Z by lia. exact Q.
Qed.

Lemma iadd_inv : forall a b c, iadd a b = Ok c -> c = (a + b)%Z.
Proof. intros a b c H. unfold iadd, int_check in H. destruct (_ && _); inversion H. reflexivity. Qed.

Lemma items_sound : forall {A} m (r : dbuf -> sres (Z * A)) (P : A -> bytes -> Prop),
  (forall b pre d post k v, win b pre d post -> bytes_ok d -> r b = Ok (k, v) ->
    exists e s, d = e ++ s /\ k = count e /\ P v e) ->
  forall n b pre d post k l, win b pre d post -> bytes_ok d -> s_items m r n b = Ok (k, l) ->
  exists chunks s, d = concat chunks ++ s /\ k = count (concat chunks) /\ length l = n /\ Forall2 P l chunks.
Proof.
  intros A m r P Hr n. induction n as [|n IH]; intros b pre d post k l W Hb E; cbn [s_items] in E.
  - inversion E; subst. exists [], d. repeat split; constructor.
  - destruct (r b) as [[k1 v]| |] eqn:E1; try discriminate. cbn [bind] in E.
    destruct (Hr _ _ _ _ _ _ W Hb E1) as (e & s & -> & -> & Hv).
    destruct (db_from m b (count e)) as [b1| |] eqn:E2; try discriminate. cbn [bind] in E.
    pose proof (win_from' _ _ _ _ _ _ _ W E2) as W1. apply bytes_ok_app in Hb.
    destruct (s_items m r n b1) as [[k2 l2]| |] eqn:E3; try discriminate. cbn [bind] in E.
    destruct (IH _ _ _ _ _ _ W1 (proj2 Hb) E3) as (cs & s2 & -> & -> & Hl & HF).
    destruct (iadd (count e) (count (concat cs))) as [k3| |] eqn:E4; try discriminate. cbn [bind] in E.
    apply iadd_inv in E4. inversion E; subst. exists (e :: cs), s2. cbn [concat length]. rewrite <- app_assoc, count_app.
    repeat split. constructor; assumption.
Qed.

Lemma value_sized : forall dec m o sz b k v, s_from dec m (SVal o sz) b = Ok (k, v) -> k = Z.of_nat sz.
Proof.
  intros dec m o sz b k v E. cbn [s_from] in E. unfold s_value_from in E. destruct (db_size b <? Z.of_nat sz)%Z; [discriminate|].
  destruct (scalar_from m o sz b); try discriminate. cbn [bind] in E. inversion E. reflexivity.
Qed.

Theorem read_sound : forall dec m pres t, well_typed t -> numeric t -> forall b pre d post k v,
  win b pre d post -> bytes_ok d -> s_from dec m t b = Ok (k, v) ->
  exists e s, d = e ++ s /\ k = count e /\ s_enc pres t v e.
Proof.
  intros dec m pres t. induction t as [o sz| |o sz|t IH|o sz t IH|o sz q t IH]; intros Ht Hn b pre d post k v W Hb E;
    cbn [numeric] in Hn; try contradiction; cbn [s_from] in E.
  - destruct (s_value_from m o sz b) as [[k1 n]| |] eqn:E1; try discriminate. cbn [bind] in E. inversion E; subst.
    destruct (value_inv _ _ _ _ _ _ _ _ _ W Hb Ht E1) as (-> & p & r & -> & Hp). exists p, r. split; [reflexivity|].
    split; [apply number_length in Hp; unfold count; lia|exact Hp].
  - destruct Ht as (Hsz & Ht). unfold s_list_from in E.
    destruct (s_value_from m o sz b) as [[k1 n]| |] eqn:E1; try discriminate. cbn [bind] in E.
    destruct (value_inv _ _ _ _ _ _ _ _ _ W Hb Hsz E1) as (-> & p & r & -> & Hp).
    assert (Ep : Z.of_nat sz = count p) by (apply number_length in Hp; unfold count; lia). rewrite Ep in E.
    destruct (db_from m b (count p)) as [b1| |] eqn:E2; try discriminate. cbn [bind] in E.
    pose proof (win_from' _ _ _ _ _ _ _ W E2) as W1. apply bytes_ok_app in Hb.
    destruct (int_of_uint n) as [n'| |]; try discriminate. cbn [bind] in E.
    unfold uint_sub in E. destruct (N.leb_spec 1 n) as [C|]; [|discriminate]. cbn [bind] in E.
    destruct (s_items m (s_from dec m t) (S (N.to_nat (n - 1))) b1) as [[k2 l]| |] eqn:E3; try discriminate. cbn [bind] in E.
    destruct (items_sound m (s_from dec m t) (s_enc pres t)) with (4 := E3) (pre := pre ++ p) (d := r) (post := post)
      as (cs & s & -> & -> & Hl & HF); [intros; eapply IH; eassumption|exact W1|apply Hb|].
    destruct (iadd (count p) (count (concat cs))) as [k3| |] eqn:E4; try discriminate. cbn [bind] in E.
    apply iadd_inv in E4. inversion E; subst. exists (p ++ concat cs), s. rewrite <- app_assoc, count_app.
    split; [reflexivity|]. split; [reflexivity|]. exists p, cs. split; [|split; [exact HF|reflexivity]].
    replace (len l) with n by (unfold len; lia). exact Hp.
  - destruct Ht as (Hsz & Ht). destruct t as [o' sz'| | | | |]; try contradiction. subst q. unfold s_array_from in E.
    destruct (s_value_from m o sz b) as [[k1 n]| |] eqn:E1; try discriminate. cbn [bind] in E.
    destruct (value_inv _ _ _ _ _ _ _ _ _ W Hb Hsz E1) as (-> & p & r & -> & Hp).
    assert (Ep : Z.of_nat sz = count p) by (apply number_length in Hp; unfold count; lia). rewrite Ep in E.
    destruct (db_from m b (count p)) as [b1| |] eqn:E2; try discriminate. cbn [bind] in E.
    pose proof (win_from' _ _ _ _ _ _ _ W E2) as W1. apply bytes_ok_app in Hb.
    destruct (int_of_uint n) as [n'| |] eqn:E5; try discriminate. cbn [bind] in E.
    assert (n' = Z.of_N n) as -> by (unfold int_of_uint, int_check in E5; destruct (_ && _); inversion E5; reflexivity).
    destruct (imul (Z.of_N n) (Z.of_nat sz')) as [body| |] eqn:E6; try discriminate. cbn [bind] in E.
    assert (body = (Z.of_N n * Z.of_nat sz')%Z) as -> by (unfold imul, int_check in E6; destruct (_ && _); inversion E6; reflexivity).
    destruct (iadd (count p) (Z.of_N n * Z.of_nat sz')) as [total| |] eqn:E7; try discriminate. cbn [bind] in E.
    apply iadd_inv in E7. subst total.
    destruct (_ <? _)%Z; [discriminate|].
    unfold uint_sub in E. destruct (N.leb_spec 1 n) as [C|]; [|discriminate]. cbn [bind] in E.
    destruct (s_items m (s_from dec m (SVal o' sz')) (S (N.to_nat (n - 1))) b1) as [[k2 l]| |] eqn:E3; try discriminate. cbn [bind] in E.
    destruct (items_sound m (s_from dec m (SVal o' sz')) (s_enc pres (SVal o' sz'))) with (4 := E3) (pre := pre ++ p) (d := r) (post := post)
      as (cs & s & -> & -> & Hl & HF); [intros; eapply IH; try eassumption; exact I|exact W1|apply Hb|].
    inversion E; subst. exists (p ++ concat cs), s.
    assert (Hcs : Forall (fun c => Z.of_nat (length c) = Z.of_nat sz') cs).
    { clear - HF. induction HF as [|v e l cs Hv _ IH]; constructor; [|exact IH]. destruct v; try contradiction.
      apply number_length in Hv. lia. }
    pose proof (chunks_sized _ _ Hcs) as Hc. pose proof (Forall2_len _ _ _ HF) as Hlen. cbn in Hc, Hlen. rewrite <- Hlen in Hc.
    rewrite <- app_assoc, count_app. split; [reflexivity|]. split; [replace (Z.of_N n) with (Z.of_nat (length l)) by lia; rewrite Hc; reflexivity|].
    exists p, cs. split; [|split; [exact HF|split; [exact Hcs|reflexivity]]].
    replace (len l) with n by (unfold len; lia). exact Hp.
Qed.

Theorem swift_sound : forall dec m t b d k v, well_typed t -> numeric t -> holds b d -> bytes_ok d ->
  s_from dec m t b = Ok (k, v) -> exists e s, d = e ++ s /\ k = Z.of_nat (length e) /\ s_encodes t v e.
Proof.
  intros dec m t b d k v Ht Hn H Hb E. destruct (holds_win _ _ H) as (pre & post & W).
  exact (read_sound dec m _ t Ht Hn b pre d post k v W Hb E).
Qed.

(** ** Input that ends early *)
Theorem optional_truncated : forall dec m t b, holds b [] -> s_from dec m (SOpt t) b = Err STruncated.
Proof.
  intros dec m t b H. destruct (holds_win _ _ H) as (pre & post & W). cbn [s_from]. unfold s_optional_from, db_is_empty.
  rewrite (win_size _ _ _ _ W). reflexivity.
Qed.
Theorem prefix_truncated : forall dec m o sz b d, holds b d -> (length d < sz)%nat ->
  s_from dec m (SVarchar o sz) b = Err STruncated /\
  (forall t, s_from dec m (SList o sz t) b = Err STruncated) /\
  (forall k t, s_from dec m (SArray o sz k t) b = Err STruncated).
Proof.
  intros dec m o sz b d H L. destruct (holds_win _ _ H) as (pre & post & W). cbn [s_from].
  unfold s_varchar_from, s_list_from, s_array_from, s_value_from. rewrite (win_size _ _ _ _ W).
  replace (count d <? Z.of_nat sz)%Z with true by (unfold count; lia). repeat split.
Qed.
Theorem clear_empty : forall b d, holds b d -> holds (db_clear b) [] /\ db_is_empty (db_clear b) = true.
Proof.
  intros b d (pre & post & H1 & H2 & H3 & H4). split.
  - exists pre, (d ++ post)%list. unfold db_clear. cbn [db_data db_start db_end]. repeat split; try assumption.
    cbn [length]. rewrite H2. lia.
  - unfold db_is_empty, db_size, db_clear. cbn [db_start db_end]. lia.
Qed.

(** ** Exactly what a write does *)

Lemma from_uint_cases : forall sz n,
  (sz <> 2%nat /\ tmod sz <= n /\ from_uint sz n = Panic) \/
  ((sz = 2%nat \/ n < tmod sz) /\ exists k, from_uint sz n = Ok k).
Proof.
  intros sz n. destruct (Nat.eq_dec sz 2) as [->|Ne].
  - right. split; [left; reflexivity|]. eexists. reflexivity.
  - assert (E : from_uint sz n = if n <? tmod sz then Ok n else Panic) by (destruct sz as [|[|[|]]]; try reflexivity; congruence).
    rewrite E. destruct (N.ltb_spec n (tmod sz)); [right|left]; eauto.
Qed.

Lemma items_cases : forall (w : sval -> dbuf -> sres dbuf) (P : sval -> Prop) l,
  (forall v b d, In v l -> written b d -> (P v /\ w v b = Panic) \/ (~ P v /\ exists b' e, w v b = Ok b' /\ written b' (d ++ e))) ->
  forall b d, written b d ->
  (Exists P l /\ s_items_write w l b = Panic) \/
  (~ Exists P l /\ exists b' e, s_items_write w l b = Ok b' /\ written b' (d ++ e)).
Proof.
  intros w P l. induction l as [|v l IH]; intros Hw b d Hb; cbn [s_items_write].
  - right. split; [intros H; inversion H|]. exists b, []. rewrite app_nil_r. auto.
  - destruct (Hw v b d (or_introl eq_refl) Hb) as [(Hp & ->)|(Hp & b1 & e & -> & H1)]; cbn [bind].
    + left. split; [constructor; exact Hp|reflexivity].
    + destruct (IH (fun v' b' d' Hi => Hw v' b' d' (or_intror Hi)) b1 _ H1) as [(He & ->)|(He & b2 & e2 & -> & H2)].
      * left. split; [apply Exists_cons_tl; exact He|reflexivity].
      * right. split; [intros H; inversion H; subst; contradiction|]. exists b2, (e ++ e2). rewrite app_assoc. auto.
Qed.

Lemma write_cases : forall t v b d, swift_value t v -> written b d ->
  (too_long t v /\ s_write t v b = Panic) \/ (~ too_long t v /\ exists b' e, s_write t v b = Ok b' /\ written b' (d ++ e)).
Proof.
  assert (HL : forall o sz t (IH : forall v b d, swift_value t v -> written b d ->
      (too_long t v /\ s_write t v b = Panic) \/ (~ too_long t v /\ exists b' e, s_write t v b = Ok b' /\ written b' (d ++ e)))
      l b d, Forall (swift_value t) l -> written b d ->
      (((sz <> 2%nat /\ tmod sz <= len l) \/ Exists (too_long t) l) /\ s_list_write o sz (s_write t) l b = Panic) \/
      (~ ((sz <> 2%nat /\ tmod sz <= len l) \/ Exists (too_long t) l) /\
       exists b' e, s_list_write o sz (s_write t) l b = Ok b' /\ written b' (d ++ e))).
  { intros o sz t IH l b d Hv Hb. unfold s_list_write.
    destruct (from_uint_cases sz (len l)) as [(A & B & ->)|(A & k & ->)]; cbn [bind]; [left; auto|].
    unfold s_value_write. destruct (write_written b d (to_bytes o sz k) Hb) as (b1 & -> & H1). cbn [bind].
    destruct (items_cases (s_write t) (too_long t) l) with (b := b1) (d := d ++ to_bytes o sz k) as [(C & ->)|(C & b2 & e & -> & H2)];
      [|exact H1|left; auto|right].
    - intros v b' d' Hi Hb'. apply IH; [|exact Hb']. rewrite Forall_forall in Hv. apply Hv, Hi.
    - split; [intros [(X & Y)|X]; [|contradiction]; destruct A; [contradiction|lia]|].
      eexists. eexists. split; [reflexivity|]. rewrite app_assoc. exact H2. }
  induction t as [o sz| |o sz|t IH|o sz t IH|o sz k t IH]; intros v b d Hv Hb;
    destruct v as [n|str|ov|l]; cbn [swift_value] in Hv; try contradiction; cbn [s_write too_long].
  - right. split; [auto|]. unfold s_value_write. destruct (write_written b d (to_bytes o sz n) Hb) as (b1 & -> & H1). eauto.
  - right. split; [auto|]. unfold s_nts_write. destruct (write_written b d str Hb) as (b1 & -> & H1). cbn [bind].
    destruct (write_byte_written b1 _ 0 H1) as (b2 & -> & H2). exists b2, (str ++ [0]). rewrite app_assoc. auto.
  - unfold s_varchar_write. destruct (from_uint_cases sz (len str)) as [(A & B & ->)|(A & k & ->)]; cbn [bind]; [left; auto|right].
    unfold s_value_write. destruct (write_written b d (to_bytes o sz k) Hb) as (b1 & -> & H1). cbn [bind].
    destruct (write_written b1 _ str H1) as (b2 & -> & H2). split; [intros (X & Y); destruct A; [contradiction|lia]|].
    exists b2, (to_bytes o sz k ++ str). rewrite app_assoc. auto.
  - unfold s_optional_write. destruct ov as [x|].
    + destruct (write_byte_written b d 1 Hb) as (b1 & -> & H1). cbn [bind].
      destruct (IH x b1 _ Hv H1) as [C|(C & b2 & e & E & H2)]; [left; exact C|right]. split; [exact C|].
      exists b2, (1 :: e). rewrite <- app_assoc in H2. auto.
    + right. split; [auto|]. destruct (write_byte_written b d 0 Hb) as (b1 & -> & H1). eauto.
  - apply (HL o sz t IH l b d Hv Hb).
  - apply (HL o sz t IH l b d Hv Hb).
Qed.

Lemma encodes_fun : forall t v e e', well_typed t -> s_encodes t v e -> s_encodes t v e' -> e = e'.
Proof.
  intros t v e e' Ht H H'. pose proof (rust_writes t v e [] Ht H) as A. pose proof (rust_writes t v e' [] Ht H') as B.
  rewrite A in B. cbn [app] in B. congruence.
Qed.
Lemma encodes_representable : forall t v e, well_typed t -> s_encodes t v e -> representable t v.
Proof.
  assert (H16 : forall o sz n p, number (endian o) sz n p -> sz = 2%nat -> n < 2 ^ 16).
  { intros o sz n p Hn ->. pose proof (proj1 (number_iff _ _ _ _) Hn) as (Hlt & _). exact Hlt. }
  unfold s_encodes. induction t as [o sz| |o sz|t IH|o sz t IH|o sz k t IH]; intros v e Ht He;
    destruct v as [n|str|ov|l]; cbn [s_enc] in He; try contradiction; cbn [representable].
  - pose proof (proj1 (number_iff _ _ _ _) He) as (Hlt & _). exact Hlt.
  - split; apply He.
  - destruct He as (Hu & p & Hn & _). split; [exact Hu|]. eapply H16; exact Hn.
  - destruct ov as [x|]; [|exact I]. destruct He as (p & b' & _ & _ & _ & He). eapply IH; eassumption.
  - destruct He as (p & cs & Hn & HF & _). split; [eapply H16; exact Hn|]. destruct Ht as [_ Ht].
    clear - IH HF Ht. induction HF; constructor; eauto.
  - destruct He as (p & cs & Hn & HF & Hk & _). split; [eapply H16; exact Hn|]. destruct Ht as [_ Ht]. split.
    + clear - IH HF Ht. induction HF; constructor; eauto.
    + clear - HF Hk Ht. induction HF as [|v e l cs Hv HF IHl]; [constructor|]. inversion Hk; subst. constructor; [|auto].
      intros e' He'. rewrite (encodes_fun t v e' e Ht He' Hv). reflexivity.
Qed.

Theorem swift_writes_exact : forall t v b d, well_typed t -> swift_value t v -> written b d ->
  (s_write t v b = Panic <-> too_long t v) /\
  (~ too_long t v -> exists b' e, s_write t v b = Ok b' /\ written b' (d ++ e) /\ (s_encodes t v e <-> representable t v)).
Proof.
  intros t v b d Ht Hv Hb. destruct (write_cases t v b d Hv Hb) as [(A & E)|(A & b' & e & E & H)].
  - split; [split; auto|]. intros N. contradiction.
  - rewrite E. split; [split; [discriminate|contradiction]|]. intros _. exists b', e. split; [reflexivity|]. split; [exact H|].
    split; [apply encodes_representable; exact Ht|]. intros Hr. destruct (swift_wrote t v b d b' Hr Hb E) as (e' & He & H').
    pose proof (written_fun _ _ _ H H') as D. apply app_inv_head in D. subst e'. exact He.
Qed.

(** ** A cleared buffer whose storage is longer than what is written *)

Definition room (rest : bytes) (n : nat) : Prop := rest = [] \/ (n < length rest)%nat.
Lemma room_le : forall rest n k, room rest n -> (k <= n)%nat -> room rest k.
Proof. intros rest n k [H|H] L; [left; exact H|right; lia]. Qed.
Lemma room_skip : forall rest n k, room rest (k + n) -> room (skipn k rest) n.
Proof. intros rest n k [->|H]; [left; apply skipn_nil|right; rewrite skipn_length; lia]. Qed.

Lemma write_byte_over : forall b pre d rest x, over b pre d rest -> room rest 1 ->
  exists b', db_write_byte b x = Ok b' /\ over b' pre (d ++ [x]) (skipn 1 rest).
Proof.
  intros b pre d rest x H R. destruct (write_over b pre d rest [x] H) as (b' & E & O). exists b'. split; [|exact O].
  rewrite <- E. destruct H as (D & S & En & C). unfold db_write_byte, db_write. change (count [x]) with 1%Z.
  destruct R as [->|R].
  - assert (Ec : (count (db_data b) = db_cursor b)%Z) by (rewrite D, C, En, !count_app; change (count []) with 0%Z; lia).
    replace (db_cursor b + 1 <? count (db_data b))%Z with false by lia. rewrite Ec, Z.sub_diag. reflexivity.
  - replace (db_cursor b + 1 <? count (db_data b))%Z with true; [reflexivity|].
    rewrite D, C, En, !count_app. unfold count in *. lia.
Qed.

Lemma items_room : forall (P : sval -> bytes -> Prop) (w : sval -> dbuf -> sres dbuf),
  (forall v e b pre d rest, P v e -> over b pre d rest -> room rest (length e) ->
    exists b', w v b = Ok b' /\ over b' pre (d ++ e) (skipn (length e) rest)) ->
  forall l chunks, Forall2 P l chunks -> forall b pre d rest, over b pre d rest -> room rest (length (concat chunks)) ->
  exists b', s_items_write w l b = Ok b' /\ over b' pre (d ++ concat chunks) (skipn (length (concat chunks)) rest).
Proof.
  intros P w Hw l chunks HF. induction HF as [|v e l chunks Hv HF IH]; intros b pre d rest Hb R.
  - exists b. split; [reflexivity|]. cbn. rewrite app_nil_r. exact Hb.
  - cbn [s_items_write concat] in *. rewrite app_length in R.
    destruct (Hw v e b pre d rest Hv Hb) as (b1 & -> & Hb1); [eapply room_le; [exact R|lia]|]. cbn [bind].
    destruct (IH b1 pre (d ++ e) _ Hb1) as (b2 & -> & Hb2); [apply room_skip; exact R|].
    exists b2. split; [reflexivity|]. rewrite app_length. rewrite skipn_add, <- app_assoc in Hb2. exact Hb2.
Qed.

Lemma room_writes : forall t v e b pre d rest, s_encodes t v e -> over b pre d rest -> room rest (length e) ->
  exists b', s_write t v b = Ok b' /\ over b' pre (d ++ e) (skipn (length e) rest).
Proof.
  assert (HL : forall o sz t (IH : forall v e b pre d rest, s_encodes t v e -> over b pre d rest -> room rest (length e) ->
      exists b', s_write t v b = Ok b' /\ over b' pre (d ++ e) (skipn (length e) rest)) l p chunks b pre d rest,
    number (endian o) sz (len l) p -> Forall2 (s_encodes t) l chunks -> over b pre d rest -> room rest (length (p ++ concat chunks)) ->
    exists b', s_list_write o sz (s_write t) l b = Ok b' /\
      over b' pre (d ++ p ++ concat chunks) (skipn (length (p ++ concat chunks)) rest)).
  { intros o sz t IH l p chunks b pre d rest Hn HF Hb R. unfold s_list_write. pose proof (proj1 (number_iff _ _ _ _) Hn) as (Hlt & _).
    rewrite (from_uint_ok _ _ Hlt). cbn [bind]. unfold s_value_write. rewrite (to_bytes_iff _ _ _ _ Hn).
    destruct (write_over b pre d rest p Hb) as (b1 & -> & H1). cbn [bind]. rewrite app_length in *.
    destruct (items_room (s_encodes t) (s_write t) IH l chunks HF b1 pre _ _ H1) as (b2 & -> & H2); [apply room_skip; exact R|].
    exists b2. split; [reflexivity|]. rewrite skipn_add in H2. rewrite <- app_assoc in H2. exact H2. }
  intros t. induction t as [o sz| |o sz|t IH|o sz t IH|o sz k t IH]; intros v e b pre d rest He Hb R;
    destruct v as [n|s|ov|l]; cbn [s_encodes s_enc] in He; try contradiction; cbn [s_write].
  - unfold s_value_write. rewrite (to_bytes_iff _ _ _ _ He). apply write_over. exact Hb.
  - destruct He as (_ & _ & ->). unfold s_nts_write. destruct (write_over b pre d rest s Hb) as (b1 & -> & H1). cbn [bind].
    rewrite app_length in *. destruct (write_byte_over b1 pre _ _ 0 H1) as (b2 & -> & H2); [apply room_skip; exact R|].
    exists b2. split; [reflexivity|]. rewrite skipn_add in H2. rewrite <- app_assoc in H2. exact H2.
  - destruct He as (_ & p & Hn & ->). unfold s_varchar_write. pose proof (proj1 (number_iff _ _ _ _) Hn) as (Hlt & _).
    rewrite (from_uint_ok _ _ Hlt). cbn [bind]. unfold s_value_write. rewrite (to_bytes_iff _ _ _ _ Hn).
    destruct (write_over b pre d rest p Hb) as (b1 & -> & H1). cbn [bind].
    destruct (write_over b1 pre _ _ s H1) as (b2 & -> & H2). exists b2. split; [reflexivity|].
    rewrite skipn_add in H2. rewrite <- app_assoc in H2. rewrite app_length. exact H2.
  - unfold s_optional_write. destruct ov as [x|].
    + destruct He as (p & e' & _ & -> & -> & He).
      destruct (write_byte_over b pre d rest 1 Hb) as (b1 & -> & H1); [eapply room_le; [exact R|cbn [length]; lia]|]. cbn [bind].
      destruct (IH x e' b1 pre _ _ He H1) as (b2 & -> & H2); [apply room_skip; exact R|]. exists b2. split; [reflexivity|].
      rewrite skipn_add in H2. rewrite <- app_assoc in H2. exact H2.
    + subst e. apply write_byte_over; assumption.
  - destruct He as (p & chunks & Hn & HF & ->). apply (HL o sz t IH); assumption.
  - destruct He as (p & chunks & Hn & HF & _ & ->). apply (HL o sz t IH); assumption.
Qed.

Theorem swift_reuse_room : forall t v e b d after, well_typed t -> s_encodes t v e -> holds_before b d after ->
  d ++ after = [] \/ (length e < length (d ++ after))%nat ->
  exists b', s_write t v (db_clear b) = Ok b' /\ db_to_data b' = Ok e /\ db_size b' = Z.of_nat (length e).
Proof.
  intros t v e b d post Ht He (pre & D & S & E & L) R.
  destruct (room_writes t v e (db_clear b) pre [] (d ++ post) He) as (b' & -> & (D' & S' & E' & C')); [|exact R|].
  { unfold over, db_clear. cbn [db_data db_start db_end db_cursor app]. change (count []) with 0%Z.
    repeat split; [exact D|exact S|unfold count; lia]. }
  exists b'. split; [reflexivity|]. cbn [app] in *. split.
  - pose proof (enc_nonempty _ _ _ _ Ht He) as Hne. unfold db_to_data, data_range. rewrite D', S', E', !count_app.
    pose proof (count_pos e Hne). pose proof (count_nonneg pre).
    set (rest := skipn (length e) (d ++ post)) in *. pose proof (count_nonneg rest).
    replace ((count pre <=? count pre + count e - 1)%Z && (0 <=? count pre)%Z &&
      (count pre + count e - 1 <? count pre + (count e + count rest))%Z) with true by lia.
    f_equal. replace (Z.to_nat (count pre)) with (length pre + 0)%nat by (unfold count; lia).
    rewrite skipn_app. replace (length pre + 0 - length pre)%nat with 0%nat by lia.
    rewrite skipn_all2 by lia. cbn [skipn app].
    replace (Z.to_nat (count pre + count e - 1 - count pre + 1)) with (length e + 0)%nat by (unfold count; lia).
    rewrite firstn_app_2. cbn [firstn]. apply app_nil_r.
  - unfold db_size. rewrite E', S'. unfold count. lia.
Qed.
