(** Exactly which encodings the Swift runtime reads back (C61). *)

From Coq Require Import Arith NArith ZArith List Bool Lia ZifyBool ZifyN ZifyNat.
From Verif Require Import Base Schema Codec Bits BitsFacts Compiler Utf8 SpecUtf8 Access Runtime SpecWire MsgFacts StructFacts
  Swift SpecSwift SwiftFacts SwiftThms.
Import ListNotations.
Local Open Scope Z_scope.

(** The length of the encoding of a value. *)
Fixpoint enc_len (t : sty) (v : sval) : Z :=
  match t, v with
  | SVal _ sz, SN _ => Z.of_nat sz
  | SNts, SS s => count s + 1
  | SVarchar _ sz, SS s => Z.of_nat sz + count s
  | SOpt _, SO None => 1
  | SOpt t, SO (Some x) => 1 + enc_len t x
  | SList _ sz t, SL l | SArray _ sz _ t, SL l => Z.of_nat sz + fold_right (fun x n => enc_len t x + n) 0 l
  | _, _ => 0
  end.
Definition sum_len (t : sty) (l : list sval) : Z := fold_right (fun x n => enc_len t x + n) 0 l.

Lemma chunks_len : forall pres t, (forall v e, s_enc pres t v e -> enc_len t v = count e) -> forall l chunks,
  Forall2 (s_enc pres t) l chunks -> sum_len t l = count (concat chunks).
Proof.
  intros pres t H l chunks HF. induction HF as [|v e l chunks Hv HF IH]; [reflexivity|].
  cbn [sum_len fold_right concat]. rewrite count_app. fold (sum_len t l). rewrite IH, (H _ _ Hv). reflexivity.
Qed.
Lemma enc_len_ok : forall pres t v e, s_enc pres t v e -> enc_len t v = count e.
Proof.
  intros pres. induction t as [o sz| |o sz|t IH|o sz t IH|o sz k t IH]; intros v e H; destruct v as [n|s|ov|l]; cbn [s_enc] in H; try contradiction;
    cbn [enc_len].
  - apply number_length in H. unfold count. lia.
  - destruct H as (_ & _ & ->). rewrite count_app. reflexivity.
  - destruct H as (_ & p & Hn & ->). apply number_length in Hn. rewrite count_app. unfold count at 2. lia.
  - destruct ov as [x|]; [|subst e; reflexivity]. destruct H as (p & b' & _ & _ & -> & H). rewrite (IH _ _ H). unfold count. cbn [length]. lia.
  - destruct H as (p & chunks & Hn & HF & ->). apply number_length in Hn. fold (sum_len t l). rewrite (chunks_len pres t IH _ _ HF), count_app.
    unfold count at 2. lia.
  - destruct H as (p & chunks & Hn & HF & _ & ->). apply number_length in Hn. fold (sum_len t l). rewrite (chunks_len pres t IH _ _ HF), count_app.
    unfold count at 2. lia.
Qed.

Lemma int_check_inv : forall x y, int_check x = Ok y -> y = x.
Proof. intros x y H. unfold int_check in H. destruct ((int_min <=? x) && (x <=? int_max)); [congruence|discriminate]. Qed.
Lemma data_range_len : forall d lo hi x, data_range d lo hi = Ok x -> count x = hi - lo + 1.
Proof.
  intros d lo hi x H. unfold data_range in H. destruct ((lo <=? hi) && (0 <=? lo) && (hi <? count d)) eqn:E; [|discriminate H].
  injection H as <-. unfold count in *. rewrite firstn_length, skipn_length. lia.
Qed.

Section Reads.
Variables (dec : bytes -> bytes) (m : mode).
Hypothesis Hlong : never_shrinks dec.

Lemma items_upper : forall t, (forall b n v, s_from dec m t b = Ok (n, v) -> n <= enc_len t v) ->
  forall k b n l, s_items m (s_from dec m t) k b = Ok (n, l) -> n <= sum_len t l /\ length l = k.
Proof.
  intros t IH. induction k as [|k IHk]; intros b n l H; cbn [s_items] in H.
  - injection H as <- <-. split; [cbn; lia|reflexivity].
  - apply bind_ok in H. destruct H as ((size & v) & H1 & H). apply bind_ok in H. destruct H as (b' & _ & H).
    apply bind_ok in H. destruct H as ((total & vs) & H2 & H). apply bind_ok in H. destruct H as (n' & H3 & H). injection H as <- <-.
    apply int_check_inv in H3. destruct (IHk _ _ _ H2) as [A B]. pose proof (IH _ _ _ H1) as C. cbn [sum_len fold_right length].
    fold (sum_len t vs). split; lia.
Qed.
Lemma read_upper : forall t, array_items_numbers t -> forall b n v, s_from dec m t b = Ok (n, v) -> n <= enc_len t v.
Proof.
  induction t as [o sz| |o sz|t IH|o sz t IH|o sz k t IH]; intros Ha b n v H; cbn [s_from] in H;
    apply bind_ok in H; destruct H as ((n0 & v0) & H & E); injection E as <- <-; cbn [enc_len].
  - unfold s_value_from in H. destruct (db_size b <? Z.of_nat sz); [discriminate H|]. apply bind_ok in H. destruct H as (x & _ & H).
    injection H as <- <-. lia.
  - unfold s_nts_from in H. apply bind_ok in H. destruct H as (i & _ & H). destruct i as [i|]; [|discriminate H].
    apply bind_ok in H. destruct H as (w & Hw & H). apply bind_ok in H. destruct H as (d & Hd & H). apply bind_ok in H. destruct H as (size & Hs & H).
    injection H as <- <-. apply int_check_inv in Hs. unfold db_through in Hw. apply bind_ok in Hw. destruct Hw as (u1 & _ & Hw).
    apply bind_ok in Hw. destruct Hw as (u2 & _ & Hw). injection Hw as <-. unfold db_to_data in Hd. apply data_range_len in Hd.
    cbn [db_sub db_start db_end] in Hd. pose proof (Hlong d). unfold count in *. lia.
  - unfold s_varchar_from in H. apply bind_ok in H. destruct H as ((size & len0) & Hv & H). apply bind_ok in H. destruct H as (n & Hn & H).
    apply bind_ok in H. destruct H as (hi & Hh & H). apply bind_ok in H. destruct H as (w & Hw & H). apply bind_ok in H. destruct H as (d & Hd & H).
    apply bind_ok in H. destruct H as (total & Ht & H). injection H as <- <-. apply int_check_inv in Hh. apply int_check_inv in Ht.
    unfold s_value_from in Hv. destruct (db_size b <? Z.of_nat sz); [discriminate Hv|]. apply bind_ok in Hv. destruct Hv as (x & _ & Hv). injection Hv as <- <-.
    unfold db_closed in Hw. destruct (hi <? Z.of_nat sz); [discriminate Hw|].
    do 5 (apply bind_ok in Hw; destruct Hw as (? & _ & Hw)). injection Hw as <-. unfold db_to_data in Hd. apply data_range_len in Hd.
    cbn [db_sub db_start db_end] in Hd. pose proof (Hlong d). unfold count in *. lia.
  - unfold s_optional_from in H. destruct (db_is_empty b); [discriminate H|]. apply bind_ok in H. destruct H as (flag & _ & H).
    destruct (0 <? flag)%N; [|injection H as <- <-; lia]. apply bind_ok in H. destruct H as (d & _ & H). apply bind_ok in H.
    destruct H as ((size & x) & H & E). injection E as <- <-. pose proof (IH Ha _ _ _ H). lia.
  - unfold s_list_from in H. apply bind_ok in H. destruct H as ((size & n) & Hv & H). apply bind_ok in H. destruct H as (data & _ & H).
    apply bind_ok in H. destruct H as (n' & _ & H). apply bind_ok in H. destruct H as (last & _ & H).
    apply bind_ok in H. destruct H as ((total & vs) & Hi & H). apply bind_ok in H. destruct H as (total' & Ht & H). injection H as <- <-.
    apply int_check_inv in Ht. destruct (items_upper t (IH Ha) _ _ _ _ Hi) as [A _]. fold (sum_len t vs).
    unfold s_value_from in Hv. destruct (db_size b <? Z.of_nat sz); [discriminate Hv|]. apply bind_ok in Hv. destruct Hv as (x & _ & Hv). injection Hv as <- <-. lia.
  - unfold s_array_from in H. apply bind_ok in H. destruct H as ((size & n) & Hv & H). apply bind_ok in H. destruct H as (data & _ & H).
    apply bind_ok in H. destruct H as (n' & Hn & H). apply bind_ok in H. destruct H as (body & Hb & H).
    apply bind_ok in H. destruct H as (total & Ht & H). destruct (db_size b <? total); [discriminate H|].
    apply bind_ok in H. destruct H as (last & Hl & H). apply bind_ok in H. destruct H as ((tt & vs) & Hi & H). injection H as <- <-.
    apply int_check_inv in Ht, Hb, Hn. cbn [array_items_numbers] in Ha. destruct t as [o' z| | | | |]; try contradiction.
    destruct (items_upper (SVal o' z) (IH I) _ _ _ _ Hi) as [_ B].
    unfold s_value_from in Hv. destruct (db_size b <? Z.of_nat sz); [discriminate Hv|]. apply bind_ok in Hv. destruct Hv as (x & _ & Hv). injection Hv as <- <-.
    unfold uint_sub in Hl. destruct (1 <=? x)%N eqn:El; [|discriminate Hl]. injection Hl as <-.
    fold (sum_len (SVal o' z) vs).
    assert (Hsum : sum_len (SVal o' z) vs = Z.of_nat (length vs) * Z.of_nat z).
    { assert (Hall : Forall (fun v => exists n, v = SN n) vs).
      { clear - Hi. revert Hi. generalize (S (N.to_nat (x - 1))). intros k. revert data tt vs. induction k as [|k IHk]; intros data tt vs Hi; cbn [s_items] in Hi.
        - injection Hi as _ <-. constructor.
        - apply bind_ok in Hi. destruct Hi as ((s0 & v0) & H1 & Hi). apply bind_ok in Hi. destruct Hi as (b' & _ & Hi).
          apply bind_ok in Hi. destruct Hi as ((t0 & vs0) & H2 & Hi). apply bind_ok in Hi. destruct Hi as (n0 & _ & Hi). injection Hi as _ <-.
          cbn [s_from] in H1. apply bind_ok in H1. destruct H1 as ((n1 & v1) & _ & H1). injection H1 as _ <-.
          constructor; [eexists; reflexivity|eapply IHk; exact H2]. }
      clear - Hall. induction Hall as [|v vs (n & ->) Hall IHv]; [reflexivity|].
      change (sum_len (SVal o' z) (SN n :: vs)) with (Z.of_nat z + sum_len (SVal o' z) vs). rewrite IHv. cbn [length]. lia. }
    rewrite Hsum, B. replace (Z.of_nat (S (N.to_nat (x - 1)))) with (Z.of_N x) by lia. subst n' body total k. lia.
Qed.

Lemma db_from_start : forall b n b', db_from m b n = Ok b' -> db_start b' = db_start b + n.
Proof.
  intros b n b' H. unfold db_from in H. apply bind_ok in H. destruct H as (? & _ & H). apply bind_ok in H. destruct H as (? & _ & H).
  injection H as <-. reflexivity.
Qed.

(** Reading all items with the sizes of their encodings reads each of them. *)
Lemma items_right : forall pres t, well_typed t -> array_items_numbers t -> forall l chunks, Forall2 (s_enc pres t) l chunks ->
  forall b pre d post n, win b pre (concat chunks ++ d) post -> pre <> [] ->
  s_items m (s_from dec m t) (length l) b = Ok (n, l) -> count (concat chunks) <= n ->
  Forall2 (fun v e => exists b pre d post, win b pre (e ++ d) post /\ pre <> [] /\ s_from dec m t b = Ok (count e, v)) l chunks.
Proof.
  intros pres t Ht Ha l chunks HF. induction HF as [|v e l chunks Hv HF IH]; intros b pre d post n W Hpre H Hn; [constructor|].
  cbn [s_items length concat] in *. rewrite <- app_assoc in W.
  apply bind_ok in H. destruct H as ((size & v1) & H1 & H). apply bind_ok in H. destruct H as (b' & Hb & H).
  apply bind_ok in H. destruct H as ((total & vs) & H2 & H). apply bind_ok in H. destruct H as (n' & H3 & H). injection H as -> -> ->.
  apply int_check_inv in H3. pose proof (read_upper t Ha _ _ _ H1) as U1. rewrite (enc_len_ok pres t v e Hv) in U1.
  destruct (items_upper t (read_upper t Ha) _ _ _ _ H2) as [U2 _]. rewrite (chunks_len pres t (enc_len_ok pres t) _ _ HF) in U2.
  rewrite count_app in Hn. assert (size = count e) by lia. subst size.
  destruct (win_from m b pre e _ post W (enc_nonempty pres t v e Ht Hv)) as (F & W2). rewrite F in Hb. injection Hb as <-.
  constructor.
  - exists b, pre, (concat chunks ++ d), post. auto.
  - eapply IH; [exact W2| |exact H2|lia]. destruct pre; [congruence|discriminate].
Qed.

Lemma read_right : forall pres t, well_typed t -> array_items_numbers t -> forall v e b pre d post,
  s_enc pres t v e -> win b pre (e ++ d) post -> s_from dec m t b = Ok (count e, v) ->
  plain t v \/ (t = SNts /\ v <> SS [] /\ pre = []).
Proof.
  intros pres. induction t as [o sz| |o sz|t IH|o sz t IH|o sz k t IH]; intros Ht Ha v e b pre d post He W H;
    destruct v as [n|s|ov|l]; cbn [s_enc] in He; try contradiction; cbn [plain].
  - left. exact I.
  - right. split; [reflexivity|]. destruct He as (Hu & Hz & ->). cbn [s_from] in H. apply bind_ok in H.
    destruct H as ((n0 & v0) & H & E). injection E as -> ->. unfold s_nts_from in H. apply bind_ok in H. destruct H as (i & Hi & H).
    destruct i as [i|]; [|discriminate H].
    apply bind_ok in H. destruct H as (w & Hw & H). apply bind_ok in H. destruct H as (d0 & Hd & H). apply bind_ok in H. destruct H as (size & Hs & H).
    injection H as -> Hdd. apply int_check_inv in Hs. unfold db_through in Hw. apply bind_ok in Hw. destruct Hw as (u1 & _ & Hw).
    apply bind_ok in Hw. destruct Hw as (u2 & _ & Hw). injection Hw as <-.
    assert (i = count pre + count s).
    { unfold db_find_first in Hi. destruct ((0 <=? db_start b) && (db_start b <=? count (db_data b))); [|discriminate Hi].
      injection Hi as Hi. destruct W as (D & S & _ & _). rewrite D, S in Hi.
      replace (Z.to_nat (count pre)) with (length pre) in Hi by (unfold count; lia).
      rewrite skipn_app, skipn_all, Nat.sub_diag in Hi. cbn [skipn app] in Hi. rewrite <- !app_assoc in Hi. cbn [app] in Hi.
      rewrite first_index_nul in Hi by exact Hz. congruence. }
    subst i. rewrite count_app in Hs. change (count [0%N]) with 1 in Hs. assert (count pre = 0) by lia.
    assert (pre = []) by (destruct pre; [reflexivity|unfold count in *; cbn [length] in *; lia]). subst pre. split; [|reflexivity].
    intros E. injection E as ->. unfold db_to_data, data_range in Hd. cbn [db_sub db_start db_end db_data] in Hd.
    change (count []) with 0 in Hd. replace (db_start b <=? db_start b + (0 + 0) - 1) with false in Hd by lia. discriminate Hd.
  - left. intros ->. destruct He as (_ & p & Hn & E). rewrite app_nil_r in E. subst e.
    cbn [s_from] in H. unfold s_varchar_from in H. rewrite (s_value_ok m o sz _ p b pre d post Ht Hn W) in H. cbn [bind] in H.
    change (len []) with 0%N in H. unfold int_of_uint in H. change (int_check (Z.of_N 0)) with (Ok (E:=serror) 0) in H. cbn [bind] in H.
    apply bind_ok in H. destruct H as ((n0 & v0) & H & _). apply bind_ok in H. destruct H as (hi & Hh & H). apply int_check_inv in Hh.
    apply bind_ok in H. destruct H as (w & Hw & H). apply bind_ok in H. destruct H as (d0 & Hd & H).
    unfold db_closed in Hw. destruct (hi <? Z.of_nat sz); [discriminate Hw|].
    do 5 (apply bind_ok in Hw; destruct Hw as (? & _ & Hw)). injection Hw as <-. unfold db_to_data, data_range in Hd. cbn [db_sub db_start db_end db_data] in Hd.
    replace (db_start b + Z.of_nat sz <=? db_start b + hi - 1) with false in Hd by lia. discriminate Hd.
  - destruct ov as [x|]; [|left; exact I]. exfalso. destruct He as (p & b' & Hp & _ & -> & He).
    cbn [s_from] in H. apply bind_ok in H. destruct H as ((n0 & v0) & H & E). injection E as -> ->.
    unfold s_optional_from in H. destruct (db_is_empty b); [discriminate H|]. apply bind_ok in H. destruct H as (flag & _ & H).
    destruct (0 <? flag)%N; [|discriminate H]. apply bind_ok in H. destruct H as (d0 & _ & H). apply bind_ok in H.
    destruct H as ((size & y) & H & E). injection E as -> ->. pose proof (read_upper t Ha _ _ _ H) as U.
    rewrite (enc_len_ok pres t x b' He) in U. unfold count in U. cbn [length] in U. lia.
  - left. destruct Ht as (Hsz & Ht). destruct He as (p & chunks & Hn & HF & ->). rewrite <- app_assoc in W.
    cbn [s_from] in H. unfold s_list_from in H. rewrite (s_value_ok m o sz _ p b pre _ post Hsz Hn W) in H. cbn [bind] in H.
    pose proof (number_length _ _ _ _ Hn) as Hl. assert (Ep : Z.of_nat sz = count p) by (unfold count; lia). rewrite Ep in H.
    destruct (win_from m b pre p _ post W (number_nonempty _ _ _ _ Hsz Hn)) as (F & W2). rewrite F in H. cbn [bind] in H.
    apply bind_ok in H. destruct H as ((n0 & v0) & H & E). injection E as -> ->.
    apply bind_ok in H. destruct H as (n' & _ & H). apply bind_ok in H. destruct H as (last & Hlast & H).
    apply bind_ok in H. destruct H as ((total & vs) & Hi & H). apply bind_ok in H. destruct H as (total' & Htt & H). injection H as -> ->.
    apply int_check_inv in Htt. unfold uint_sub in Hlast. destruct (1 <=? len l)%N eqn:El; [|discriminate Hlast]. injection Hlast as <-.
    replace (S (N.to_nat (len l - 1))) with (length l) in Hi by (unfold len in *; lia).
    assert (Hne : l <> []) by (intros ->; discriminate El). split; [exact Hne|].
    pose proof (items_right pres t Ht Ha l chunks HF _ _ _ _ total W2) as R.
    assert (Hpre : pre ++ p <> []) by (pose proof (number_nonempty _ _ _ _ Hsz Hn); destruct pre; [assumption|discriminate]).
    specialize (R Hpre Hi). rewrite count_app in Htt. assert (Hc : count (concat chunks) <= total) by lia. specialize (R Hc).
    clear - IH Ht Ha HF R. induction HF as [|v e l chunks Hv HF IHl]; [constructor|]. inversion R; subst.
    destruct H2 as (b & pre & d & post & W & Hp & Hr). constructor; [|apply IHl; assumption].
    destruct (IH Ht Ha v e b pre d post Hv W Hr) as [Q|(_ & _ & Q)]; [exact Q|contradiction].
  - left. destruct Ht as (Hsz & Ht). destruct He as (p & chunks & Hn & HF & Hk & ->). rewrite <- app_assoc in W.
    cbn [array_items_numbers] in Ha. destruct t as [o' z| | | | |]; try contradiction.
    split.
    + intros ->. cbn [s_from] in H. unfold s_array_from in H. rewrite (s_value_ok m o sz _ p b pre _ post Hsz Hn W) in H. cbn [bind] in H.
      apply bind_ok in H. destruct H as ((n0 & v0) & H & _). apply bind_ok in H. destruct H as (b1 & _ & H).
      apply bind_ok in H. destruct H as (n' & _ & H). apply bind_ok in H. destruct H as (body & _ & H). apply bind_ok in H. destruct H as (tot & _ & H).
      destruct (db_size b <? tot); [discriminate H|]. apply bind_ok in H. destruct H as (last & Hlast & _). discriminate Hlast.
    + clear - HF. induction HF as [|v e l chunks Hv HF IHl]; [constructor|]. constructor; [|exact IHl].
      destruct v; cbn [s_enc] in Hv; try contradiction. exact I.
Qed.
End Reads.

Theorem swift_reads_exact : forall dec m t v e s b, decodes_utf8 dec -> never_shrinks dec ->
  well_typed t -> array_items_numbers t -> s_encodes_lax t v e -> holds b (e ++ s) ->
  (s_from dec m t b = Ok (Z.of_nat (length e), v) <->
   plain t v \/ (t = SNts /\ v <> SS [] /\ db_start b = 0)).
Proof.
  intros dec m t v e s b Hd Hl Ht Ha He H. split.
  - intros Hr. destruct (holds_win _ _ H) as (pre & post & W).
    destruct (read_right dec m Hl _ t Ht Ha v e b pre s post He W Hr) as [Q|(-> & Q & ->)]; [left; exact Q|right].
    split; [reflexivity|]. split; [exact Q|]. destruct W as (_ & S & _). exact S.
  - intros [Hp|(-> & Hv & H0)].
    + eapply swift_reads; eassumption.
    + destruct v as [|s0| |]; cbn [s_encodes_lax s_enc] in He; try contradiction.
      eapply nts_at_start; try eassumption. intros ->. apply Hv. reflexivity.
Qed.
