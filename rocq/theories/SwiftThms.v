(** The Swift runtime reads and writes the wire format. *)

From Coq Require Import Arith NArith ZArith List Bool Lia ZifyBool ZifyN ZifyNat.
From Verif Require Import Base Schema Codec Bits BitsFacts Compiler Utf8 SpecUtf8 Utf8Thms BEThms Access Runtime SpecWire MsgFacts
  StackThms Swift SpecSwift SwiftFacts.
Import ListNotations.
Local Open Scope Z_scope.

Lemma int_ok : forall x, int_min <= x <= int_max -> int_check x = Ok x.
Proof. intros x H. unfold int_check. replace ((int_min <=? x) && (x <=? int_max)) with true by lia. reflexivity. Qed.
Lemma int_ok' : forall x, 0 <= x < 2 ^ 63 -> int_check x = Ok x.
Proof. intros x H. apply int_ok. unfold int_min, int_max. lia. Qed.

Lemma count_pos : forall d, d <> [] -> 0 < count d.
Proof. intros [|] H; [congruence|]. unfold count. cbn [length]. lia. Qed.

Lemma number_nonempty : forall e sz n p, uint_size sz -> number e sz n p -> p <> [].
Proof. intros e sz n p Hs Hn ->. apply number_length in Hn. apply uint_pos in Hs. cbn in Hn. lia. Qed.

Lemma enc_nonempty : forall pres t v e, well_typed t -> s_enc pres t v e -> e <> [].
Proof.
  intros pres t v e Ht He Hn. subst e. destruct t, v; cbn in *; try contradiction.
  - apply (number_nonempty _ _ _ _ Ht He). reflexivity.
  - destruct He as (_ & _ & H). destruct s; discriminate.
  - destruct He as (_ & p & H & E). symmetry in E. apply app_eq_nil in E. destruct E as (-> & _).
    apply (number_nonempty _ _ _ _ Ht H). reflexivity.
  - destruct v as [v|]; [|discriminate]. destruct He as (p & b' & _ & _ & E & _). discriminate.
  - destruct He as (p & cs & H & _ & E). symmetry in E. apply app_eq_nil in E. destruct E as (-> & _).
    apply (number_nonempty _ _ _ _ (proj1 Ht) H). reflexivity.
  - destruct He as (p & cs & H & _ & _ & E). symmetry in E. apply app_eq_nil in E. destruct E as (-> & _).
    apply (number_nonempty _ _ _ _ (proj1 Ht) H). reflexivity.
Qed.

Lemma items_ok : forall {A} m (r : dbuf -> sres (Z * A)) (P : A -> bytes -> Prop) l chunks,
  (forall v e b pre d post, In v l -> P v e -> win b pre (e ++ d) post -> e <> [] /\ r b = Ok (count e, v)) ->
  Forall2 P l chunks -> forall b pre d post, win b pre (concat chunks ++ d) post ->
  s_items m r (length l) b = Ok (count (concat chunks), l).
Proof.
  intros A m r P l chunks Hr HF. induction HF as [|v e l chunks Hv HF IH]; intros b pre d post W; [reflexivity|].
  cbn [s_items length concat] in *. rewrite <- app_assoc in W.
  destruct (Hr v e b pre _ post (or_introl eq_refl) Hv W) as (Hne & E). rewrite E. cbn [bind].
  destruct (win_from m b pre e _ post W Hne) as (F & W2). rewrite F. cbn [bind].
  rewrite (IH (fun v' e' b' pre' d' post' Hi => Hr v' e' b' pre' d' post' (or_intror Hi)) _ _ _ _ W2).
  cbn [bind]. unfold iadd. pose proof (win_bound _ _ _ _ W) as L. rewrite !count_app in L.
  pose proof (count_nonneg pre). pose proof (count_nonneg e). pose proof (count_nonneg (concat chunks)).
  pose proof (count_nonneg d). pose proof (count_nonneg post).
  rewrite int_ok' by lia. cbn [bind]. rewrite count_app. reflexivity.
Qed.

Lemma chunks_count : forall {A} (P : A -> bytes -> Prop) l chunks, Forall2 P l chunks ->
  (forall v e, P v e -> e <> []) -> (Z.of_nat (length l) <= count (concat chunks)).
Proof.
  intros A P l chunks H Hn. induction H as [|v e l chunks Hv _ IH]; [cbn; unfold count; cbn; lia|].
  cbn [length concat]. rewrite count_app. pose proof (count_pos e (Hn _ _ Hv)). lia.
Qed.

Lemma chunks_sized : forall (k : Z) (chunks : list bytes), Forall (fun c => Z.of_nat (length c) = k) chunks ->
  count (concat chunks) = Z.of_nat (length chunks) * k.
Proof.
  intros k chunks H. induction H as [|c cs Hc _ IH]; [reflexivity|].
  cbn [concat length]. rewrite count_app. unfold count at 1. lia.
Qed.

Lemma Forall2_len : forall {A B} (P : A -> B -> Prop) l l', Forall2 P l l' -> length l = length l'.
Proof. intros A B P l l' H. induction H; cbn; congruence. Qed.

Theorem read_plain : forall dec m pres t, decodes_utf8 dec -> well_typed t -> forall v e b pre d post,
  plain t v -> s_enc pres t v e -> win b pre (e ++ d) post -> s_from dec m t b = Ok (count e, v).
Proof.
  intros dec m pres t Hdec. induction t as [o sz| |o sz|t IH|o sz t IH|o sz k t IH]; intros Ht v e b pre d post Hp He W;
    destruct v as [n|s|ov|l]; cbn [plain s_enc] in Hp, He; try contradiction; cbn [s_from].
  - rewrite (s_value_ok m o sz n e b pre d post Ht He W). cbn [bind]. apply number_length in He.
    unfold count. rewrite He. reflexivity.
  - destruct He as (Hu & p & Hn & ->). rewrite <- app_assoc in W. unfold s_varchar_from.
    rewrite (s_value_ok m o sz _ p b pre _ post Ht Hn W). cbn [bind].
    pose proof (number_length _ _ _ _ Hn) as Hl.
    pose proof (win_bound _ _ _ _ W) as L. rewrite !count_app in L.
    pose proof (count_nonneg pre). pose proof (count_nonneg d). pose proof (count_nonneg post).
    pose proof (count_nonneg s). pose proof (count_nonneg p).
    assert (Es : Z.of_N (len s) = count s) by (unfold len, count; lia).
    assert (Ep : Z.of_nat sz = count p) by (unfold count; lia).
    unfold int_of_uint. rewrite Es, Ep. rewrite int_ok' by lia. cbn [bind].
    unfold iadd. rewrite int_ok' by lia. cbn [bind].
    destruct (win_closed m b pre p s d post W) as (w & -> & W2). cbn [bind].
    rewrite (win_to_data _ _ _ _ W2 Hp). cbn [bind].
    rewrite int_ok' by lia. cbn [bind]. rewrite (Hdec s Hu), count_app. do 2 f_equal. lia.
  - destruct ov as [x|]; [contradiction|]. subst e. unfold s_optional_from, db_is_empty.
    rewrite (win_size _ _ _ _ W), count_app. pose proof (count_nonneg d). change (count [0%N]) with 1.
    replace (1 + count d =? 0) with false by lia.
    rewrite (win_at m b pre _ post 0 W) by (rewrite count_app; change (count [0%N]) with 1; lia).
    reflexivity.
  - destruct He as (p & chunks & Hn & HF & ->). destruct Hp as (Hne & Hpl). destruct Ht as (Hsz & Ht).
    rewrite <- app_assoc in W. unfold s_list_from.
    rewrite (s_value_ok m o sz _ p b pre _ post Hsz Hn W). cbn [bind].
    pose proof (number_length _ _ _ _ Hn) as Hl.
    assert (Ep : Z.of_nat sz = count p) by (unfold count; lia). rewrite Ep.
    destruct (win_from m b pre p _ post W (number_nonempty _ _ _ _ Hsz Hn)) as (-> & W2). cbn [bind].
    pose proof (win_bound _ _ _ _ W) as L. rewrite !count_app in L.
    pose proof (count_nonneg pre). pose proof (count_nonneg d). pose proof (count_nonneg post).
    pose proof (count_nonneg p). pose proof (count_nonneg (concat chunks)).
    pose proof (chunks_count _ _ _ HF (fun v e => enc_nonempty pres t v e Ht)) as Hc.
    unfold int_of_uint. rewrite int_ok' by (unfold len; lia). cbn [bind].
    assert (Hl1 : (0 < length l)%nat) by (destruct l; [congruence|cbn; lia]).
    unfold uint_sub. replace (1 <=? len l)%N with true by (unfold len; lia). cbn [bind].
    replace (S (N.to_nat (len l - 1))) with (length l) by (unfold len; lia).
    rewrite (items_ok m (s_from dec m t) (s_enc pres t) l chunks) with (pre := pre ++ p) (d := d) (post := post);
      [| |exact HF|exact W2].
    + cbn [bind]. unfold iadd. rewrite int_ok' by lia. cbn [bind]. rewrite count_app. reflexivity.
    + intros v e b' pre' d' post' Hi Hv Wv. split; [apply (enc_nonempty pres t v e Ht Hv)|].
      apply (IH Ht v e b' pre' d' post'); [|exact Hv|exact Wv].
      rewrite Forall_forall in Hpl. apply Hpl, Hi.
  - destruct He as (p & chunks & Hn & HF & Hk & ->). destruct Hp as (Hne & Hpl). destruct Ht as (Hsz & Ht).
    rewrite <- app_assoc in W. unfold s_array_from.
    rewrite (s_value_ok m o sz _ p b pre _ post Hsz Hn W). cbn [bind].
    pose proof (number_length _ _ _ _ Hn) as Hl.
    assert (Ep : Z.of_nat sz = count p) by (unfold count; lia). rewrite Ep.
    destruct (win_from m b pre p _ post W (number_nonempty _ _ _ _ Hsz Hn)) as (-> & W2). cbn [bind].
    pose proof (win_bound _ _ _ _ W) as L. rewrite !count_app in L.
    pose proof (count_nonneg pre). pose proof (count_nonneg d). pose proof (count_nonneg post).
    pose proof (count_nonneg p). pose proof (count_nonneg (concat chunks)).
    pose proof (chunks_count _ _ _ HF (fun v e => enc_nonempty pres t v e Ht)) as Hc.
    unfold int_of_uint. rewrite int_ok' by (unfold len; lia). cbn [bind].
    assert (Hl1 : (0 < length l)%nat) by (destruct l; [congruence|cbn; lia]).
    pose proof (chunks_sized k chunks Hk) as Hck. pose proof (Forall2_len _ _ _ HF) as Hlen. cbn in Hck, Hlen. rewrite <- Hlen in Hck.
    unfold imul, iadd. replace (Z.of_N (len l) * k) with (count (concat chunks)) by (unfold len; lia).
    rewrite int_ok' by lia. cbn [bind]. rewrite int_ok' by lia. cbn [bind].
    rewrite (win_size _ _ _ _ W), !count_app.
    replace (count p + (count (concat chunks) + count d) <? count p + count (concat chunks)) with false by lia.
    unfold uint_sub. replace (1 <=? len l)%N with true by (unfold len; lia). cbn [bind].
    replace (S (N.to_nat (len l - 1))) with (length l) by (unfold len; lia).
    rewrite (items_ok m (s_from dec m t) (s_enc pres t) l chunks) with (pre := pre ++ p) (d := d) (post := post);
      [| |exact HF|exact W2].
    + reflexivity.
    + intros v e b' pre' d' post' Hi Hv Wv. split; [apply (enc_nonempty pres t v e Ht Hv)|].
      apply (IH Ht v e b' pre' d' post'); [|exact Hv|exact Wv].
      rewrite Forall_forall in Hpl. apply Hpl, Hi.
Qed.

Theorem swift_reads : forall dec m t v e s b, decodes_utf8 dec -> well_typed t -> plain t v ->
  s_encodes_lax t v e -> holds b (e ++ s) -> s_from dec m t b = Ok (Z.of_nat (length e), v).
Proof.
  intros dec m t v e s b Hd Ht Hp He H. destruct (holds_win _ _ H) as (pre & post & W).
  exact (read_plain dec m _ t Hd Ht v e b pre s post Hp He W).
Qed.

(** A string ended by 0 is read at the start of the storage only. *)
Lemma first_index_nul : forall s r i, no_nul s -> first_index 0 i (s ++ 0%N :: r) = Some (i + count s).
Proof.
  intros s. induction s as [|x s IH]; intros r i H.
  - cbn. f_equal. unfold count. cbn. lia.
  - inversion H; subst. cbn [app first_index]. replace (x =? 0)%N with false by lia.
    rewrite IH by assumption. f_equal. unfold count. cbn [length]. lia.
Qed.

Theorem nts_at_start : forall dec m s e r b, decodes_utf8 dec -> s <> [] ->
  s_encodes_lax SNts (SS s) e -> holds b (e ++ r) -> db_start b = 0 ->
  s_from dec m SNts b = Ok (Z.of_nat (length e), SS s).
Proof.
  intros dec m s e r b Hd Hne (Hu & Hz & ->) H H0. destruct (holds_win _ _ H) as (pre & post & W).
  assert (pre = []) as ->. { destruct W as (_ & S & _). rewrite H0 in S. destruct pre; [reflexivity|]. unfold count in S. cbn in S. lia. }
  cbn [s_from]. unfold s_nts_from, db_find_first. pose proof W as (D & S & E & L).
  rewrite D, H0. replace ((0 <=? 0) && (0 <=? count ([] ++ ((s ++ [0%N]) ++ r) ++ post))) with true by (unfold count; lia).
  cbn [bind Z.to_nat skipn app]. rewrite <- !app_assoc. cbn [app].
  rewrite first_index_nul by exact Hz. cbn [bind]. rewrite Z.add_0_l.
  pose proof (win_bound _ _ _ _ W) as B. pose proof (win_size _ _ _ _ W) as Sz. rewrite !count_app in Sz, B.
  change (count [0%N]) with 1 in *. change (count []) with 0 in *.
  pose proof (count_nonneg r). pose proof (count_nonneg post). pose proof (count_pos s Hne).
  unfold db_through. rewrite Sz. rewrite !sassert_true by lia. cbn [bind].
  pose proof (win_sub b [] [] s ([0%N] ++ r) post) as Q. cbn [app] in Q. rewrite <- !app_assoc in W. cbn [app] in W.
  specialize (Q W). change (count []) with 0 in Q. rewrite Z.add_0_r in Q.
  rewrite (win_to_data _ _ _ _ Q Hne). cbn [bind]. unfold iadd. rewrite int_ok' by lia. cbn [bind].
  rewrite (Hd s Hu). rewrite app_length. cbn [length]. do 2 f_equal. unfold count. lia.
Qed.

(** ** What goes wrong *)

(** A present optional value is read, but one byte is missing in its size. *)
Theorem optional_present : forall dec m t v e s b, decodes_utf8 dec -> well_typed t -> plain t v ->
  s_encodes_lax (SOpt t) (SO (Some v)) e -> holds b (e ++ s) ->
  s_from dec m (SOpt t) b = Ok (Z.of_nat (length e) - 1, SO (Some v)).
Proof.
  intros dec m t v e s b Hd Ht Hp (p & e' & Hp0 & _ & -> & He) H. destruct (holds_win _ _ H) as (pre & post & W).
  cbn [s_from]. unfold s_optional_from, db_is_empty. rewrite (win_size _ _ _ _ W).
  replace (count ((p :: e') ++ s) =? 0) with false by (unfold count; cbn [length app]; lia).
  rewrite (win_at m b pre _ post 0 W) by (unfold count; cbn [length app]; lia). cbn [bind Z.to_nat nth app].
  replace (0 <? p)%N with true by lia.
  change ((p :: e') ++ s) with ([p] ++ (e' ++ s)) in W.
  destruct (win_from m b pre [p] _ post W ltac:(discriminate)) as (F & W2).
  change (count [p]) with 1 in F, W2. rewrite F. cbn [bind].
  rewrite (read_plain dec m _ t Hd Ht v e' _ _ s post Hp He W2). cbn [bind length]. do 2 f_equal. unfold count. lia.
Qed.

(** Empty strings and empty lists trap. *)
Theorem empty_varchar_traps : forall dec m o sz e s b, uint_size sz ->
  s_encodes_lax (SVarchar o sz) (SS []) e -> holds b (e ++ s) -> s_from dec m (SVarchar o sz) b = Panic.
Proof.
  intros dec m o sz e s b Hs (_ & p & Hn & ->) H. rewrite app_nil_r in H. destruct (holds_win _ _ H) as (pre & post & W).
  cbn [s_from]. unfold s_varchar_from. rewrite (s_value_ok m o sz _ p b pre _ post Hs Hn W). cbn [bind len].
  pose proof (number_length _ _ _ _ Hn) as Hl. assert (Ep : Z.of_nat sz = count p) by (unfold count; lia).
  change (int_of_uint (len [])) with (int_check 0). rewrite int_ok' by lia. cbn [bind]. rewrite Ep.
  pose proof (win_bound _ _ _ _ W) as L. rewrite !count_app in L.
  pose proof (count_nonneg pre). pose proof (count_nonneg s). pose proof (count_nonneg post). pose proof (count_nonneg p).
  unfold iadd. rewrite int_ok' by lia. cbn [bind].
  destruct (win_closed m b pre p [] s post W) as (w & F & W2). change (count []) with 0 in F. rewrite F. cbn [bind].
  rewrite (empty_to_data _ _ _ W2). reflexivity.
Qed.

Theorem empty_nts_traps : forall dec m s b, holds b (0%N :: s) -> db_start b = 0 -> s_from dec m SNts b = Panic.
Proof.
  intros dec m s b H H0. destruct (holds_win _ _ H) as (pre & post & W).
  assert (pre = []) as ->. { destruct W as (_ & S & _). rewrite H0 in S. destruct pre; [reflexivity|]. unfold count in S. cbn in S. lia. }
  cbn [s_from]. unfold s_nts_from, db_find_first. pose proof W as (D & S & E & L).
  rewrite D, H0. replace ((0 <=? 0) && (0 <=? count ([] ++ (0%N :: s) ++ post))) with true by (unfold count; lia).
  cbn [bind Z.to_nat skipn app first_index N.eqb]. unfold db_through. destruct m; cbn [sassert].
  - replace (0 <=? db_size b) with true by (rewrite (win_size _ _ _ _ W); unfold count; lia). reflexivity.
  - cbn [bind]. unfold db_to_data, data_range, db_sub. cbn. rewrite H0. reflexivity.
Qed.

Theorem empty_list_traps : forall dec m o sz t e s b, uint_size sz ->
  s_encodes_lax (SList o sz t) (SL []) e -> holds b (e ++ s) -> s_from dec m (SList o sz t) b = Panic.
Proof.
  intros dec m o sz t e s b Hs (p & cs & Hn & HF & ->) H. inversion HF; subst cs. cbn [concat] in H. rewrite app_nil_r in H.
  destruct (holds_win _ _ H) as (pre & post & W).
  cbn [s_from]. unfold s_list_from. rewrite (s_value_ok m o sz _ p b pre _ post Hs Hn W). cbn [bind].
  pose proof (number_length _ _ _ _ Hn) as Hl. assert (Ep : Z.of_nat sz = count p) by (unfold count; lia).
  rewrite Ep. destruct (win_from m b pre p _ post W (number_nonempty _ _ _ _ Hs Hn)) as (-> & _). cbn [bind].
  reflexivity.
Qed.

(** A missing or short number is [truncated]. *)
Theorem value_truncated : forall dec m o sz b d, holds b d -> (length d < sz)%nat ->
  s_from dec m (SVal o sz) b = Err STruncated.
Proof.
  intros dec m o sz b d H L. destruct (holds_win _ _ H) as (pre & post & W). cbn [s_from]. unfold s_value_from.
  rewrite (win_size _ _ _ _ W). replace (count d <? Z.of_nat sz) with true by (unfold count; lia). reflexivity.
Qed.

(** ** Writing *)

Lemma write_end : forall d x, db_write {| db_data := d; db_mut := true; db_start := 0; db_end := count d; db_cursor := count d |} x =
  Ok {| db_data := d ++ x; db_mut := true; db_start := 0; db_end := count (d ++ x); db_cursor := count (d ++ x) |}.
Proof.
  intros d x. unfold db_write. cbn [db_data db_cursor db_start]. pose proof (count_nonneg x).
  replace (count d + count x <? count d) with false by lia. rewrite Z.sub_diag. cbn [Z.ltb Z.compare bind].
  rewrite Z.sub_0_r. destruct (0 <? count x) eqn:C.
  - cbn [Z.to_nat skipn bind]. rewrite count_app. reflexivity.
  - cbn [bind]. assert (x = []) as -> by (destruct x; [reflexivity|unfold count in C; cbn [length] in C; lia]).
    rewrite app_nil_r. change (count []) with 0. rewrite Z.add_0_r. reflexivity.
Qed.
Lemma write_byte_end : forall d x, db_write_byte {| db_data := d; db_mut := true; db_start := 0; db_end := count d; db_cursor := count d |} x =
  Ok {| db_data := d ++ [x]; db_mut := true; db_start := 0; db_end := count (d ++ [x]); db_cursor := count (d ++ [x]) |}.
Proof.
  intros d x. unfold db_write_byte. cbn [db_data db_cursor db_start].
  replace (count d + 1 <? count d) with false by lia. cbn [bind]. rewrite count_app. reflexivity.
Qed.

Lemma write_written : forall b d x, written b d -> exists b', db_write b x = Ok b' /\ written b' (d ++ x).
Proof. intros b d x ->. eexists. split; [apply write_end|reflexivity]. Qed.
Lemma write_byte_written : forall b d x, written b d -> exists b', db_write_byte b x = Ok b' /\ written b' (d ++ [x]).
Proof. intros b d x ->. eexists. split; [apply write_byte_end|reflexivity]. Qed.

Lemma from_uint_ok : forall sz n, (n < tmod sz)%N -> from_uint sz n = Ok n.
Proof.
  intros sz n H. unfold from_uint. replace (n <? tmod sz)%N with true by lia.
  destruct sz as [|[|[|sz]]]; try reflexivity. rewrite N.mod_small by exact H. reflexivity.
Qed.

Lemma items_written : forall {A} (w : A -> dbuf -> sres dbuf) (P : A -> bytes -> Prop) l chunks,
  (forall v e b d, In v l -> P v e -> written b d -> exists b', w v b = Ok b' /\ written b' (d ++ e)) ->
  Forall2 P l chunks -> forall b d, written b d ->
  exists b', s_items_write w l b = Ok b' /\ written b' (d ++ concat chunks).
Proof.
  intros A w P l chunks Hw HF. induction HF as [|v e l chunks Hv HF IH]; intros b d Hb.
  - exists b. split; [reflexivity|]. cbn. rewrite app_nil_r. exact Hb.
  - cbn [s_items_write concat]. destruct (Hw v e b d (or_introl eq_refl) Hv Hb) as (b1 & -> & Hb1). cbn [bind].
    destruct (IH (fun v' e' b' d' Hi => Hw v' e' b' d' (or_intror Hi)) b1 (d ++ e) Hb1) as (b2 & -> & Hb2).
    exists b2. split; [reflexivity|]. rewrite <- app_assoc in Hb2. exact Hb2.
Qed.

Theorem swift_writes : forall t v e b d, s_encodes t v e -> written b d ->
  exists b', s_write t v b = Ok b' /\ written b' (d ++ e).
Proof.
  intros t. induction t as [o sz| |o sz|t IH|o sz t IH|o sz k t IH]; intros v e b d He Hb;
    destruct v as [n|s|ov|l]; cbn [s_encodes s_enc] in He; try contradiction; cbn [s_write].
  - unfold s_value_write. rewrite (to_bytes_iff _ _ _ _ He). apply write_written. exact Hb.
  - destruct He as (_ & _ & ->). unfold s_nts_write. destruct (write_written b d s Hb) as (b1 & -> & H1). cbn [bind].
    rewrite app_assoc. apply write_byte_written. exact H1.
  - destruct He as (_ & p & Hn & ->). unfold s_varchar_write. pose proof (proj1 (number_iff _ _ _ _) Hn) as (Hlt & _).
    rewrite (from_uint_ok _ _ Hlt). cbn [bind]. unfold s_value_write. rewrite (to_bytes_iff _ _ _ _ Hn).
    destruct (write_written b d p Hb) as (b1 & -> & H1). cbn [bind]. rewrite app_assoc. apply write_written. exact H1.
  - unfold s_optional_write. destruct ov as [x|].
    + destruct He as (p & e' & _ & -> & -> & He). destruct (write_byte_written b d 1%N Hb) as (b1 & -> & H1). cbn [bind].
      destruct (IH x e' b1 _ He H1) as (b2 & -> & H2). exists b2. split; [reflexivity|].
      rewrite <- app_assoc in H2. exact H2.
    + subst e. apply write_byte_written. exact Hb.
  - destruct He as (p & chunks & Hn & HF & ->). unfold s_list_write. pose proof (proj1 (number_iff _ _ _ _) Hn) as (Hlt & _).
    rewrite (from_uint_ok _ _ Hlt). cbn [bind]. unfold s_value_write. rewrite (to_bytes_iff _ _ _ _ Hn).
    destruct (write_written b d p Hb) as (b1 & -> & H1). cbn [bind]. rewrite app_assoc.
    apply (items_written (s_write t) (s_encodes t)); [|exact HF|exact H1].
    intros v e b' d' _ Hv Hb'. apply (IH v e b' d' Hv Hb').
  - destruct He as (p & chunks & Hn & HF & _ & ->). unfold s_list_write. pose proof (proj1 (number_iff _ _ _ _) Hn) as (Hlt & _).
    rewrite (from_uint_ok _ _ Hlt). cbn [bind]. unfold s_value_write. rewrite (to_bytes_iff _ _ _ _ Hn).
    destruct (write_written b d p Hb) as (b1 & -> & H1). cbn [bind]. rewrite app_assoc.
    apply (items_written (s_write t) (s_encodes t)); [|exact HF|exact H1].
    intros v e b' d' _ Hv Hb'. apply (IH v e b' d' Hv Hb').
Qed.
