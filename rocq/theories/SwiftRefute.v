(** Witnesses against the general statements about the Swift runtime. *)

From Coq Require Import Arith NArith ZArith List Bool Lia ZifyBool ZifyN ZifyNat.
From Verif Require Import Base Schema Codec CodecFacts Bits Compiler Access Utf8 SpecUtf8 Runtime SpecWire MsgFacts
  Swift SpecSwift SwiftFacts SwiftThms SwiftMore SwiftCodec.
Import ListNotations.
Local Open Scope N_scope.

Lemma id_decodes : decodes_utf8 (fun s => s).
Proof. intros s _. reflexivity. Qed.

Lemma ascii_utf8 : forall s, Forall (fun x => x < 128) s -> is_utf8 s.
Proof.
  intros s H. exists (map (fun x => x) s). rewrite map_id. split.
  - eapply Forall_impl; [|exact H]. intros x Hx. cbn beta in Hx. unfold scalar_value. lia.
  - induction H; cbn; [reflexivity|]. unfold utf8_char. replace (x <? 128) with true by lia. cbn. f_equal. exact IHForall.
Qed.

(** ** Writing *)

(** Lengths that do not fit: 16 bits truncate, the other widths trap. *)
Theorem too_long_traps : forall o sz s b, sz <> 2%nat -> tmod sz <= len s ->
  s_write (SVarchar o sz) (SS s) b = Panic.
Proof.
  intros o sz s b Hs H. cbn [s_write]. unfold s_varchar_write, from_uint.
  replace (len s <? tmod sz) with false by lia. destruct sz as [|[|[|sz]]]; try reflexivity. contradiction.
Qed.
Theorem too_many_traps : forall o sz t l b, sz <> 2%nat -> tmod sz <= len l ->
  s_write (SList o sz t) (SL l) b = Panic.
Proof.
  intros o sz t s b Hs H. cbn [s_write]. unfold s_list_write, from_uint.
  replace (len s <? tmod sz) with false by lia. destruct sz as [|[|[|sz]]]; try reflexivity. contradiction.
Qed.

Lemma long_truncated : forall dec m, exists s b, is_utf8 s /\
  s_write (SVarchar LE 2) (SS s) db_empty = Ok b /\ ~ (exists e, s_encodes (SVarchar LE 2) (SS s) e) /\
  s_from dec m (SVarchar LE 2) b = Panic.
Proof.
  intros dec m. set (s := repeat 97 (N.to_nat 65536)).
  assert (Hl : len s = 65536) by (unfold len, s; rewrite repeat_length; lia).
  assert (U : is_utf8 s).
  { apply ascii_utf8. apply Forall_forall. intros x Hx. apply repeat_spec in Hx. subst x. reflexivity. }
  destruct (write_written {| db_data := [0; 0]; db_mut := true; db_start := 0; db_end := 2; db_cursor := 2 |} [0; 0] s eq_refl)
    as (b & E & W).
  exists s, b. split; [exact U|]. split; [|split].
  - cbn [s_write]. unfold s_varchar_write. rewrite Hl. exact E.
  - intros (e & _ & p & Hn & _). apply number_iff in Hn. rewrite Hl in Hn. destruct Hn as (Hn & _).
    change (tmod 2) with 65536 in Hn. lia.
  - apply (empty_varchar_traps dec m LE 2 [0; 0] s b); [right; left; reflexivity|..].
    + split; [apply ascii_utf8; constructor|]. exists [0; 0]. split; [apply number_iff; split; reflexivity|reflexivity].
    + rewrite W. exists [], []. cbn [db_data db_start db_end]. rewrite app_nil_r.
      split; [reflexivity|]. split; [reflexivity|]. split; [reflexivity|].
      unfold len in Hl. rewrite app_length. cbn [length]. lia.
Qed.

Definition opts := SList LE 1 (SOpt (SVal LE 1)).
Definition first_value := SL [SO (Some (SN 7))].
Definition second_value := SL [SO None; SO None].

Lemma reuse_refuted : forall dec m, exists b1 b2,
  s_write opts first_value db_empty = Ok b1 /\
  s_write opts second_value (db_clear b1) = Ok b2 /\
  s_encodes opts second_value [2; 0; 0] /\
  db_to_data b2 = Ok [2; 0; 7] /\
  s_from dec m opts b2 = Err STruncated.
Proof.
  intros dec m. eexists. eexists. split; [vm_compute; reflexivity|]. split; [vm_compute; reflexivity|]. split; [|split].
  - exists [2], [[0]; [0]]. split; [apply number_iff; split; reflexivity|]. split; [repeat constructor|reflexivity].
  - vm_compute. reflexivity.
  - destruct m; vm_compute; reflexivity.
Qed.

(** ** Reading *)

(** A string that does not begin its storage. *)
Lemma nts_elsewhere : exists b s e, is_utf8 s /\ s_encodes SNts (SS s) e /\ holds b e /\
  forall m, s_from (fun s => s) m SNts b = Ok (Z.of_nat (length e + 1), SS (s ++ [0])).
Proof.
  exists {| db_data := [1; 97; 0]; db_mut := true; db_start := 1; db_end := 3; db_cursor := 1 |}, [97], [97; 0].
  assert (U : is_utf8 [97]) by (apply ascii_utf8; repeat constructor). split; [exact U|]. split; [|split].
  - split; [exact U|]. split; [|reflexivity]. constructor; [discriminate|constructor].
  - exists [1], []. repeat split.
  - intros []; vm_compute; reflexivity.
Qed.

(** A string whose end is missing. *)
Theorem nts_truncated : forall dec m b d, holds_before b d [] -> ~ In 0 d -> s_from dec m SNts b = Err STruncated.
Proof.
  intros dec m b d H Hz. destruct (holds_before_win _ _ _ H) as (pre & W). cbn [s_from]. unfold s_nts_from, db_find_first.
  destruct W as (D & S & E & L). rewrite D, S, !count_app. change (count []) with 0%Z.
  pose proof (count_nonneg pre). pose proof (count_nonneg d).
  replace ((0 <=? count pre)%Z && (count pre <=? count pre + (count d + 0))%Z) with true by lia.
  assert (F : forall i, first_index 0 i d = None).
  { clear -Hz. induction d as [|x d IH]; intro i; [reflexivity|]. cbn [first_index].
    destruct (N.eqb_spec x 0) as [->|]; [destruct Hz; left; reflexivity|]. apply IH. intro. apply Hz. right. assumption. }
  replace (Z.to_nat (count pre)) with (length pre + 0)%nat by (unfold count; lia).
  rewrite skipn_app. replace (length pre + 0 - length pre)%nat with 0%nat by lia. rewrite skipn_all2 by lia.
  cbn [skipn app]. rewrite app_nil_r, F. reflexivity.
Qed.

(** The length of a string says more than there is: no error is returned. In a
    debug build the program traps, otherwise it reads on behind the window. *)
Theorem varchar_short_traps : forall dec o sz p n d b, uint_size sz -> number (endian o) sz n p ->
  holds b (p ++ d) -> len d < n -> s_from dec Debug (SVarchar o sz) b = Panic.
Proof.
  intros dec o sz p n d b Hs Hn H Hl. destruct (holds_win _ _ H) as (pre & post & W). cbn [s_from]. unfold s_varchar_from.
  rewrite (s_value_ok Debug o sz _ p b pre _ post Hs Hn W). cbn [bind].
  destruct (int_of_uint n) as [z| |] eqn:Ez; [|unfold int_of_uint, int_check in Ez; destruct (_ && _); discriminate|reflexivity].
  assert (z = Z.of_N n) as -> by (unfold int_of_uint, int_check in Ez; destruct (_ && _); [congruence|discriminate]). cbn [bind].
  unfold iadd. destruct (int_check (Z.of_nat sz + Z.of_N n)) as [z| |] eqn:E2;
    [|unfold int_check in E2; destruct (_ && _); discriminate|reflexivity].
  assert (z = (Z.of_nat sz + Z.of_N n)%Z) as -> by (unfold int_check in E2; destruct (_ && _); [congruence|discriminate]). cbn [bind].
  unfold db_closed. rewrite (win_size _ _ _ _ W). rewrite count_app.
  assert (Hp : count p = Z.of_nat sz) by (unfold count; rewrite (number_length _ _ _ _ Hn); reflexivity).
  replace (Z.of_nat sz + Z.of_N n <? Z.of_nat sz)%Z with false by lia. rewrite Hp. pose proof (count_nonneg d).
  rewrite !sassert_true by lia. cbn [bind].
  replace (Z.of_nat sz + Z.of_N n <=? Z.of_nat sz + count d)%Z with false by (unfold count, len in *; lia). reflexivity.
Qed.

Lemma varchar_beyond : exists b d s, holds b d /\ is_utf8 s /\ (db_size b < Z.of_nat (length s))%Z /\
  s_from (fun s => s) Release (SVarchar LE 1) b = Ok (4%Z, SS s).
Proof.
  exists {| db_data := [3; 97; 98; 99]; db_mut := false; db_start := 0; db_end := 2; db_cursor := 0 |}, [3; 97], [97; 98; 99].
  split; [|split; [|split]].
  - exists [], [98; 99]. repeat split.
  - apply ascii_utf8. repeat constructor.
  - reflexivity.
  - vm_compute. reflexivity.
Qed.

(** ** Codecs *)

Lemma unaligned_bytes : exists b w, holds b w /\ forall m,
  s_byte_read m LE 4 b = Ok 0x04030201 /\ byte_read (E:=rerror) LE 4 w = Ok 0x030201.
Proof.
  exists {| db_data := [1; 2; 3; 4]; db_mut := true; db_start := 0; db_end := 3; db_cursor := 0 |}, [1; 2; 3].
  split; [exists [], [4]; repeat split|]. intros []; vm_compute; split; reflexivity.
Qed.

Lemma second_write : exists b w b1 b2, holds b w /\ untouched b /\
  s_byte_write Debug LE 1 5 b = Ok b1 /\ s_byte_write Debug LE 1 6 b1 = Ok b2 /\
  db_data b2 = [5; 6] /\ byte_write (E:=rerror) LE 1 [5] 6 = Ok [6].
Proof.
  exists (db_of_bytes [0]), [0]. eexists. eexists. split; [exists [], []; repeat split|]. split; [reflexivity|].
  split; [vm_compute; reflexivity|]. split; [vm_compute; reflexivity|]. split; vm_compute; reflexivity.
Qed.

(** 8 bytes are written whatever the size of the window. *)
Lemma unaligned_overwrites : exists b w, holds_before b w [4; 9; 9; 9; 9; 9; 9] /\ forall m, exists b',
  s_byte_write m LE 4 77 b = Ok b' /\ db_data b' = [1; 2; 3; 4; 0; 0; 0; 0; 9; 9].
Proof.
  exists {| db_data := [1; 2; 3; 4; 9; 9; 9; 9; 9; 9]; db_mut := true; db_start := 0; db_end := 3; db_cursor := 0 |}, [1; 2; 3].
  split; [exists []; repeat split|]. intros []; eexists; split; vm_compute; reflexivity.
Qed.
