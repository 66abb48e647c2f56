(** The getters of the Swift generator, run by the Swift runtime, against the raw
    getters of the Rust code. *)

From Coq Require Import Arith NArith ZArith Ascii String List Bool Lia ZifyBool ZifyN ZifyNat.
From Verif Require Import Base Schema Codec CodecFacts Bits BitsFacts Compiler BEThms Access SpecStruct Runtime SpecWire MsgFacts
  StructFacts StructThms Driver Template Templates SpecTemplate TemplateThms GenText SpecGen SpecCode GenThms GenAllThms StackThms Swift SpecSwift SwiftFacts SwiftThms
  SwiftMore SwiftCodec SpecSwiftGen SwiftGenThms.
Import ListNotations.
Local Open Scope N_scope.

Lemma firstn_repeat' : forall {A} (a : A) n k, firstn n (repeat a k) = repeat a (Nat.min n k).
Proof. intros A a n. induction n; intros [|k]; [reflexivity..|]. cbn. f_equal. apply IHn. Qed.

(** ** The file *)
Theorem swift_file : forall fm p, Forall (fun s => Forall field_generates (s_fields s)) (p_structs p) ->
  swift_files fm p =
  Ok [{| fi_ty := StructureFile; fi_name := "structures.rs"%string;
         fi_data := SpecCode.joined (map (swift_structure_lines (type_path_get (p_type_path_by_name p)) (fm_f64 fm)) (p_structs p)) |}].
Proof.
  intros fm p H. unfold swift_files. rewrite Forall_forall in H.
  rewrite (map_join_ok _ _ (fun s => lines (swift_structure_lines (type_path_get (p_type_path_by_name p)) (fm_f64 fm) s)))
    by (intros s Hs; apply swift_structure_text, H, Hs).
  cbn [bind]. unfold SpecCode.joined. rewrite map_map. reflexivity.
Qed.
Theorem swift_file_panic : forall fm p, ~ Forall (fun s => Forall field_generates (s_fields s)) (p_structs p) ->
  swift_files fm p = Panic.
Proof.
  intros fm p H. unfold swift_files, map_join.
  rewrite (mapM_panic _ (fun s => Forall field_generates (s_fields s))); [reflexivity| | | |exact H].
  - intros s Hs. eexists. apply swift_structure_text. exact Hs.
  - intros s Hs. apply swift_structure_panic. exact Hs.
  - intro s. apply Forall_dec_prop. exact field_generates_dec.
Qed.

Section Structure.
Variables (m mr : mode) (enums : smap enum_) (structs : smap structure) (id : N) (d : sstruct) (s : structure)
  (i : nat) (f : fixed_field) (o w : N).
Hypotheses (H : structure_from_model m Little enums structs id d = Ok s) (Hno : no_overflow m structs d)
  (Hf : nth_error (s_fields s) i = Some (FFixed f)) (Hd : declared_at structs d i o w) (Hw : 0 < w <= 64).

Theorem swift_accessor_text : forall path show,
  swift_getter_lines path show (FFixed f) = (swift_raw_getter (ff_name f) (placed o w) ++ swift_view_getter path show f)%list /\
  swift_setter_lines path show (FFixed f) =
    (swift_raw_setter (ff_name f) (placed o w) ++ swift_view_setter path show f (placed o w))%list.
Proof.
  intros path show. pose proof (gen_fixed_placed Empty_set _ _ _ _ _ _ _ _ _ _ H Hno Hf Hd Hw) as HA.
  unfold swift_getter_lines, swift_setter_lines. rewrite HA. split; reflexivity.
Qed.

Lemma storage_uint : uint_size (storage_bytes w).
Proof. unfold storage_bytes, uint_size. destruct (w <=? 8), (w <=? 16), (w <=? 32); auto. Qed.
Lemma storage_width : w <= 8 * N.of_nat (storage_bytes w).
Proof. unfold storage_bytes. destruct (N.leb_spec w 8), (N.leb_spec w 16), (N.leb_spec w 32); lia. Qed.

Lemma in_bounds : o / 8 + ceil8 w <= s_byte_size s.
Proof.
  pose proof (window_in_bounds _ _ _ _ _ _ _ _ _ H Hno Hf) as B.
  destruct (fixed_in_structure _ _ _ _ _ _ _ _ _ _ H Hno Hf Hd) as (Hloc & _ & _).
  rewrite Hloc, loc_byte_size, loc_byte_offset in B. exact B.
Qed.

(** The window of the field. *)
Lemma field_window : forall b data after, holds_before b data after -> s_byte_size s <= len data ->
  exists w' pre x post,
    db_closed mr b (Z.of_N (o / 8)) (Z.of_N (o / 8 + ceil8 w)) = Ok w' /\
    win w' pre x post /\ slice (E:=rerror) data (o / 8) (o / 8 + ceil8 w) = Ok x /\
    len x = ceil8 w /\ (x ++ post = firstn (length x) (skipn (N.to_nat (o / 8)) data) ++
      skipn (N.to_nat (o / 8 + ceil8 w)) data ++ after)%list.
Proof.
  intros b data after Hh Hs. pose proof in_bounds as B. destruct (holds_before_win _ _ _ Hh) as (pre & W).
  set (q := o / 8) in *. set (n := ceil8 w) in *.
  destruct (window_split data (N.to_nat q) (N.to_nat n)) as (Ed & L1 & L2); [unfold len in Hs; lia|].
  set (d1 := firstn (N.to_nat q) data) in *. set (d2 := firstn (N.to_nat n) (skipn (N.to_nat q) data)) in *.
  set (d3 := skipn (N.to_nat q + N.to_nat n) data) in *.
  pose proof W as W0. rewrite Ed in W0. destruct (win_closed mr b pre d1 d2 d3 after W0) as (w' & E & W2).
  replace (count d1) with (Z.of_N q) in E by (unfold count; lia).
  replace (Z.of_N q + count d2)%Z with (Z.of_N (q + n)) in E by (unfold count; lia).
  exists w', (pre ++ d1)%list, d2, (d3 ++ after)%list. split; [exact E|]. split; [exact W2|]. split.
  - unfold slice. replace ((q <=? q + n) && (q + n <=? len data)) with true by lia. unfold d2. f_equal. f_equal. lia.
  - split; [unfold len; lia|]. rewrite L2. unfold d2, d3. replace (N.to_nat (q + n)) with (N.to_nat q + N.to_nat n)%nat by lia.
    reflexivity.
Qed.

Lemma slice_bytes_ok : forall data p q x, slice (E:=rerror) data p q = Ok x -> bytes_ok data -> bytes_ok x.
Proof.
  intros data p q x E Hb. unfold slice in E. destruct (_ && _); [|discriminate]. injection E as <-.
  apply bytes_ok_firstn, bytes_ok_skipn, Hb.
Qed.

(** Fields whose window has the size of an integer. *)
Theorem swift_get_aligned : forall mg b data, holds b data -> s_byte_size s <= len data -> bytes_ok data ->
  N.of_nat (storage_bytes w) = ceil8 w ->
  same_read (swift_get mr (placed o w) b) (get_raw mg f data).
Proof.
  intros mg b data Hh Hs Hb Ha. destruct Hh as (pre0 & after & Hh).
  assert (Hh' : holds_before b data after) by (exists pre0; exact Hh).
  destruct (field_window b data after Hh' Hs) as (w' & pre & x & post & E & W & Ex & Lx & _).
  pose proof (slice_bytes_ok _ _ _ _ Ex Hb) as Hbx.
  unfold get_raw. rewrite (gen_fixed_placed rerror _ _ _ _ _ _ _ _ _ _ H Hno Hf Hd Hw). cbn [bind].
  unfold swift_get, ac_get, placed. cbn [ac_start ac_end ac_bit ac_aligned ac_order ac_raw].
  rewrite E, Ex. cbn [bind]. replace (N.of_nat (storage_bytes w) =? ceil8 w) with true by lia.
  assert (Lsz : length x = storage_bytes w) by (unfold len in Lx; lia). pose proof storage_width as Hsw.
  destruct (N.eqb_spec (w mod 8) 0) as [Hm|Hm].
  - unfold s_byte_read_aligned, byte_read_aligned. exists (val LE (firstn (storage_bytes w) x)).
    split; [apply (win_scalar' mr LE (storage_bytes w) w' pre x post W storage_uint ltac:(lia) Hbx)|apply read_bytes_val; lia].
  - destruct (bit_read_aligned_same mr LE (storage_bytes w) (o mod 8) w w' x pre post storage_uint W Hbx ltac:(lia)) as (n & E1 & E2).
    { unfold bits_fit. assert (w <> 64) by (intro; subst w; apply Hm; reflexivity). repeat split; lia. }
    exists n. split; [exact E1|apply E2].
Qed.

(** Bits in 3, 5, 6 or 7 bytes: the same when there is a byte behind the window. *)
Theorem swift_get_bits : forall mg b data after, holds_before b data after -> s_byte_size s <= len data ->
  bytes_ok (data ++ after) -> w mod 8 <> 0 -> N.of_nat (storage_bytes w) <> ceil8 w ->
  o mod 8 + w <= 8 * ceil8 w -> o / 8 + ceil8 w < len (data ++ after) ->
  same_read (swift_get mr (placed o w) b) (get_raw mg f data).
Proof.
  intros mg b data after Hh Hs Hb Hm Ha Ho Hl. destruct (field_window b data after Hh Hs) as (w' & pre & x & post & E & W & Ex & Lx & Ep).
  apply bytes_ok_app in Hb. destruct Hb as (Hbd & Hba). pose proof (slice_bytes_ok _ _ _ _ Ex Hbd) as Hbx.
  unfold get_raw. rewrite (gen_fixed_placed rerror _ _ _ _ _ _ _ _ _ _ H Hno Hf Hd Hw). cbn [bind].
  unfold swift_get, ac_get, placed. cbn [ac_start ac_end ac_bit ac_aligned ac_order ac_raw].
  rewrite E, Ex. cbn [bind]. replace (N.of_nat (storage_bytes w) =? ceil8 w) with false by lia.
  replace (w mod 8 =? 0) with false by lia. pose proof storage_width as Hsw.
  assert (Hceil : ceil8 w <= 8) by (unfold ceil8; zify; lia).
  assert (Hcs : ceil8 w <= N.of_nat (storage_bytes w)).
  { unfold storage_bytes, ceil8. destruct (N.leb_spec w 8), (N.leb_spec w 16), (N.leb_spec w 32); zify; lia. }
  assert (Hp : exists y post', post = y :: post' /\ y < 256).
  { assert (Hlp : 0 < len post).
    { apply (f_equal (@length N)) in Ep. rewrite !app_length, firstn_length, !skipn_length in Ep.
      unfold len in *. rewrite app_length in Hl. lia. }
    assert (Hbp : bytes_ok post).
    { assert (Hall : bytes_ok (x ++ post)).
      { rewrite Ep. apply bytes_ok_app. split; [apply bytes_ok_firstn, bytes_ok_skipn, Hbd|]. apply bytes_ok_app. split; [apply bytes_ok_skipn, Hbd|exact Hba]. }
      apply bytes_ok_app in Hall. apply Hall. }
    destruct post as [|y post']; [unfold len in Hlp; cbn in Hlp; lia|]. exists y, post'. split; [reflexivity|]. inversion Hbp; assumption. }
  destruct Hp as (y & post' & -> & Hy).
  assert (Hh' : holds_before w' x (y :: post')).
  { exists pre. destruct W as (A1 & A2 & A3 & A4). repeat split; try assumption. rewrite A3. unfold count. lia. }
  pose proof (bit_read_unaligned_same mr mg (storage_bytes w) (o mod 8) w w' x y post' storage_uint Hh') as S.
  unfold s_bit_read, bit_read in S. rewrite (win_size _ _ _ _ W) in S.
  replace (Z.of_nat (storage_bytes w) =? count x)%Z with false in S by (unfold count, len in *; lia).
  replace (storage_bytes w =? length x)%nat with false in S by (unfold len in Lx; lia).
  apply S.
  - apply bytes_ok_app. split; [exact Hbx|]. repeat constructor. exact Hy.
  - unfold len in Lx. lia.
  - unfold len in Lx. lia.
  - unfold bits_fit. assert (w <> 64) by (intro; subst w; apply Hm; reflexivity). repeat split; lia.
  - lia.
  - lia.
Qed.

(** Numbers of 3, 5, 6 or 7 bytes are read together with the byte behind them. *)
Theorem swift_get_behind : forall mg b data after, holds_before b data after -> s_byte_size s <= len data ->
  bytes_ok (data ++ after) -> w mod 8 = 0 -> N.of_nat (storage_bytes w) <> ceil8 w ->
  o / 8 + ceil8 w < len (data ++ after) ->
  exists n, get_raw (E:=rerror) mg f data = Ok n /\
    swift_get mr (placed o w) b = Ok (n + 2 ^ w * nth (N.to_nat (o / 8 + ceil8 w)) (data ++ after) 0).
Proof.
  intros mg b data after Hh Hs Hb Hm Ha Hl. destruct (field_window b data after Hh Hs) as (w' & pre & x & post & E & W & Ex & Lx & Ep).
  pose proof in_bounds as B.
  apply bytes_ok_app in Hb. destruct Hb as (Hbd & Hba). pose proof (slice_bytes_ok _ _ _ _ Ex Hbd) as Hbx.
  unfold get_raw. rewrite (gen_fixed_placed rerror _ _ _ _ _ _ _ _ _ _ H Hno Hf Hd Hw). cbn [bind].
  unfold swift_get, ac_get, placed. cbn [ac_start ac_end ac_bit ac_aligned ac_order ac_raw].
  rewrite E, Ex. cbn [bind]. replace (N.of_nat (storage_bytes w) =? ceil8 w) with false by lia.
  replace (w mod 8 =? 0) with true by lia. pose proof storage_width as Hsw.
  assert (Hc8 : w = 8 * ceil8 w) by (unfold ceil8; zify; lia).
  assert (Hcs : ceil8 w + 1 <= N.of_nat (storage_bytes w)).
  { unfold storage_bytes, ceil8 in *. destruct (N.leb_spec w 8), (N.leb_spec w 16), (N.leb_spec w 32); zify; lia. }
  assert (Hs8 : (storage_bytes w <= 8)%nat).
  { unfold storage_bytes. destruct (w <=? 8), (w <=? 16), (w <=? 32); lia. }
  assert (Ep' : post = (skipn (N.to_nat (o / 8 + ceil8 w)) data ++ after)%list).
  { apply (f_equal (skipn (length x))) in Ep. rewrite skipn_app, skipn_all, Nat.sub_diag in Ep. cbn [app skipn] in Ep.
    rewrite skipn_app in Ep. rewrite firstn_length_le in Ep by (rewrite skipn_length; unfold len in *; lia).
    rewrite Nat.sub_diag in Ep. rewrite skipn_all2 in Ep by (rewrite firstn_length; lia). exact Ep. }
  assert (Hp : exists y post', post = y :: post' /\ y = nth (N.to_nat (o / 8 + ceil8 w)) (data ++ after) 0 /\ y < 256).
  { assert (Hlp : 0 < len post).
    { rewrite Ep'. unfold len in *. rewrite app_length, skipn_length in *. lia. }
    assert (Hbp : bytes_ok post) by (rewrite Ep'; apply bytes_ok_app; split; [apply bytes_ok_skipn, Hbd|exact Hba]).
    destruct post as [|y post']; [unfold len in Hlp; cbn in Hlp; lia|]. exists y, post'. split; [reflexivity|].
    split; [|inversion Hbp; assumption].
    replace (skipn (N.to_nat (o / 8 + ceil8 w)) data ++ after)%list with (skipn (N.to_nat (o / 8 + ceil8 w)) (data ++ after)) in Ep'
      by (rewrite skipn_app; replace (N.to_nat (o / 8 + ceil8 w) - length data)%nat with 0%nat by (unfold len in *; lia); reflexivity).
    pose proof (firstn_skipn (N.to_nat (o / 8 + ceil8 w)) (data ++ after)) as F. rewrite <- Ep' in F. rewrite <- F.
    rewrite app_nth2; rewrite firstn_length_le by (unfold len in *; lia); [|lia]. rewrite Nat.sub_diag. reflexivity. }
  destruct Hp as (y & post' & -> & <- & Hy).
  unfold s_byte_read_unaligned, byte_read_unaligned. rewrite pad8_ok by (unfold len in Lx; lia). cbn [bind].
  rewrite (copy_to_ok mr w' pre x y post' W). cbn [bind].
  rewrite (firstn_all2 (n:=8) (x ++ [y])) by (rewrite app_length; cbn [length]; unfold len in Lx; lia).
  set (d8 := ((x ++ [y]) ++ repeat 0 (8 - length (x ++ [y])))%list).
  assert (L8 : length d8 = 8%nat) by (unfold d8; rewrite app_length, repeat_length, app_length; cbn [length]; unfold len in Lx; lia).
  assert (Hb8 : bytes_ok d8).
  { unfold d8. apply bytes_ok_app. split; [|apply bytes_ok_zeros]. apply bytes_ok_app. split; [exact Hbx|]. repeat constructor. exact Hy. }
  unfold byte_read_aligned, s_byte_read_aligned. rewrite read_bytes_val by (rewrite app_length, repeat_length; unfold len in Lx; lia).
  eexists. split; [reflexivity|].
  rewrite (win_scalar' mr LE (storage_bytes w) (db_of_bytes d8) [] d8 [] (of_bytes_win d8 ltac:(lia)) storage_uint ltac:(lia) Hb8).
  f_equal. unfold val.
  assert (Z : forall k, le_dec (repeat 0 k) = 0) by (induction k as [|k IH]; [reflexivity|cbn [repeat le_dec]; rewrite IH; reflexivity]).
  rewrite !(firstn_app (storage_bytes w)), !(firstn_all2 x) by (unfold len in Lx; lia).
  unfold d8. rewrite (firstn_app (storage_bytes w)), (firstn_all2 (x ++ [y])) by (rewrite app_length; cbn [length]; unfold len in Lx; lia).
  rewrite !firstn_repeat', !le_dec_app, !Z. cbn [le_dec]. rewrite !N.mul_0_r, !N.add_0_r. f_equal. f_equal.
  unfold tmod. f_equal. unfold len in Lx. lia.
Qed.

(** Fields in 3, 5, 6 or 7 bytes at the end of the storage cannot be read. *)
Theorem swift_get_traps : forall b data, holds_before b data [] -> len data = s_byte_size s ->
  N.of_nat (storage_bytes w) <> ceil8 w -> o / 8 + ceil8 w = s_byte_size s ->
  swift_get mr (placed o w) b = Panic.
Proof.
  intros b data Hh Hs Ha Ho. destruct (field_window b data [] Hh ltac:(lia)) as (w' & pre & x & post & E & W & Ex & Lx & Ep).
  assert (post = []) as ->.
  { apply (f_equal (@length N)) in Ep. rewrite !app_length, firstn_length, !skipn_length in Ep. cbn [length] in Ep.
    unfold len in *. destruct post; [reflexivity|]. cbn [length] in Ep. lia. }
  unfold swift_get, placed. cbn [ac_start ac_end ac_bit ac_aligned ac_order ac_raw]. rewrite E. cbn [bind].
  replace (N.of_nat (storage_bytes w) =? ceil8 w) with false by lia.
  destruct (w mod 8 =? 0); unfold s_byte_read_unaligned, s_bit_read_unaligned; rewrite (copy_to_trap mr w' pre x W); reflexivity.
Qed.
End Structure.

(** ** Structures *)
Theorem structure_from_ok : forall m size b d, holds b d -> 0 < size <= len d ->
  exists w, swift_structure_from m size b = Ok (size, w) /\ holds w (firstn (N.to_nat size) d) /\
    struct_from_slice size d = Ok (size, firstn (N.to_nat size) d).
Proof.
  intros m size b d Hh Hl. destruct (holds_win _ _ Hh) as (pre & post & W). unfold swift_structure_from.
  rewrite (win_size _ _ _ _ W). replace (count d <? Z.of_N size)%Z with false by (unfold count, len in *; lia).
  unfold db_through. rewrite (win_size _ _ _ _ W). rewrite !sassert_true by (unfold count, len in *; lia). cbn [bind].
  eexists. split; [reflexivity|]. split.
  - destruct W as (D & S & E & L). exists pre, (skipn (N.to_nat size) d ++ post)%list.
    unfold db_sub. cbn [db_data db_start db_end]. rewrite (app_assoc (firstn _ _)), firstn_skipn.
    repeat split; try assumption. unfold count, len in *. rewrite S, firstn_length_le by lia. lia.
  - unfold struct_from_slice. replace (len d <? size) with false by lia. unfold slice.
    replace ((0 <=? size) && (size <=? len d)) with true by lia. cbn [bind]. change (N.to_nat 0) with 0%nat.
    rewrite N.sub_0_r. reflexivity.
Qed.
Theorem structure_from_truncated : forall m size b d, holds b d -> len d < size ->
  swift_structure_from m size b = Err STruncated /\ struct_from_slice size d = Err Truncated.
Proof.
  intros m size b d Hh Hl. destruct (holds_win _ _ Hh) as (pre & post & W). unfold swift_structure_from, struct_from_slice.
  rewrite (win_size _ _ _ _ W). replace (count d <? Z.of_N size)%Z with true by (unfold count, len in *; lia).
  replace (len d <? size) with true by lia. split; reflexivity.
Qed.
Theorem structure_from_empty : forall b d, holds b d -> swift_structure_from Debug 0 b = Panic.
Proof.
  intros b d Hh. destruct (holds_win _ _ Hh) as (pre & post & W). unfold swift_structure_from.
  rewrite (win_size _ _ _ _ W). replace (count d <? Z.of_N 0)%Z with false by (unfold count; lia).
  unfold db_through. rewrite sassert_true by (rewrite (win_size _ _ _ _ W); unfold count; lia). reflexivity.
Qed.
Theorem structure_write_ok : forall s d b e, holds s d -> d <> [] -> written b e ->
  exists b', swift_structure_write s b = Ok b' /\ written b' (e ++ d).
Proof.
  intros s d b e Hh Hne Hw. destruct (holds_win _ _ Hh) as (pre & post & W). unfold swift_structure_write.
  rewrite (win_to_data _ _ _ _ W Hne). cbn [bind]. apply write_written. exact Hw.
Qed.
Theorem part_window : forall m loc b d, holds b d -> l_byte_offset loc + l_byte_size loc <= len d ->
  exists w, swift_part m loc b = Ok w /\
    holds w (firstn (N.to_nat (l_byte_size loc)) (skipn (N.to_nat (l_byte_offset loc)) d)).
Proof.
  intros m loc b d Hh Hl. destruct (holds_win _ _ Hh) as (pre & post & W). unfold swift_part.
  set (q := l_byte_offset loc) in *. set (n := l_byte_size loc) in *.
  destruct (window_split d (N.to_nat q) (N.to_nat n)) as (Ed & L1 & L2); [unfold len in Hl; lia|].
  set (d1 := firstn (N.to_nat q) d) in *. set (d2 := firstn (N.to_nat n) (skipn (N.to_nat q) d)) in *.
  set (d3 := skipn (N.to_nat q + N.to_nat n) d) in *.
  pose proof W as W0. rewrite Ed in W0. destruct (win_closed m b pre d1 d2 d3 post W0) as (w' & E & W2).
  replace (count d1) with (Z.of_N q) in E by (unfold count; lia).
  replace (Z.of_N q + count d2)%Z with (Z.of_N (q + n)) in E by (unfold count; lia).
  exists w'. split; [exact E|]. destruct W2 as (A1 & A2 & A3 & A4). exists (pre ++ d1)%list, (d3 ++ post)%list.
  repeat split; try assumption. rewrite A3. unfold count. lia.
Qed.

Theorem swift_type_names : forall t, swift_type t = swift_type_text t.
Proof. destruct t; reflexivity. Qed.

(** ** The setters are lines of Rust *)
Theorem swift_setters_rust : forall path show s f a, In (FFixed f) (s_fields s) -> gen_fixed (E:=Empty_set) f = Ok a ->
  In ("impl<T: AsMut<[u8]>> " ++ s_name s ++ "<T> {")%string (swift_structure_lines path show s) /\
  In ("    pub fn set_raw_" ++ ff_name f ++ "(&mut self, value: " ++ swift_unsigned (ac_raw a) ++ ") {")%string
    (swift_structure_lines path show s).
Proof.
  intros path show s f a Hin Ha. unfold swift_structure_lines. split.
  - apply in_or_app. right. apply in_or_app. right. apply in_or_app. right. right. right. left. reflexivity.
  - apply in_or_app. right. apply in_or_app. right. apply in_or_app. right. apply in_or_app. right.
    apply in_or_app. left. apply in_flat_map. exists (FFixed f). split; [exact Hin|].
    unfold swift_setter_lines. rewrite Ha. left. reflexivity.
Qed.
