(** C92: fields of a structure that are put into a structure of their own. The accessors. *)

From Coq Require Import Arith NArith ZArith Ascii String List Bool Lia ZifyBool ZifyN ZifyNat.
From Verif Require Import Base Schema Codec Compiler Access SpecStruct StructFacts StructThms NestedThms ItemsThms EvolveThms SpecNest NestThms.
Import ListNotations.
Local Open Scope N_scope.
Local Open Scope list_scope.
Ltac Zify.zify_post_hook ::= idtac.

Lemma move_bytes : forall k w o, move_loc (8 * k) (location_from_model w o) =
  {| l_byte_offset := k + o / 8; l_bit_offset := o - o / 8 * 8; l_byte_size := bytes_of_bits w; l_bit_size := w |}.
Proof.
  intros k w o. rewrite move_at. unfold location_from_model. f_equal.
  - rewrite N.mul_comm, N.div_add_l by discriminate. reflexivity.
  - rewrite (N.mul_comm 8 k), N.div_add_l by discriminate. lia.
Qed.
Lemma window_fits : forall o w S, o + w <= S -> o / 8 + bytes_of_bits w <= bytes_of_bits S.
Proof.
  intros o w S H. rewrite !ceil8_eq. unfold ceil8. apply N.div_le_lower_bound; [discriminate|].
  pose proof (N.mul_div_le o 8 ltac:(discriminate)). pose proof (N.mul_div_le (w + 7) 8 ltac:(discriminate)). lia.
Qed.

Section Moved.
Context {E : Type} (mr : mode) (k n : N) (data : bytes).
Hypothesis Hin : k + n <= len data.

Definition moved_fixed (x : fixed_field) : fixed_field :=
  {| ff_name := ff_name x; ff_ty := ff_ty x; ff_loc := move_loc (8 * k) (ff_loc x); ff_view := ff_view x; ff_endianness := ff_endianness x |}.
Definition moved_array (x : array_field) : array_field :=
  {| fa_name := fa_name x; fa_ty := fa_ty x; fa_array_len := fa_array_len x; fa_loc := move_loc (8 * k) (fa_loc x); fa_endianness := fa_endianness x |}.
Definition within_window (l : location) : Prop := exists w o S, l = location_from_model w o /\ o + w <= S /\ n = bytes_of_bits S.

Lemma gen_moved : forall f, within_window (ff_loc f) ->
  (gen_fixed (E:=E) f = Panic /\ gen_fixed (E:=E) (moved_fixed f) = Panic) \/
  exists a a', gen_fixed (E:=E) f = Ok a /\ gen_fixed (E:=E) (moved_fixed f) = Ok a' /\ ac_start a' = k + ac_start a /\ ac_end a' = k + ac_end a /\
    ac_raw a' = ac_raw a /\ ac_bit a' = ac_bit a /\ ac_aligned a' = ac_aligned a /\ ac_order a' = ac_order a /\ ac_end a <= n.
Proof.
  intros f (w & o & S & El & Hle & En). unfold gen_fixed, moved_fixed. cbn [ff_loc ff_endianness]. rewrite El, move_bytes. unfold get_unsigned_integer_type. cbn [l_bit_size location_from_model].
  destruct (unwrap_res (fixed_from_model (STUnsigned w))) as [ty|e|] eqn:Eu; cbn [bind].
  - right. do 2 eexists. split; [reflexivity|]. split; [reflexivity|]. cbn. repeat split; try reflexivity; [lia|].
    subst n. pose proof (window_fits _ _ _ Hle). lia.
  - unfold unwrap_res in Eu. destruct (fixed_from_model (STUnsigned w)); discriminate.
  - left. split; reflexivity.
Qed.
Lemma get_raw_moved : forall f, within_window (ff_loc f) -> get_raw (E:=E) mr (moved_fixed f) data = (w <- slice data k (k + n) ;; get_raw mr f w).
Proof.
  intros f Hw. unfold get_raw. destruct (window_in (E:=E) data k n Hin) as (win & Hs & _ & _).
  destruct (gen_moved f Hw) as [(-> & ->)|(a & a' & -> & -> & E1 & E2 & E3 & E4 & E5 & E6 & L)]; [rewrite Hs; reflexivity|]. cbn [bind].
  unfold ac_get. rewrite E1, E2, E3, E4, E5, E6. rewrite (slice_inner data k n) by assumption. rewrite Hs. reflexivity.
Qed.
Lemma get_view_moved : forall f, within_window (ff_loc f) -> get_view (E:=E) mr (moved_fixed f) data = (w <- slice data k (k + n) ;; get_view mr f w).
Proof.
  intros f Hw. unfold get_view. destruct (window_in (E:=E) data k n Hin) as (win & Hs & _ & _).
  destruct (gen_moved f Hw) as [(-> & ->)|(a & a' & -> & -> & E1 & E2 & E3 & E4 & E5 & E6 & L)]; [rewrite Hs; reflexivity|]. cbn [bind].
  unfold ac_get. rewrite E1, E2, E3, E4, E5, E6. rewrite (slice_inner data k n) by assumption. rewrite Hs. reflexivity.
Qed.
Lemma ac_set_moved : forall a a' v, ac_start a' = k + ac_start a -> ac_end a' = k + ac_end a ->
    ac_raw a' = ac_raw a -> ac_bit a' = ac_bit a -> ac_aligned a' = ac_aligned a -> ac_order a' = ac_order a -> ac_end a <= n ->
  ac_set (E:=E) mr a' data v = update_slice data k (k + n) (fun w => ac_set mr a w v).
Proof.
  intros a a' v E1 E2 E3 E4 E5 E6 L. unfold ac_set. rewrite E1, E2, E3, E4, E5, E6. apply update_inner; [assumption|exact L|].
  destruct (ac_bit a) as [[bo bs]|]; destruct (ac_aligned a).
  - apply keeps_bit_aligned.
  - apply (keeps_pad _ (keeps_bit_aligned _ _ _ _ _ _)).
  - apply keeps_write_bytes.
  - apply (keeps_pad _ (keeps_write_bytes _ _ _)).
Qed.
Lemma set_raw_moved : forall f v, within_window (ff_loc f) -> set_raw (E:=E) mr (moved_fixed f) data v = update_slice data k (k + n) (fun w => set_raw mr f w v).
Proof.
  intros f v Hw. unfold set_raw. destruct (window_in (E:=E) data k n Hin) as (win & Hs & _ & _).
  destruct (gen_moved f Hw) as [(-> & ->)|(a & a' & -> & -> & E1 & E2 & E3 & E4 & E5 & E6 & L)]; [unfold update_slice; rewrite Hs; reflexivity|]. cbn [bind].
  apply ac_set_moved; assumption.
Qed.
Lemma set_view_moved : forall f v, within_window (ff_loc f) -> set_view (E:=E) mr (moved_fixed f) data v = update_slice data k (k + n) (fun w => set_view mr f w v).
Proof.
  intros f v Hw. unfold set_view. destruct (window_in (E:=E) data k n Hin) as (win & Hs & _ & _).
  destruct (gen_moved f Hw) as [(-> & ->)|(a & a' & -> & -> & E1 & E2 & E3 & E4 & E5 & E6 & L)]; [unfold update_slice; rewrite Hs; reflexivity|]. cbn [bind].
  rewrite E3. change (view_set (E:=E) (moved_fixed f) (ac_raw a) v) with (view_set (E:=E) f (ac_raw a) v).
  destruct (view_set f (ac_raw a) v) as [raw|e|]; cbn [bind]; [|unfold update_slice; rewrite Hs; reflexivity..].
  apply ac_set_moved; assumption.
Qed.
Lemma ends_in : forall l, within_window l -> l_byte_offset l + l_byte_size l <= n /\
  l_byte_offset (move_loc (8 * k) l) = k + l_byte_offset l /\ l_byte_size (move_loc (8 * k) l) = l_byte_size l /\ l_bit_size (move_loc (8 * k) l) = l_bit_size l.
Proof.
  intros l (w & o & S & -> & Hle & ->). rewrite move_bytes. cbn. split; [apply window_fits, Hle|]. auto.
Qed.
Lemma arr_get_moved : forall f i, within_window (fa_loc f) -> arr_get (E:=E) mr (moved_array f) data i = (w <- slice data k (k + n) ;; arr_get mr f w i).
Proof.
  intros f i Hw. unfold arr_get, arr_window, item_bit_size. cbn [moved_array fa_loc fa_endianness fa_ty fa_array_len].
  destruct (ends_in _ Hw) as (L & E1 & E2 & E3). rewrite E1, E2, ?E3. destruct (window_in (E:=E) data k n Hin) as (win & Hs & _ & _).
  rewrite <- N.add_assoc, (slice_inner data k n) by assumption. rewrite Hs. reflexivity.
Qed.
Lemma arr_set_moved : forall f i v, within_window (fa_loc f) -> arr_set (E:=E) mr (moved_array f) data i v = update_slice data k (k + n) (fun w => arr_set mr f w i v).
Proof.
  intros f i v Hw. unfold arr_set, item_bit_size. cbn [moved_array fa_loc fa_endianness fa_ty fa_array_len].
  destruct (ends_in _ Hw) as (L & E1 & E2 & E3). rewrite E1, E2, ?E3. destruct (window_in (E:=E) data k n Hin) as (win & Hs & _ & _).
  match goal with |- bind ?x _ = _ => destruct x as [ibs|e|] end; cbn [bind]; [|unfold update_slice; rewrite Hs; reflexivity..].
  rewrite <- N.add_assoc. apply update_inner; [assumption|exact L|apply keeps_array].
Qed.
End Moved.

(** ** Chains *)
Lemma path_at_fun : forall s path o w, path_at s path o w -> forall o' w', path_at s path o' w' -> o' = o /\ w' = w.
Proof.
  intros s path o w H. induction H as [s i f Hf|s i n r loc rest o w Hf Hp IH]; intros o' w' H'.
  - inversion H' as [s0 i0 f0 Hf0|s0 i0 n0 r0 loc0 rest0 o0 w0 Hf0 Hp0]; subst.
    + rewrite Hf in Hf0. injection Hf0 as <-. auto.
    + rewrite Hf in Hf0. discriminate Hf0.
  - inversion H' as [s0 i0 f0 Hf0|s0 i0 n0 r0 loc0 rest0 o0 w0 Hf0 Hp0]; subst.
    + rewrite Hf in Hf0. discriminate Hf0.
    + rewrite Hf in Hf0. injection Hf0 as <- <- <-. destruct (IH _ _ Hp0) as (-> & ->). auto.
Qed.
Definition moved_fixed_of (B : N) (x : fixed_field) : fixed_field :=
  {| ff_name := ff_name x; ff_ty := ff_ty x; ff_loc := move_loc B (ff_loc x); ff_view := ff_view x; ff_endianness := ff_endianness x |}.
Section Chains.
Variables (structs : smap structure) (before members after : list sfield) (grp outer flat : sstruct) (g x z : structure) (B : N) (fb fa : list field) (nm : string).
Hypothesis Hs : nest_shape structs before members grp outer flat g x z B fb fa nm.
Let nb := length before.
Let ng := length members.

Lemma total_move : forall l, total_bits (map (move B) l) = total_bits l.
Proof. induction l as [|[f|f|n r l0] l IH]; cbn [map total_bits move field_bits]; [reflexivity|..]; rewrite IH; reflexivity. Qed.
Lemma total_bits_app : forall l1 l2, total_bits (l1 ++ l2) = total_bits l1 + total_bits l2.
Proof. induction l1 as [|f l1 IH]; intro l2; cbn [app total_bits]; [reflexivity|]. rewrite IH. lia. Qed.

Lemma outer_field : forall i f, nth_error (s_fields x) i = Some f ->
  (i < nb)%nat /\ nth_error (s_fields z) i = Some f /\ total_bits (firstn i (s_fields z)) = total_bits (firstn i (s_fields x)) \/
  i = nb /\ f = FStruct nm g (location_from_model (s_bit_size g) B) /\ total_bits (firstn i (s_fields x)) = total_bits fb \/
  (nb < i)%nat /\ nth_error (s_fields z) (i + ng - 1) = Some f /\ total_bits (firstn (i + ng - 1) (s_fields z)) = total_bits (firstn i (s_fields x)).
Proof.
  destruct Hs. intros i f Hf. unfold nb, ng in *. rewrite ns_outer in *. rewrite ns_flat. rewrite <- ns_nb, <- ns_ng in *.
  destruct (Nat.lt_trichotomy i (length fb)) as [L|[->|L]].
  - left. split; [exact L|]. rewrite nth_error_app1 in * by exact L. split; [exact Hf|]. rewrite !firstn_app.
    replace (i - length fb)%nat with 0%nat by lia. reflexivity.
  - right. left. rewrite nth_error_app2, Nat.sub_diag in Hf by lia. injection Hf as <-. split; [reflexivity|]. split; [reflexivity|].
    rewrite firstn_app, Nat.sub_diag, firstn_all, firstn_O, app_nil_r. reflexivity.
  - right. right. split; [exact L|]. rewrite nth_error_app2 in Hf by lia. destruct (i - length fb)%nat as [|d] eqn:Ed; [lia|]. cbn [nth_error] in Hf.
    rewrite nth_error_app2 by lia. rewrite nth_error_app2 by (rewrite map_length; lia). rewrite map_length.
    replace (i + length (s_fields g) - 1 - length fb - length (s_fields g))%nat with d by lia. split; [exact Hf|].
    rewrite !firstn_app, map_length. rewrite (firstn_all2 fb) by lia. rewrite (firstn_all2 (n := i) fb) by lia.
    rewrite firstn_all2 by (rewrite map_length; lia). rewrite Ed. cbn [firstn].
    replace (i + length (s_fields g) - 1 - length fb - length (s_fields g))%nat with d by lia.
    rewrite !total_bits_app. cbn [total_bits field_bits]. rewrite total_move, ns_group_bits. lia.
Qed.
Lemma group_field : forall j f, nth_error (s_fields g) j = Some f ->
  nth_error (s_fields z) (nb + j) = Some (move B f) /\ total_bits (firstn (nb + j) (s_fields z)) = total_bits fb + total_bits (firstn j (s_fields g)).
Proof.
  destruct Hs. intros j f Hf. unfold nb. rewrite ns_flat, <- ns_nb. assert (L : (j < length (s_fields g))%nat) by (apply nth_error_Some; congruence).
  rewrite nth_error_app2 by lia. replace (length fb + j - length fb)%nat with j by lia. rewrite nth_error_app1 by (rewrite map_length; exact L).
  rewrite nth_error_map, Hf. split; [reflexivity|]. rewrite !firstn_app. replace (length fb + j - length fb)%nat with j by lia.
  rewrite map_length. replace (j - length (s_fields g))%nat with 0%nat by lia. rewrite (firstn_all2 fb) by lia. cbn [firstn]. rewrite app_nil_r.
  rewrite total_bits_app, firstn_map, total_move. reflexivity.
Qed.

Theorem path_flat : forall path o w, path_at x path o w -> path_at z (flat_path nb ng path) o w.
Proof.
  intros path o w H. inversion H as [s i f Hf|s i n r loc rest o' w' Hf Hp]; subst.
  - destruct (outer_field i _ Hf) as [(L & Hz & Ht)|[(-> & Hx & _)|(L & Hz & Ht)]]; [|discriminate Hx|]; unfold flat_path.
    + replace (i <? nb)%nat with true by lia. rewrite <- Ht. apply path_scalar, Hz.
    + replace (i <? nb)%nat with false by lia. replace (i =? nb)%nat with false by lia. rewrite <- Ht. apply path_scalar, Hz.
  - destruct (outer_field i _ Hf) as [(L & Hz & Ht)|[(-> & Hx & Ht)|(L & Hz & Ht)]]; unfold flat_path.
    + replace (i <? nb)%nat with true by lia. rewrite <- Ht. eapply path_struct; [exact Hz|exact Hp].
    + injection Hx as -> -> ->. rewrite Nat.ltb_irrefl, Nat.eqb_refl, Ht.
      inversion Hp as [s j f Hj|s j n' r loc' rest' o'' w'' Hj Hp']; subst; destruct (group_field j _ Hj) as (Hz & Hk); rewrite <- ?N.add_assoc.
      * rewrite <- Hk. apply (path_scalar z (nb + j) (moved_fixed_of B f)). exact Hz.
      * rewrite N.add_assoc, <- Hk. eapply path_struct; [exact Hz|exact Hp'].
    + replace (i <? nb)%nat with false by lia. replace (i =? nb)%nat with false by lia. rewrite <- Ht. eapply path_struct; [exact Hz|exact Hp].
Qed.

Lemma flat_field : forall i f, nth_error (s_fields z) i = Some f ->
  (i < nb)%nat /\ nth_error (s_fields x) i = Some f \/
  (exists j f', i = (nb + j)%nat /\ (j < ng)%nat /\ nth_error (s_fields g) j = Some f' /\ f = move B f') \/
  exists j, (nb < j)%nat /\ i = (j + ng - 1)%nat /\ nth_error (s_fields x) j = Some f.
Proof.
  destruct Hs. intros i f Hf. unfold nb, ng. rewrite ns_outer. rewrite ns_flat in Hf. rewrite <- ns_nb, <- ns_ng in *.
  destruct (Nat.ltb_spec i (length fb)) as [L|L].
  - left. split; [exact L|]. rewrite nth_error_app1 in * by exact L. exact Hf.
  - right. rewrite nth_error_app2 in Hf by exact L. destruct (Nat.ltb_spec (i - length fb) (length (s_fields g))) as [L2|L2].
    + left. rewrite nth_error_app1 in Hf by (rewrite map_length; exact L2). rewrite nth_error_map in Hf.
      destruct (nth_error (s_fields g) (i - length fb)) as [f'|] eqn:Ef; [|discriminate Hf]. injection Hf as <-.
      exists (i - length fb)%nat, f'. repeat split; [lia|exact L2|exact Ef].
    + right. rewrite nth_error_app2 in Hf by (rewrite map_length; exact L2). rewrite map_length in Hf.
      exists (i - length (s_fields g) + 1)%nat. split; [lia|]. split; [lia|]. rewrite nth_error_app2 by lia.
      replace (i - length (s_fields g) + 1 - length fb)%nat with (S (i - length fb - length (s_fields g))) by lia. exact Hf.
Qed.
Theorem path_nested : forall path o w, path_at z path o w -> exists path', path_at x path' o w /\ path = flat_path nb ng path'.
Proof.
  intros path o w H. assert (Hd : forall path', (exists o' w', path_at x path' o' w') -> path = flat_path nb ng path' -> exists path', path_at x path' o w /\ path = flat_path nb ng path').
  { intros path' (o' & w' & Hp) E1. exists path'. split; [|exact E1]. pose proof (path_flat _ _ _ Hp) as Hq. rewrite <- E1 in Hq.
    destruct (path_at_fun _ _ _ _ H _ _ Hq) as (-> & ->). exact Hp. }
  assert (Hg : nth_error (s_fields x) nb = Some (FStruct nm g (location_from_model (s_bit_size g) B))).
  { unfold nb. rewrite (ns_outer _ _ _ _ _ _ _ _ _ _ _ _ _ Hs), <- (ns_nb _ _ _ _ _ _ _ _ _ _ _ _ _ Hs), nth_error_app2, Nat.sub_diag by lia. reflexivity. }
  inversion H as [s i f Hf|s i n r loc rest o' w' Hf Hp]; subst.
  - destruct (flat_field i _ Hf) as [(L & Hx)|[(j & f' & -> & L & Hx & Ef)|(j & L & -> & Hx)]].
    + apply (Hd [i]); [do 2 eexists; apply path_scalar, Hx|]. unfold flat_path. replace (i <? nb)%nat with true by lia. reflexivity.
    + destruct f' as [f'|f'|]; try discriminate Ef. apply (Hd [nb; j]).
      * do 2 eexists. eapply path_struct; [exact Hg|]. apply path_scalar, Hx.
      * unfold flat_path. rewrite Nat.ltb_irrefl, Nat.eqb_refl. reflexivity.
    + apply (Hd [j]); [do 2 eexists; apply path_scalar, Hx|]. unfold flat_path. replace (j <? nb)%nat with false by lia. replace (j =? nb)%nat with false by lia. reflexivity.
  - destruct (flat_field i _ Hf) as [(L & Hx)|[(j & f' & -> & L & Hx & Ef)|(j & L & -> & Hx)]].
    + apply (Hd (i :: rest)); [do 2 eexists; eapply path_struct; [exact Hx|exact Hp]|]. unfold flat_path. replace (i <? nb)%nat with true by lia. reflexivity.
    + destruct f' as [f'|f'|n' r' l']; try discriminate Ef. injection Ef as -> -> ->. apply (Hd (nb :: j :: rest)).
      * do 2 eexists. eapply path_struct; [exact Hg|]. eapply path_struct; [exact Hx|exact Hp].
      * unfold flat_path. rewrite Nat.ltb_irrefl, Nat.eqb_refl. reflexivity.
    + apply (Hd (j :: rest)); [do 2 eexists; eapply path_struct; [exact Hx|exact Hp]|]. unfold flat_path. replace (j <? nb)%nat with false by lia. replace (j =? nb)%nat with false by lia. reflexivity.
Qed.

Theorem path_same_out : forall {E} mr data path o w, path_at x path o w -> hd_error path <> Some nb ->
  path_get (E:=E) mr x path data = path_get mr z (flat_path nb ng path) data /\
  (forall v, path_set (E:=E) mr x path data v = path_set mr z (flat_path nb ng path) data v).
Proof.
  intros E mr data path o w H Hd. inversion H as [s i f Hf|s i m' r loc rest o' w' Hf Hp]; subst; cbn [hd_error] in Hd.
  - destruct (outer_field i _ Hf) as [(L & Hz & _)|[(-> & _)|(L & Hz & _)]]; [|congruence|]; unfold flat_path.
    + replace (i <? nb)%nat with true by lia. cbn [path_get path_set]. rewrite Hf, Hz. auto.
    + replace (i <? nb)%nat with false by lia. replace (i =? nb)%nat with false by lia. cbn [path_get path_set]. rewrite Hf, Hz. auto.
  - destruct (outer_field i _ Hf) as [(L & Hz & _)|[(-> & _)|(L & Hz & _)]]; [|congruence|]; unfold flat_path.
    + replace (i <? nb)%nat with true by lia. cbn [path_get path_set]. rewrite Hf, Hz. auto.
    + replace (i <? nb)%nat with false by lia. replace (i =? nb)%nat with false by lia. cbn [path_get path_set]. rewrite Hf, Hz. auto.
Qed.

Section Read.
Context {E : Type}.
Variables (mr : mode) (data : bytes).
Hypothesis Ha : B mod 8 = 0.
Hypothesis Hl : s_byte_size x <= len data.
Let k := B / 8.
Let n := bytes_of_bits (s_bit_size g).
Lemma B_k : B = 8 * k.
Proof. unfold k. pose proof (N.div_mod B 8 ltac:(discriminate)). lia. Qed.
Lemma group_in : k + n <= len data.
Proof.
  destruct Hs. unfold k, n. rewrite ns_outer_bytes in Hl. pose proof (window_fits B (s_bit_size g) (s_bit_size x) ns_sum). lia.
Qed.
Lemma group_locs : forall j f, nth_error (s_fields g) j = Some f -> within_window n (field_loc f).
Proof. intros j f Hf. destruct (ns_locs _ _ _ _ _ _ _ _ _ _ _ _ _ Hs j f Hf) as (w & o & E1 & E2). exists w, o, (s_bit_size g). auto. Qed.

Theorem path_same : forall path o w, path_at x path o w ->
  path_get (E:=E) mr x path data = path_get mr z (flat_path nb ng path) data /\
  (forall v, path_set (E:=E) mr x path data v = path_set mr z (flat_path nb ng path) data v).
Proof.
  intros path o w H. inversion H as [s i f Hf|s i m' r loc rest o' w' Hf Hp]; subst.
  - destruct (outer_field i _ Hf) as [(L & Hz & _)|[(-> & Hx & _)|(L & Hz & _)]]; [|discriminate Hx|]; unfold flat_path.
    + replace (i <? nb)%nat with true by lia. cbn [path_get path_set]. rewrite Hf, Hz. auto.
    + replace (i <? nb)%nat with false by lia. replace (i =? nb)%nat with false by lia. cbn [path_get path_set]. rewrite Hf, Hz. auto.
  - destruct (outer_field i _ Hf) as [(L & Hz & _)|[(-> & Hx & _)|(L & Hz & _)]]; unfold flat_path.
    + replace (i <? nb)%nat with true by lia. cbn [path_get path_set]. rewrite Hf, Hz. auto.
    + injection Hx as -> -> ->. rewrite Nat.ltb_irrefl, Nat.eqb_refl.
      cbn [path_get path_set]. rewrite Hf. cbn [location_from_model l_byte_offset l_byte_size]. fold k n. pose proof group_in as Gi.
      inversion Hp as [s j f Hj|s j n' r' loc' rest' o'' w'' Hj Hp']; subst; destruct (group_field j _ Hj) as (Hz & _); pose proof (group_locs _ _ Hj) as W; cbn [path_get path_set]; rewrite Hz, Hj; cbn [move]; cbn [field_loc] in W.
      * pose proof (get_raw_moved (E:=E) mr k n data Gi f W) as G1. pose proof (fun v => set_raw_moved (E:=E) mr k n data Gi f v W) as G2.
        unfold moved_fixed in G1, G2. rewrite <- B_k in G1, G2. split; [symmetry; exact G1|]. intro v. symmetry. apply G2.
      * destruct (ends_in k n data Gi _ W) as (Le & E1 & E2 & E3). rewrite <- B_k in E1, E2. rewrite E1, E2, <- N.add_assoc.
        rewrite (slice_inner data k n) by assumption. destruct (window_in (E:=E) data k n Gi) as (win & Hw & _ & _). rewrite Hw. cbn [bind].
        split; [reflexivity|]. intro v. rewrite (update_inner data k n) by (try assumption; apply keeps_path). reflexivity.
    + replace (i <? nb)%nat with false by lia. replace (i =? nb)%nat with false by lia. cbn [path_get path_set]. rewrite Hf, Hz. auto.
Qed.
Theorem view_same : forall j f, nth_error (s_fields g) j = Some (FFixed f) -> exists f', nth_error (s_fields z) (nb + j) = Some (FFixed f') /\
  get_view (E:=E) mr f' data = (win <- slice data k (k + n) ;; get_view mr f win) /\
  (forall v, set_view (E:=E) mr f' data v = update_slice data k (k + n) (fun win => set_view mr f win v)).
Proof.
  intros j f Hj. destruct (group_field j _ Hj) as (Hz & _). pose proof (group_locs _ _ Hj) as W. pose proof group_in as Gi. cbn [field_loc] in W.
  eexists. split; [exact Hz|]. pose proof (get_view_moved (E:=E) mr k n data Gi f W) as G1. pose proof (fun v => set_view_moved (E:=E) mr k n data Gi f v W) as G2.
  unfold moved_fixed in G1, G2. rewrite <- B_k in G1, G2. auto.
Qed.
Theorem array_same : forall j f, nth_error (s_fields g) j = Some (FArray f) -> exists f', nth_error (s_fields z) (nb + j) = Some (FArray f') /\
  forall i, arr_get (E:=E) mr f' data i = (win <- slice data k (k + n) ;; arr_get mr f win i) /\
  (forall v, arr_set (E:=E) mr f' data i v = update_slice data k (k + n) (fun win => arr_set mr f win i v)).
Proof.
  intros j f Hj. destruct (group_field j _ Hj) as (Hz & _). pose proof (group_locs _ _ Hj) as W. pose proof group_in as Gi. cbn [field_loc] in W.
  eexists. split; [exact Hz|]. intro i. pose proof (arr_get_moved (E:=E) mr k n data Gi f i W) as G1. pose proof (fun v => arr_set_moved (E:=E) mr k n data Gi f i v W) as G2.
  unfold moved_array in G1, G2. rewrite <- B_k in G1, G2. auto.
Qed.
End Read.
End Chains.
