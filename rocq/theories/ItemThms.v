(** Corollaries for C24, C32, C34, C36 and C39. *)

From Coq Require Import Arith NArith ZArith String List Bool Lia ZifyBool ZifyN ZifyNat.
From Verif Require Import Base Schema Codec Compiler Access SpecStruct StructFacts CompFacts Bits Runtime Gen SpecWire
  MsgFacts WriteThms ReadThms SoundThms SpecReadable ReadableThms ListThms SpecRun SpecComp CompThms LinkThms SpecUnion UnionThms.
Import ListNotations.
Local Open Scope N_scope.

(** C24: writing a decoded value again gives the bytes it was decoded from. *)
Theorem read_write : forall m emb x b n v, checked_lengths m emb x -> no_optional emb x ->
  len b < 2 ^ 64 -> bytes_ok b -> read_msg m emb x b = Ok (n, v) ->
  n <= len b /\ forall s, write_vec m x v s = (s ++ firstn (N.to_nat n) b, Ok tt).
Proof.
  intros m emb x b n v Hc Ho Hl Hb H. destruct (read_sound m emb x Hc b n v Hl Hb H) as (Hn & He).
  split; [exact Hn|]. intro s. apply write_vec_encodes. apply (no_optional_strict m emb); assumption.
Qed.

(** C39 for the field of a message. *)
Theorem item_size : forall mc enums structs id d s env unsorted v n f marks m present prev y b,
  structure_from_model mc Little enums structs id d = Ok s -> regular s ->
  smf_info v = MTItem n -> sget n (pe_structs env) = Some s ->
  mfield_from_model env unsorted v = Ok (f, marks) ->
  enc_ty m present (mf_endi f) prev (mf_ty f) y b -> len b = s_byte_size s.
Proof.
  intros mc enums structs id d s env unsorted v n f marks m present prev y b Hs Hr Hi Hg Hf He.
  unfold mfield_from_model in Hf. rewrite Hi in Hf. unfold referenced_lookup in Hf. rewrite Hg in Hf.
  cbn [ok_or bind] in Hf. destruct (flattened s) as [g|] eqn:Eg; inversion Hf; subst f; cbn [mf_endi mf_ty] in He.
  - destruct y; try contradiction. cbn [enc_ty] in He. destruct He as (Hl & _). unfold len. rewrite Hl.
    eapply flattened_size; eassumption.
  - destruct y; try contradiction. cbn [enc_ty enc_ref] in He. destruct He as (Hl & _ & ->). exact Hl.
Qed.

(** C32 for the unions of compiled protocols: after [set_discriminant] the case
    can be written and is read back. *)
Theorem session_set_discriminant : forall mc m w ps p u k c o n data item b emb r,
  session mc w ps -> sizes_fit mc ps -> In p ps -> In u (p_unions p) ->
  path_at (d_root (u_disc u)) (d_index_list (u_disc u)) o n ->
  path_bytes_aligned (d_root (u_disc u)) (d_index_list (u_disc u)) -> 0 < n <= 64 -> addressable o n ->
  first_case u (uc_case c) k c -> uc_case c < 2 ^ n ->
  len data = s_byte_size (d_root (u_disc u)) -> bytes_ok data -> encodes_case m c item b ->
  exists data', set_discriminant m u k data = Ok data' /\ len data' = len data /\ bytes_ok data' /\
    (forall t, ~ (o <= t < o + n) -> bit_at data' t = bit_at data t) /\
    (forall s, write_union m vec_sink u (Some (VStruct data')) (VUnion k item) s = (s ++ b, Ok tt)) /\
    (case_delimited emb c -> len (b ++ r) < 2 ^ 64 ->
     read_union m emb u (Some (VStruct data')) (b ++ r) = Ok (len b, VUnion k item)).
Proof.
  intros mc m w ps p u k c o n data item b emb r Hs Hf Hp Hu Hpath Hal Hn Ha Hc Hlt Hl Hb He.
  pose proof (session_linked _ _ _ Hs) as [_ HP]. specialize (HP p Hp).
  destruct (pi_lunions _ _ _ _ _ HP u Hu) as (Hroot & _).
  pose proof (session_structs_ok _ _ _ Hs Hf _ Hroot) as Hok.
  destruct (set_discriminant_ok m u k c o n data Hok Hpath Hal Hn Ha (proj1 Hc) Hlt Hl Hb)
    as (data' & H1 & H2 & H3 & H4 & H5).
  exists data'. repeat (split; [assumption|]).
  destruct (union_roundtrip m u data' k c item b H4 Hc He) as (H6 & H7). split; [exact H6|]. apply H7.
Qed.

(** C34 for lists of generated messages. *)
Theorem iterate_msg_oks : forall m emb x k data n rs s, len data < 2 ^ 64 ->
  iter_take m (read_msg m emb x) k (data, n) = Ok (rs, s) -> oks rs + snd s = n /\ len rs <= N.of_nat k.
Proof.
  intros m emb x k data n rs s. apply iterate_oks. intros b c v. apply read_bounded.
Qed.

(** C36: arrays read from the wire. *)
Theorem wire_array : forall m endi ty size b total data n, len b < 2 ^ 64 -> bytes_ok b ->
  (m = Debug \/ tmod (get_byte_size ty) * size <= 2 ^ 64) ->
  array_from_slice m (value_reader endi ty) size b = Ok (total, (data, n)) ->
  len data = n * size /\ total = N.of_nat (get_byte_size ty) + n * size /\ total <= len b /\
  data = firstn (N.to_nat (n * size)) (skipn (get_byte_size ty) b).
Proof.
  intros m endi ty size b total data n Hl Hb Hg E. unfold array_from_slice in E.
  apply bind_ok in E. destruct E as ([k c] & Hk & E). apply value_reader_ok in Hk; [|exact Hb].
  destruct Hk as (-> & Hk & Hnum). apply bind_ok in E. destruct E as (q & Hq & E).
  apply number_iff in Hnum. destruct Hnum as (Hnum & _).
  assert (Hsm : m = Debug \/ c * size < 2 ^ 64).
  { destruct Hg as [Hg|Hg]; [left; exact Hg|].
    destruct (N.eq_dec size 0) as [Z|Z]; [right; rewrite Z, N.mul_0_r; lia|].
    right. eapply N.lt_le_trans; [|exact Hg]. apply N.mul_lt_mono_pos_r; lia. }
  apply umul_small in Hq; [|exact Hsm]. subst q.
  apply bind_ok in E. destruct E as (t & Ht & E). destruct (len b <? t) eqn:C; [discriminate|].
  apply bind_ok in E. destruct E as (d & Hd & E). inversion E; subst total d n. clear E. apply slice_inv in Hd.
  destruct Hd as (H1 & H2 & ->).
  assert (Hq64 : c * size < 2 ^ 64).
  { destruct Hsm as [Hs|Hs]; [|exact Hs]. unfold uadd in Ht. subst m.
    destruct (N.ltb_spec (N.of_nat (get_byte_size ty) + c * size) usize_mod) as [D|D]; [|discriminate].
    eapply N.le_lt_trans; [|exact D]. lia. }
  apply uadd_release in Ht; [|lia..]. destruct Ht as [-> | (Ht & _)]; [|lia].
  replace (N.of_nat (get_byte_size ty) + c * size - N.of_nat (get_byte_size ty)) with (c * size) by lia.
  rewrite Nat2N.id. split; [unfold len in *; rewrite firstn_length, skipn_length; lia|].
  split; [reflexivity|]. split; [lia|reflexivity].
Qed.
