(** C32: what [set_discriminant] stores and selects, whether or not the number of the case fits the discriminant. *)

From Coq Require Import Arith NArith ZArith String List Bool Lia ZifyBool ZifyN ZifyNat.
From Verif Require Import Base Schema Codec Compiler Access SpecStruct StructFacts CompFacts Bits NestedThms ArrayThms Runtime Gen SpecWire
  MsgFacts WriteThms ReadThms SpecRun SpecComp CompThms LinkThms SpecUnion UnionThms Samples SamplesComp.
Import ListNotations.
Local Open Scope N_scope.

Lemma set_discriminant_stores : forall m u k c o w data,
  struct_ok (d_root (u_disc u)) ->
  path_at (d_root (u_disc u)) (d_index_list (u_disc u)) o w ->
  path_bytes_aligned (d_root (u_disc u)) (d_index_list (u_disc u)) -> 0 < w <= 64 -> addressable o w ->
  nth_error (u_cases u) k = Some c ->
  len data = s_byte_size (d_root (u_disc u)) -> bytes_ok data ->
  exists data', set_discriminant m u k data = Ok data' /\ is_field_update data o w (uc_case c) data' /\
    discriminant m u data' (uc_case c mod 2 ^ w).
Proof.
  intros m u k c o w data Hs Hp Hal Hw Ha Hk Hl Hok.
  destruct (path_set_correct (E:=rerror) m (uc_case c) _ _ o w data Hs Hp Hal Hw Ha) as (data' & Hset & U);
    [lia|assumption|].
  exists data'. unfold set_discriminant. rewrite Hk. cbn [unwrap bind]. split; [exact Hset|]. split; [exact U|].
  destruct U as (U1 & U2 & U3).
  destruct (path_get_correct (E:=rerror) m _ _ o w data' Hs Hp Hal Hw Ha) as (v & Hv & Hfv);
    [unfold len in *; lia|assumption|].
  unfold discriminant. rewrite Hv. f_equal. eapply is_field_value_bits; [|exact Hfv|apply N.mod_lt; apply N.pow_nonzero; lia].
  intros j Hj. rewrite U3. replace ((o <=? o + j) && (o + j <? o + w)) with true by lia.
  rewrite N.mod_pow2_bits_low by assumption. f_equal. lia.
Qed.

Theorem set_discriminant_exact : forall mc m w ps p u k c o n data,
  session mc w ps -> sizes_fit mc ps -> In p ps -> In u (p_unions p) ->
  path_at (d_root (u_disc u)) (d_index_list (u_disc u)) o n ->
  path_bytes_aligned (d_root (u_disc u)) (d_index_list (u_disc u)) -> 0 < n <= 64 -> addressable o n ->
  nth_error (u_cases u) k = Some c ->
  len data = s_byte_size (d_root (u_disc u)) -> bytes_ok data ->
  exists data', set_discriminant m u k data = Ok data' /\ is_field_update data o n (uc_case c) data' /\
    (forall emb b size j item, read_union m emb u (Some (VStruct data')) b = Ok (size, VUnion j item) ->
       (j = k <-> first_case u (uc_case c) k c /\ uc_case c < 2 ^ n)) /\
    ((forall c', In c' (u_cases u) -> uc_case c' <> uc_case c mod 2 ^ n) ->
       forall emb b, read_union m emb u (Some (VStruct data')) b = Err (InvalidUnionDiscriminant (uc_case c mod 2 ^ n))) /\
    (forall t v St (snk : sink St) s, uc_item c = Some t -> 2 ^ n <= uc_case c ->
       write_union m snk u (Some (VStruct data')) (VUnion k (Some v)) s
       = (s, Err (InvalidUnionDiscriminant (uc_case c mod 2 ^ n)))).
Proof.
  intros mc m w ps p u k c o n data Hs Hf Hp Hu Hpath Hal Hn Ha Hk Hl Hb.
  pose proof (session_linked _ _ _ Hs) as [_ HP]. specialize (HP p Hp).
  destruct (pi_lunions _ _ _ _ _ HP u Hu) as (Hroot & _).
  pose proof (session_structs_ok _ _ _ Hs Hf _ Hroot) as Hok.
  destruct (set_discriminant_stores m u k c o n data Hok Hpath Hal Hn Ha Hk Hl Hb) as (data' & H1 & H2 & H3).
  assert (Hp2 : 2 ^ n <> 0) by (apply N.pow_nonzero; lia).
  exists data'. split; [exact H1|]. split; [exact H2|]. split; [|split].
  - intros emb b size j item R. rewrite read_union_eq in R. apply bind_ok in R. destruct R as (d & Hd & R).
    cbn [read_discriminant] in Hd. unfold discriminant in H3. rewrite H3 in Hd. injection Hd as <-.
    destruct (find_case (uc_case c mod 2 ^ n) 0 (u_cases u)) as [[q c']|] eqn:F; [|discriminate].
    apply find_case_first in F. rewrite Nat.sub_0_r in F. destruct F as (_ & Hq & Hc' & Hbefore).
    assert (j = q). { destruct (uc_item c') as [t|].
      - apply bind_ok in R. destruct R as ([z y] & _ & R). congruence.
      - congruence. }
    subst j. split.
    + intros ->. assert (c' = c) by congruence. subst c'.
      assert (Hlt : uc_case c < 2 ^ n) by (rewrite Hc'; apply N.mod_lt; assumption).
      split; [|exact Hlt]. split; [exact Hk|]. split; [reflexivity|]. intros i ci Hi Hci.
      rewrite N.mod_small in Hbefore by assumption. eapply Hbefore; eassumption.
    + intros ((_ & _ & Hfst) & Hlt). rewrite N.mod_small in Hc', Hbefore by assumption.
      destruct (Nat.lt_trichotomy q k) as [L|[E|L]]; [exfalso|exact E|exfalso].
      * exact (Hfst _ _ L Hq Hc').
      * exact (Hbefore _ _ L Hk eq_refl).
  - intros Hno emb b. exact (proj2 (union_read m emb u data' _ b H3) Hno).
  - intros t v St snk s Ht Hge. eapply union_write_mismatch; try eassumption.
    pose proof (N.mod_lt (uc_case c) (2 ^ n) Hp2). lia.
Qed.

(** With the labels 20 and 4 of a 4 bit discriminant, [set_discriminant] of the first selects the second. *)
Lemma set_discriminant_refuted : exists v p w u,
  protocol_from_model Debug no_imports world0 v = Ok (p, w) /\ p_unions p = [u] /\
  map su_case (flat_map sun_cases (sp_unions v)) = ["20"%string; "4"%string] /\
  map uc_case (u_cases u) = [20; 4] /\
  forall m emb b, set_discriminant m u 0 [0] = Ok [4] /\ set_discriminant m u 1 [0] = Ok [4] /\
    read_union m emb u (Some (VStruct [4])) b = Ok (0, VUnion 1 None).
Proof.
  exists {| sp_name := "P"; sp_endianness := None; sp_imports := []; sp_enums := []; sp_messages := [];
     sp_structs := [ {| ss_name := "S"; ss_fields := [ scalar "a" (STUnsigned 4) ] |} ];
     sp_unions := [ {| sun_name := "U"; sun_discriminant := "S.a";
                       sun_cases := [ ucase_d "A" "20" None; ucase_d "B" "4" None ] |} ] |}.
  do 3 eexists. split; [vm_compute; reflexivity|]. split; [reflexivity|]. split; [reflexivity|]. split; [reflexivity|].
  intros m emb b. destruct m; repeat split; vm_compute; reflexivity.
Qed.
