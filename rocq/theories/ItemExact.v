(** Exactly which structure items change size on the wire (C39). *)

From Coq Require Import Arith NArith ZArith String List Bool Lia ZifyBool ZifyN ZifyNat.
From Verif Require Import Base Schema Codec Compiler Access SpecStruct StructFacts CompFacts Bits Runtime Gen SpecWire
  MsgFacts WriteThms ReadThms SpecReadable ReadableThms.
Import ListNotations.
Local Open Scope N_scope.

(** What a single scalar becomes. *)
Lemma one_scalar : forall m endi enums structs id d s df b,
  structure_from_model m endi enums structs id d = Ok s -> ss_fields d = [df] ->
  get_bit_size (sf_info df) = Some b -> no_overflow m structs d ->
  let n := match sf_array_len df with Some n => n | None => 1 end in
  (1 < n /\ flattened s = None) \/
  (n <= 1 /\ s_bit_size s = b * n /\ exists g, s_fields s = [FFixed g] /\
    view_from_model m enums (get_simple_type (sf_info df)) b (sf_view df) = Ok (ff_view g) /\
    fixed_from_model (sf_info df) = Ok (ff_ty g) /\
    flattened s = if is_transmute (ff_view g) && ((b * n) mod 8 =? 0) then Some g else None).
Proof.
  intros m endi enums structs id d s df b H Hd Hb Hno n.
  unfold structure_from_model in H. rewrite Hd in H. cbn [fields_from_model] in H.
  apply bind_ok in H. destruct H as ((fs & off) & H & E). inversion E; subst s. clear E.
  apply bind_ok in H. destruct H as ((f & o) & Hf & H). cbn in H. inversion H; subst fs o. clear H.
  assert (Hdb : declared_bits structs df = Some (b * n)).
  { unfold declared_bits. destruct (sf_info df); cbn in Hb; inversion Hb; reflexivity. }
  assert (Hns : field_from_model m endi enums structs 0 df =
     (view <- view_from_model m enums (get_simple_type (sf_info df)) b (sf_view df) ;;
      bit_size <- umul m b n ;;
      ty <- fixed_from_model (sf_info df) ;;
      if 1 <? n then
        if negb (bit_size mod 8 =? 0) then Err EUnalignedArrayCodec
        else
          off <- uadd m 0 bit_size ;;
          Ok (FArray {| fa_name := sf_name df; fa_ty := ty; fa_array_len := n;
                        fa_loc := location_from_model bit_size 0; fa_endianness := endi |}, off)
      else
        off <- uadd m 0 bit_size ;;
        Ok (FFixed {| ff_name := sf_name df; ff_ty := ty; ff_loc := location_from_model bit_size 0; ff_view := view;
                      ff_endianness := endi |}, off))).
  { unfold field_from_model. destruct (sf_info df); cbn in Hb; inversion Hb; subst; reflexivity. }
  rewrite Hns in Hf. clear Hns.
  apply bind_ok in Hf. destruct Hf as (view & Hv & Hf).
  apply bind_ok in Hf. destruct Hf as (w & Hw & Hf).
  apply bind_ok in Hf. destruct Hf as (ty & Hty & Hf).
  assert (Hwb : w = b * n).
  { unfold umul in Hw. destruct (N.ltb_spec (b * n) usize_mod) as [D|D]; [congruence|].
    destruct Hno as [->|Ht]; [discriminate|]. specialize (Ht (b * n + 0)).
    rewrite Hd in Ht. cbn [declared_total] in Ht. rewrite Hdb in Ht. specialize (Ht eq_refl).
    unfold usize_mod in D. lia. }
  assert (Hoff : forall o', uadd (E:=cerror) m 0 w = Ok o' -> o' = w).
  { intros o' Ho. unfold uadd in Ho. rewrite N.add_0_l in Ho. destruct (N.ltb_spec w usize_mod) as [D|D]; [congruence|].
    destruct Hno as [->|Ht]; [discriminate|]. specialize (Ht (b * n + 0)).
    rewrite Hd in Ht. cbn [declared_total] in Ht. rewrite Hdb in Ht. specialize (Ht eq_refl).
    unfold usize_mod in D. lia. }
  destruct (N.ltb_spec 1 n) as [Hn|Hn].
  - left. split; [assumption|]. destruct (negb _); [discriminate|]. apply bind_ok in Hf. destruct Hf as (o & _ & Hf).
    inversion Hf; subst. reflexivity.
  - right. split; [assumption|]. apply bind_ok in Hf. destruct Hf as (o & Ho & Hf). apply Hoff in Ho.
    inversion Hf; subst f off. cbn [s_bit_size s_fields]. split; [congruence|]. eexists. split; [reflexivity|].
    cbn [ff_view ff_ty]. split; [assumption|]. split; [assumption|]. unfold flattened. cbn [s_fields ff_view ff_loc].
    replace (l_bit_size (location_from_model w 0)) with w by reflexivity. rewrite Hwb. reflexivity.
Qed.

Lemma bytes_whole : forall n, n mod 8 = 0 -> bytes_of_bits n = n / 8.
Proof. intros n H. unfold bytes_of_bits. rewrite H. reflexivity. Qed.

Lemma structure_bytes : forall m endi enums structs id d s,
  structure_from_model m endi enums structs id d = Ok s -> s_byte_size s = bytes_of_bits (s_bit_size s).
Proof.
  intros m endi enums structs id d s H. unfold structure_from_model in H.
  apply bind_ok in H. destruct H as ((fs & off) & _ & E). inversion E; subst s. reflexivity.
Qed.

Ltac width_cases b :=
  let K := fresh in
  assert (K : In b [8; 16; 24; 32; 40; 48; 56; 64]) by (cbn; lia);
  cbn in K; repeat (destruct K as [K|K]); try destruct K; subst b.

Lemma flat_exact : forall m endi enums structs id d s,
  structure_from_model m endi enums structs id d = Ok s -> no_overflow m structs d ->
  ((forall g, flattened s = Some g -> N.of_nat (get_byte_size (ff_ty g)) = s_byte_size s) <-> ~ misfit d).
Proof.
  intros m endi enums structs id d s H Hno. pose proof (structure_bytes _ _ _ _ _ _ _ H) as Hbytes.
  destruct (ss_fields d) as [|df [|df2 l]] eqn:Hd.
  - split; intros _.
    + intros (f & Hf & _). rewrite Hd in Hf. discriminate.
    + intros g Hg. exfalso. apply flattened_shape in Hg. unfold structure_from_model in H. rewrite Hd in H. cbn in H.
      inversion H; subst s. discriminate Hg.
  - destruct (get_bit_size (sf_info df)) as [b|] eqn:Hb.
    2:{ assert (exists n, sf_info df = STStruct n) as (n & Hn) by (destruct (sf_info df); try discriminate; eauto).
        split; intros _.
        - intros (f & Hf & _ & K). rewrite Hd in Hf. inversion Hf; subst f. rewrite Hn in K. destruct (sf_array_len df); exact K.
        - intros g Hg. exfalso. apply flattened_shape in Hg. unfold structure_from_model in H. rewrite Hd in H.
          cbn [fields_from_model] in H. apply bind_ok in H. destruct H as ((fs & off) & H & E). inversion E; subst s. clear E.
          apply bind_ok in H. destruct H as ((f & o) & Hf & H). cbn in H. inversion H; subst fs o.
          unfold field_from_model in Hf. rewrite Hn in Hf.
          apply bind_ok in Hf. destruct Hf as (r & _ & Hf). apply bind_ok in Hf. destruct Hf as (q & _ & Hf).
          inversion Hf; subst f. discriminate Hg. }
    destruct (one_scalar _ _ _ _ _ _ _ _ _ H Hd Hb Hno) as [(Hn & Hfl)|(Hn & Hw & g & Hg & Hv & Hty & Hfl)].
    + split; intros _.
      * intros (f & Hf & _ & K). rewrite Hd in Hf. inversion Hf; subst f.
        destruct (sf_info df), (sf_array_len df) as [[|[?|?|]]|]; try lia; exact K.
      * rewrite Hfl. discriminate.
    + rewrite Hfl, Hbytes, Hw. clear Hfl Hbytes Hw Hno H.
      set (n := match sf_array_len df with Some n => n | None => 1 end) in *.
      assert (Hn2 : n = 0 \/ n = 1) by lia.
      assert (Hmis : misfit d <-> (sf_view df = None /\
        match sf_info df with
        | STUnsigned b => n = 0 \/ In b [24; 40; 48; 56]
        | STBoolean b => n = 0 \/ (b mod 8 = 0 /\ b <> 8)
        | STSigned b => n = 0 /\ In b [8; 16; 32; 64]
        | STFloat b => n = 0 /\ In b [32; 64]
        | STStruct _ => False
        end)).
      { unfold misfit. rewrite Hd. split.
        - intros (f & Hf & Hvw & K). inversion Hf; subst f. split; [exact Hvw|]. subst n.
          destruct (sf_info df), (sf_array_len df) as [[|[?|?|]]|]; try contradiction; try lia; auto.
        - intros (Hvw & K). exists df. split; [reflexivity|]. split; [exact Hvw|]. subst n.
          destruct (sf_info df), (sf_array_len df) as [[|[?|?|]]|]; try contradiction; try lia; auto;
            try (destruct K as [K|K]; [exfalso; lia|exact K]); try tauto; exfalso; destruct K as (K & _); lia. }
      rewrite Hmis. clear Hmis.
      assert (Hflat : forall (P : fixed_field -> Prop),
        ((forall g0, (if is_transmute (ff_view g) && ((b * n) mod 8 =? 0) then Some g else None) = Some g0 -> P g0) <->
         (is_transmute (ff_view g) = true -> (b * n) mod 8 = 0 -> P g))).
      { intro P. destruct (is_transmute (ff_view g)); cbn [andb].
        - destruct (N.eqb_spec ((b * n) mod 8) 0) as [K|K]; split.
          + intros HP _ _. apply HP. reflexivity.
          + intros HP g0 [= <-]. apply HP; auto.
          + intros _ _ K2. contradiction.
          + discriminate.
        - split; [discriminate|]. intros _ g0 K. discriminate K. }
      rewrite Hflat. clear Hflat.
      destruct (sf_view df) as [vw|] eqn:Hvw.
      { split; [intros _ (K & _); discriminate|]. intros _ Htr _. exfalso.
        unfold view_from_model in Hv. destruct vw.
        - destruct (negb _); [discriminate|]. apply bind_ok in Hv. destruct Hv as (? & _ & Hv). inversion Hv as [E].
          rewrite <- E in Htr. discriminate.
        - destruct (negb _); [discriminate|]. apply bind_ok in Hv. destruct Hv as (? & _ & Hv).
          apply bind_ok in Hv. destruct Hv as (? & _ & Hv). inversion Hv as [E]. rewrite <- E in Htr. discriminate.
        - destruct (negb _); [discriminate|]. inversion Hv as [E]. rewrite <- E in Htr. discriminate. }
      assert (Hpos : 1 <= N.of_nat (get_byte_size (ff_ty g))) by (destruct (ff_ty g); cbn; lia).
      unfold view_from_model in Hv. unfold fixed_from_model in Hty. rewrite Hb in Hty. cbn [ok_or bind] in Hty.
      destruct (sf_info df) as [b0|b0|b0|b0|?] eqn:Hi; cbn [get_bit_size] in Hb; try discriminate; injection Hb as ->;
        cbn [get_simple_type simple_eqb andb] in Hv, Hty.
      * (* signed *)
        destruct ((negb (b =? 8) && negb (b =? 16) && negb (b =? 32) && negb (b =? 64))) eqn:Hc.
        { split.
          - intros _ (_ & _ & K). cbn in K. lia.
          - intros _ Htr _. exfalso. apply bind_ok in Hv. destruct Hv as (? & _ & Hv).
            apply bind_ok in Hv. destruct Hv as (? & _ & Hv). apply bind_ok in Hv. destruct Hv as (? & _ & Hv).
            inversion Hv as [E]. rewrite <- E in Htr. discriminate. }
        assert (E : is_transmute (ff_view g) = true) by (replace (ff_view g) with VTransmute by congruence; reflexivity). rewrite E.
        assert (Hin : In b [8; 16; 32; 64]) by (cbn; lia).
        assert (Hsize : N.of_nat (get_byte_size (ff_ty g)) = b / 8).
        { cbn in Hin. destruct Hin as [K|[K|[K|[K|[]]]]]; subst b; cbn in Hty; injection Hty as Ht; rewrite <- Ht; reflexivity. }
        destruct Hn2 as [-> | ->]; rewrite ?N.mul_0_r, ?N.mul_1_r.
        -- split; [|intro K; exfalso; apply K; auto]. intros K _. specialize (K eq_refl eq_refl).
           change (bytes_of_bits 0) with 0 in K. lia.
        -- split; [intros _ (_ & K & _); discriminate|]. intros _ _ Hm8. rewrite bytes_whole by exact Hm8. exact Hsize.
      * (* unsigned *)
        assert (E : is_transmute (ff_view g) = true) by (replace (ff_view g) with VNone by congruence; reflexivity). rewrite E.
        destruct Hn2 as [-> | ->]; rewrite ?N.mul_0_r, ?N.mul_1_r.
        -- split; [|intro K; exfalso; apply K; auto]. intros K _. specialize (K eq_refl eq_refl).
           change (bytes_of_bits 0) with 0 in K. lia.
        -- assert (Hb64 : 0 < b <= 64).
           { destruct ((32 <? b) && (b <=? 64)) eqn:C1; [lia|]. destruct ((16 <? b) && (b <=? 32)) eqn:C2; [lia|].
             destruct ((8 <? b) && (b <=? 16)) eqn:C3; [lia|]. destruct ((0 <? b) && (b <=? 8)) eqn:C4; [lia|discriminate]. }
           assert (Hd8 : b = 8 * (b / 8) + b mod 8) by (apply N.div_mod; discriminate).
           split.
           ++ intros K (_ & [K2|K2]); [discriminate|]. cbn in K2.
              destruct K2 as [K2|[K2|[K2|[K2|[]]]]]; subst b; specialize (K eq_refl eq_refl); cbn in Hty; injection Hty as Ht;
                rewrite <- Ht in K; discriminate K.
           ++ intros K _ Hm8. rewrite bytes_whole by exact Hm8.
              assert (Hq : In (b / 8) [1; 2; 3; 4; 5; 6; 7; 8]) by (cbn; lia). rewrite Hm8, N.add_0_r in Hd8.
              remember (b / 8) as q eqn:Eq. clear Eq. subst b. cbn in Hq.
              destruct Hq as [Q|[Q|[Q|[Q|[Q|[Q|[Q|[Q|[]]]]]]]]]; subst q;
                try (exfalso; apply K; split; [reflexivity|]; right; cbn; tauto);
                cbn in Hty; injection Hty as Ht; rewrite <- Ht; reflexivity.
      * (* float *)
        destruct (negb (b =? 32) && negb (b =? 64)) eqn:Hc; [discriminate|].
        assert (E : is_transmute (ff_view g) = true) by (replace (ff_view g) with VTransmute by congruence; reflexivity). rewrite E.
        assert (Hin : In b [32; 64]) by (cbn; lia).
        assert (Hsize : N.of_nat (get_byte_size (ff_ty g)) = b / 8).
        { cbn in Hin. destruct Hin as [K|[K|[]]]; subst b; cbn in Hty; injection Hty as Ht; rewrite <- Ht; reflexivity. }
        destruct Hn2 as [-> | ->]; rewrite ?N.mul_0_r, ?N.mul_1_r.
        -- split; [|intro K; exfalso; apply K; auto]. intros K _. specialize (K eq_refl eq_refl).
           change (bytes_of_bits 0) with 0 in K. lia.
        -- split; [intros _ (_ & K & _); discriminate|]. intros _ _ Hm8. rewrite bytes_whole by exact Hm8. exact Hsize.
      * (* boolean *)
        assert (E : is_transmute (ff_view g) = true) by (replace (ff_view g) with VTransmute by congruence; reflexivity). rewrite E. injection Hty as Ht. rewrite <- Ht.
        destruct Hn2 as [-> | ->]; rewrite ?N.mul_0_r, ?N.mul_1_r.
        -- split; [|intro K; exfalso; apply K; auto]. intros K _. specialize (K eq_refl eq_refl). discriminate K.
        -- assert (Hd8 : b = 8 * (b / 8) + b mod 8) by (apply N.div_mod; discriminate).
           split.
           ++ intros K (_ & [K2|(K2 & K3)]); [discriminate|]. specialize (K eq_refl K2). rewrite bytes_whole in K by exact K2.
              change (N.of_nat (get_byte_size FBool)) with 1 in K. lia.
           ++ intros K _ Hm8. rewrite bytes_whole by exact Hm8. change (N.of_nat (get_byte_size FBool)) with 1.
              destruct (N.eq_dec b 8) as [->|Hne]; [reflexivity|]. exfalso. apply K. auto.
  - split; intros _.
    + intros (f & Hf & _). rewrite Hd in Hf. discriminate.
    + intros g Hg. exfalso. apply flattened_shape in Hg.
      unfold structure_from_model in H. rewrite Hd in H. cbn [fields_from_model] in H.
      apply bind_ok in H. destruct H as ((fs & off) & H & E). inversion E; subst s. clear E. cbn [s_fields] in Hg. subst fs.
      apply bind_ok in H. destruct H as ((g1 & o) & _ & H). apply bind_ok in H. destruct H as ((gs & o') & Hgs & H).
      inversion H; subst. apply bind_ok in Hgs. destruct Hgs as ((h & o2) & _ & Hgs).
      apply bind_ok in Hgs. destruct Hgs as ((hs & o3) & _ & Hgs). inversion Hgs.
Qed.

Theorem item_size_exact : forall mc enums structs id d s env unsorted v n f marks m present,
  structure_from_model mc Little enums structs id d = Ok s -> no_overflow mc structs d ->
  smf_info v = MTItem n -> sget n (pe_structs env) = Some s ->
  mfield_from_model env unsorted v = Ok (f, marks) ->
  ((forall prev y b, enc_ty m present (mf_endi f) prev (mf_ty f) y b -> len b = s_byte_size s) <-> ~ misfit d).
Proof.
  intros mc enums structs id d s env unsorted v n f marks m present Hs Hno Hi Hg Hf.
  rewrite <- (flat_exact _ _ _ _ _ _ _ Hs Hno).
  unfold mfield_from_model in Hf. rewrite Hi in Hf. unfold referenced_lookup in Hf. rewrite Hg in Hf.
  cbn [ok_or bind] in Hf. destruct (flattened s) as [g|] eqn:Eg; inversion Hf; subst f; cbn [mf_endi mf_ty].
  - split.
    + intros H g0 [= <-].
      specialize (H [] (VScalar 0) (num_bytes (pe_endianness env) (get_byte_size (ff_ty g)) 0)).
      cbn [enc_ty] in H. rewrite <- H; [unfold len; rewrite num_bytes_length; reflexivity|].
      apply number_iff. split; [apply BitsFacts.tmod_pos|reflexivity].
    + intros H prev y b He. destruct y; try contradiction. cbn [enc_ty] in He. destruct He as (Hl & _).
      unfold len. rewrite Hl. apply H. reflexivity.
  - split; [discriminate|]. intros _ prev y b He. destruct y; try contradiction.
    cbn [enc_ty enc_ref] in He. destruct He as (Hl & _ & ->). exact Hl.
Qed.
