(** Proofs for C75: which descriptions the compiler accepts. *)

From Coq Require Import Arith NArith ZArith Ascii String List Bool Lia ZifyBool ZifyN ZifyNat.
From Verif Require Import Base Schema Compiler SpecStruct SpecComp SpecCase SpecItems SpecPanic SpecAccept.
From Verif Require Import BitsFacts StructFacts CompFacts CompThms CaseThms PanicThms.
Import ListNotations.
Local Open Scope N_scope.

(** * Structures *)

Lemma uadd_rel : forall E a b, exists x, uadd (E:=E) Release a b = Ok x.
Proof. intros. unfold uadd. destruct (_ <? _); eexists; reflexivity. Qed.
Lemma umul_rel : forall E a b, exists x, umul (E:=E) Release a b = Ok x /\ x mod 8 = (a * b) mod 8.
Proof.
  intros. unfold umul. change usize_mod with (2 ^ 64). destruct (N.ltb_spec (a * b) (2 ^ 64)); [eauto|].
  eexists. split; [reflexivity|]. change (2 ^ 64) with (8 * 2 ^ 61). rewrite N.mod_mul_r by discriminate.
  rewrite N.mul_comm with (n := 8). rewrite N.mod_add by discriminate. apply N.mod_mod. discriminate.
Qed.
Lemma uadd_dbg : forall E a b x, uadd (E:=E) Debug a b = Ok x <-> a + b < 2 ^ 64 /\ x = a + b.
Proof.
  intros E a b x. unfold uadd. change usize_mod with (2 ^ 64). destruct (N.ltb_spec (a + b) (2 ^ 64)).
  - split; [intro H1; inversion H1; auto|intros (_ & ->); reflexivity].
  - split; [discriminate|intros (? & _); lia].
Qed.
Lemma umul_dbg : forall E a b x, umul (E:=E) Debug a b = Ok x <-> a * b < 2 ^ 64 /\ x = a * b.
Proof.
  intros E a b x. unfold umul. change usize_mod with (2 ^ 64). destruct (N.ltb_spec (a * b) (2 ^ 64)).
  - split; [intro H1; inversion H1; auto|intros (_ & ->); reflexivity].
  - split; [discriminate|intros (? & _); lia].
Qed.
Lemma usub_rel : forall E a b, exists x, usub (E:=E) Release a b = Ok x.
Proof. intros. unfold usub. destruct (_ <=? _); eexists; reflexivity. Qed.
Lemma ushl1_rel : forall E a, exists x, ushl1 (E:=E) Release a = Ok x.
Proof. intros. unfold ushl1. destruct (_ <? _); eexists; reflexivity. Qed.

Lemma view_rel : forall enums f b, get_bit_size (sf_info f) = Some b ->
  (exists v, view_from_model Release enums (get_simple_type (sf_info f)) b (sf_view f) = Ok v) <-> view_fits enums f.
Proof.
  intros enums f b Hb. unfold view_fits, view_from_model.
  destruct (ushl1_rel cerror b) as (x & Hx). destruct (usub_rel cerror x 1) as (y & Hy).
  destruct (usub_rel cerror b 1) as (k & Hk). destruct (ushl1_rel cerror k) as (z & Hz).
  destruct (usub_rel cerror z 1) as (t & Ht).
  destruct (sf_info f) as [n|n|n|n|n]; cbn in Hb; inversion Hb; subst n;
    (destruct (sf_view f) as [[name|lo hi|mu]|]; cbn [get_simple_type simple_eqb negb andb]);
    try (split; [intros (? & H); discriminate|intro H; contradiction]);
    rewrite ?Hx; cbn [bind]; rewrite ?Hy; cbn [bind]; rewrite ?Hk; cbn [bind]; rewrite ?Hz; cbn [bind]; rewrite ?Ht; cbn [bind];
    try (solve [split; [auto|eauto]]).
  - split; [auto|intros _]. destruct (negb (b =? 8) && negb (b =? 16) && negb (b =? 32) && negb (b =? 64)); eauto.
  - destruct (sget name enums) as [e|]; cbn [ok_or bind]; split; eauto; intros (? & H); discriminate.
  - destruct (N.eqb_spec b 32), (N.eqb_spec b 64); cbn [negb andb]; split; eauto; intros H; destruct H; try discriminate; lia.
Qed.
Lemma view_dbg : forall enums f b, get_bit_size (sf_info f) = Some b ->
  (exists v, view_from_model Debug enums (get_simple_type (sf_info f)) b (sf_view f) = Ok v) <->
  view_fits enums f /\ ~ view_over f.
Proof.
  intros enums f b Hb. destruct (view_cases enums f b Hb) as [(H & Ho)|[((v & H) & Hf & Ho)|((e & H) & Hf & Ho)]]; rewrite H.
  - split; [intros (? & ?); discriminate|tauto].
  - split; [auto|eauto].
  - split; [intros (? & ?); discriminate|tauto].
Qed.

Lemma field_rel : forall endi enums structs off f,
  (exists g, field_from_model Release endi enums structs off f = Ok g) <-> field_accepted enums structs f.
Proof.
  intros endi enums structs off f. destruct (get_bit_size (sf_info f)) as [b|] eqn:Hb.
  2:{ unfold field_from_model, field_accepted. destruct (sf_info f) as [x|x|x|x|n] eqn:Ei; try discriminate.
      destruct (sget n structs) as [r|]; cbn [ok_or bind].
      - destruct (uadd_rel cerror off (s_bit_size r)) as (o & ->). cbn [bind]. split; eauto.
      - split; intros (? & H); discriminate. }
  assert (E : field_from_model Release endi enums structs off f =
    (view <- view_from_model Release enums (get_simple_type (sf_info f)) b (sf_view f) ;;
     bit_size <- umul Release b (items_of f) ;;
     ty <- fixed_from_model (sf_info f) ;;
     let loc := location_from_model bit_size off in
     if 1 <? items_of f then
        if negb (bit_size mod 8 =? 0) then Err EUnalignedArrayCodec
        else
          o <- uadd Release off bit_size ;;
          Ok (FArray {| fa_name := sf_name f; fa_ty := ty; fa_array_len := items_of f;
                        fa_loc := loc; fa_endianness := endi |}, o)
      else
        o <- uadd Release off bit_size ;;
        Ok (FFixed {| ff_name := sf_name f; ff_ty := ty; ff_loc := loc; ff_view := view;
                      ff_endianness := endi |}, o))).
  { unfold field_from_model, items_of. destruct (sf_info f); cbn in Hb |- *; inversion Hb; subst; reflexivity. }
  assert (F : field_accepted enums structs f <-> view_fits enums f /\ width_fits f /\ (1 < items_of f -> (b * items_of f) mod 8 = 0)).
  { unfold field_accepted. destruct (sf_info f) as [x|x|x|x|n] eqn:Ei; cbn in Hb; inversion Hb; subst x;
      (split; intros (H1 & H2 & H3); (split; [exact H1|]); (split; [exact H2|]); intro Hi;
       [destruct (H3 Hi) as (b' & Hb' & Hm); cbn in Hb'; assert (b' = b) by congruence; subst; exact Hm
       |exists b; split; [reflexivity|auto]]). }
  rewrite E, F, <- (view_rel enums f b Hb), <- (fixed_cases f b Hb).
  destruct (umul_rel cerror b (items_of f)) as (bs & Hbs & Hm). rewrite Hbs. destruct (uadd_rel cerror off bs) as (o & Ho).
  split.
  - intros (g & H). apply bind_ok in H. destruct H as (v & Hv & H). cbn [bind] in H. apply bind_ok in H. destruct H as (t & Ht & H).
    split; [eauto|]. split; [eauto|]. intro Hi. cbv zeta in H. destruct (N.ltb_spec 1 (items_of f)); [|lia].
    rewrite <- Hm. destruct (N.eqb_spec (bs mod 8) 0); [assumption|discriminate].
  - intros ((v & Hv) & (t & Ht) & Hi). rewrite Hv. cbn [bind]. rewrite Ht. cbn [bind]. cbv zeta. rewrite Ho. cbn [bind].
    destruct (N.ltb_spec 1 (items_of f)); [|eauto]. rewrite Hm, (Hi H). cbn. eauto.
Qed.

Lemma field_dbg : forall endi enums structs off f o,
  (exists g, field_from_model Debug endi enums structs off f = Ok (g, o)) <->
  field_accepted enums structs f /\ range_fits f /\ exists w, declared_bits structs f = Some w /\ off + w < 2 ^ 64 /\ o = off + w.
Proof.
  intros endi enums structs off f o. destruct (get_bit_size (sf_info f)) as [b|] eqn:Hb.
  2:{ unfold field_from_model, field_accepted, declared_bits, range_fits. destruct (sf_info f) as [x|x|x|x|n] eqn:Ei; try discriminate.
      destruct (sget n structs) as [r|]; cbn [ok_or bind].
      - split.
        + intros (g & H). apply bind_ok in H. destruct H as (o' & H & Eg). apply uadd_dbg in H. inversion Eg; subst.
          split; [eauto|]. split; [discriminate|]. exists (s_bit_size r). tauto.
        + intros (_ & _ & w & Hw & Hlt & ->). injection Hw as <-. rewrite (proj2 (uadd_dbg cerror off (s_bit_size r) _) (conj Hlt eq_refl)).
          cbn [bind]. eauto.
      - split; [intros (? & H); discriminate|intros ((? & H) & _); discriminate]. }
  assert (E : field_from_model Debug endi enums structs off f =
    (view <- view_from_model Debug enums (get_simple_type (sf_info f)) b (sf_view f) ;;
     bit_size <- umul Debug b (items_of f) ;;
     ty <- fixed_from_model (sf_info f) ;;
     let loc := location_from_model bit_size off in
     if 1 <? items_of f then
        if negb (bit_size mod 8 =? 0) then Err EUnalignedArrayCodec
        else
          o <- uadd Debug off bit_size ;;
          Ok (FArray {| fa_name := sf_name f; fa_ty := ty; fa_array_len := items_of f;
                        fa_loc := loc; fa_endianness := endi |}, o)
      else
        o <- uadd Debug off bit_size ;;
        Ok (FFixed {| ff_name := sf_name f; ff_ty := ty; ff_loc := loc; ff_view := view;
                      ff_endianness := endi |}, o))).
  { unfold field_from_model, items_of. destruct (sf_info f); cbn in Hb |- *; inversion Hb; subst; reflexivity. }
  assert (D : declared_bits structs f = Some (b * items_of f)).
  { unfold declared_bits, items_of. destruct (sf_info f); cbn in Hb; inversion Hb; subst; reflexivity. }
  assert (F : field_accepted enums structs f /\ range_fits f <->
     (view_fits enums f /\ ~ view_over f) /\ width_fits f /\ (1 < items_of f -> (b * items_of f) mod 8 = 0)).
  { unfold field_accepted, range_fits, view_over, width_fits.
    destruct (sf_info f) as [x|x|x|x|n] eqn:Ei; cbn in Hb; inversion Hb; subst x;
      (split; [intros ((H1 & H2 & H3) & Hr)|intros ((H1 & Ho) & H2 & H3)]).
    all: try (split; [split; [exact H1|]|split; [exact H2|intro Hi; destruct (H3 Hi) as (b' & Hb' & Hm); cbn in Hb'; assert (b' = b) by congruence; subst; exact Hm]]).
    all: try (split; [split; [exact H1|split; [exact H2|intro Hi; exists b; split; [reflexivity|auto]]]|]).
    all: try discriminate.
    - intros [(b' & Eb & _ & Hb')|(? & ? & ? & ? & _)]; [|discriminate]. injection Eb as <-.
      destruct H2 as (y & Ey & Hy). cbn in Ey. injection Ey as <-. lia.
    - intros [(b' & Eb & _ & Hb')|(? & ? & ? & ? & _)]; discriminate.
    - intros [(b' & Eb & _ & Hb')|(b' & lo & hi & Eb & Ev & Hb')]; [discriminate|]. injection Eb as <-.
      specialize (Hr b lo hi eq_refl Ev). lia.
    - intros b' lo hi Eb Ev. injection Eb as <-. destruct (N.lt_ge_cases b 64); [assumption|]. exfalso. apply Ho. right. eauto 10.
    - intros [(b' & Eb & _ & Hb')|(? & ? & ? & ? & _)]; discriminate. }
  rewrite E, <- and_assoc, F, <- (view_dbg enums f b Hb), <- (fixed_cases f b Hb). split.
  - intros (g & H). apply bind_ok in H. destruct H as (v & Hv & H). apply bind_ok in H. destruct H as (bs & Hbs & H).
    apply umul_dbg in Hbs. destruct Hbs as (Hlt & ->). apply bind_ok in H. destruct H as (t & Ht & H). cbv zeta in H.
    assert (G : (1 < items_of f -> (b * items_of f) mod 8 = 0) /\ uadd (E:=cerror) Debug off (b * items_of f) = Ok o).
    { destruct (N.ltb_spec 1 (items_of f)).
      - destruct (N.eqb_spec ((b * items_of f) mod 8) 0); [|discriminate]. cbn [negb] in H.
        apply bind_ok in H. destruct H as (o' & Ho & Eg). inversion Eg; subst. auto.
      - apply bind_ok in H. destruct H as (o' & Ho & Eg). inversion Eg; subst. split; [lia|exact Ho]. }
    destruct G as (G & Ho). apply uadd_dbg in Ho. split; [split; [eauto|]; split; [eauto|exact G]|].
    exists (b * items_of f). tauto.
  - intros (((v & Hv) & (t & Ht) & Hi) & w & Hw & Hlt & ->). assert (w = b * items_of f) by congruence. subst w.
    assert (Hm : b * items_of f < 2 ^ 64) by lia.
    rewrite Hv. cbn [bind]. rewrite (proj2 (umul_dbg cerror b (items_of f) _) (conj Hm eq_refl)).
    cbn [bind]. rewrite Ht. cbn [bind]. cbv zeta. rewrite (proj2 (uadd_dbg cerror off (b * items_of f) _) (conj Hlt eq_refl)). cbn [bind].
    destruct (N.ltb_spec 1 (items_of f)); [|eauto]. rewrite (Hi H). cbn. eauto.
Qed.

Theorem structure_accepted : forall m endi enums structs id d,
  (exists s, structure_from_model m endi enums structs id d = Ok s) <-> struct_accepted m enums structs d.
Proof.
  intros m endi enums structs id d. unfold structure_from_model, struct_accepted. generalize (ss_fields d). intro l.
  assert (Ex : (exists s, ('(fields, last_bit_offset) <- fields_from_model m endi enums structs 0 l ;;
     Ok (MkStructure id (ss_name d) fields (bytes_of_bits last_bit_offset) last_bit_offset)) = Ok (E:=cerror) s) <->
     exists r, fields_from_model m endi enums structs 0 l = Ok r).
  { split; [intros (s & H); apply bind_ok in H; destruct H as (r & H & _); eauto|].
    intros ((fs & o) & H). rewrite H. cbn [bind]. eauto. }
  rewrite Ex. clear Ex. destruct m.
  - assert (G : forall l off, off < 2 ^ 64 -> (exists r, fields_from_model Debug endi enums structs off l = Ok r) <->
       Forall (field_accepted enums structs) l /\ Forall range_fits l /\ exists t, declared_total structs l = Some t /\ off + t < 2 ^ 64).
    { clear l. induction l as [|f l IH]; intros off Hoff; cbn [fields_from_model declared_total].
      - split; [intros _|eauto]. split; [constructor|]. split; [constructor|]. exists 0. split; [reflexivity|lia].
      - split.
        + intros (r & H). apply bind_ok in H. destruct H as ((g & o) & Hg & H). apply bind_ok in H. destruct H as (r' & Hr & _).
          destruct (proj1 (field_dbg endi enums structs off f o) (ex_intro _ g Hg)) as (Ha & Hf & w & Hw & Hlt & ->).
          destruct (proj1 (IH (off + w) Hlt) (ex_intro _ r' Hr)) as (Ha' & Hf' & t & Ht & Hlt').
          split; [constructor; assumption|]. split; [constructor; assumption|]. exists (w + t). rewrite Hw, Ht. split; [reflexivity|lia].
        + intros (Ha & Hf & t & Ht & Hlt). inversion Ha; subst. inversion Hf; subst.
          destruct (declared_bits structs f) as [w|] eqn:Hw; [|discriminate]. destruct (declared_total structs l) as [t'|] eqn:Ht'; [|discriminate].
          injection Ht as <-.
          destruct (proj2 (field_dbg endi enums structs off f (off + w))) as (g & Hg).
          { split; [assumption|]. split; [assumption|]. exists w. split; [exact Hw|]. split; [lia|reflexivity]. }
          rewrite Hg. cbn [bind]. destruct (proj2 (IH (off + w) ltac:(lia))) as ((fs & o) & Hr).
          { split; [assumption|]. split; [assumption|]. exists t'. split; [reflexivity|lia]. }
          rewrite Hr. cbn [bind]. eauto. }
    rewrite (G l 0 eq_refl). split.
    + intros (Ha & Hf & t & Ht & Hlt). split; [exact Ha|]. intros _. split; [exact Hf|]. exists t. split; [exact Ht|exact Hlt].
    + intros (Ha & H). destruct (H eq_refl) as (Hf & t & Ht & Hlt). eauto 10.
  - split; [|intros (H & _)].
    + intros H. split; [|discriminate]. revert H. generalize 0. induction l as [|f l IH]; intros off (r & H); [constructor|].
      cbn in H. apply bind_ok in H. destruct H as ((g & o) & Hg & H). apply bind_ok in H. destruct H as (r' & Hr & _).
      constructor; [apply (field_rel endi enums structs off); eauto|eapply IH; eauto].
    + generalize 0. induction H as [|f l Hf HF IH]; intro off; cbn [fields_from_model]; [eauto|].
      destruct (proj2 (field_rel endi enums structs off f) Hf) as ((g & o) & Hg). rewrite Hg. cbn [bind].
      destruct (IH o) as ((fs & o') & Hr). rewrite Hr. cbn [bind]. eauto.
Qed.

(** * Enums and unions *)

Theorem enum_accepted : forall d, (exists e, enum_from_model d = Ok e) <-> se_variants d <> [].
Proof.
  intro d. unfold enum_from_model. split.
  - intros (e & H) E. rewrite E in H. discriminate.
  - intro H. cbv zeta. destruct (rev (sort_variants (se_variants d))) as [|(n & v) r] eqn:E.
    + exfalso. apply H. apply length_zero_iff_nil.
      assert (L : forall l, length (sort_variants l) = length l).
      { intro l. unfold sort_variants. induction l as [|x l IH]; [reflexivity|]. cbn [fold_right length]. rewrite <- IH. clear.
        generalize (fold_right insert_variant [] l). intro l'. induction l' as [|y l' IH]; [reflexivity|]. cbn.
        destruct (_ <=? _); cbn; [reflexivity|]. rewrite IH. reflexivity. }
      rewrite <- L, <- rev_length, E. reflexivity.
    + cbn [ok_or bind]. eauto.
Qed.

Lemma walk_taken : forall rn parts s idx leaf idx', disc_walk rn s idx parts = Ok (leaf, idx') ->
  (parts = [] /\ idx' = idx) \/
  (exists k, leads s parts k leaf /\ last (map Some idx') None = Some k) \/
  (exists used ignored path f k, parts = (used ++ ignored)%list /\ names_scalar s used path f /\
     last (map Some idx') None = Some k /\ nth_error (s_fields leaf) k = Some (FFixed f)).
Proof.
  intros rn. induction parts as [|n parts IH]; intros s idx leaf idx' H; cbn [disc_walk] in H; [inversion H; auto|].
  apply bind_ok in H. destruct H as ((k & f) & Hf & H). apply ok_or_ok in Hf. apply PanicThms.find_field_at in Hf.
  destruct f as [f|a|name r loc]; [|discriminate|].
  - inversion H; subst. right. right. exists [n], parts, [k], f, k. split; [reflexivity|]. split; [constructor; exact Hf|].
    split; [apply last_app_some|exact (proj1 Hf)].
  - right. destruct (IH _ _ _ _ H) as [(-> & ->)|[(j & Hl & Hi)|(used & ign & path & g & j & -> & Hn & Hi & Hg)]].
    + left. cbn in H. inversion H; subst. exists k. split; [econstructor; exact Hf|apply last_app_some].
    + left. exists j. split; [econstructor; eassumption|exact Hi].
    + right. exists (n :: used), ign, (k :: path), g, j. split; [reflexivity|]. split; [econstructor; eassumption|auto].
Qed.
Lemma scalar_walk : forall s used path f, names_scalar s used path f -> forall rn idx ign, exists leaf idx' k,
  disc_walk rn s idx (used ++ ign) = Ok (leaf, idx') /\ last (map Some idx') None = Some k /\
  nth_error (s_fields leaf) k = Some (FFixed f).
Proof.
  intros s used path f H. induction H as [s n k f Hf|s n k name r loc rest path f Hf H IH]; intros rn idx ign;
    cbn [app disc_walk]; apply PanicThms.find_field_at in Hf; rewrite Hf; cbn [ok_or bind].
  - apply PanicThms.find_field_at in Hf. exists s. eexists. exists k. split; [reflexivity|]. split; [apply last_app_some|exact (proj1 Hf)].
  - apply IH.
Qed.

Lemma get_leaf_ok : forall d f, get_leaf (E:=cerror) d = Ok f <-> nth_error (s_fields (d_leaf d)) (d_leaf_index d) = Some (FFixed f).
Proof.
  intros d f. unfold get_leaf. destruct (nth_error _ _) as [[g|a|n r loc]|]; cbn [unwrap bind as_fixed]; split; intro H;
    try discriminate; congruence.
Qed.
Lemma ucases_ok : forall structs messages d l, (exists cs, ucases_from_model structs messages d l = Ok cs) <->
  l = [] \/ exists f, get_leaf (E:=cerror) d = Ok f /\ Forall (case_accepted structs messages f) l.
Proof.
  intros structs messages d l.
  assert (C : forall f c, (exists x, ucase_from_model structs messages f c = Ok x) <-> case_accepted structs messages f c).
  { intros f c. split.
    - intros (x & H). apply case_spec in H. destruct H as [_ Hc Hi]. split; eauto.
    - intros ((n & Hn) & (r & Hr)). exists (MkUCase (su_name c) n r). apply case_spec. constructor; cbn; auto. }
  split.
  - intros (cs & H). destruct l as [|c l]; [auto|]. right. cbn in H. apply bind_ok in H. destruct H as (f & Hf & H).
    exists f. split; [exact Hf|]. revert cs H. generalize dependent c. induction l as [|c' l IH]; intros c cs H;
      apply bind_ok in H; destruct H as (x & Hx & H); apply bind_ok in H; destruct H as (cs' & H' & _);
      (constructor; [apply C; eauto|]); [constructor|]. cbn in H'. rewrite Hf in H'. cbn [bind] in H'. eapply IH. exact H'.
  - intros [->|(f & Hf & HF)]; [eexists; reflexivity|]. induction HF as [|c l Hc HF IH]; [eexists; reflexivity|]. cbn.
    rewrite Hf. cbn [bind]. apply C in Hc. destruct Hc as (x & ->). cbn [bind]. destruct IH as (cs & ->). cbn [bind]. eauto.
Qed.

Theorem union_accept : forall structs messages u,
  (exists x, union_from_model structs messages u = Ok x) <-> union_accepted structs messages u.
Proof.
  intros structs messages u. unfold union_accepted. split.
  - intros (x & H). unfold union_from_model in H. apply bind_ok in H. destruct H as (d & Hd & H).
    apply bind_ok in H. destruct H as (cs & Hcs & _). unfold disc_from_model in Hd.
    destruct (split_dot (sun_discriminant u)) as (n & parts) eqn:Es. destruct (split_dot_spec _ _ _ Es) as (Hj & Hn).
    apply bind_ok in Hd. destruct Hd as (root & Hr & Hd). apply ok_or_ok in Hr.
    apply bind_ok in Hd. destruct Hd as ((leaf & idx) & Hw & Hd). apply bind_ok in Hd. destruct Hd as (li & Hl & Hd).
    inversion Hd; subst d. clear Hd. exists n, parts, root. split; [exact Hj|]. split; [exact Hn|]. split; [exact Hr|].
    assert (Hcs' := proj1 (ucases_ok structs messages _ _) (ex_intro _ cs Hcs)).
    destruct (walk_taken _ _ _ _ _ _ Hw) as [(-> & ->)|[(k & Hk & Hi)|(used & ign & path & f & k & -> & Hf & Hi & Hg)]].
    + discriminate.
    + rewrite Hi in Hl. injection Hl as <-. destruct Hcs' as [Hc|(f & Hf & HF)]; [right; eauto|].
      left. exists f. split; [|exact HF]. right. apply get_leaf_ok in Hf. cbn in Hf. eauto.
    + rewrite Hi in Hl. injection Hl as <-. left. exists f. split; [left; eauto 10|].
      destruct Hcs' as [->|(f' & Hf' & HF)]; [constructor|]. apply get_leaf_ok in Hf'. cbn in Hf'. rewrite Hg in Hf'. congruence.
  - intros (n & parts & root & Hj & Hn & Hr & H). unfold union_from_model, disc_from_model.
    rewrite (split_dot_unique _ _ _ Hj Hn), Hr. cbn [ok_or bind].
    assert (G : exists leaf idx k, disc_walk n root [] parts = Ok (leaf, idx) /\ last (map Some idx) None = Some k /\
      (sun_cases u = [] \/ exists f, nth_error (s_fields leaf) k = Some (FFixed f) /\ Forall (case_accepted structs messages f) (sun_cases u))).
    { destruct H as [(f & [(used & ign & path & -> & Hf)|(k & r & Hl & Hf)] & HF)|(Hc & k & r & Hl)].
      - destruct (scalar_walk _ _ _ _ Hf n [] ign) as (leaf & idx & k & Hw & Hi & Hg). exists leaf, idx, k. eauto 10.
      - destruct (leads_walk _ _ _ _ Hl n []) as (idx & Hw & Hi). exists r, idx, k. eauto 10.
      - destruct (leads_walk _ _ _ _ Hl n []) as (idx & Hw & Hi). exists r, idx, k. auto. }
    destruct G as (leaf & idx & k & Hw & Hi & HC). rewrite Hw. cbn [bind]. rewrite Hi. cbn [unwrap bind].
    match goal with |- exists x, bind (ucases_from_model _ _ ?d _) _ = _ => set (D := d) end.
    destruct (proj2 (ucases_ok structs messages D (sun_cases u))) as (cs & ->).
    { destruct HC as [Hc|(f & Hf & HF)]; [auto|right; exists f; split; [apply get_leaf_ok; exact Hf|exact HF]]. }
    cbn [bind]. eauto.
Qed.

(** * Messages *)

Lemma firstn_nth_lt : forall {A} n (l : list A) i, (i < n)%nat -> nth_error (firstn n l) i = nth_error l i.
Proof.
  intros A. induction n as [|n IH]; intros l i Hi; [lia|]. destruct l as [|x l]; [reflexivity|].
  destruct i as [|i]; [reflexivity|]. cbn. apply IH. lia.
Qed.

Lemma flattened_bare : forall s, (exists f, flattened s = Some f) <-> bare s.
Proof.
  intro s. unfold flattened, bare. split.
  - intros (f & H). destruct (s_fields s) as [|[g|a|n r loc] [|? ?]]; try discriminate.
    destruct (is_transmute (ff_view g) && (l_bit_size (ff_loc g) mod 8 =? 0)) eqn:E; [|discriminate].
    apply andb_true_iff in E. destruct E as (E1 & E2). apply N.eqb_eq in E2. exists g. split; [reflexivity|]. split; [|exact E2].
    destruct (ff_view g); try discriminate; auto.
  - intros (f & -> & Hv & Hm). rewrite Hm. destruct Hv as [-> | ->]; cbn; eauto.
Qed.
Lemma flattened_not : forall s, flattened s = None <-> ~ bare s.
Proof.
  intro s. rewrite <- flattened_bare. destruct (flattened s) as [f|]; split; try discriminate; try congruence.
  - intro H. exfalso. apply H. eauto.
  - intros _ (f & H). discriminate.
Qed.
Lemma max_value_ok : forall n, exists t, fixed_from_max_value n = Ok t.
Proof.
  intro n. unfold fixed_from_max_value. destruct (2 ^ 32 - 1 <? n), (2 ^ 16 - 1 <? n), (2 ^ 8 - 1 <? n); eexists; reflexivity.
Qed.

Definition built (env : proto_env) (v : smfield) (f : mfield) : Prop :=
  mf_name f = smf_name v /\ member_size env v = Some (mf_size f) /\
  forall s, mf_ty f = TRef (RStruct s) <-> exists t, smf_info v = MTItem t /\ sget t (pe_structs env) = Some s /\ ~ bare s.

Lemma find_mfield_iff : forall n l i k f, find_mfield n i l = Some (k, f) <->
  (i <= k)%nat /\ nth_error l (k - i) = Some f /\ mf_name f = n /\
  forall j g, (i <= j < k)%nat -> nth_error l (j - i) = Some g -> mf_name g <> n.
Proof.
  intros n. induction l as [|x l IH]; intros i k f; cbn [find_mfield].
  - split; [discriminate|]. intros (_ & H & _). destruct (k - i)%nat; discriminate.
  - destruct (String.eqb_spec (mf_name x) n) as [E|E].
    + split.
      * intro H. inversion H; subst. split; [lia|]. rewrite Nat.sub_diag. split; [reflexivity|]. split; [reflexivity|]. intros j g Hj. lia.
      * intros (Hk & Hn & Hf & Hb). destruct (Nat.eq_dec k i) as [->|Hne].
        -- rewrite Nat.sub_diag in Hn. cbn in Hn. congruence.
        -- exfalso. apply (Hb i x); [lia|rewrite Nat.sub_diag; reflexivity|exact E].
    + rewrite IH. split; intros (Hk & Hn & Hf & Hb).
      * split; [lia|]. replace (k - i)%nat with (S (k - S i)) by lia. split; [exact Hn|]. split; [exact Hf|].
        intros j g Hj Hg. destruct (Nat.eq_dec j i) as [->|Hne].
        -- rewrite Nat.sub_diag in Hg. cbn in Hg. congruence.
        -- apply (Hb j g); [lia|]. replace (j - i)%nat with (S (j - S i)) in Hg by lia. exact Hg.
      * assert (Hne : k <> i).
        { intros ->. rewrite Nat.sub_diag in Hn. cbn in Hn. congruence. }
        replace (k - i)%nat with (S (k - S i)) in Hn by lia.
        split; [lia|]. split; [exact Hn|]. split; [exact Hf|]. intros j g Hj Hg. apply (Hb j g); [lia|].
        replace (j - i)%nat with (S (j - S i)) by lia. exact Hg.
Qed.

Lemma mfield_built : forall env fs v f mk, mfield_from_model env fs v = Ok (f, mk) -> built env v f.
Proof.
  intros env fs v f mk H. unfold mfield_from_model, built, member_size, referenced_lookup in *.
  destruct (smf_info v) as [n|len n|o| |on n].
  - destruct (sget n (pe_structs env)) as [s|] eqn:Es; cbn [ok_or bind] in H.
    + destruct (flattened s) as [g|] eqn:Ef; inversion H; subst; cbn; (split; [reflexivity|]); (split; [reflexivity|]); intro s'; split.
      * discriminate.
      * intros (t & Et & Hs & Hb). injection Et as <-. exfalso. apply Hb. apply flattened_bare. assert (s' = s) by congruence. subst. eauto.
      * intro E. injection E as <-. exists n. apply flattened_not in Ef. auto.
      * intros (t & Et & Hs & Hb). injection Et as <-. congruence.
    + destruct (sget n (pe_messages env)) as [x|] eqn:Ex; cbn [ok_or bind] in H; [|discriminate].
      inversion H; subst; cbn; (split; [reflexivity|]); (split; [reflexivity|]). intro s'. split; [discriminate|].
      intros (t & Et & Hs & _). injection Et as <-. congruence.
  - destruct (max_value_ok len) as (ty & Hty). rewrite Hty in H.
    destruct (sget n (pe_structs env)) as [s|] eqn:Es; cbn [ok_or bind] in H.
    + inversion H; subst; cbn; (split; [reflexivity|]); (split; [reflexivity|]); intro s'. split; [discriminate|intros (t & Et & _); discriminate].
    + destruct (sget n (pe_messages env)) as [x|] eqn:Ex; cbn [ok_or bind] in H; [|discriminate].
      inversion H; subst; cbn; (split; [reflexivity|]); (split; [reflexivity|]); intro s'. split; [discriminate|intros (t & Et & _); discriminate].
  - destruct o as [len|]; [destruct (max_value_ok len) as (ty & Hty); rewrite Hty in H; cbn [bind] in H|];
      (inversion H; subst; cbn; (split; [reflexivity|]); (split; [reflexivity|]); intro s'; split; [discriminate|intros (t & Et & _); discriminate]).
  - inversion H; subst; cbn; (split; [reflexivity|]); (split; [reflexivity|]); intro s'. split; [discriminate|intros (t & Et & _); discriminate].
  - apply bind_ok in H. destruct H as ((k & g) & Hg & H). apply bind_ok in H. destruct H as (u & Hu & H). apply ok_or_ok in Hu.
    rewrite Hu. destruct (mf_ty g) as [|[s|]| | | | | |]; try discriminate. destruct (_ =? _); [|discriminate].
    inversion H; subst; cbn; (split; [reflexivity|]); (split; [reflexivity|]); intro s'. split; [discriminate|intros (t & Et & _); discriminate].
Qed.

Lemma F2_nth_l : forall {A B} (R : A -> B -> Prop) l l' k x, Forall2 R l l' -> nth_error l k = Some x ->
  exists y, nth_error l' k = Some y /\ R x y.
Proof.
  intros A B R l l' k x H. revert k. induction H as [|a b l l' Hab H IH]; intros [|k] Hk; cbn in *; try discriminate.
  - injection Hk as <-. eauto.
  - exact (IH _ Hk).
Qed.
Lemma F2_nth_r : forall {A B} (R : A -> B -> Prop) l l' k y, Forall2 R l l' -> nth_error l' k = Some y ->
  exists x, nth_error l k = Some x /\ R x y.
Proof.
  intros A B R l l' k y H. revert k. induction H as [|a b l l' Hab H IH]; intros [|k] Hk; cbn in *; try discriminate.
  - injection Hk as <-. eauto.
  - exact (IH _ Hk).
Qed.

Lemma mfield_accept : forall env pre fs v, Forall2 (built env) pre fs ->
  (exists r, mfield_from_model env fs v = Ok r) <-> (exists z, member_size env v = Some z) /\ told_apart env pre v.
Proof.
  intros env pre fs v HF. split.
  - intros ((f & mk) & H). split; [destruct (mfield_built _ _ _ _ _ H) as (_ & Hz & _); eauto|].
    intros on n E. unfold mfield_from_model in H. rewrite E in H.
    apply bind_ok in H. destruct H as ((k & g) & Hg & H). apply ok_or_ok in Hg. apply find_mfield_iff in Hg.
    destruct Hg as (_ & Hk & Hn & Hb). rewrite Nat.sub_0_r in Hk.
    apply bind_ok in H. destruct H as (u & Hu & H). apply ok_or_ok in Hu.
    destruct (F2_nth_r _ _ _ _ _ HF Hk) as (w & Hw & Hnw & _ & Ht).
    destruct (mf_ty g) as [|[s|]| | | | | |] eqn:Ety; try discriminate. destruct (N.eqb_spec (s_id (d_root (u_disc u))) (s_id s)) as [Ei|]; [|discriminate].
    destruct (proj1 (Ht s) eq_refl) as (t & Et & Hs & Hbare). exists u, k, w, t, s. split; [exact Hu|]. split; [exact Hw|].
    split; [congruence|]. split; [|auto]. intros i x Hi Hx. destruct (F2_nth_l _ _ _ _ _ HF Hx) as (y & Hy & Hny & _).
    rewrite <- Hny. apply (Hb i y); [lia|]. rewrite Nat.sub_0_r. exact Hy.
  - intros ((z & Hz) & Ht). unfold mfield_from_model, member_size, referenced_lookup in *. destruct (smf_info v) as [n|len n|o| |on n] eqn:Ei.
    + destruct (sget n (pe_structs env)) as [s|]; cbn [ok_or bind]; [destruct (flattened s); eauto|].
      destruct (sget n (pe_messages env)); [|discriminate]. cbn [ok_or bind]. eauto.
    + destruct (max_value_ok len) as (ty & ->). destruct (sget n (pe_structs env)) as [s|]; cbn [ok_or bind]; [eauto|].
      destruct (sget n (pe_messages env)); [|discriminate]. cbn [ok_or bind]. eauto.
    + destruct o as [len|]; [destruct (max_value_ok len) as (ty & ->)|]; cbn [bind]; eauto.
    + eauto.
    + destruct (Ht on n Ei) as (u & j & w & t & s & Hu & Hj & Hn & Hb & Et & Hs & Hbare & Hid).
      destruct (F2_nth_l _ _ _ _ _ HF Hj) as (g & Hg & Hng & _ & Hty).
      assert (Hfind : find_mfield on 0 fs = Some (j, g)).
      { apply find_mfield_iff. rewrite Nat.sub_0_r. split; [lia|]. split; [exact Hg|]. split; [congruence|].
        intros i y Hi Hy. rewrite Nat.sub_0_r in Hy. destruct (F2_nth_r _ _ _ _ _ HF Hy) as (x & Hx & Hnx & _).
        rewrite Hnx. apply (Hb i x); [lia|exact Hx]. }
      rewrite Hfind, Hu. cbn [ok_or bind]. rewrite (proj2 (Hty s)) by eauto. rewrite <- Hid, N.eqb_refl. eauto.
Qed.

Definition open_in (env : proto_env) (l : list smfield) : Prop :=
  exists v z, In v l /\ member_size env v = Some z /\ is_element_dyn_sized z = true.
Definition next_ok (env : proto_env) (before : list smfield) (v : smfield) : Prop :=
  (exists z, member_size env v = Some z) /\ told_apart env before v /\
  (open_in env before -> forall y, member_size env v = Some y -> is_dyn_sized y = false /\ is_element_dyn_sized y = false).

Lemma mfields_accept : forall env l pre fs dc dyn marks, Forall2 (built env) pre fs -> dc <= 1 -> (0 < dc <-> open_in env pre) ->
  (exists r, mfields_from_model env fs dc dyn marks l = Ok r) <->
  forall j v, nth_error l j = Some v -> next_ok env (pre ++ firstn j l) v.
Proof.
  intros env. induction l as [|v l IH]; intros pre fs dc dyn marks HF Hdc Hop; cbn [mfields_from_model].
  - split; [intros _ j v H; destruct j; discriminate|eauto].
  - assert (HH : forall f mk, mfield_from_model env fs v = Ok (f, mk) ->
      (open_in env pre -> is_dyn_sized (mf_size f) = false /\ is_element_dyn_sized (mf_size f) = false) ->
      let dc' := if is_element_dyn_sized (mf_size f) then dc + 1 else dc in
      Forall2 (built env) (pre ++ [v]) (fs ++ [f]) /\ dc' <= 1 /\ (0 < dc' <-> open_in env (pre ++ [v]))).
    { intros f mk Hf Ho dc'. assert (Hb := mfield_built _ _ _ _ _ Hf). split; [apply Forall2_app; [exact HF|constructor; [exact Hb|constructor]]|].
      destruct Hb as (_ & Hz & _).
      assert (Hdc' : dc' <= 1 /\ (is_element_dyn_sized (mf_size f) = true -> dc = 0)).
      { subst dc'. destruct (is_element_dyn_sized (mf_size f)) eqn:Ee; [|split; [exact Hdc|discriminate]].
        assert (dc = 0); [|split; [lia|auto]]. destruct (N.eq_dec dc 0); [assumption|]. exfalso.
        destruct Ho as (_ & Hc); [apply Hop; lia|congruence]. }
      split; [tauto|]. subst dc'. split.
      - intro Hlt. destruct (is_element_dyn_sized (mf_size f)) eqn:Ee.
        + exists v, (mf_size f). rewrite in_app_iff. cbn. auto.
        + apply Hop in Hlt. destruct Hlt as (v' & z' & Hi & Hz' & He). exists v', z'. rewrite in_app_iff. auto.
      - intros (v' & z' & Hi & Hz' & He). apply in_app_iff in Hi. destruct Hi as [Hi|[<-|[]]].
        + assert (0 < dc) by (apply Hop; unfold open_in; eauto). destruct (is_element_dyn_sized (mf_size f)); lia.
        + assert (z' = mf_size f) by congruence. subst. rewrite He. lia. }
    split.
    + intros (r & H). apply bind_ok in H. destruct H as ((f & mk) & Hf & H). cbv zeta in H.
      assert (Hs := proj1 (mfield_accept env pre fs v HF) (ex_intro _ _ Hf)).
      assert (Ho : open_in env pre -> is_dyn_sized (mf_size f) = false /\ is_element_dyn_sized (mf_size f) = false).
      { intro Ho. apply Hop in Ho. apply N.ltb_lt in Ho. rewrite Ho in H. cbn [andb] in H.
        destruct (is_dyn_sized (mf_size f)), (is_element_dyn_sized (mf_size f)); try discriminate. auto. }
      destruct (HH f mk Hf Ho) as (HF' & Hdc' & Hop').
      destruct ((0 <? dc) && _); [discriminate|]. destruct (1 <? _); [discriminate|].
      intros [|j] w Hw; cbn in Hw.
      * injection Hw as <-. cbn [firstn]. rewrite app_nil_r. split; [tauto|]. split; [tauto|].
        intros Hop2 y Hy. destruct (mfield_built _ _ _ _ _ Hf) as (_ & Hz & _). assert (y = mf_size f) by congruence. subst. auto.
      * cbn [firstn]. assert (G := proj1 (IH _ _ _ _ _ HF' Hdc' Hop') (ex_intro _ r H) j w Hw). rewrite <- app_assoc in G. exact G.
    + intro H. assert (H0 := H 0%nat v eq_refl). cbn [firstn] in H0. rewrite app_nil_r in H0. destruct H0 as (Hz & Ht & Ho).
      destruct (proj2 (mfield_accept env pre fs v HF) (conj Hz Ht)) as ((f & mk) & Hf). rewrite Hf. cbn [bind]. cbv zeta.
      destruct (mfield_built _ _ _ _ _ Hf) as (_ & Hsz & _).
      assert (Ho' : open_in env pre -> is_dyn_sized (mf_size f) = false /\ is_element_dyn_sized (mf_size f) = false) by (intro; auto).
      destruct (HH f mk Hf Ho') as (HF' & Hdc' & Hop').
      assert (E1 : (0 <? dc) && (is_dyn_sized (mf_size f) || is_element_dyn_sized (mf_size f)) = false).
      { destruct (N.ltb_spec 0 dc) as [Hlt|]; [|reflexivity]. apply Hop in Hlt. destruct (Ho' Hlt) as (-> & ->). reflexivity. }
      rewrite E1. destruct (N.ltb_spec 1 (if is_element_dyn_sized (mf_size f) then dc + 1 else dc)); [lia|].
      apply (IH _ _ _ _ _ HF' Hdc' Hop'). intros j w Hw. rewrite <- app_assoc. exact (H (S j) w Hw).
Qed.

Theorem message_accept : forall env id d,
  (exists x marks, message_from_model env id d = Ok (x, marks)) <-> message_accepted env d.
Proof.
  intros env id d. unfold message_from_model.
  assert (Ex : (exists x marks, ('(fields, dyn_count, dyn, marks) <- mfields_from_model env [] 0 false [] (sm_fields d) ;;
     Ok (MkMessage id (sm_name d) fields {| is_dyn_sized := dyn; is_element_dyn_sized := 0 <? dyn_count |}, marks)) =
       Ok (E:=cerror) (x, marks)) <-> exists r, mfields_from_model env [] 0 false [] (sm_fields d) = Ok r).
  { split.
    - intros (x & mk & H). apply bind_ok in H. destruct H as (r & H & _). eauto.
    - intros ((((fs & dc) & dyn) & mk) & H). rewrite H. cbn [bind]. eauto. }
  rewrite Ex. clear Ex. rewrite (mfields_accept env (sm_fields d) [] [] 0 false []); [|constructor|lia|].
  2:{ split; [lia|]. intros (v & z & [] & _). }
  unfold message_accepted. cbn [app]. split.
  - intro H. split.
    + intros j v Hj. destruct (H j v Hj) as (Hz & Ht & _). auto.
    + intros i j v w z y Hij Hi Hj Hz He Hy. destruct (H j w Hj) as (_ & _ & Ho). apply Ho; [|exact Hy].
      exists v, z. split; [|auto]. apply nth_error_In with i. rewrite firstn_nth_lt; assumption.
  - intros (H1 & H2) j v Hj. destruct (H1 j v Hj) as (Hz & Ht). split; [exact Hz|]. split; [exact Ht|].
    intros (w & z & Hin & Hz' & He) y Hy. apply In_nth_error in Hin. destruct Hin as (i & Hi).
    assert (Hlt : (i < j)%nat).
    { assert (i < length (firstn j (sm_fields d)))%nat by (apply nth_error_Some; congruence). rewrite firstn_length in *. lia. }
    assert (Hi' : nth_error (sm_fields d) i = Some w).
    { rewrite <- Hi. symmetry. apply firstn_nth_lt. exact Hlt. }
    eapply H2; eassumption.
Qed.

(** * Protocols *)

Lemma import_accept : forall solver p v, (exists q, import_one solver p v = Ok q) <-> import_accepted solver v.
Proof.
  intros solver p v. unfold import_one, import_accepted. cbv zeta.
  destruct (r_protocol solver (si_protocol v)) as [r|]; cbn [ok_or bind].
  2:{ split; [intros (? & H); discriminate|intros (? & ? & H & _); discriminate]. }
  destruct (r_path solver (si_protocol v) (si_type v)) as [path|]; cbn [ok_or bind].
  2:{ split; [|intros (? & ? & _ & H & _); discriminate]. intros (q & H).
      destruct (sget _ (p_structs_by_name r)); [discriminate|]. destruct (sget _ (p_enums_by_name r)); [discriminate|].
      destruct (sget _ (p_unions_by_name r)); [discriminate|]. destruct (sget _ (p_messages_by_name r)); discriminate. }
  split.
  - intros (q & H). exists r, path. split; [reflexivity|]. split; [reflexivity|].
    destruct (sget _ (p_structs_by_name r)) as [s|]; [eauto|]. destruct (sget _ (p_enums_by_name r)) as [e|]; [eauto|].
    destruct (sget _ (p_unions_by_name r)) as [u|]; [eauto|]. destruct (sget _ (p_messages_by_name r)) as [x|]; [|discriminate]. eauto 6.
  - intros (r' & path' & Hr & _ & H). injection Hr as <-.
    destruct (sget _ (p_structs_by_name r)) as [s|]; [eauto|]. destruct (sget _ (p_enums_by_name r)) as [e|]; [eauto|].
    destruct (sget _ (p_unions_by_name r)) as [u|]; [eauto|]. destruct (sget _ (p_messages_by_name r)) as [x|]; [cbn; eauto|].
    destruct H as [(? & H)|[(? & H)|[(? & H)|(? & H)]]]; discriminate.
Qed.

Lemma foldM_exists : forall {E A St} (f : St -> A -> outcome E St) l s, (exists s', foldM f s l = Ok s') <->
  forall k x s1, nth_error l k = Some x -> foldM f s (firstn k l) = Ok s1 -> exists s2, f s1 x = Ok s2.
Proof.
  intros E A St f. induction l as [|x l IH]; intro s; cbn [foldM].
  - split; [intros _ [|k] x s1 H; discriminate|eauto].
  - split.
    + intros (s' & H) [|k] y s1 Hy H1; cbn in Hy, H1.
      * injection Hy as <-. injection H1 as <-. apply bind_ok in H. destruct H as (s2 & H2 & _). eauto.
      * apply bind_ok in H. destruct H as (s2 & H2 & H). rewrite H2 in H1. cbn [bind] in H1. exact (proj1 (IH s2) (ex_intro _ s' H) k y s1 Hy H1).
    + intro H. destruct (H 0%nat x s eq_refl eq_refl) as (s2 & H2). rewrite H2. cbn [bind]. apply IH.
      intros k y s1 Hy H1. apply (H (S k) y s1 Hy). cbn [firstn foldM]. rewrite H2. exact H1.
Qed.
Lemma foldM_all : forall {E A St} (f : St -> A -> outcome E St) (P : A -> Prop) l s,
  (forall s x, (exists s', f s x = Ok s') <-> P x) -> (exists s', foldM f s l = Ok s') <-> Forall P l.
Proof.
  intros E A St f P l s HP. revert s. induction l as [|x l IH]; intro s; cbn [foldM].
  - split; [constructor|eauto].
  - split.
    + intros (s' & H). apply bind_ok in H. destruct H as (s2 & H2 & H). constructor; [apply (HP s x); eauto|apply (IH s2); eauto].
    + intro H. inversion H; subst. destruct (proj2 (HP s x)) as (s2 & H2'); [assumption|]. rewrite H2'. cbn [bind]. apply IH. assumption.
Qed.

Theorem protocol_accept : forall m solver w v, (exists p w', protocol_from_model m solver w v = Ok (p, w')) <->
  Forall (import_accepted solver) (sp_imports v) /\ Forall (fun d => se_variants d <> []) (sp_enums v) /\
  (forall k d p w', nth_error (sp_structs v) k = Some d -> protocol_from_model m solver w (only_structs k v) = Ok (p, w') ->
     struct_accepted m (p_enums_by_name p) (p_structs_by_name p) d) /\
  (forall k u p w', nth_error (sp_unions v) k = Some u -> protocol_from_model m solver w (only_unions k v) = Ok (p, w') ->
     union_accepted (p_structs_by_name p) (p_messages_by_name p) u) /\
  (forall k d p w', nth_error (sp_messages v) k = Some d -> protocol_from_model m solver w (only_messages k v) = Ok (p, w') ->
     message_accepted {| pe_endianness := p_endianness p; pe_structs := p_structs_by_name p;
        pe_messages := p_messages_by_name p; pe_unions := p_unions_by_name p |} d).
Proof.
  intros m solver w v. unfold protocol_from_model, only_structs, only_unions, only_messages.
  cbn [sp_name sp_imports sp_enums sp_structs sp_unions sp_messages].
  rewrite <- (foldM_all (import_one solver) _ (sp_imports v) (protocol_empty (sp_name v)) (import_accept solver)).
  assert (En : forall p, (exists p2, foldM define_enum p (sp_enums v) = Ok p2) <-> Forall (fun d => se_variants d <> []) (sp_enums v)).
  { intro p. apply foldM_all. intros q d. rewrite <- enum_accepted. unfold define_enum. split.
    - intros (q' & H). apply bind_ok in H. destruct H as (e & H & _). eauto.
    - intros (e & H). rewrite H. cbn [bind]. eauto. }
  destruct (foldM (import_one solver) (protocol_empty (sp_name v)) (sp_imports v)) as [p1|e|] eqn:H1; cbn [bind].
  2,3: split; [intros (? & ? & H); discriminate|intros ((? & H) & _); discriminate].
  rewrite <- (En p1). destruct (foldM define_enum p1 (sp_enums v)) as [p2|e|] eqn:H2; cbn [bind].
  2,3: split; [intros (? & ? & H); discriminate|intros (_ & (? & H) & _); discriminate].
  assert (St : forall (q : protocol * world) d, (exists s2, define_struct m q d = Ok s2) <->
     struct_accepted m (p_enums_by_name (fst q)) (p_structs_by_name (fst q)) d).
  { intros (p & w1) d. cbn [fst]. unfold define_struct. rewrite <- (structure_accepted m (p_endianness p) _ _ (w_next w1)). split.
    - intros (q' & H). apply bind_ok in H. destruct H as (e & H & _). eauto.
    - intros (e & H). rewrite H. cbn [bind]. eauto. }
  assert (Un : forall p u, (exists s2, define_union p u = Ok s2) <-> union_accepted (p_structs_by_name p) (p_messages_by_name p) u).
  { intros p u. unfold define_union. rewrite <- union_accept. split.
    - intros (q' & H). apply bind_ok in H. destruct H as (e & H & _). eauto.
    - intros (e & H). rewrite H. cbn [bind]. eauto. }
  assert (Ms : forall (q : protocol * world) d, (exists s2, define_message q d = Ok s2) <->
     message_accepted {| pe_endianness := p_endianness (fst q); pe_structs := p_structs_by_name (fst q);
        pe_messages := p_messages_by_name (fst q); pe_unions := p_unions_by_name (fst q) |} d).
  { intros (p & w1) d. cbn [fst]. unfold define_message. rewrite <- (message_accept _ (w_next w1)). split.
    - intros (q' & H). apply bind_ok in H. destruct H as ((x & mk) & H & _). eauto.
    - intros (x & mk & H). rewrite H. cbn [bind]. eauto. }
  split.
  - intros (p & w' & H). apply bind_ok in H. destruct H as ((p3 & w3) & H3 & H). apply bind_ok in H. destruct H as (p4 & H4 & H5).
    split; [eauto|]. split; [eauto|]. rewrite H3. cbn [bind]. rewrite H4. cbn [bind]. split; [|split].
    + intros k d q wq Hk Hq. apply bind_ok in Hq. destruct Hq as ((q3 & wq3) & Hq3 & Hq). cbn in Hq. inversion Hq; subst q3 wq3.
      apply (St (q, wq) d). exact (proj1 (foldM_exists _ _ _) (ex_intro _ _ H3) k d _ Hk Hq3).
    + intros k u q wq Hk Hq. apply bind_ok in Hq. destruct Hq as (q4 & Hq4 & Hq). cbn in Hq. inversion Hq; subst q4 wq.
      apply (Un q u). exact (proj1 (foldM_exists _ _ _) (ex_intro _ _ H4) k u _ Hk Hq4).
    + intros k d q wq Hk Hq. apply (Ms (q, wq) d). exact (proj1 (foldM_exists _ _ _) (ex_intro _ _ H5) k d _ Hk Hq).
  - intros (_ & _ & Hs & Hu & Hm).
    destruct (proj2 (foldM_exists (define_struct m) (sp_structs v) (p2, w))) as ((p3 & w3) & H3).
    { intros k d (q & wq) Hk Hq. apply (St (q, wq) d). apply (Hs k d q wq Hk). rewrite Hq. reflexivity. }
    rewrite H3 in *. cbn [bind] in *.
    destruct (proj2 (foldM_exists define_union (sp_unions v) p3)) as (p4 & H4).
    { intros k u q Hk Hq. apply (Un q u). apply (Hu k u q w3 Hk). rewrite Hq. reflexivity. }
    rewrite H4 in *. cbn [bind] in *.
    destruct (proj2 (foldM_exists define_message (sp_messages v) (p4, w3))) as ((p5 & w5) & H5); [|eauto].
    intros k d (q & wq) Hk Hq. apply (Ms (q, wq) d). exact (Hm k d q wq Hk Hq).
Qed.
