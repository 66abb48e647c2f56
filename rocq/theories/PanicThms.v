(** When the compiler panics (C16). *)

From Coq Require Import Arith NArith ZArith Ascii String List Bool Lia Floats.SpecFloat.
From Verif Require Import Base Schema Compiler SpecStruct SpecComp SpecCase SpecPanic StructFacts CompFacts CompThms.
Import ListNotations.
Local Open Scope N_scope.

Lemma bind_panic : forall {E A B} (x : outcome E A) (f : A -> outcome E B),
  bind x f = Panic <-> x = Panic \/ exists a, x = Ok a /\ f a = Panic.
Proof.
  intros E A B x f. destruct x as [a|e|]; cbn.
  - split; [intro H; right; eauto|intros [H|(b & H & Hf)]; [discriminate|inversion H; subst; exact Hf]].
  - split; [discriminate|intros [H|(b & H & Hf)]; discriminate].
  - tauto.
Qed.
Ltac bp := match goal with |- bind ?x ?f = Panic <-> _ =>
  transitivity (x = Panic \/ exists a, x = Ok a /\ f a = Panic); [apply bind_panic|] end.
Lemma uadd_panic : forall E m a b, uadd (E:=E) m a b = Panic <-> m = Debug /\ 2 ^ 64 <= a + b.
Proof.
  intros E m a b. unfold uadd. change usize_mod with (2 ^ 64). destruct (N.ltb_spec (a + b) (2 ^ 64)).
  - split; [discriminate|intros (_ & ?); lia].
  - destruct m; split; try discriminate; try (intros (? & _); discriminate); auto.
Qed.
Lemma umul_panic : forall E m a b, umul (E:=E) m a b = Panic <-> m = Debug /\ 2 ^ 64 <= a * b.
Proof.
  intros E m a b. unfold umul. change usize_mod with (2 ^ 64). destruct (N.ltb_spec (a * b) (2 ^ 64)).
  - split; [discriminate|intros (_ & ?); lia].
  - destruct m; split; try discriminate; try (intros (? & _); discriminate); auto.
Qed.
Definition view_over (f : sfield) : Prop :=
  (exists b, sf_info f = STSigned b /\ sf_view f = None /\ (b = 0 \/ 64 < b)) \/
  (exists b lo hi, sf_info f = STFloat b /\ sf_view f = Some (SVFloatRange lo hi) /\ 64 <= b).

Lemma range_view : forall enums lo hi b v,
  (x <- ushl1 Debug b ;; raw_max <- usub Debug x 1 ;; Ok (v raw_max)) = @Panic cerror fview /\ 64 <= b \/
  (exists r, (x <- ushl1 Debug b ;; raw_max <- usub Debug x 1 ;; Ok (v raw_max)) = Ok (E:=cerror) r) /\ b < 64 /\
  (enums : smap enum_) = enums /\ (lo : f64) = lo /\ (hi : f64) = hi.
Proof.
  intros enums lo hi b v. unfold ushl1. destruct (N.ltb_spec b 64).
  - right. cbn [bind]. unfold usub. pose proof (pow2_ge1 b). destruct (N.leb_spec 1 (2 ^ b)); [|lia]. cbn [bind]. eauto 10.
  - left. cbn [overflow bind]. auto.
Qed.

Lemma signed_view : forall b,
  (k <- usub Debug b 1 ;; max_value <- ushl1 Debug k ;; mp <- usub Debug max_value 1 ;; Ok (VSignedCast mp)) =
    @Panic cerror fview /\ (b = 0 \/ 64 < b) \/
  (exists r, (k <- usub Debug b 1 ;; max_value <- ushl1 Debug k ;; mp <- usub Debug max_value 1 ;; Ok (VSignedCast mp)) =
    Ok (E:=cerror) r) /\ 1 <= b <= 64.
Proof.
  intro b. unfold usub at 1 3. destruct (N.leb_spec 1 b); cbn [bind overflow].
  - unfold ushl1. destruct (N.ltb_spec (b - 1) 64); cbn [bind overflow]; [|left; split; [reflexivity|lia]].
    right. unfold usub. pose proof (pow2_ge1 (b - 1)). destruct (N.leb_spec 1 (2 ^ (b - 1))); [|lia]. cbn [bind].
    split; [eauto|lia].
  - left. split; [reflexivity|lia].
Qed.

Lemma view_cases : forall enums f b, get_bit_size (sf_info f) = Some b ->
  (view_from_model Debug enums (get_simple_type (sf_info f)) b (sf_view f) = Panic /\ view_over f) \/
  ((exists v, view_from_model Debug enums (get_simple_type (sf_info f)) b (sf_view f) = Ok v) /\
    view_fits enums f /\ ~ view_over f) \/
  ((exists e, view_from_model Debug enums (get_simple_type (sf_info f)) b (sf_view f) = Err e) /\ ~ view_fits enums f /\
    ~ view_over f).
Proof.
  intros enums f b Hb.
  assert (NO : forall t, sf_info f = t -> (forall b, t <> STSigned b) -> (forall b, t <> STFloat b) -> ~ view_over f).
  { intros t Et H1 H2 [(x & E & _)|(x & lo & hi & E & _)]; rewrite Et in E; [eapply H1|eapply H2]; exact E. }
  unfold view_from_model, view_fits.
  destruct (sf_view f) as [[n|lo hi|mu]|] eqn:Ev.
  - destruct (sf_info f) as [x|x|x|x|x] eqn:Ei; cbn in Hb; inversion Hb; subst x; cbn [get_simple_type simple_eqb negb].
    all: assert (NV : ~ view_over f) by (intros [(y & _ & E & _)|(y & lo & hi & _ & E & _)]; congruence).
    all: try (right; right; split; [eexists; reflexivity|split; [tauto|exact NV]]).
    destruct (sget n enums) as [e|] eqn:Es; cbn [ok_or bind].
    + right; left. split; [eexists; reflexivity|]. split; [eauto|exact NV].
    + right; right. split; [eexists; reflexivity|]. split; [intros (e & He); discriminate|exact NV].
  - destruct (sf_info f) as [x|x|x|x|x] eqn:Ei; cbn in Hb; inversion Hb; subst x; cbn [get_simple_type simple_eqb negb].
    all: try (right; right; split; [eexists; reflexivity|split; [tauto|]];
      intros [(y & E & E2 & _)|(y & l & h & E & _)]; congruence).
    cbv zeta.
    destruct (range_view enums lo hi b (fun r => VFloat (f64_div hi (f64_of_N r)) lo (f64_div f64_one (f64_div hi (f64_of_N r))) (SFopp lo)))
      as [(E & H)|((r & E) & H & _)]; rewrite E.
    + left. split; [reflexivity|]. right. exists b, lo, hi. auto.
    + right; left. split; [eauto|]. split; [exact I|]. intros [(y & E1 & _)|(y & l & h & E1 & _ & Hy)]; [congruence|].
      assert (y = b) by congruence. lia.
  - destruct (sf_info f) as [x|x|x|x|x] eqn:Ei; cbn in Hb; inversion Hb; subst x; cbn [get_simple_type simple_eqb negb].
    all: assert (NV : ~ view_over f) by (intros [(y & _ & E & _)|(y & l & h & _ & E & _)]; congruence).
    all: try (right; right; split; [eexists; reflexivity|split; [tauto|exact NV]]).
    right; left. split; [eexists; reflexivity|]. split; [exact I|exact NV].
  - assert (NF : forall b, sf_info f = STFloat b -> ~ view_over f).
    { intros y Ey [(z & E & _)|(z & l & h & _ & E & _)]; congruence. }
    destruct (sf_info f) as [x|x|x|x|x] eqn:Ei; cbn in Hb; inversion Hb; subst x; cbn [get_simple_type simple_eqb andb].
    + destruct (negb (b =? 8) && negb (b =? 16) && negb (b =? 32) && negb (b =? 64)) eqn:Es.
      * destruct (signed_view b) as [(E & H)|((r & E) & H)]; rewrite E.
        -- left. split; [reflexivity|]. left. eauto.
        -- right; left. split; [eauto|]. split; [exact I|]. intros [(y & E1 & _ & Hy)|(y & l & h & E1 & _)]; [|congruence].
           assert (y = b) by congruence. lia.
      * right; left. split; [eauto|]. split; [exact I|]. intros [(y & E1 & _ & Hy)|(y & l & h & E1 & _)]; [|congruence].
        assert (y = b) by congruence.
        destruct (N.eqb_spec b 8), (N.eqb_spec b 16), (N.eqb_spec b 32), (N.eqb_spec b 64); cbn in Es; try discriminate; lia.
    + right; left. split; [eauto|]. split; [exact I|]. eapply NO; [reflexivity|discriminate..].
    + destruct (N.eqb_spec b 32), (N.eqb_spec b 64); cbn [negb andb].
      1-3: right; left; split; [eauto|split; [auto|eapply NF; reflexivity]].
      right; right. split; [eauto|]. split; [tauto|eapply NF; reflexivity].
    + right; left. split; [eauto|]. split; [exact I|]. eapply NO; [reflexivity|discriminate..].
Qed.

Lemma fixed_cases : forall f b, get_bit_size (sf_info f) = Some b ->
  (exists t, fixed_from_model (sf_info f) = Ok t) <-> width_fits f.
Proof.
  intros f b Hb. unfold fixed_from_model, width_fits. rewrite Hb. cbn [ok_or bind].
  destruct (sf_info f) as [x|x|x|x|x]; cbn in Hb; inversion Hb; subst x; cbn [get_simple_type simple_eqb map_numeric ok_or get_bit_size andb].
  4:{ split; eauto. }
  all: split; [intros (t & H); exists b; split; [reflexivity|]|intros (y & Ey & Hy); assert (y = b) by congruence; subst y].
  all: destruct (N.eqb_spec b 32), (N.eqb_spec b 64), (N.ltb_spec 32 b), (N.leb_spec b 64), (N.ltb_spec 16 b), (N.leb_spec b 32),
    (N.ltb_spec 8 b), (N.leb_spec b 16), (N.ltb_spec 0 b), (N.leb_spec b 8); cbn [andb] in *; try lia; try discriminate; eauto.
Qed.

Lemma fixed_not_panic : forall t, fixed_from_model t <> Panic.
Proof. exact fixed_np. Qed.

Lemma field_panic : forall endi enums structs off f,
  field_from_model Debug endi enums structs off f = Panic <-> overflows enums structs off f.
Proof.
  intros endi enums structs off f.
  destruct (get_bit_size (sf_info f)) as [b|] eqn:Hb.
  2:{ destruct (sf_info f) as [x|x|x|x|n] eqn:Ei; try discriminate. unfold field_from_model. rewrite Ei.
      bp. split.
      - intros [H|(r & Hr & H)]; [exfalso; exact (ok_or_panic _ _ H)|]. apply ok_or_ok in Hr.
        apply bind_panic in H. destruct H as [H|(x & _ & H)]; [|discriminate]. apply uadd_panic in H.
        eapply over_struct; [reflexivity || exact Ei|exact Hr|tauto].
      - intro H. right. inversion H as [? E|? ? ? E|? E|? E|? E|n0 r E Er Hl]; try congruence;
          try (rewrite Ei in E; discriminate).
        assert (n0 = n) by congruence. subst n0. exists r. rewrite Er. split; [reflexivity|].
        apply bind_panic. left. apply uadd_panic. auto. }
  assert (EQ : field_from_model Debug endi enums structs off f =
    (view <- view_from_model Debug enums (get_simple_type (sf_info f)) b (sf_view f) ;;
      bit_size <- umul Debug b (items_of f) ;;
      ty <- fixed_from_model (sf_info f) ;;
      let loc := location_from_model bit_size off in
      if 1 <? items_of f then
        if negb (bit_size mod 8 =? 0) then Err EUnalignedArrayCodec
        else
          off <- uadd Debug off bit_size ;;
          Ok (FArray {| fa_name := sf_name f; fa_ty := ty; fa_array_len := items_of f;
                        fa_loc := loc; fa_endianness := endi |}, off)
      else
        off <- uadd Debug off bit_size ;;
        Ok (FFixed {| ff_name := sf_name f; ff_ty := ty; ff_loc := loc; ff_view := view;
                      ff_endianness := endi |}, off))).
  { unfold field_from_model. destruct (sf_info f) as [x|x|x|x|x]; cbn in Hb; inversion Hb; subst x; reflexivity. }
  rewrite EQ. clear EQ. destruct (view_cases enums f b Hb) as [(E & H)|[((v & E) & Hf & Hn)|((e & E) & Hf & Hn)]]; rewrite E; cbn [bind].
  - split; [intros _|reflexivity]. destruct H as [(y & E1 & E2 & Hy)|(y & lo & hi & E1 & E2 & Hy)].
    + eapply over_signed; eassumption.
    + eapply over_range; eassumption.
  - bp. rewrite umul_panic. split.
    + intros [(_ & H)|(s & Hs & H)]; [eapply over_items; eassumption|].
      assert (s = b * items_of f).
      { unfold umul in Hs. destruct (_ <? _); [congruence|discriminate]. }
      subst s. apply bind_panic in H. destruct H as [H|(t & Ht & H)]; [exfalso; exact (fixed_np _ H)|].
      assert (HW : width_fits f) by (apply (fixed_cases f b Hb); eauto). cbv zeta in H.
      destruct (N.ltb_spec 1 (items_of f)).
      * destruct (N.eqb_spec ((b * items_of f) mod 8) 0); cbn [negb] in H; [|discriminate].
        apply bind_panic in H. destruct H as [H|(? & _ & H)]; [|discriminate]. apply uadd_panic in H.
        eapply over_end; try eassumption. tauto.
      * apply bind_panic in H. destruct H as [H|(? & _ & H)]; [|discriminate]. apply uadd_panic in H.
        eapply over_end_one; try eassumption. tauto.
    + intro H.
      assert (B : forall y, get_bit_size (sf_info f) = Some y -> y = b) by (intros; congruence).
      destruct (N.le_gt_cases (2 ^ 64) (b * items_of f)) as [Hl|Hl]; [left; auto|right].
      exists (b * items_of f). split.
      { unfold umul. destruct (N.ltb_spec (b * items_of f) usize_mod) as [?|X]; [reflexivity|].
        change usize_mod with (2 ^ 64) in X. lia. }
      inversion H as [y E1 E2 Hy|y lo hi E1 E2 Hy|y E1 Hv Hy|y E1 Hv HW Hi Hal Hy|y E1 HV HW Hi Hy|n r E1 Er Hy].
      * exfalso. apply Hn. left. eauto.
      * exfalso. apply Hn. right. exists y, lo, hi. auto.
      * apply B in E1. subst y. lia.
      * apply B in E1. subst y. apply (fixed_cases f b Hb) in HW. destruct HW as (t & Ht). rewrite Ht. cbn [bind]. cbv zeta.
        destruct (N.ltb_spec 1 (items_of f)); [|lia]. rewrite Hal. cbn [negb N.eqb].
        apply bind_panic. left. apply uadd_panic. auto.
      * apply B in E1. subst y. apply (fixed_cases f b Hb) in HW. destruct HW as (t & Ht). rewrite Ht. cbn [bind]. cbv zeta.
        destruct (N.ltb_spec 1 (items_of f)); [lia|].
        apply bind_panic. left. apply uadd_panic. auto.
      * rewrite E1 in Hb. discriminate.
  - split; [discriminate|]. intro H. exfalso.
    inversion H as [y E1 E2 Hy|y lo hi E1 E2 Hy|y E1 Hv Hy|y E1 Hv HW Hi Hal Hy|y E1 HV HW Hi Hy|n r E1 Er Hy]; try contradiction.
    + apply Hn. left. eauto.
    + apply Hn. right. exists y, lo, hi. auto.
    + rewrite E1 in Hb. discriminate.
Qed.

Lemma fields_panic : forall endi enums structs l off,
  fields_from_model Debug endi enums structs off l = Panic <->
  exists k f fs o, nth_error l k = Some f /\ fields_from_model Debug endi enums structs off (firstn k l) = Ok (fs, o) /\
    overflows enums structs o f.
Proof.
  intros endi enums structs. induction l as [|d l IH]; intro off; cbn [fields_from_model].
  - split; [discriminate|]. intros (k & f & fs & o & H & _). destruct k; discriminate.
  - bp. split.
    + intros [H|((f & o) & Hf & H)].
      * exists 0%nat, d, [], off. split; [reflexivity|]. split; [reflexivity|]. apply (field_panic endi). exact H.
      * apply bind_panic in H. destruct H as [H|((? & ?) & _ & H)]; [|discriminate]. apply IH in H.
        destruct H as (k & g & fs & o2 & Hk & Ho & Hv). exists (S k), g, (f :: fs), o2. split; [exact Hk|]. split; [|exact Hv].
        cbn [firstn fields_from_model]. rewrite Hf. cbn [bind]. rewrite Ho. reflexivity.
    + intros ([|k] & g & fs & o & Hk & Ho & Hv).
      * cbn in Hk, Ho. inversion Hk; subst. inversion Ho; subst. left. apply field_panic. exact Hv.
      * right. cbn [firstn fields_from_model] in Ho. apply bind_ok in Ho. destruct Ho as ((f & o1) & Hf & Ho).
        apply bind_ok in Ho. destruct Ho as ((fs1 & o2) & Ho & E). inversion E; subst.
        exists (f, o1). split; [exact Hf|]. apply bind_panic. left. apply IH. exists k, g, fs1, o. auto.
Qed.

(** The byte order and the identifier change nothing but the result. *)
Lemma field_endi : forall m e1 e2 enums structs off f g o, field_from_model m e1 enums structs off f = Ok (g, o) ->
  exists g', field_from_model m e2 enums structs off f = Ok (g', o).
Proof.
  intros m e1 e2 enums structs off f g o H. unfold field_from_model in *.
  destruct (sf_info f) as [x|x|x|x|n]; cbn [get_bit_size ok_or bind] in *.
  5:{ destruct (sget n structs); cbn [ok_or bind] in *; [|discriminate].
      destruct (uadd m off (s_bit_size s)); cbn [bind] in *; try discriminate. inversion H; subst. eauto. }
  all: destruct (view_from_model m enums _ x (sf_view f)); cbn [bind] in *; try discriminate;
    destruct (umul m x _) as [z|?|]; cbn [bind] in *; try discriminate;
    destruct (fixed_from_model _); cbn [bind] in *; try discriminate;
    destruct (1 <? _); [destruct (negb _); [discriminate|]|];
    (destruct (uadd m off z); cbn [bind] in *; try discriminate; inversion H; subst; eauto).
Qed.
Lemma fields_endi : forall m e1 e2 enums structs l off fs o, fields_from_model m e1 enums structs off l = Ok (fs, o) ->
  exists fs', fields_from_model m e2 enums structs off l = Ok (fs', o).
Proof.
  intros m e1 e2 enums structs. induction l as [|d l IH]; intros off fs o H; cbn [fields_from_model] in *.
  - inversion H; subst. eauto.
  - apply bind_ok in H. destruct H as ((f & o1) & Hf & H). apply bind_ok in H. destruct H as ((fs1 & o2) & Ho & E).
    inversion E; subst. destruct (field_endi m e1 e2 enums structs off d f o1 Hf) as (g & Hg). rewrite Hg. cbn [bind].
    destruct (IH _ _ _ Ho) as (gs & Hgs). rewrite Hgs. cbn [bind]. eauto.
Qed.

Theorem structure_panic : forall m endi enums structs id d,
  structure_from_model m endi enums structs id d = Panic <-> struct_panics m enums structs d.
Proof.
  intros m endi enums structs id d. destruct m.
  2:{ split; [intro H; exfalso; exact (structure_np Release endi enums structs id d (or_introl eq_refl) H)|].
      intros (H & _). discriminate. }
  unfold struct_panics, structure_from_model. bp. split.
  - intros [H|((? & ?) & _ & H)]; [|discriminate]. apply fields_panic in H.
    destruct H as (k & f & fs & o & Hk & Ho & Hv). split; [reflexivity|].
    apply (fields_endi Debug endi Little) in Ho. destruct Ho as (gs & Hg).
    exists k, f. eexists. split; [exact Hk|]. split.
    + unfold first_fields. cbn [ss_fields ss_name]. rewrite Hg. cbn [bind]. reflexivity.
    + exact Hv.
  - intros (_ & k & f & s & Hk & Hs & Hv). left. unfold first_fields in Hs. cbn [ss_fields ss_name] in Hs.
    apply bind_ok in Hs. destruct Hs as ((fs & o) & Ho & E). inversion E; subst. cbn [s_bit_size] in Hv.
    apply (fields_endi Debug Little endi) in Ho. destruct Ho as (gs & Hg). apply fields_panic. eauto 10.
Qed.

(** ** Unions *)

Lemma find_field_at : forall n l k f, find_field n 0 l = Some (k, f) <-> first_at n l k f.
Proof.
  intros n l k f. split; intro H.
  - apply find_field_spec in H. destruct H as (_ & Hn & Hf & Hb). rewrite Nat.sub_0_r in *. split; [exact Hn|]. auto.
  - assert (G : forall l i k, first_at n l k f -> find_field n i l = Some ((i + k)%nat, f)).
    { clear. induction l as [|g l IH]; intros i k (Hn & Hf & Hb); [destruct k; discriminate|]. cbn [find_field].
      destruct k as [|k]; cbn in Hn.
      - inversion Hn; subst g. rewrite Hf, String.eqb_refl, Nat.add_0_r. reflexivity.
      - destruct (String.eqb_spec (field_name g) n) as [E|_].
        + exfalso. apply (Hb 0%nat g); [lia|reflexivity|exact E].
        + rewrite (IH (S i) k); [f_equal; f_equal; lia|]. split; [exact Hn|]. split; [exact Hf|].
          intros j h Hj Hh. apply (Hb (S j)); [lia|exact Hh]. }
    apply (G l 0%nat k H).
Qed.

Lemma walk_leads : forall rn parts leaf idx leaf' idx', disc_walk rn leaf idx parts = Ok (leaf', idx') ->
  (parts = [] /\ idx' = idx) \/
  (exists k, leads leaf parts k leaf' /\ last (map Some idx') None = Some k) \/
  (exists k f, last (map Some idx') None = Some k /\ nth_error (s_fields leaf') k = Some (FFixed f)).
Proof.
  intros rn. induction parts as [|sub parts IH]; intros leaf idx leaf' idx' H; cbn in H.
  - inversion H; subst. auto.
  - right. apply bind_ok in H. destruct H as ((k & f) & Hf & H). apply ok_or_ok in Hf. apply find_field_at in Hf.
    destruct f as [g|g|nm r loc]; try discriminate.
    + inversion H; subst. right. exists k, g. split; [apply last_app_some|apply Hf].
    + destruct (IH _ _ _ _ H) as [(-> & E)|[(j & Hj & Hl)|Hs]].
      * left. cbn in H. inversion H; subst. exists k. split; [econstructor; exact Hf|apply last_app_some].
      * left. exists j. split; [econstructor; eassumption|exact Hl].
      * right. exact Hs.
Qed.
Lemma leads_walk : forall leaf parts k r, leads leaf parts k r -> forall rn idx, exists idx',
  disc_walk rn leaf idx parts = Ok (r, idx') /\ last (map Some idx') None = Some k.
Proof.
  intros leaf parts k r H. induction H as [s n k name r loc Hf|s n i name r loc parts k t Hf Hl IH]; intros rn idx; cbn [disc_walk];
    apply find_field_at in Hf; rewrite Hf; cbn [ok_or bind].
  - eexists. split; [reflexivity|apply last_app_some].
  - apply IH.
Qed.
Lemma leads_fun : forall s parts k r, leads s parts k r -> forall k' r', leads s parts k' r' -> k' = k /\ r' = r.
Proof.
  intros s parts k r H. destruct (leads_walk _ _ _ _ H EmptyString []) as (i1 & E1 & L1).
  intros k' r' H'. destruct (leads_walk _ _ _ _ H' EmptyString []) as (i2 & E2 & L2).
  rewrite E1 in E2. inversion E2; subst. split; congruence.
Qed.

Lemma ucases_panic : forall structs messages d l, ucases_from_model structs messages d l = Panic <->
  l <> [] /\ get_leaf (E:=cerror) d = Panic.
Proof.
  intros structs messages d l. destruct l as [|v l].
  - split; [discriminate|intros (H & _); congruence].
  - destruct (get_leaf (E:=cerror) d) as [f|e|] eqn:E.
    + split; [|intros (_ & H); discriminate]. intro H. exfalso. revert H. apply ucases_np. eauto.
    + cbn. rewrite E. cbn. split; [discriminate|intros (_ & H); discriminate].
    + cbn. rewrite E. cbn. split; [intros _; split; [discriminate|reflexivity]|reflexivity].
Qed.
Lemma leaf_panic : forall d, get_leaf (E:=cerror) d = Panic <->
  forall f, nth_error (s_fields (d_leaf d)) (d_leaf_index d) <> Some (FFixed f).
Proof.
  intro d. unfold get_leaf. destruct (nth_error _ _) as [[f|a|n r loc]|]; cbn [unwrap bind as_fixed].
  - split; [discriminate|]. intro H. exfalso. exact (H f eq_refl).
  - split; [intros _ f; discriminate|reflexivity].
  - split; [intros _ f; discriminate|reflexivity].
  - split; [intros _ f; discriminate|reflexivity].
Qed.

Lemma split_dot_unique : forall s h t, joined s (h :: t) -> Forall no_dot (h :: t) -> split_dot s = (h, t).
Proof.
  unfold joined. induction s as [|c s IH]; intros h t Hj Hd.
  - destruct t as [|x t]; cbn in Hj; [subst h; reflexivity|]. destruct h; discriminate.
  - inversion Hd as [|? ? Hh Ht]; subst. destruct h as [|c' h].
    + destruct t as [|x t]; [discriminate|]. cbn in Hj. injection Hj as Ec Es. subst c.
      cbn [split_dot]. rewrite (IH x t); [reflexivity|exact Es|exact Ht].
    + assert (Ec : c' = c /\ String.concat "." (h :: t) = s).
      { destruct t as [|x t]; cbn in *; inversion Hj; auto. }
      destruct Ec as (-> & Es). cbn [split_dot]. rewrite (IH h t Es).
      2:{ constructor; [|exact Ht]. intro i. exact (Hh (S i)). }
      destruct (Ascii.eqb_spec c "."%char) as [->|_]; [|reflexivity]. exfalso. exact (Hh 0%nat eq_refl).
Qed.

Theorem union_panic : forall structs messages u, union_from_model structs messages u = Panic <-> union_panics structs u.
Proof.
  intros structs messages u. unfold union_from_model, disc_from_model, union_panics.
  destruct (split_dot (sun_discriminant u)) as (n & parts) eqn:Es.
  destruct (split_dot_spec _ _ _ Es) as (Hj & Hd). split.
  - intro H. exists n, parts. destruct (sget n structs) as [root|] eqn:Er; cbn [ok_or bind] in H; [|discriminate].
    exists root. split; [exact Hj|]. split; [exact Hd|]. split; [reflexivity|].
    destruct (disc_walk n root [] parts) as [(leaf & idx)|e|] eqn:Ew; cbn [bind] in H; [|discriminate|exfalso; eapply disc_walk_np; exact Ew].
    destruct (walk_leads _ _ _ _ _ _ Ew) as [(-> & ->)|[(k & Hk & Hl)|(k & f & Hl & Hf)]].
    + auto.
    + right. rewrite Hl in H. cbn [unwrap bind] in H. apply bind_panic in H. destruct H as [H|(? & _ & H)]; [|discriminate].
      apply ucases_panic in H. destruct H as (Hc & H). split; [exact Hc|]. exists k, leaf. split; [exact Hk|].
      exact (proj1 (leaf_panic _) H).
    + exfalso. rewrite Hl in H. cbn [unwrap bind] in H. apply bind_panic in H. destruct H as [H|(? & _ & H)]; [|discriminate].
      apply ucases_panic in H. destruct H as (_ & H). exact (proj1 (leaf_panic _) H f Hf).
  - intros (n' & parts' & root & Hj' & Hd' & Er & H).
    assert (E : split_dot (sun_discriminant u) = (n', parts')) by (apply split_dot_unique; assumption).
    rewrite Es in E. inversion E; subst n' parts'. rewrite Er. cbn [ok_or bind].
    destruct H as [-> | (Hc & k & r & Hl & Hf)]; [reflexivity|].
    destruct (leads_walk _ _ _ _ Hl n []) as (idx & Ew & Hi). rewrite Ew. cbn [bind]. rewrite Hi. cbn [unwrap bind].
    apply bind_panic. left. apply ucases_panic. split; [exact Hc|]. apply leaf_panic. exact Hf.
Qed.

Lemma foldM_panic : forall {E A St} (f : St -> A -> outcome E St) l s, foldM f s l = Panic <->
  exists k x s1, nth_error l k = Some x /\ foldM f s (firstn k l) = Ok s1 /\ f s1 x = Panic.
Proof.
  intros E A St f. induction l as [|x l IH]; intro s; cbn [foldM].
  - split; [discriminate|]. intros (k & x & s1 & H & _). destruct k; discriminate.
  - bp. split.
    + intros [H|(s1 & H1 & H)].
      * exists 0%nat, x, s. auto.
      * apply IH in H. destruct H as (k & y & s2 & Hk & H2 & H). exists (S k), y, s2. split; [exact Hk|].
        split; [|exact H]. cbn. rewrite H1. exact H2.
    + intros ([|k] & y & s2 & Hk & H2 & H).
      * cbn in Hk, H2. inversion Hk; subst. inversion H2; subst. auto.
      * right. cbn in H2. apply bind_ok in H2. destruct H2 as (s1 & H1 & H2). exists s1. split; [exact H1|].
        apply IH. eauto 10.
Qed.

Lemma structs_endi : forall m l p w p' w', p_endianness p = Little -> foldM (define_struct m) (p, w) l = Ok (p', w') ->
  p_endianness p' = Little.
Proof.
  intros m l p w p' w' Hp H.
  apply (foldM_inv (fun q => p_endianness (fst q) = Little)) in H; [exact H| |exact Hp].
  intros (q & v) x (q' & v') _ Hq Hx. unfold define_struct in Hx. apply bind_ok in Hx. destruct Hx as (s & _ & E).
  inversion E; subst. exact Hq.
Qed.

Theorem protocol_panic : forall m solver w v, protocol_from_model m solver w v = Panic <->
  (exists k d p w', nth_error (sp_structs v) k = Some d /\
     protocol_from_model m solver w (only_structs k v) = Ok (p, w') /\
     struct_panics m (p_enums_by_name p) (p_structs_by_name p) d) \/
  (exists k u p w', nth_error (sp_unions v) k = Some u /\
     protocol_from_model m solver w (only_unions k v) = Ok (p, w') /\ union_panics (p_structs_by_name p) u).
Proof.
  intros m solver w v. unfold protocol_from_model, only_structs, only_unions.
  cbn [sp_name sp_imports sp_enums sp_structs sp_unions sp_messages]. split.
  - intro H. apply bind_panic in H. destruct H as [H|(p1 & H1 & H)].
    { exfalso. revert H. apply foldM_np. intros. apply import_np. }
    apply bind_panic in H. destruct H as [H|(p2 & H2 & H)].
    { exfalso. revert H. apply foldM_np. intros k x s _ _. unfold define_enum. apply bind_np; [apply enum_np|intros; discriminate]. }
    rewrite H1. cbn [bind]. rewrite H2. cbn [bind].
    apply bind_panic in H. destruct H as [H|((p3 & w3) & H3 & H)].
    { left. apply foldM_panic in H. destruct H as (k & d & (p & w') & Hk & Hf & H). exists k, d, p, w'.
      split; [exact Hk|]. split; [rewrite Hf; reflexivity|]. unfold define_struct in H. apply bind_panic in H.
      destruct H as [H|(? & _ & H)]; [|discriminate]. eapply structure_panic. exact H. }
    right. rewrite H3. cbn [bind].
    apply bind_panic in H. destruct H as [H|(p4 & H4 & H)].
    { apply foldM_panic in H. destruct H as (k & u & p & Hk & Hf & H). exists k, u, p, w3.
      split; [exact Hk|]. split; [rewrite Hf; reflexivity|]. unfold define_union in H. apply bind_panic in H.
      destruct H as [H|(? & _ & H)]; [|discriminate]. eapply union_panic. exact H. }
    exfalso. revert H. apply foldM_np. intros k x (p & w') _ _. unfold define_message.
    apply bind_np; [apply message_np|intros (? & ?) _; discriminate].
  - intros [(k & d & p & w' & Hk & H & Hp)|(k & u & p & w' & Hk & H & Hp)];
      apply bind_ok in H; destruct H as (p1 & H1 & H); rewrite H1; cbn [bind];
      apply bind_ok in H; destruct H as (p2 & H2 & H); rewrite H2; cbn [bind];
      apply bind_ok in H; destruct H as ((p3 & w3) & H3 & H).
    + cbn in H. inversion H; subst. apply bind_panic. left. apply foldM_panic. exists k, d, (p, w').
      split; [exact Hk|]. split; [exact H3|]. unfold define_struct. apply bind_panic. left. apply structure_panic. exact Hp.
    + rewrite H3. cbn [bind]. apply bind_ok in H. destruct H as (p4 & H4 & H). cbn in H. inversion H; subst.
      apply bind_panic. left. apply foldM_panic. exists k, u, p. split; [exact Hk|]. split; [exact H4|].
      unfold define_union. apply bind_panic. left. apply union_panic. exact Hp.
Qed.
