(** Proofs for C76: which error the compiler reports. *)

From Coq Require Import Arith NArith ZArith Ascii String List Bool Lia ZifyBool ZifyN ZifyNat.
From Verif Require Import Base Schema Compiler SpecStruct SpecComp SpecCase SpecItems SpecPanic SpecAccept SpecError.
From Verif Require Import BitsFacts StructFacts CompFacts CompThms CaseThms PanicThms AcceptThms.
Import ListNotations.
Local Open Scope N_scope.

Lemma bind_err : forall {E A B} (x : outcome E A) (f : A -> outcome E B) e,
  bind x f = Err e <-> x = Err e \/ exists a, x = Ok a /\ f a = Err e.
Proof.
  intros E A B x f e. destruct x as [a|e'|]; cbn.
  - split; [intro H; right; eauto|intros [H|(b & H & Hf)]; [discriminate|inversion H; subst; exact Hf]].
  - split; [intro H; left; congruence|intros [H|(b & H & _)]; [congruence|discriminate]].
  - split; [discriminate|intros [H|(b & H & _)]; discriminate].
Qed.
Lemma usub_ne : forall E m a b e, usub (E:=E) m a b <> Err e.
Proof. intros. unfold usub. destruct (_ <=? _); [discriminate|]. destruct m; discriminate. Qed.
Lemma ushl1_ne : forall E m a e, ushl1 (E:=E) m a <> Err e.
Proof. intros. unfold ushl1. destruct (_ <? _); [discriminate|]. destruct m; discriminate. Qed.
Lemma uadd_ne : forall E m a b e, uadd (E:=E) m a b <> Err e.
Proof. intros. unfold uadd. destruct (_ <? _); [discriminate|]. destruct m; discriminate. Qed.
Lemma umul_ne : forall E m a b e, umul (E:=E) m a b <> Err e.
Proof. intros. unfold umul. destruct (_ <? _); [discriminate|]. destruct m; discriminate. Qed.

Lemma view_err : forall m enums f b e, get_bit_size (sf_info f) = Some b ->
  view_from_model m enums (get_simple_type (sf_info f)) b (sf_view f) = Err e <-> view_error enums f e.
Proof.
  intros m enums f b e Hb. split.
  - intro H. unfold view_from_model in H. destruct (sf_view f) as [[n|lo hi|mu]|] eqn:Ev.
    + destruct (sf_info f) as [x|x|x|x|x] eqn:Ei; cbn in Hb; inversion Hb; subst x; cbn [get_simple_type simple_eqb negb] in H.
      2:{ destruct (sget n enums) eqn:Es; cbn [ok_or bind] in H; inversion H; subst. eapply ve_enum; eassumption. }
      all: inversion H; subst.
      * replace Signed with (get_simple_type (sf_info f)) by (rewrite Ei; reflexivity). eapply ve_not_number; [eassumption|congruence].
      * replace Float with (get_simple_type (sf_info f)) by (rewrite Ei; reflexivity). eapply ve_not_number; [eassumption|congruence].
      * replace Boolean with (get_simple_type (sf_info f)) by (rewrite Ei; reflexivity). eapply ve_not_number; [eassumption|congruence].
    + destruct (simple_eqb (get_simple_type (sf_info f)) Float) eqn:Ef; cbn [negb] in H.
      { exfalso. apply bind_err in H. destruct H as [H|(x & _ & H)]; [exact (ushl1_ne _ _ _ _ H)|].
        apply bind_err in H. destruct H as [H|(y & _ & H)]; [exact (usub_ne _ _ _ _ _ H)|discriminate]. }
      inversion H; subst. eapply ve_not_float; [eassumption|congruence|]. intros x E. rewrite E in Ef. discriminate.
    + destruct (simple_eqb (get_simple_type (sf_info f)) Float) eqn:Ef; cbn [negb] in H; [discriminate|].
      inversion H; subst. eapply ve_not_float; [eassumption|congruence|]. intros x E. rewrite E in Ef. discriminate.
    + destruct (sf_info f) as [x|x|x|x|x] eqn:Ei; cbn in Hb; inversion Hb; subst x; cbn [get_simple_type simple_eqb andb] in H; try discriminate.
      * destruct (_ && _); [|discriminate]. exfalso.
        apply bind_err in H. destruct H as [H|(x & _ & H)]; [exact (usub_ne _ _ _ _ _ H)|].
        apply bind_err in H. destruct H as [H|(y & _ & H)]; [exact (ushl1_ne _ _ _ _ H)|].
        apply bind_err in H. destruct H as [H|(z & _ & H)]; [exact (usub_ne _ _ _ _ _ H)|discriminate].
      * destruct (N.eqb_spec b 32), (N.eqb_spec b 64); cbn [negb andb] in H; inversion H; subst. eapply ve_raw_float; eassumption.
  - intros [n x Hv Hi Hs|n Hv Hi|v Hv Hn Hi|x Hv Hi H32 H64]; unfold view_from_model; rewrite Hv.
    + rewrite Hi. cbn [get_simple_type simple_eqb negb]. rewrite Hs. reflexivity.
    + destruct (sf_info f) as [x|x|x|x|x] eqn:Ei; try reflexivity. exfalso. exact (Hi x eq_refl).
    + destruct v as [n|lo hi|mu]; [exfalso; exact (Hn n eq_refl)| |];
        (destruct (sf_info f) as [x|x|x|x|x] eqn:Ei; try reflexivity; exfalso; exact (Hi x eq_refl)).
    + rewrite Hi in *. cbn in Hb. injection Hb as <-. cbn [get_simple_type simple_eqb andb].
      destruct (N.eqb_spec x 32), (N.eqb_spec x 64); try contradiction. reflexivity.
Qed.

Lemma view_ok_m : forall m enums f b, get_bit_size (sf_info f) = Some b ->
  (exists v, view_from_model m enums (get_simple_type (sf_info f)) b (sf_view f) = Ok v) <->
  view_fits enums f /\ (m = Debug -> ~ view_over f).
Proof.
  intros m enums f b Hb. destruct m.
  - rewrite (view_dbg enums f b Hb). intuition.
  - rewrite (view_rel enums f b Hb). split; [intro H; split; [exact H|discriminate]|tauto].
Qed.
Lemma umul_ok_m : forall m b n, (exists x, umul (E:=cerror) m b n = Ok x /\ x mod 8 = (b * n) mod 8) <-> (m = Debug -> b * n < 2 ^ 64).
Proof.
  intros m b n. destruct m.
  - split.
    + intros (x & H & _) _. apply umul_dbg in H. tauto.
    + intro H. exists (b * n). split; [apply umul_dbg; auto|reflexivity].
  - split; [discriminate|]. intros _. apply umul_rel.
Qed.
Lemma fixed_err : forall f b e, get_bit_size (sf_info f) = Some b ->
  fixed_from_model (sf_info f) = Err e <-> ~ width_fits f /\ e = EUnsupportedBitSize b.
Proof.
  intros f b e Hb. rewrite <- (fixed_cases f b Hb).
  assert (G : forall e, fixed_from_model (sf_info f) = Err e -> e = EUnsupportedBitSize b).
  { clear e. intros e H. unfold fixed_from_model in H. rewrite Hb in H. cbn [ok_or bind] in H.
    destruct (sf_info f) as [x|x|x|x|x]; cbn in Hb; inversion Hb; subst x; cbn [get_simple_type simple_eqb map_numeric ok_or andb] in H;
      repeat match type of H with context [if ?c then _ else _] => destruct c end; try discriminate; congruence. }
  split.
  - intro H. split; [intros (t & Ht); congruence|exact (G e H)].
  - intros (H & ->). destruct (fixed_from_model (sf_info f)) as [t|e|] eqn:E; [exfalso; apply H; eauto|f_equal; exact (G e eq_refl)|].
    exfalso. exact (fixed_not_panic _ E).
Qed.

Lemma field_err : forall m endi enums structs off f e,
  field_from_model m endi enums structs off f = Err e <-> field_error m enums structs f e.
Proof.
  intros m endi enums structs off f e. destruct (get_bit_size (sf_info f)) as [b|] eqn:Hb.
  2:{ unfold field_from_model. destruct (sf_info f) as [x|x|x|x|n] eqn:Ei; try discriminate.
      destruct (sget n structs) as [r|] eqn:Es; cbn [ok_or bind].
      - split.
        + intro H. apply bind_err in H. destruct H as [H|(o & _ & H)]; [exfalso; exact (uadd_ne _ _ _ _ _ H)|discriminate].
        + intros [n' E H|e' H _|b E|b E]; try (rewrite Ei in E; cbn in E; congruence). exfalso; exact (H n Ei).
      - split.
        + intro H. inversion H; subst. apply fe_reference; assumption.
        + intros [n' E H|e' H _|b E|b E]; try (rewrite Ei in E; cbn in E; congruence). exfalso; exact (H n Ei). }
  assert (E : field_from_model m endi enums structs off f =
    (view <- view_from_model m enums (get_simple_type (sf_info f)) b (sf_view f) ;;
     bit_size <- umul m b (items_of f) ;;
     ty <- fixed_from_model (sf_info f) ;;
     let loc := location_from_model bit_size off in
     if 1 <? items_of f then
        if negb (bit_size mod 8 =? 0) then Err EUnalignedArrayCodec
        else
          o <- uadd m off bit_size ;;
          Ok (FArray {| fa_name := sf_name f; fa_ty := ty; fa_array_len := items_of f;
                        fa_loc := loc; fa_endianness := endi |}, o)
      else
        o <- uadd m off bit_size ;;
        Ok (FFixed {| ff_name := sf_name f; ff_ty := ty; ff_loc := loc; ff_view := view;
                      ff_endianness := endi |}, o))).
  { unfold field_from_model, items_of. destruct (sf_info f); cbn in Hb |- *; inversion Hb; subst; reflexivity. }
  assert (NS : forall n, sf_info f <> STStruct n) by (intros n En; rewrite En in Hb; discriminate).
  assert (Rg : ~ view_over f -> range_fits f).
  { intros Ho b' lo hi Eb Ev. destruct (N.lt_ge_cases b' 64); [assumption|]. exfalso. apply Ho. right. eauto 10. }
  assert (Bm : forall x, umul (E:=cerror) m b (items_of f) = Ok x -> (m = Debug -> b * items_of f < 2 ^ 64) /\ x mod 8 = (b * items_of f) mod 8).
  { intros x Hx. destruct m.
    - apply umul_dbg in Hx. destruct Hx as (Hx & ->). auto.
    - split; [discriminate|]. destruct (umul_rel cerror b (items_of f)) as (y & Hy & Hm). rewrite Hx in Hy. congruence. }
  rewrite E. split.
  - intro H. apply bind_err in H. destruct H as [H|(v & Hv & H)].
    { apply fe_view; [exact NS|]. exact (proj1 (view_err m enums f b e Hb) H). }
    destruct (proj1 (view_ok_m m enums f b Hb) (ex_intro _ v Hv)) as (Hf & Ho).
    apply bind_err in H. destruct H as [H|(bs & Hbs & H)]; [exfalso; exact (umul_ne _ _ _ _ _ H)|].
    destruct (Bm bs Hbs) as (Hlt & Hmod).
    apply bind_err in H. destruct H as [H|(t & Ht & H)].
    { apply (fixed_err f b e Hb) in H. destruct H as (Hw & ->). apply fe_width; [exact Hb|exact Hf|exact Hw|].
      intro Hd. split; [|split; [exact (Rg (Ho Hd))|exact (Hlt Hd)]]. intros b' Eb. rewrite Eb in Hb. cbn in Hb. injection Hb as ->.
      apply (Ho Hd). left. exists b. split; [exact Eb|]. split.
      - unfold view_fits in Hf. rewrite Eb in Hf. destruct (sf_view f) as [[?|? ?|?]|]; [contradiction..|reflexivity].
      - destruct (N.eq_dec b 0); [auto|]. right. destruct (N.lt_ge_cases 64 b); [assumption|]. exfalso. apply Hw.
        unfold width_fits. rewrite Eb. exists b. split; [reflexivity|lia]. }
    assert (Hw := proj1 (fixed_cases f b Hb) (ex_intro _ t Ht)). cbv zeta in H.
    destruct (N.ltb_spec 1 (items_of f)).
    2:{ apply bind_err in H. destruct H as [H|(o & _ & H)]; [exfalso; exact (uadd_ne _ _ _ _ _ H)|discriminate]. }
    destruct (N.eqb_spec (bs mod 8) 0); cbn [negb] in H.
    { apply bind_err in H. destruct H as [H|(o & _ & H)]; [exfalso; exact (uadd_ne _ _ _ _ _ H)|discriminate]. }
    inversion H; subst. apply fe_items with b; try assumption; [congruence|]. intro Hd. split; [exact (Rg (Ho Hd))|exact (Hlt Hd)].
  - intros [n En _|e' _ He|b' Hb' Hf Hw Hd|b' Hb' Hf Hw Hi Hm Hd].
    + exfalso. exact (NS n En).
    + rewrite (proj2 (view_err m enums f b e' Hb) He). reflexivity.
    + assert (b' = b) by congruence. subst b'. destruct (proj2 (view_ok_m m enums f b Hb)) as (v & Hv).
      { split; [exact Hf|]. intros Dm [(x & Ex & _)|(x & lo & hi & Ex & Ev & Hx)].
        - exact (proj1 (Hd Dm) x Ex).
        - destruct (Hd Dm) as (_ & Hr & _). specialize (Hr x lo hi Ex Ev). lia. }
      rewrite Hv. cbn [bind]. destruct (proj2 (umul_ok_m m b (items_of f))) as (bs & Hbs & _); [intro Dm; apply (Hd Dm)|].
      rewrite Hbs. cbn [bind]. rewrite (proj2 (fixed_err f b _ Hb) (conj Hw eq_refl)). reflexivity.
    + assert (b' = b) by congruence. subst b'. destruct (proj2 (view_ok_m m enums f b Hb)) as (v & Hv).
      { split; [exact Hf|]. intros Dm [(x & Ex & _ & Hx)|(x & lo & hi & Ex & Ev & Hx)].
        - unfold width_fits in Hw. rewrite Ex in Hw. destruct Hw as (y & Hy & ?). cbn in Hy. injection Hy as <-. lia.
        - destruct (Hd Dm) as (Hr & _). specialize (Hr x lo hi Ex Ev). lia. }
      rewrite Hv. cbn [bind]. destruct (proj2 (umul_ok_m m b (items_of f))) as (bs & Hbs & Hbm); [intro Dm; apply (Hd Dm)|].
      rewrite Hbs. cbn [bind]. destruct (proj2 (fixed_cases f b Hb) Hw) as (t & Ht). rewrite Ht. cbn [bind]. cbv zeta.
      destruct (N.ltb_spec 1 (items_of f)); [|lia]. destruct (N.eqb_spec (bs mod 8) 0); [congruence|]. reflexivity.
Qed.

Lemma fields_err : forall m endi enums structs l off e, fields_from_model m endi enums structs off l = Err e <->
  exists k f r, nth_error l k = Some f /\ fields_from_model m endi enums structs off (firstn k l) = Ok r /\ field_error m enums structs f e.
Proof.
  intros m endi enums structs. induction l as [|d l IH]; intros off e; cbn [fields_from_model].
  - split; [discriminate|]. intros ([|k] & f & r & H & _); discriminate.
  - split.
    + intro H. apply bind_err in H. destruct H as [H|((g & o) & Hg & H)].
      * exists 0%nat, d, ([], off). split; [reflexivity|]. split; [reflexivity|]. exact (proj1 (field_err m endi enums structs off d e) H).
      * apply bind_err in H. destruct H as [H|((fs & o') & _ & H)]; [|discriminate].
        apply IH in H. destruct H as (k & f & (fs & o') & Hk & Hr & Hf). exists (S k), f, (g :: fs, o').
        split; [exact Hk|]. split; [|exact Hf]. cbn [firstn fields_from_model]. rewrite Hg. cbn [bind]. rewrite Hr. reflexivity.
    + intros ([|k] & f & r & Hk & Hr & Hf).
      * cbn in Hk. injection Hk as <-. rewrite (proj2 (field_err m endi enums structs off d e) Hf). reflexivity.
      * cbn [firstn fields_from_model] in Hr. apply bind_ok in Hr. destruct Hr as ((g & o) & Hg & Hr). rewrite Hg. cbn [bind].
        apply bind_ok in Hr. destruct Hr as (r' & Hr' & _). apply bind_err. left. apply IH. eauto 10.
Qed.

Theorem structure_error : forall m endi enums structs id d e,
  structure_from_model m endi enums structs id d = Err e <-> struct_error m enums structs d e.
Proof.
  intros m endi enums structs id d e. unfold struct_error. split.
  - intro H. unfold structure_from_model in H. apply bind_err in H. destruct H as [H|((fs & o) & _ & H)]; [|discriminate].
    apply fields_err in H. destruct H as (k & f & (fs & o) & Hk & Hr & Hf). exists k, f. split; [exact Hk|]. split; [|exact Hf].
    apply (structure_accepted m endi enums structs id). unfold structure_from_model, first_fields. cbn [ss_fields].
    rewrite Hr. cbn [bind]. eauto.
  - intros (k & f & Hk & Ha & Hf). apply (structure_accepted m endi enums structs id) in Ha. destruct Ha as (s & Hs).
    unfold structure_from_model, first_fields in Hs. cbn [ss_fields] in Hs. apply bind_ok in Hs. destruct Hs as (r & Hr & _).
    unfold structure_from_model. apply bind_err. left. apply fields_err. eauto 10.
Qed.

(** * Enums and unions *)

Theorem enum_error : forall d e, enum_from_model d = Err e <-> se_variants d = [] /\ e = EZeroEnum.
Proof.
  intros d e. split.
  - intro H. assert (Hv : se_variants d = []).
    { destruct (se_variants d) as [|x l] eqn:E; [reflexivity|]. exfalso.
      destruct (proj2 (enum_accepted d)) as (en & Hen); [rewrite E; discriminate|congruence]. }
    split; [exact Hv|]. unfold enum_from_model in H. rewrite Hv in H. inversion H. reflexivity.
  - intros (Hv & ->). unfold enum_from_model. rewrite Hv. reflexivity.
Qed.

Lemma walk_err : forall parts s idx root e, disc_walk root s idx parts = Err e <-> stops s parts root e.
Proof.
  induction parts as [|n parts IH]; intros s idx root e; cbn [disc_walk].
  - split; [discriminate|intro H; inversion H].
  - split.
    + intro H. apply bind_err in H. destruct H as [H|((k & f) & Hf & H)].
      * destruct (find_field n 0 (s_fields s)) as [(k & f)|] eqn:E; cbn [ok_or] in H; [discriminate|]. inversion H; subst. constructor.
        intros k f Hk. apply PanicThms.find_field_at in Hk. congruence.
      * apply ok_or_ok in Hf. apply PanicThms.find_field_at in Hf. cbv zeta in H. destruct f as [f|a|name r loc].
        -- discriminate.
        -- inversion H; subst. eapply st_array. exact Hf.
        -- eapply st_more; [exact Hf|]. eapply IH. exact H.
    + intro H. inversion H as [root' n' rest' Hno|root' n' rest' k a Hf|root' n' k name r loc rest' e' Hf Hr]; subst.
      * destruct (find_field n 0 (s_fields s)) as [(k & f)|] eqn:E; cbn [ok_or bind]; [|reflexivity].
        apply PanicThms.find_field_at in E. exfalso. exact (Hno k f E).
      * apply PanicThms.find_field_at in Hf. rewrite Hf. reflexivity.
      * apply PanicThms.find_field_at in Hf. rewrite Hf. cbn [ok_or bind]. apply IH. exact Hr.
Qed.

Lemma case_err : forall structs messages f c e, ucase_from_model structs messages f c = Err e <-> case_error structs messages f c e.
Proof.
  intros structs messages f c e. unfold ucase_from_model. split.
  - intro H. apply bind_err in H. destruct H as [H|(n & Hn & H)].
    + destruct (ff_view f) as [a b x y|en| |mp|] eqn:Ev.
      * inversion H; subst. eapply ce_float. exact Ev.
      * destruct (sget (su_case c) (e_map en)) eqn:Es; cbn [ok_or] in H; [discriminate|]. inversion H; subst.
        apply ce_label; [congruence|]. intros n Hn. apply label_spec in Hn. rewrite Ev, Es in Hn. discriminate.
      * destruct (parse_isize (su_case c)) eqn:Es; cbn [ok_or bind] in H; [discriminate|]. inversion H; subst.
        apply ce_label; [congruence|]. intros n Hn. apply label_spec in Hn. rewrite Ev, Es in Hn. discriminate.
      * destruct (parse_isize (su_case c)) eqn:Es; cbn [ok_or bind] in H; [discriminate|]. inversion H; subst.
        apply ce_label; [congruence|]. intros n Hn. apply label_spec in Hn. rewrite Ev, Es in Hn. discriminate.
      * destruct (parse_usize (su_case c)) eqn:Es; cbn [ok_or bind] in H; [discriminate|]. inversion H; subst.
        apply ce_label; [congruence|]. intros n Hn. apply label_spec in Hn. rewrite Ev, Es in Hn. discriminate.
    + apply label_spec in Hn. apply bind_err in H. destruct H as [H|(r & _ & H)]; [|discriminate].
      destruct (su_item_type c) as [t|] eqn:Et; [|discriminate]. unfold referenced_lookup in H.
      destruct (sget t structs) eqn:E1; cbn [ok_or bind] in H; [discriminate|].
      destruct (sget t messages) eqn:E2; cbn [ok_or bind] in H; [discriminate|]. inversion H; subst. eapply ce_item; eassumption.
  - intros [a b x y Ev|Hv Hno|n t Hn Ht H1 H2].
    + rewrite Ev. reflexivity.
    + assert (G : forall n, ~ (match ff_view f with
          | VFloat _ _ _ _ => Err EFloatInUnionDiscriminant
          | VEnum e => ok_or (sget (su_case c) (e_map e)) (EInvalidUnionCase (su_case c))
          | VTransmute | VSignedCast _ =>
              v <- ok_or (parse_isize (su_case c)) (EInvalidUnionCase (su_case c)) ;; Ok (isize_as_usize v)
          | VNone => ok_or (parse_usize (su_case c)) (EInvalidUnionCase (su_case c))
          end = Ok n)) by (intros n Hn; apply label_spec in Hn; exact (Hno n Hn)).
      destruct (ff_view f) as [a b x y|en| |mp|].
      * exfalso. exact (Hv a b x y eq_refl).
      * destruct (sget (su_case c) (e_map en)) as [n|]; [exfalso; exact (G n eq_refl)|reflexivity].
      * destruct (parse_isize (su_case c)) as [n|]; [exfalso; exact (G _ eq_refl)|reflexivity].
      * destruct (parse_isize (su_case c)) as [n|]; [exfalso; exact (G _ eq_refl)|reflexivity].
      * destruct (parse_usize (su_case c)) as [n|]; [exfalso; exact (G n eq_refl)|reflexivity].
    + apply label_spec in Hn. rewrite Hn. cbn [bind]. rewrite Ht. unfold referenced_lookup. rewrite H1, H2. reflexivity.
Qed.
Lemma leaf_ne : forall d e, get_leaf (E:=cerror) d <> Err e.
Proof. intros d e. unfold get_leaf. destruct (nth_error _ _) as [[?|?|? ? ?]|]; discriminate. Qed.
Lemma ucases_err : forall structs messages d l e, ucases_from_model structs messages d l = Err e <->
  exists f k c, get_leaf (E:=cerror) d = Ok f /\ nth_error l k = Some c /\ Forall (case_accepted structs messages f) (firstn k l) /\
    case_error structs messages f c e.
Proof.
  intros structs messages d l e.
  assert (C : forall f c, (exists x, ucase_from_model structs messages f c = Ok x) <-> case_accepted structs messages f c).
  { intros f c. split.
    - intros (x & H). apply case_spec in H. destruct H as [_ Hc Hi]. split; eauto.
    - intros ((n & Hn) & (r & Hr)). exists (MkUCase (su_name c) n r). apply case_spec. constructor; cbn; auto. }
  destruct (get_leaf (E:=cerror) d) as [f|e'|] eqn:Ef.
  2:{ exfalso. exact (leaf_ne d e' Ef). }
  2:{ split; [|intros (f & k & c & H & _); discriminate]. destruct l; cbn; [discriminate|]. rewrite Ef. discriminate. }
  induction l as [|c l IH].
  - split; [discriminate|]. intros (f' & [|k] & c & _ & H & _); discriminate.
  - cbn [ucases_from_model]. rewrite Ef. cbn [bind]. split.
    + intro H. apply bind_err in H. destruct H as [H|(x & Hx & H)].
      * exists f, 0%nat, c. split; [reflexivity|]. split; [reflexivity|]. split; [constructor|]. apply case_err. exact H.
      * apply bind_err in H. destruct H as [H|(cs & _ & H)]; [|discriminate]. apply IH in H.
        destruct H as (f' & k & c' & E & Hk & HF & Hc). injection E as <-. exists f, (S k), c'. split; [reflexivity|]. split; [exact Hk|].
        split; [|exact Hc]. cbn [firstn]. constructor; [apply C; eauto|exact HF].
    + intros (f' & [|k] & c' & E & Hk & HF & Hc); injection E as <-.
      * cbn in Hk. injection Hk as <-. apply bind_err. left. apply case_err. exact Hc.
      * cbn [firstn] in HF. inversion HF; subst. apply bind_err. right. destruct (proj2 (C f c)) as (x & Hx); [assumption|]. exists x. split; [exact Hx|].
        apply bind_err. left. apply IH. exists f, k, c'. auto.
Qed.

Theorem union_err : forall structs messages u e,
  union_from_model structs messages u = Err e <-> union_error structs messages u e.
Proof.
  intros structs messages u e. split.
  - intro H. unfold union_from_model in H. apply bind_err in H.
    destruct (split_dot (sun_discriminant u)) as (n & parts) eqn:Es. destruct (split_dot_spec _ _ _ Es) as (Hj & Hn).
    unfold disc_from_model in H. rewrite Es in H. destruct H as [H|(d & Hd & H)].
    + destruct (sget n structs) as [root|] eqn:Er; cbn [ok_or bind] in H.
      2:{ inversion H; subst. eapply ue_root; eassumption. }
      apply bind_err in H. destruct H as [H|((leaf & idx) & _ & H)].
      * apply walk_err in H. eapply ue_path; eassumption.
      * apply bind_err in H. destruct H as [H|(li & _ & H)]; [|discriminate]. destruct (last (map Some idx) None); discriminate.
    + apply bind_err in H. destruct H as [H|(cs & _ & H)]; [|discriminate].
      apply bind_ok in Hd. destruct Hd as (root & Hr & Hd). apply ok_or_ok in Hr.
      apply bind_ok in Hd. destruct Hd as ((leaf & idx) & Hw & Hd). apply bind_ok in Hd. destruct Hd as (li & Hl & Hd).
      inversion Hd; subst d. clear Hd. apply ucases_err in H. destruct H as (f & k & c & Hf & Hk & HF & Hc).
      apply get_leaf_ok in Hf. cbn in Hf. apply ue_case with n parts root f k c; try assumption.
      destruct (walk_taken _ _ _ _ _ _ Hw) as [(-> & ->)|[(j & Hj' & Hi)|(used & ign & path & g & j & -> & Hg & Hi & Hfg)]].
      * discriminate.
      * rewrite Hi in Hl. injection Hl as <-. right. eauto.
      * rewrite Hi in Hl. injection Hl as <-. rewrite Hfg in Hf. injection Hf as <-. left. eauto 10.
  - intros [n parts Hj Hn Hr|n parts root e' Hj Hn Hr Hs|n parts root f k c e' Hj Hn Hr Ht Hk HF Hc];
      unfold union_from_model, disc_from_model; rewrite (split_dot_unique _ _ _ Hj Hn), Hr; cbn [ok_or bind].
    + reflexivity.
    + rewrite (proj2 (walk_err parts root [] n e') Hs). reflexivity.
    + assert (G : exists leaf idx j, disc_walk n root [] parts = Ok (leaf, idx) /\ last (map Some idx) None = Some j /\
        nth_error (s_fields leaf) j = Some (FFixed f)).
      { destruct Ht as [(used & ign & path & -> & Hf)|(j & r & Hl & Hf)].
        - destruct (scalar_walk _ _ _ _ Hf n [] ign) as (leaf & idx & j & Hw & Hi & Hg). exists leaf, idx, j. auto.
        - destruct (leads_walk _ _ _ _ Hl n []) as (idx & Hw & Hi). exists r, idx, j. auto. }
      destruct G as (leaf & idx & j & Hw & Hi & Hg). rewrite Hw. cbn [bind]. rewrite Hi. cbn [unwrap bind].
      apply bind_err. left. apply ucases_err. exists f, k, c. split; [apply get_leaf_ok; exact Hg|]. auto.
Qed.

(** * Messages *)

Inductive plain_error (env : proto_env) (before : list smfield) (v : smfield) : cerror -> Prop :=
| pl_item : forall n, (smf_info v = MTItem n \/ exists len, smf_info v = MTList len n) ->
    sget n (pe_structs env) = None -> sget n (pe_messages env) = None -> plain_error env before v (EUndefinedReference n)
| pl_on : forall on n, smf_info v = MTUnion on n -> (forall j w, ~ first_member on before j w) ->
    plain_error env before v (EUndefinedReference on)
| pl_union : forall on n j w, smf_info v = MTUnion on n -> first_member on before j w -> sget n (pe_unions env) = None ->
    plain_error env before v (EUndefinedReference n)
| pl_mismatch : forall on n j w u, smf_info v = MTUnion on n -> first_member on before j w -> sget n (pe_unions env) = Some u ->
    (forall t s, smf_info w = MTItem t -> sget t (pe_structs env) = Some s -> ~ bare s -> s_id s <> s_id (d_root (u_disc u))) ->
    plain_error env before v EUnionTypeMismatch.
Lemma member_split : forall env before v e, member_error env before v e <->
  plain_error env before v e \/
  (e = EVarsizeAfterPayload /\ told_apart env before v /\ open_in env before /\
   exists y, member_size env v = Some y /\ (is_dyn_sized y = true \/ is_element_dyn_sized y = true)).
Proof.
  intros env before v e. split.
  - intros [n H1 H2 H3|on n H1 H2|on n j w H1 H2 H3|on n j w u H1 H2 H3 H4|x z y H1 H2 H3 H4 H5 H6].
    + left. eapply pl_item; eassumption.
    + left. eapply pl_on; eassumption.
    + left. eapply pl_union; eassumption.
    + left. eapply pl_mismatch; eassumption.
    + right. split; [reflexivity|]. split; [exact H4|]. split; [exists x, z; auto|eauto].
  - intros [[n H1 H2 H3|on n H1 H2|on n j w H1 H2 H3|on n j w u H1 H2 H3 H4]|(-> & Ht & (x & z & H1 & H2 & H3) & y & Hy & Hd)].
    + eapply me_item; eassumption.
    + eapply me_on; eassumption.
    + eapply me_union; eassumption.
    + eapply me_mismatch; eassumption.
    + eapply me_behind; eassumption.
Qed.

Lemma find_first : forall env pre fs on j g, Forall2 (built env) pre fs -> find_mfield on 0 fs = Some (j, g) ->
  exists w, first_member on pre j w /\ built env w g /\ nth_error fs j = Some g.
Proof.
  intros env pre fs on j g HF H. apply find_mfield_iff in H. destruct H as (_ & Hk & Hn & Hb). rewrite Nat.sub_0_r in Hk.
  destruct (F2_nth_r _ _ _ _ _ HF Hk) as (w & Hw & Hbw). exists w. split; [|auto]. split; [exact Hw|].
  split; [destruct Hbw; congruence|]. intros i x Hi Hx. destruct (F2_nth_l _ _ _ _ _ HF Hx) as (y & Hy & Hny & _).
  rewrite <- Hny. apply (Hb i y); [lia|]. rewrite Nat.sub_0_r. exact Hy.
Qed.
Lemma first_find : forall env pre fs on j w, Forall2 (built env) pre fs -> first_member on pre j w ->
  exists g, find_mfield on 0 fs = Some (j, g) /\ built env w g.
Proof.
  intros env pre fs on j w HF (Hj & Hn & Hb). destruct (F2_nth_l _ _ _ _ _ HF Hj) as (g & Hg & Hbg). exists g. split; [|exact Hbg].
  apply find_mfield_iff. rewrite Nat.sub_0_r. split; [lia|]. split; [exact Hg|]. split; [destruct Hbg; congruence|].
  intros i y Hi Hy. rewrite Nat.sub_0_r in Hy. destruct (F2_nth_r _ _ _ _ _ HF Hy) as (x & Hx & Hnx & _).
  rewrite Hnx. apply (Hb i x); [lia|exact Hx].
Qed.

Lemma mfield_err : forall env pre fs v e, Forall2 (built env) pre fs ->
  mfield_from_model env fs v = Err e <-> plain_error env pre v e.
Proof.
  intros env pre fs v e HF. unfold mfield_from_model, referenced_lookup. split.
  - intro H. destruct (smf_info v) as [n|len n|o| |on n] eqn:Ei.
    + destruct (sget n (pe_structs env)) as [s|] eqn:Es; cbn [ok_or bind] in H; [destruct (flattened s); discriminate|].
      destruct (sget n (pe_messages env)) eqn:Em; cbn [ok_or bind] in H; [discriminate|]. inversion H; subst. eapply pl_item; eauto.
    + destruct (max_value_ok len) as (ty & Hty). rewrite Hty in H.
      destruct (sget n (pe_structs env)) as [s|] eqn:Es; cbn [ok_or bind] in H; [discriminate|].
      destruct (sget n (pe_messages env)) eqn:Em; cbn [ok_or bind] in H; [discriminate|]. inversion H; subst. eapply pl_item; eauto.
    + destruct o as [len|]; [destruct (max_value_ok len) as (ty & Hty); rewrite Hty in H|]; discriminate.
    + discriminate.
    + destruct (find_mfield on 0 fs) as [(j & g)|] eqn:Ef; cbn [ok_or bind] in H.
      2:{ inversion H; subst. eapply pl_on; [exact Ei|]. intros j w Hw. destruct (first_find _ _ _ _ _ _ HF Hw) as (g & Hg & _). congruence. }
      destruct (find_first _ _ _ _ _ _ HF Ef) as (w & Hw & (_ & _ & Hty) & _).
      destruct (sget n (pe_unions env)) as [u|] eqn:Eu; cbn [ok_or bind] in H; [|inversion H; subst; eapply pl_union; eassumption].
      assert (e = EUnionTypeMismatch /\ forall s, mf_ty g = TRef (RStruct s) -> s_id s <> s_id (d_root (u_disc u))) as (-> & Hs).
      { destruct (mf_ty g) as [|[s|]| | | | | |]; try (inversion H; subst; split; [reflexivity|discriminate]).
        destruct (N.eqb_spec (s_id (d_root (u_disc u))) (s_id s)); [discriminate|]. inversion H; subst. split; [reflexivity|]. intros s' Es'. congruence. }
      eapply pl_mismatch; try eassumption. intros t s Et Hts Hbare. apply Hs. apply Hty. eauto.
  - intros [n [H1|(len & H1)] H2 H3|on n H1 H2|on n j w H1 H2 H3|on n j w u H1 H2 H3 H4]; rewrite H1.
    + rewrite H2, H3. reflexivity.
    + rewrite H2, H3. reflexivity.
    + destruct (find_mfield on 0 fs) as [(j & g)|] eqn:Ef; [|reflexivity]. exfalso.
      destruct (find_first _ _ _ _ _ _ HF Ef) as (w & Hw & _). exact (H2 j w Hw).
    + destruct (first_find _ _ _ _ _ _ HF H2) as (g & Hg & _). rewrite Hg, H3. reflexivity.
    + destruct (first_find _ _ _ _ _ _ HF H2) as (g & Hg & _ & _ & Hty). rewrite Hg, H3. cbn [ok_or bind].
      destruct (mf_ty g) as [|[s|]| | | | | |] eqn:Et; try reflexivity.
      destruct (N.eqb_spec (s_id (d_root (u_disc u))) (s_id s)) as [E|]; [|reflexivity]. exfalso.
      destruct (proj1 (Hty s) eq_refl) as (t & H5 & H6 & H7). exact (H4 t s H5 H6 H7 (eq_sym E)).
Qed.

Lemma step_inv : forall env pre fs dc v f mk, Forall2 (built env) pre fs -> dc <= 1 -> (0 < dc <-> open_in env pre) ->
  mfield_from_model env fs v = Ok (f, mk) ->
  (open_in env pre -> is_dyn_sized (mf_size f) = false /\ is_element_dyn_sized (mf_size f) = false) ->
  let dc' := if is_element_dyn_sized (mf_size f) then dc + 1 else dc in
  Forall2 (built env) (pre ++ [v]) (fs ++ [f]) /\ dc' <= 1 /\ (0 < dc' <-> open_in env (pre ++ [v])).
Proof.
  intros env pre fs dc v f mk HF Hdc Hop Hf Ho dc'.
  assert (Hb := mfield_built _ _ _ _ _ Hf). split; [apply Forall2_app; [exact HF|constructor; [exact Hb|constructor]]|].
  destruct Hb as (_ & Hz & _).
  assert (Hdc' : dc' <= 1).
  { subst dc'. destruct (is_element_dyn_sized (mf_size f)) eqn:Ee; [|exact Hdc].
    assert (dc = 0); [|lia]. destruct (N.eq_dec dc 0); [assumption|]. exfalso.
    destruct Ho as (_ & Hc); [apply Hop; lia|congruence]. }
  split; [exact Hdc'|]. subst dc'. split.
  - intro Hlt. destruct (is_element_dyn_sized (mf_size f)) eqn:Ee.
    + exists v, (mf_size f). rewrite in_app_iff. cbn. auto.
    + apply Hop in Hlt. destruct Hlt as (v' & z' & Hi & Hz' & He). exists v', z'. rewrite in_app_iff. auto.
  - intros (v' & z' & Hi & Hz' & He). apply in_app_iff in Hi. destruct Hi as [Hi|[<-|[]]].
    + assert (0 < dc) by (apply Hop; unfold open_in; eauto). destruct (is_element_dyn_sized (mf_size f)); lia.
    + assert (z' = mf_size f) by congruence. subst. rewrite He. lia.
Qed.

Lemma mfields_err : forall env l pre fs dc dyn marks e, Forall2 (built env) pre fs -> dc <= 1 -> (0 < dc <-> open_in env pre) ->
  mfields_from_model env fs dc dyn marks l = Err e <->
  exists k v, nth_error l k = Some v /\ (forall j x, (j < k)%nat -> nth_error l j = Some x -> next_ok env (pre ++ firstn j l) x) /\
    member_error env (pre ++ firstn k l) v e.
Proof.
  intros env. induction l as [|v l IH]; intros pre fs dc dyn marks e HF Hdc Hop; cbn [mfields_from_model].
  - split; [discriminate|]. intros ([|k] & v & H & _); discriminate.
  - destruct (mfield_from_model env fs v) as [(f & mk)|e'|] eqn:Ef; cbn [bind]; cbv zeta.
    2:{ assert (Hp := proj1 (mfield_err env pre fs v e' HF) Ef). split.
        - intro H. inversion H; subst e'. exists 0%nat, v. split; [reflexivity|]. split; [lia|]. cbn [firstn]. rewrite app_nil_r.
          apply member_split. auto.
        - intros ([|k] & w & Hk & Hb & He).
          + cbn in Hk. injection Hk as <-. cbn [firstn] in He. rewrite app_nil_r in He. apply member_split in He.
            destruct He as [He|(_ & Ht & _ & y & Hy & _)].
            * apply (proj2 (mfield_err env pre fs v e HF)) in He. congruence.
            * exfalso. destruct (proj2 (mfield_accept env pre fs v HF)) as (r & Hr); [eauto|congruence].
          + exfalso. specialize (Hb 0%nat v ltac:(lia) eq_refl). cbn [firstn] in Hb. rewrite app_nil_r in Hb. destruct Hb as (Hz & Ht & _).
            destruct (proj2 (mfield_accept env pre fs v HF) (conj Hz Ht)) as (r & Hr). congruence. }
    2:{ exfalso. exact (mfield_np _ _ _ Ef). }
    destruct (mfield_built _ _ _ _ _ Ef) as (_ & Hsz & _).
    destruct (proj1 (mfield_accept env pre fs v HF) (ex_intro _ _ Ef)) as (_ & Ht).
    destruct ((0 <? dc) && (is_dyn_sized (mf_size f) || is_element_dyn_sized (mf_size f))) eqn:E1.
    + apply andb_true_iff in E1. destruct E1 as (E1 & E2). apply N.ltb_lt in E1. apply Hop in E1. apply orb_true_iff in E2. split.
      * intro H. inversion H; subst e. exists 0%nat, v. split; [reflexivity|]. split; [lia|]. cbn [firstn]. rewrite app_nil_r.
        apply member_split. right. split; [reflexivity|]. split; [exact Ht|]. split; [exact E1|]. eauto.
      * intros ([|k] & w & Hk & Hb & He).
        -- cbn in Hk. injection Hk as <-. cbn [firstn] in He. rewrite app_nil_r in He. apply member_split in He.
           destruct He as [He|(-> & _)]; [|reflexivity]. apply (proj2 (mfield_err env pre fs v e HF)) in He. congruence.
        -- exfalso. specialize (Hb 0%nat v ltac:(lia) eq_refl). cbn [firstn] in Hb. rewrite app_nil_r in Hb. destruct Hb as (_ & _ & Ho).
           destruct (Ho E1 _ Hsz). destruct E2; congruence.
    + assert (Ho : open_in env pre -> is_dyn_sized (mf_size f) = false /\ is_element_dyn_sized (mf_size f) = false).
      { intro Ho. apply Hop in Ho. apply N.ltb_lt in Ho. rewrite Ho in E1. cbn [andb] in E1. apply orb_false_iff in E1. exact E1. }
      destruct (step_inv env pre fs dc v f mk HF Hdc Hop Ef Ho) as (HF' & Hdc' & Hop'). cbv zeta in Hdc', Hop'.
      destruct (N.ltb_spec 1 (if is_element_dyn_sized (mf_size f) then dc + 1 else dc)); [lia|].
      rewrite (IH _ _ _ _ _ e HF' Hdc' Hop'). clear IH. split.
      * intros (k & w & Hk & Hb & He). exists (S k), w. split; [exact Hk|]. split; [|cbn [firstn]; rewrite <- app_assoc in He; exact He].
        intros [|j] x Hj Hx.
        -- cbn in Hx. injection Hx as <-. cbn [firstn]. rewrite app_nil_r. split; [eauto|]. split; [exact Ht|].
           intros Hop2 y Hy. assert (y = mf_size f) by congruence. subst. auto.
        -- cbn [firstn]. assert (G := Hb j x ltac:(lia) Hx). rewrite <- app_assoc in G. exact G.
      * intros ([|k] & w & Hk & Hb & He).
        -- exfalso. cbn in Hk. injection Hk as <-. cbn [firstn] in He. rewrite app_nil_r in He. apply member_split in He.
           destruct He as [He|(_ & _ & Hopn & y & Hy & Hd)].
           ++ apply (proj2 (mfield_err env pre fs v e HF)) in He. congruence.
           ++ assert (y = mf_size f) by congruence. subst. destruct (Ho Hopn). destruct Hd; congruence.
        -- exists k, w. split; [exact Hk|]. cbn [firstn] in He. rewrite <- app_assoc. split; [|exact He].
           intros j x Hj Hx. rewrite <- app_assoc. exact (Hb (S j) x ltac:(lia) Hx).
Qed.

Lemma prefix_next : forall env l, (forall j v, nth_error l j = Some v -> next_ok env (firstn j l) v) <->
  exists r, mfields_from_model env [] 0 false [] l = Ok r.
Proof.
  intros env l. symmetry. apply (mfields_accept env l [] [] 0 false []); [constructor|lia|].
  split; [lia|]. intros (v & z & [] & _).
Qed.
Lemma accepted_next : forall env d, message_accepted env d <-> forall j v, nth_error (sm_fields d) j = Some v ->
  next_ok env (firstn j (sm_fields d)) v.
Proof.
  intros env d. rewrite prefix_next, <- (message_accept env 0). unfold message_from_model. split.
  - intros (x & mk & H). apply bind_ok in H. destruct H as (r & H & _). eauto.
  - intros ((((fs & dc) & dyn) & mk) & H). rewrite H. cbn [bind]. eauto.
Qed.

Theorem message_err : forall env id d e, message_from_model env id d = Err e <-> message_error env d e.
Proof.
  intros env id d e. unfold message_error.
  assert (Ex : message_from_model env id d = Err e <-> mfields_from_model env [] 0 false [] (sm_fields d) = Err e).
  { unfold message_from_model. split.
    - intro H. apply bind_err in H. destruct H as [H|((((fs & dc) & dyn) & mk) & _ & H)]; [exact H|discriminate].
    - intro H. rewrite H. reflexivity. }
  rewrite Ex. rewrite (mfields_err env (sm_fields d) [] [] 0 false []); [|constructor|lia|split; [lia|intros (v & z & [] & _)]].
  cbn [app]. split.
  - intros (k & v & Hk & Hb & He). exists k, v. split; [exact Hk|]. split; [|exact He]. apply accepted_next. cbn [first_members sm_fields].
    intros j x Hx. assert (Hj : (j < k)%nat).
    { assert (j < length (firstn k (sm_fields d)))%nat by (apply nth_error_Some; congruence). rewrite firstn_length in *. lia. }
    rewrite firstn_nth_lt in Hx by exact Hj. rewrite firstn_firstn. replace (Nat.min j k) with j by lia. exact (Hb j x Hj Hx).
  - intros (k & v & Hk & Ha & He). exists k, v. split; [exact Hk|]. split; [|exact He]. intros j x Hj Hx.
    apply accepted_next with (j := j) (v := x) in Ha.
    + cbn [first_members sm_fields] in Ha. rewrite firstn_firstn in Ha. replace (Nat.min j k) with j in Ha by lia. exact Ha.
    + cbn [first_members sm_fields]. rewrite firstn_nth_lt by exact Hj. exact Hx.
Qed.

(** * Protocols *)

Theorem import_err : forall solver p v e, import_one solver p v = Err e <-> import_error solver v e.
Proof.
  intros solver p v e. unfold import_one. cbv zeta. split.
  - intro H. destruct (r_protocol solver (si_protocol v)) as [r|] eqn:Er; cbn [ok_or bind] in H; [|inversion H; subst; constructor; exact Er].
    destruct (sget (si_type v) (p_structs_by_name r)) eqn:E1; [|destruct (sget (si_type v) (p_enums_by_name r)) eqn:E2;
      [|destruct (sget (si_type v) (p_unions_by_name r)) eqn:E3; [|destruct (sget (si_type v) (p_messages_by_name r)) eqn:E4]]]; cbn [ok_or bind] in H.
    5:{ inversion H; subst. eapply ie_type; eassumption. }
    all: destruct (r_path solver (si_protocol v) (si_type v)) eqn:Ep; cbn [ok_or bind] in H; [discriminate|];
      inversion H; subst; eapply ie_path; eauto 6.
  - intros [H|r H H1 H2 H3 H4|r H Hp Hs]; rewrite H; cbn [ok_or bind]; [reflexivity|rewrite H1, H2, H3, H4; reflexivity|].
    rewrite Hp. cbn [ok_or bind]. destruct (sget (si_type v) (p_structs_by_name r)); [reflexivity|].
    destruct (sget (si_type v) (p_enums_by_name r)); [reflexivity|]. destruct (sget (si_type v) (p_unions_by_name r)); [reflexivity|].
    destruct (sget (si_type v) (p_messages_by_name r)); [reflexivity|]. destruct Hs as [(? & ?)|[(? & ?)|[(? & ?)|(? & ?)]]]; discriminate.
Qed.

Lemma foldM_err : forall {E A St} (f : St -> A -> outcome E St) l s e, foldM f s l = Err e <->
  exists k x s1, nth_error l k = Some x /\ foldM f s (firstn k l) = Ok s1 /\ f s1 x = Err e.
Proof.
  intros E A St f. induction l as [|x l IH]; intros s e; cbn [foldM].
  - split; [discriminate|]. intros (k & x & s1 & H & _). destruct k; discriminate.
  - split.
    + intro H. apply bind_err in H. destruct H as [H|(s1 & H1 & H)].
      * exists 0%nat, x, s. auto.
      * apply IH in H. destruct H as (k & y & s2 & Hk & H2 & H). exists (S k), y, s2. split; [exact Hk|].
        split; [|exact H]. cbn. rewrite H1. exact H2.
    + intros ([|k] & y & s2 & Hk & H2 & H).
      * cbn in Hk, H2. inversion Hk; subst. inversion H2; subst. apply bind_err. auto.
      * cbn in H2. apply bind_ok in H2. destruct H2 as (s1 & H1 & H2). apply bind_err. right. exists s1. split; [exact H1|].
        apply IH. eauto 10.
Qed.

Theorem protocol_err : forall m solver w v e, protocol_from_model m solver w v = Err e <->
  (exists k i, nth_error (sp_imports v) k = Some i /\ Forall (import_accepted solver) (firstn k (sp_imports v)) /\
     import_error solver i e) \/
  (Forall (import_accepted solver) (sp_imports v) /\ e = EZeroEnum /\ exists d, In d (sp_enums v) /\ se_variants d = []) \/
  (exists k d p w', nth_error (sp_structs v) k = Some d /\ protocol_from_model m solver w (only_structs k v) = Ok (p, w') /\
     struct_error m (p_enums_by_name p) (p_structs_by_name p) d e) \/
  (exists k u p w', nth_error (sp_unions v) k = Some u /\ protocol_from_model m solver w (only_unions k v) = Ok (p, w') /\
     union_error (p_structs_by_name p) (p_messages_by_name p) u e) \/
  (exists k d p w', nth_error (sp_messages v) k = Some d /\ protocol_from_model m solver w (only_messages k v) = Ok (p, w') /\
     message_error {| pe_endianness := p_endianness p; pe_structs := p_structs_by_name p;
        pe_messages := p_messages_by_name p; pe_unions := p_unions_by_name p |} d e).
Proof.
  intros m solver w v e.
  assert (Im : forall l, (exists p, foldM (import_one solver) (protocol_empty (sp_name v)) l = Ok p) <-> Forall (import_accepted solver) l).
  { intro l. apply foldM_all. apply import_accept. }
  assert (En : forall p l, (exists p2, foldM define_enum p l = Ok p2) <-> Forall (fun d => se_variants d <> []) l).
  { intros p l. apply foldM_all. intros q d. rewrite <- enum_accepted. unfold define_enum. split.
    - intros (q' & H). apply bind_ok in H. destruct H as (en & H & _). eauto.
    - intros (en & H). rewrite H. cbn [bind]. eauto. }
  unfold protocol_from_model, only_structs, only_unions, only_messages.
  cbn [sp_name sp_imports sp_enums sp_structs sp_unions sp_messages].
  split.
  - intro H. apply bind_err in H. destruct H as [H|(p1 & H1 & H)].
    { left. apply foldM_err in H. destruct H as (k & i & q & Hk & Hq & H). exists k, i. split; [exact Hk|].
      split; [apply Im; eauto|]. exact (proj1 (import_err _ _ _ _) H). }
    right. rewrite H1. cbn [bind]. apply bind_err in H. destruct H as [H|(p2 & H2 & H)].
    { left. split; [apply Im; eauto|]. apply foldM_err in H. destruct H as (k & d & q & Hk & _ & H).
      unfold define_enum in H. apply bind_err in H. destruct H as [H|(x & _ & H)]; [|discriminate].
      apply enum_error in H. destruct H as (Hd & ->). split; [reflexivity|]. exists d. split; [eapply nth_error_In; exact Hk|exact Hd]. }
    right. rewrite H2. cbn [bind].
    apply bind_err in H. destruct H as [H|((p3 & w3) & H3 & H)].
    { left. apply foldM_err in H. destruct H as (k & d & (p & w') & Hk & Hf & H). exists k, d, p, w'.
      split; [exact Hk|]. split; [rewrite Hf; reflexivity|]. unfold define_struct in H. apply bind_err in H.
      destruct H as [H|(? & _ & H)]; [|discriminate]. eapply structure_error. exact H. }
    right. rewrite H3. cbn [bind].
    apply bind_err in H. destruct H as [H|(p4 & H4 & H)].
    { left. apply foldM_err in H. destruct H as (k & u & p & Hk & Hf & H). exists k, u, p, w3.
      split; [exact Hk|]. split; [rewrite Hf; reflexivity|]. unfold define_union in H. apply bind_err in H.
      destruct H as [H|(? & _ & H)]; [|discriminate]. eapply union_err. exact H. }
    right. rewrite H4. cbn [bind]. apply foldM_err in H. destruct H as (k & d & (p & w') & Hk & Hf & H). exists k, d, p, w'.
    split; [exact Hk|]. split; [exact Hf|]. unfold define_message in H. apply bind_err in H.
    destruct H as [H|((? & ?) & _ & H)]; [|discriminate]. eapply message_err. exact H.
  - intros [(k & i & Hk & Ha & He)|[(Ha & -> & d & Hd & Hv)|[(k & d & p & w' & Hk & H & Hp)|[(k & u & p & w' & Hk & H & Hp)|(k & d & p & w' & Hk & H & Hp)]]]].
    + apply bind_err. left. apply foldM_err. apply Im in Ha. destruct Ha as (q & Hq). exists k, i, q. split; [exact Hk|].
      split; [exact Hq|]. apply import_err. exact He.
    + apply Im in Ha. destruct Ha as (p1 & ->). cbn [bind]. apply bind_err. left.
      destruct (foldM define_enum p1 (sp_enums v)) as [p2|e'|] eqn:E.
      * exfalso. assert (HF := proj1 (En p1 _) (ex_intro _ p2 E)). rewrite Forall_forall in HF. exact (HF d Hd Hv).
      * apply foldM_err in E. destruct E as (k & d' & q & Hk & _ & H).
        unfold define_enum in H. apply bind_err in H. destruct H as [H|(x & _ & H)]; [|discriminate].
        apply enum_error in H. destruct H as (_ & ->). reflexivity.
      * exfalso. revert E. apply foldM_np. intros k x s _ _. unfold define_enum. apply bind_np; [apply enum_np|intros; discriminate].
    + apply bind_ok in H. destruct H as (p1 & H1 & H). rewrite H1. cbn [bind].
      apply bind_ok in H. destruct H as (p2 & H2 & H). rewrite H2. cbn [bind].
      apply bind_ok in H. destruct H as ((p3 & w3) & H3 & H). cbn in H. inversion H; subst.
      apply bind_err. left. apply foldM_err. exists k, d, (p, w'). split; [exact Hk|]. split; [exact H3|].
      unfold define_struct. apply bind_err. left. apply structure_error. exact Hp.
    + apply bind_ok in H. destruct H as (p1 & H1 & H). rewrite H1. cbn [bind].
      apply bind_ok in H. destruct H as (p2 & H2 & H). rewrite H2. cbn [bind].
      apply bind_ok in H. destruct H as ((p3 & w3) & H3 & H). rewrite H3. cbn [bind].
      apply bind_ok in H. destruct H as (p4 & H4 & H). cbn in H. inversion H; subst.
      apply bind_err. left. apply foldM_err. exists k, u, p. split; [exact Hk|]. split; [exact H4|].
      unfold define_union. apply bind_err. left. apply union_err. exact Hp.
    + apply bind_ok in H. destruct H as (p1 & H1 & H). rewrite H1. cbn [bind].
      apply bind_ok in H. destruct H as (p2 & H2 & H). rewrite H2. cbn [bind].
      apply bind_ok in H. destruct H as ((p3 & w3) & H3 & H). rewrite H3. cbn [bind].
      apply bind_ok in H. destruct H as (p4 & H4 & H). rewrite H4. cbn [bind].
      apply foldM_err. exists k, d, (p, w'). split; [exact Hk|]. split; [exact H|].
      unfold define_message. apply bind_err. left. apply message_err. exact Hp.
Qed.

Theorem never_reported : forall m solver w v e, protocol_from_model m solver w v = Err e ->
  e <> EMultiPayload /\ e <> EMissingBitSize /\ (forall t, e <> EUnsupportedType t) /\
  (forall b, e = EUnsupportedBitSize b -> b = 0 \/ 64 < b).
Proof.
  intros m solver w v e H. apply protocol_err in H.
  destruct H as [(k & i & _ & _ & He)|[(_ & -> & _)|[(k & d & p & w' & _ & _ & (j & f & _ & _ & Hp))|
    [(k & u & p & w' & _ & _ & Hp)|(k & d & p & w' & _ & _ & (j & x & _ & _ & Hp))]]]].
  - inversion He; subst; repeat split; congruence.
  - repeat split; congruence.
  - inversion Hp as [n H1 H2|e' H1 H2|b Hb Hf Hw _|b Hb Hf Hw]; subst; try (repeat split; congruence).
    + inversion H2; subst; repeat split; congruence.
    + repeat split; try congruence. intros b' E. injection E as <-. unfold width_fits in Hw.
      destruct (N.eq_dec b 0); [auto|]. right. destruct (N.lt_ge_cases 64 b); [assumption|]. exfalso. apply Hw.
      destruct (sf_info f); cbn in Hb |- *; try (exists b; split; [exact Hb|lia]). exact I.
  - inversion Hp as [n parts _ _ _|n parts root e' _ _ _ Hs|n parts root f k' c e' _ _ _ _ _ _ Hc]; subst.
    + repeat split; congruence.
    + clear Hp. induction Hs; try (repeat split; congruence). exact IHHs.
    + inversion Hc; subst; repeat split; congruence.
  - inversion Hp; subst; repeat split; congruence.
Qed.
