(** Proofs of the properties of the schema compiler (C14-C21). *)

From Coq Require Import Arith NArith ZArith Ascii String List Bool Lia ZifyBool ZifyN ZifyNat.
From Verif Require Import Base Schema Compiler SpecComp SpecStruct StructFacts StructThms ViewThms ArrayThms
  EnumThms CompFacts.
Import ListNotations.
Local Open Scope N_scope.

(** ** C14 *)

Lemma endianness_ignored : forall m solver w v e,
  protocol_from_model m solver w (with_endianness e v) = protocol_from_model m solver w v.
Proof. reflexivity. Qed.

Lemma field_from_model_endi : forall m endi enums structs o1 df f o2,
  field_from_model m endi enums structs o1 df = Ok (f, o2) -> field_endi endi f.
Proof.
  intros m endi enums structs o1 df f o2 H. unfold field_from_model in H.
  destruct (sf_info df) as [b|b|b|b|n].
  1-4: cbn [get_bit_size ok_or bind] in H; inv_bind H; inv_bind H; inv_bind H;
    (destruct (1 <? _); [destruct (negb _); [discriminate|]|]); inv_bind H; inversion H; reflexivity.
  inv_bind H. inv_bind H. inversion H. exact I.
Qed.

Lemma mfield_endi : forall env un v f mk, mfield_from_model env un v = Ok (f, mk) ->
  mf_endi f = pe_endianness env.
Proof.
  intros env un v f mk H. unfold mfield_from_model in H.
  destruct (smf_info v) as [n|ml n|[ml|]| |on n]; repeat first
    [ inv_bind H
    | match type of H with context [match ?x with _ => _ end] => destruct x eqn:? end
    | progress cbn [bind] in H ];
  inversion H; reflexivity.
Qed.

Lemma mfields_app : forall env l fs n b mk r,
  mfields_from_model env fs n b mk l = Ok r ->
  exists new, fst (fst (fst r)) = fs ++ new /\ length new = length l /\
    forall k, (k < length l)%nat -> exists v f mk', nth_error l k = Some v /\ nth_error new k = Some f /\
      mfield_from_model env (fs ++ firstn k new) v = Ok (f, mk').
Proof.
  intros env. induction l as [|v l IH]; intros fs n b mk r H; cbn in H.
  - inversion H; subst. exists []. rewrite app_nil_r. repeat split. intros k Hk. cbn in Hk. lia.
  - apply bind_ok in H. destruct H as ((f & mk1) & H0 & H). cbn in H.
    destruct (_ && _); [discriminate|]. destruct (1 <? _); [discriminate|].
    destruct (IH _ _ _ _ _ H) as (new & Hnew & Hl & Hk). exists (f :: new).
    split; [rewrite Hnew, <- app_assoc; reflexivity|]. split; [cbn; lia|].
    intros [|k] Hlt.
    + exists v, f, mk1. cbn. rewrite app_nil_r. auto.
    + cbn in Hlt. destruct (Hk k) as (v' & f' & mk' & Hv & Hf & Hm); [lia|].
      exists v', f', mk'. cbn. split; [assumption|]. split; [assumption|].
      rewrite <- app_assoc in Hm. exact Hm.
Qed.

Lemma message_fields : forall env id v x mk, message_from_model env id v = Ok (x, mk) ->
  m_name x = sm_name v /\ m_id x = id /\ length (m_fields x) = length (sm_fields v) /\
  forall k vf, nth_error (sm_fields v) k = Some vf -> exists f mk', nth_error (m_fields x) k = Some f /\
    mfield_from_model env (firstn k (m_fields x)) vf = Ok (f, mk').
Proof.
  intros env id v x mk H. unfold message_from_model in H. apply bind_ok in H.
  destruct H as ((((fs & n) & b) & mk') & H0 & H). inversion H; subst. cbn.
  destruct (mfields_app _ _ _ _ _ _ _ H0) as (new & Hnew & Hl & Hk). cbn in Hnew. subst fs.
  split; [reflexivity|]. split; [reflexivity|]. split; [assumption|].
  intros k vf Hvf. destruct (Hk k) as (v' & f & mk'' & Hv & Hf & Hm).
  { apply nth_error_Some. congruence. }
  exists f, mk''. cbn in Hm. split; [assumption|]. congruence.
Qed.

Lemma compiled_little : forall m p, compiled m p ->
  (forall s f, In s (p_structs p) -> In f (s_fields s) -> field_endi Little f) /\
  (forall x f, In x (p_messages p) -> In f (m_fields x) -> mf_endi f = Little).
Proof.
  intros m p H.
  assert (Hi : proto_inv (fun _ => True) (fun s => forall f, In f (s_fields s) -> field_endi Little f)
                 (fun _ => True) (fun x => forall f, In f (m_fields x) -> mf_endi f = Little) p).
  { apply (inv_compiled m) with (p := p); try exact H; try (intros; exact I).
    - intros enums structs id d s _ _ Hs f Hf. apply In_nth_error in Hf. destruct Hf as (i & Hf).
      destruct (structure_nth _ _ _ _ _ _ _ _ _ Hs Hf) as (df & o1 & o2 & _ & Hm).
      eapply field_from_model_endi; eassumption.
    - intros env id v x mk He _ _ _ Hm f Hf. destruct (message_fields _ _ _ _ _ Hm) as (_ & _ & Hl & Hk).
      apply In_nth_error in Hf. destruct Hf as (i & Hf).
      destruct (nth_error (sm_fields v) i) as [vf|] eqn:Hvf.
      + destruct (Hk _ _ Hvf) as (f' & mk' & Hf' & Hmf). assert (f' = f) by congruence. subst f'.
        rewrite (mfield_endi _ _ _ _ _ Hmf). exact He.
      + apply nth_error_None in Hvf. rewrite <- Hl in Hvf. apply nth_error_None in Hvf. congruence. }
  destruct Hi. split; eauto.
Qed.

(** ** C15 *)

Lemma int_storage : forall info ty b, fixed_from_model info = Ok ty -> get_bit_size info = Some b ->
  (get_simple_type info = Unsigned \/ get_simple_type info = Signed) ->
  1 <= b <= 64 /\ b <= storage_bits ty /\
  forall n, (n = 8 \/ n = 16 \/ n = 32 \/ n = 64) -> b <= n -> storage_bits ty <= n.
Proof.
  intros info ty b H Hb Hk. unfold fixed_from_model in H. rewrite Hb in H. cbn [ok_or bind] in H.
  assert (Hs : simple_eqb (get_simple_type info) Boolean = false /\
               simple_eqb (get_simple_type info) Float = false) by (destruct Hk as [-> | ->]; auto).
  destruct Hs as [Hs1 Hs2]. rewrite Hs1, Hs2 in H. cbn [andb] in H.
  destruct (N.ltb_spec 32 b), (N.leb_spec b 64), (N.ltb_spec 16 b), (N.leb_spec b 32),
    (N.ltb_spec 8 b), (N.leb_spec b 16), (N.ltb_spec 0 b), (N.leb_spec b 8); try lia;
    cbn [andb] in H; try discriminate;
    destruct Hk as [E|E]; rewrite E in H; cbn in H; inversion H; subst ty; unfold storage_bits; cbn [get_byte_size]; (split; [lia|split; [lia|intros; lia]]).
Qed.

Lemma scalar_widths : forall m endi enums structs id d s i df f b,
  structure_from_model m endi enums structs id d = Ok s ->
  nth_error (ss_fields d) i = Some df ->
  get_bit_size (sf_info df) = Some b -> get_simple_type (sf_info df) <> Boolean ->
  nth_error (s_fields s) i = Some f ->
  exists ty, (match f with FFixed g => ff_ty g = ty | FArray g => fa_ty g = ty | FStruct _ _ _ => False end) /\
    1 <= b <= 64 /\ b <= storage_bits ty /\
    (get_simple_type (sf_info df) <> Float ->
     forall n, (n = 8 \/ n = 16 \/ n = 32 \/ n = 64) -> b <= n -> storage_bits ty <= n).
Proof.
  intros m endi enums structs id d s i df f b H Hd Hb Hn Hf.
  destruct (structure_nth _ _ _ _ _ _ _ _ _ H Hf) as (df' & o1 & o2 & Hd' & Hm).
  assert (df' = df) by congruence. subst df'.
  assert (Hty : exists ty, (match f with FFixed g => ff_ty g = ty | FArray g => fa_ty g = ty | FStruct _ _ _ => False end) /\
                  fixed_from_model (sf_info df) = Ok ty).
  { destruct f as [g|g|nm r loc].
    - apply scalar_shape in Hm. destruct Hm as (b' & _ & Hx & _). eauto.
    - apply array_shape in Hm. destruct Hm as (b' & k & _ & _ & _ & _ & Hx & _). eauto.
    - exfalso. unfold field_from_model in Hm. destruct (sf_info df) as [x|x|x|x|x]; try discriminate Hb;
        cbn [get_bit_size ok_or bind] in Hm; inv_bind Hm; inv_bind Hm; inv_bind Hm;
        (destruct (1 <? _); [destruct (negb _); [discriminate|]|]); inv_bind Hm; inversion Hm. }
  destruct Hty as (ty & Ht & Hx). exists ty. split; [assumption|].
  pose proof (fixed_ok_bits _ _ _ Hx Hb Hn) as Hbits.
  split; [lia|]. split; [apply (fixed_size_ok _ _ _ Hx Hb Hn)|].
  intros Hfl. apply (int_storage _ _ _ Hx Hb).
  destruct (sf_info df); cbn in *; try congruence; auto.
Qed.

(** A width outside 1..64 is never accepted (except for booleans) ... *)
Lemma bad_width_rejected : forall m endi enums structs off df b r,
  get_bit_size (sf_info df) = Some b -> get_simple_type (sf_info df) <> Boolean ->
  ~ (1 <= b <= 64) -> field_from_model m endi enums structs off df <> Ok r.
Proof.
  intros m endi enums structs off df b r Hb Hn Hw H. unfold field_from_model in H.
  destruct (sf_info df) as [x|x|x|x|x] eqn:Hi; cbn in Hb; inversion Hb; subst x; try congruence;
    cbn [get_bit_size ok_or bind] in H; inv_bind H; inv_bind H; inv_bind H;
    match goal with K : fixed_from_model _ = Ok _ |- _ =>
      apply (fixed_ok_bits _ _ b) in K; [lia|reflexivity|exact Hn] end.
Qed.


Lemma umul_np : forall {E} m a b, m = Release \/ a * b < 2 ^ 64 -> umul (E:=E) m a b <> Panic.
Proof.
  intros E m a b H. unfold umul. destruct (N.ltb_spec (a * b) usize_mod) as [Hl|Hl]; [discriminate|].
  destruct H as [-> | H]; [discriminate|unfold usize_mod in Hl; lia].
Qed.
Lemma uadd_np : forall {E} m a b, m = Release \/ a + b < 2 ^ 64 -> uadd (E:=E) m a b <> Panic.
Proof.
  intros E m a b H. unfold uadd. destruct (N.ltb_spec (a + b) usize_mod) as [Hl|Hl]; [discriminate|].
  destruct H as [-> | H]; [discriminate|unfold usize_mod in Hl; lia].
Qed.
Lemma usub_np : forall {E} m a b, m = Release \/ b <= a -> usub (E:=E) m a b <> Panic.
Proof.
  intros E m a b H. unfold usub. destruct (N.leb_spec b a) as [Hl|Hl]; [discriminate|].
  destruct H as [-> | H]; [discriminate|lia].
Qed.
Lemma ushl1_np : forall {E} m n, m = Release \/ n < 64 -> ushl1 (E:=E) m n <> Panic.
Proof.
  intros E m n H. unfold ushl1. destruct (N.ltb_spec n 64) as [Hl|Hl]; [discriminate|].
  destruct H as [-> | H]; [discriminate|lia].
Qed.
Lemma bind_np : forall {E A B} (x : outcome E A) (k : A -> outcome E B),
  x <> Panic -> (forall a, x = Ok a -> k a <> Panic) -> bind x k <> Panic.
Proof. intros E A B [a|e|] k Hx Hk; cbn; [apply Hk; reflexivity|discriminate|congruence]. Qed.

Lemma fixed_np : forall i, fixed_from_model i <> Panic.
Proof.
  intro i. unfold fixed_from_model. apply bind_np; [apply ok_or_panic|]. intros b _.
  repeat (destruct (_ && _); [first [discriminate|apply ok_or_panic]|]).
  destruct (simple_eqb _ _); [discriminate|].
  repeat (destruct (_ && _); [first [discriminate|apply ok_or_panic]|]). discriminate.
Qed.
Lemma fixed_max_np : forall n, fixed_from_max_value n <> Panic.
Proof. intro n. apply fixed_np. Qed.

Lemma pow2_ge1 : forall n, 1 <= 2 ^ n.
Proof. intro n. assert (2 ^ n <> 0) by (apply N.pow_nonzero; lia). lia. Qed.

Lemma view_np : forall m enums df b, get_bit_size (sf_info df) = Some b ->
  (m = Release \/ width_ok df) ->
  view_from_model m enums (get_simple_type (sf_info df)) b (sf_view df) <> Panic.
Proof.
  intros m enums df b Hb Hg. unfold view_from_model, width_ok in *.
  destruct (sf_view df) as [[en|lo hi|mu]|].
  - destruct (negb _); [discriminate|]. apply bind_np; [apply ok_or_panic|intros; discriminate].
  - destruct (simple_eqb (get_simple_type (sf_info df)) Float) eqn:Hs; cbn [negb]; [|intros; discriminate].
    destruct (sf_info df); try discriminate. inversion Hb; subst.
    apply bind_np; [apply ushl1_np; assumption|]. intros x Hx. apply bind_np; [|intros; discriminate].
    apply usub_np. destruct Hg as [-> | Hg]; [left; reflexivity|right].
    unfold ushl1 in Hx. destruct (N.ltb_spec b 64); [|lia]. inversion Hx. apply pow2_ge1.
  - destruct (negb _); discriminate.
  - destruct (simple_eqb (get_simple_type (sf_info df)) Float && _ && _); [discriminate|].
    destruct (simple_eqb (get_simple_type (sf_info df)) Signed) eqn:Hs; cbn [andb].
    2:{ destruct (simple_eqb (get_simple_type (sf_info df)) Unsigned); discriminate. }
    destruct (sf_info df); try discriminate. inversion Hb; subst.
    destruct (negb (b =? 8) && negb (b =? 16) && negb (b =? 32) && negb (b =? 64)); [|intros; discriminate].
    apply bind_np; [apply usub_np; destruct Hg as [-> | Hg]; [left; reflexivity|right; lia]|].
    intros k Hk. apply bind_np.
    + apply ushl1_np. destruct Hg as [-> | Hg]; [left; reflexivity|right]. unfold usub in Hk.
      destruct (N.leb_spec 1 b); [inversion Hk; lia|lia].
    + intros x Hx. apply bind_np; [|intros; discriminate]. apply usub_np.
      destruct Hg as [-> | Hg]; [left; reflexivity|right].
      unfold usub in Hk. destruct (N.leb_spec 1 b); [|lia]. inversion Hk; subst.
      unfold ushl1 in Hx. destruct (N.ltb_spec (b - 1) 64); [|lia]. inversion Hx. apply pow2_ge1.
Qed.

(** ... and the answer is an error when the view arithmetic cannot overflow. *)
Lemma bad_width_error : forall m endi enums structs off df b,
  get_bit_size (sf_info df) = Some b -> get_simple_type (sf_info df) <> Boolean ->
  ~ (1 <= b <= 64) ->
  (m = Release \/ (width_ok df /\ b * match sf_array_len df with Some n => n | None => 1 end < 2 ^ 64)) ->
  exists e, field_from_model m endi enums structs off df = Err e.
Proof.
  intros m endi enums structs off df b Hb Hn Hw Hg.
  assert (Hnp : field_from_model m endi enums structs off df <> Panic).
  { assert (Hv : view_from_model m enums (get_simple_type (sf_info df)) b (sf_view df) <> Panic)
      by (apply view_np; [assumption|destruct Hg as [-> | [Hg _]]; auto]).
    unfold field_from_model.
    destruct (sf_info df) as [x|x|x|x|x] eqn:Hi; cbn in Hb; inversion Hb; subst x; try (cbn in Hn; congruence);
      cbn [get_bit_size ok_or bind];
      (apply bind_np; [exact Hv|]; intros v _; apply bind_np; [apply umul_np; destruct Hg as [-> | [_ Hg]]; auto|];
       intros z _; apply bind_np; [apply fixed_np|]; intros t Ht;
       apply (fixed_ok_bits _ _ b) in Ht; [lia|reflexivity|discriminate]). }
  destruct (field_from_model m endi enums structs off df) as [r|e|] eqn:Hr; [|eauto|congruence].
  exfalso. eapply bad_width_rejected; eassumption.
Qed.

(** ** C16 *)

Lemma field_np : forall m endi enums structs off df,
  (m = Release \/ (width_ok df /\ forall w, declared_bits structs df = Some w -> off + w < 2 ^ 64)) ->
  field_from_model m endi enums structs off df <> Panic.
Proof.
  intros m endi enums structs off df Hg. unfold field_from_model.
  destruct (sf_info df) as [b|b|b|b|n] eqn:Hi.
  1-4: assert (Hw : m = Release \/ off + b * match sf_array_len df with Some n => n | None => 1 end < 2 ^ 64)
        by (destruct Hg as [-> | [_ Hg]]; [auto|right; apply Hg; unfold declared_bits; rewrite Hi; reflexivity]);
    pose proof (view_np m enums df b) as Hv; rewrite Hi in Hv; specialize (Hv eq_refl);
    cbn [get_bit_size ok_or bind]; (apply bind_np; [apply Hv; destruct Hg as [-> | [Hg _]]; auto|]);
    intros v _; (apply bind_np; [apply umul_np; destruct Hw as [-> | Hw]; [auto|right; lia]|]);
    intros z Hz; (apply bind_np; [apply fixed_np|]); intros t _;
    assert (Hadd : uadd (E:=cerror) m off z <> Panic)
      by (apply uadd_np; destruct Hw as [-> | Hw]; [auto|right];
          unfold umul in Hz; destruct (N.ltb_spec (b * match sf_array_len df with Some n => n | None => 1 end) usize_mod);
          [inversion Hz; subst; assumption|unfold usize_mod in *; lia]);
    (destruct (1 <? _); [destruct (negb _); [discriminate|]|]); (apply bind_np; [exact Hadd|intros; discriminate]).
  destruct (sget n structs) as [r|] eqn:Hr; cbn [ok_or bind]; [|discriminate].
  apply bind_np; [|intros; discriminate]. apply uadd_np. destruct Hg as [-> | [_ Hg]]; [auto|right].
  apply Hg. unfold declared_bits. rewrite Hi, Hr. reflexivity.
Qed.

Lemma fields_np : forall m endi enums structs l off,
  (m = Release \/ (Forall width_ok l /\
     forall k t, declared_total structs (firstn k l) = Some t -> off + t < 2 ^ 64)) ->
  fields_from_model m endi enums structs off l <> Panic.
Proof.
  intros m endi enums structs. induction l as [|d l IH]; intros off Hg; cbn [fields_from_model]; [discriminate|].
  apply bind_np.
  - apply field_np. destruct Hg as [-> | [Hw Hg]]; [auto|right]. inversion Hw; subst. split; [assumption|].
    intros w Hb. specialize (Hg 1%nat (w + 0)). cbn in Hg. rewrite Hb in Hg. specialize (Hg eq_refl). lia.
  - intros (f & off1) Hf. apply bind_np; [|intros (? & ?) _; discriminate]. apply IH.
    destruct Hg as [-> | [Hw Hg]]; [auto|]. inversion Hw; subst.
    destruct m; [|auto]. right. split; [assumption|].
    intros k t Ht. destruct (field_from_model_layout _ _ _ _ _ _ _ _ Hf) as (w & Hb & _ & Hoff).
    specialize (Hg (S k) (w + t)). cbn in Hg. rewrite Hb, Ht in Hg. specialize (Hg eq_refl).
    assert (Hx : off1 = off + w).
    { apply Hoff. left. reflexivity. }
    lia.
Qed.

Lemma structure_np : forall m endi enums structs id d,
  (m = Release \/ (Forall width_ok (ss_fields d) /\ layout_fits structs d)) ->
  structure_from_model m endi enums structs id d <> Panic.
Proof.
  intros m endi enums structs id d Hg. unfold structure_from_model.
  apply bind_np; [|intros (? & ?) _; discriminate]. apply fields_np.
  destruct Hg as [-> | [Hw Hg]]; [auto|right]. split; [assumption|]. intros k t Ht. exact (Hg k t Ht).
Qed.

Lemma enum_np : forall v, enum_from_model v <> Panic.
Proof. intro v. unfold enum_from_model. apply bind_np; [apply ok_or_panic|intros; discriminate]. Qed.

Lemma find_field_spec : forall n l i k f, find_field n i l = Some (k, f) ->
  (i <= k)%nat /\ nth_error l (k - i) = Some f /\ field_name f = n /\
  forall j g, (j < k - i)%nat -> nth_error l j = Some g -> field_name g <> n.
Proof.
  intros n. induction l as [|g l IH]; intros i k f H; cbn in H; [discriminate|].
  destruct (String.eqb_spec (field_name g) n) as [He|He].
  - inversion H; subst. rewrite Nat.sub_diag. repeat split; try lia; try reflexivity.
  - apply IH in H. destruct H as (Hik & Hn & Hf & Hb). replace (k - i)%nat with (S (k - S i)) by lia.
    split; [lia|]. split; [assumption|]. split; [assumption|].
    intros [|j] g' Hj Hg; cbn in Hg; [inversion Hg; subst; assumption|]. apply (Hb j); [lia|assumption].
Qed.
Lemma find_field_first : forall n l k f, find_field n 0 l = Some (k, f) ->
  nth_error l k = Some f /\ first_named n l f.
Proof.
  intros n l k f H. apply find_field_spec in H. destruct H as (_ & Hn & Hf & Hb).
  rewrite Nat.sub_0_r in *. split; [assumption|]. exists k. auto.
Qed.

Lemma last_app_some : forall (l : list nat) k d, last (map Some (l ++ [k])) d = Some k.
Proof. intros l k d. rewrite map_app. cbn. apply last_last. Qed.

(** What the walk along a discriminant path returns. *)
Lemma disc_walk_spec : forall rn parts leaf idx leaf' idx',
  disc_walk rn leaf idx parts = Ok (leaf', idx') ->
  (path_to_struct leaf parts) \/
  (exists k f, last (map Some idx') None = Some k /\ nth_error (s_fields leaf') k = Some (FFixed f)).
Proof.
  intros rn. induction parts as [|sub parts IH]; intros leaf idx leaf' idx' H; cbn in H.
  - left. constructor.
  - apply bind_ok in H. destruct H as ((k & f) & Hf & H). apply ok_or_ok in Hf.
    apply find_field_first in Hf. destruct Hf as (Hn & Hfirst).
    destruct f as [g|g|nm r loc]; try discriminate.
    + inversion H; subst. right. exists k, g. split; [apply last_app_some|assumption].
    + destruct (IH _ _ _ _ H) as [Hs|Hs]; [left|right; assumption].
      econstructor; eassumption.
Qed.
Lemma disc_walk_np : forall rn parts leaf idx, disc_walk rn leaf idx parts <> Panic.
Proof.
  intros rn. induction parts as [|sub parts IH]; intros leaf idx; cbn; [discriminate|].
  apply bind_np; [apply ok_or_panic|]. intros (k & f) _. destruct f; [discriminate..|]. apply IH.
Qed.

Lemma ucase_np : forall structs messages f v, ucase_from_model structs messages f v <> Panic.
Proof.
  intros structs messages f v. unfold ucase_from_model. apply bind_np.
  - destruct (ff_view f); try discriminate; try apply ok_or_panic;
      (apply bind_np; [apply ok_or_panic|intros; discriminate]).
  - intros c _. apply bind_np; [|intros; discriminate]. destruct (su_item_type v); [|discriminate].
    apply bind_np; [apply ok_or_panic|intros; discriminate].
Qed.

Lemma ucases_np : forall structs messages d l, (exists f, get_leaf (E:=cerror) d = Ok f) ->
  ucases_from_model structs messages d l <> Panic.
Proof.
  intros structs messages d l (f & Hf). induction l as [|v l IH]; cbn; [discriminate|].
  rewrite Hf. cbn. apply bind_np; [apply ucase_np|]. intros c _. apply bind_np; [exact IH|intros; discriminate].
Qed.

Lemma split_dot_spec : forall s h t, split_dot s = (h, t) -> joined s (h :: t) /\ Forall no_dot (h :: t).
Proof.
  unfold joined. induction s as [|c s IH]; intros h t H; cbn in H.
  - inversion H; subst. split; [reflexivity|]. constructor; [|constructor]. intros i. destruct i; discriminate.
  - destruct (split_dot s) as (h' & t') eqn:Hs. destruct (IH _ _ eq_refl) as (Hj & Hd).
    destruct (Ascii.eqb_spec c "."%char) as [->|Hc]; inversion H; subst h t.
    + split; [cbn; f_equal; exact Hj|]. constructor; [|assumption]. intros i. destruct i; discriminate.
    + split.
      * destruct t' as [|x t']; cbn in *; f_equal; exact Hj.
      * inversion Hd; subst. constructor; [|assumption]. intros [|i]; cbn; [congruence|]. apply H2.
Qed.

Lemma union_np : forall structs messages v,
  (forall n parts root, joined (sun_discriminant v) (n :: parts) -> Forall no_dot (n :: parts) ->
     sget n structs = Some root -> ~ path_to_struct root parts) ->
  union_from_model structs messages v <> Panic.
Proof.
  intros structs messages v Hg. unfold union_from_model, disc_from_model.
  destruct (split_dot (sun_discriminant v)) as (n & parts) eqn:Hs.
  destruct (split_dot_spec _ _ _ Hs) as (Hj & Hd).
  destruct (sget n structs) as [root|] eqn:Hr; [|cbn; discriminate]. cbn [ok_or bind].
  specialize (Hg _ _ _ Hj Hd Hr).
  destruct (disc_walk n root [] parts) as [(leaf & idx)|e|] eqn:Hw; cbn [bind]; [|discriminate|].
  2:{ exfalso. eapply disc_walk_np; exact Hw. }
  destruct (disc_walk_spec _ _ _ _ _ _ Hw) as [Hp|(k & f & Hk & Hf)]; [contradiction|].
  rewrite Hk. cbn [unwrap bind]. apply bind_np; [|intros; discriminate].
  apply ucases_np. exists f. unfold get_leaf. cbn. rewrite Hf. reflexivity.
Qed.

Lemma mfield_np : forall env un v, mfield_from_model env un v <> Panic.
Proof.
  intros env un v. unfold mfield_from_model. destruct (smf_info v) as [n|ml n|[ml|]| |on n].
  - apply bind_np; [apply ok_or_panic|]. intros [s|x] _; [destruct (flattened s)|]; discriminate.
  - apply bind_np; [apply ok_or_panic|]. intros r _. apply bind_np; [apply fixed_max_np|].
    intros ty _. destruct r; discriminate.
  - apply bind_np; [apply fixed_max_np|discriminate || (intros; discriminate)].
  - discriminate.
  - discriminate.
  - apply bind_np; [apply ok_or_panic|]. intros (k & f) _. apply bind_np; [apply ok_or_panic|].
    intros r _. destruct (mf_ty f) as [| [s|x] | | | | | |]; try discriminate. destruct (_ =? _); discriminate.
Qed.

Lemma mfields_np : forall env l fs n b mk, mfields_from_model env fs n b mk l <> Panic.
Proof.
  intros env. induction l as [|v l IH]; intros fs n b mk; cbn; [discriminate|].
  apply bind_np; [apply mfield_np|]. intros (f & mk') _. destruct (_ && _); [discriminate|].
  destruct (1 <? _); [discriminate|]. apply IH.
Qed.

Lemma message_np : forall env id v, message_from_model env id v <> Panic.
Proof.
  intros env id v. unfold message_from_model. apply bind_np; [apply mfields_np|].
  intros (((? & ?) & ?) & ?) _. discriminate.
Qed.

Lemma foldM_np : forall {E A St} (f : St -> A -> outcome E St) l s,
  (forall k x s1, nth_error l k = Some x -> foldM f s (firstn k l) = Ok s1 -> f s1 x <> Panic) ->
  foldM f s l <> Panic.
Proof.
  intros E A St f. induction l as [|x l IH]; intros s Hg; cbn; [discriminate|].
  apply bind_np.
  - apply (Hg 0%nat x s); reflexivity.
  - intros s1 H1. apply IH. intros k y s2 Hy H2. apply (Hg (S k) y s2 Hy). cbn. rewrite H1. exact H2.
Qed.

Lemma import_np : forall solver p v, import_one solver p v <> Panic.
Proof.
  intros solver p v. unfold import_one. apply bind_np; [apply ok_or_panic|]. intros r _.
  destruct (sget _ (p_structs_by_name r)); [apply bind_np; [apply ok_or_panic|intros; discriminate]|].
  destruct (sget _ (p_enums_by_name r)); [apply bind_np; [apply ok_or_panic|intros; discriminate]|].
  destruct (sget _ (p_unions_by_name r)); [apply bind_np; [apply ok_or_panic|intros; discriminate]|].
  apply bind_np; [apply ok_or_panic|]. intros x _. apply bind_np; [apply ok_or_panic|intros; discriminate].
Qed.

Lemma only_structs_eval : forall m solver w v k p1 p2 pw,
  foldM (import_one solver) (protocol_empty (sp_name v)) (sp_imports v) = Ok p1 ->
  foldM define_enum p1 (sp_enums v) = Ok p2 ->
  foldM (define_struct m) (p2, w) (firstn k (sp_structs v)) = Ok pw ->
  protocol_from_model m solver w (only_structs k v) = Ok pw.
Proof.
  intros m solver w v k p1 p2 (p & w') H1 H2 H3. unfold protocol_from_model, only_structs.
  cbn [sp_name sp_imports sp_enums sp_structs sp_unions sp_messages].
  rewrite H1. cbn [bind]. rewrite H2. cbn [bind]. rewrite H3. reflexivity.
Qed.

Lemma define_union_structs : forall l p p', foldM define_union p l = Ok p' ->
  p_structs_by_name p' = p_structs_by_name p.
Proof.
  intros l p p' H. eapply (foldM_inv (fun q => p_structs_by_name q = p_structs_by_name p)); [|reflexivity|exact H].
  intros s x s' _ Hs Hx. unfold define_union in Hx. apply bind_ok in Hx. destruct Hx as (u & _ & Hx).
  inversion Hx; subst. exact Hs.
Qed.

Lemma protocol_np : forall m solver w v,
  (m = Release \/
   forall k d p w', nth_error (sp_structs v) k = Some d ->
     protocol_from_model m solver w (only_structs k v) = Ok (p, w') ->
     Forall width_ok (ss_fields d) /\ layout_fits (p_structs_by_name p) d) ->
  (forall u n parts p w' root, In u (sp_unions v) ->
     joined (sun_discriminant u) (n :: parts) -> Forall no_dot (n :: parts) ->
     protocol_from_model m solver w (only_structs (length (sp_structs v)) v) = Ok (p, w') ->
     sget n (p_structs_by_name p) = Some root -> ~ path_to_struct root parts) ->
  protocol_from_model m solver w v <> Panic.
Proof.
  intros m solver w v Hs Hu. unfold protocol_from_model.
  apply bind_np; [apply foldM_np; intros; apply import_np|]. intros p1 H1.
  apply bind_np.
  { apply foldM_np. intros k x s _ _. unfold define_enum. apply bind_np; [apply enum_np|intros; discriminate]. }
  intros p2 H2. apply bind_np.
  { apply foldM_np. intros k d (p & w') Hd Hp. unfold define_struct.
    apply bind_np; [|intros; discriminate]. apply structure_np.
    destruct Hs as [-> | Hs]; [auto|right]. eapply Hs; [exact Hd|]. eapply only_structs_eval; eassumption. }
  intros (p3 & w3) H3. apply bind_np.
  { apply foldM_np. intros k u p Hk Hp. unfold define_union. apply bind_np; [|intros; discriminate].
    apply union_np. intros n parts root Hj Hd Hr.
    apply define_union_structs in Hp. rewrite Hp in Hr. eapply Hu; try eassumption.
    - eapply nth_error_In; exact Hk.
    - eapply only_structs_eval; try eassumption. rewrite firstn_all. exact H3. }
  intros p4 H4. apply foldM_np. intros k x (p & w') _ _. unfold define_message.
  apply bind_np; [apply message_np|intros (? & ?) _; discriminate].
Qed.

(** ** C18 *)

Lemma storage_u8 : storage_bits U8 = 8. Proof. reflexivity. Qed.
Lemma storage_u16 : storage_bits U16 = 16. Proof. reflexivity. Qed.
Lemma storage_u32 : storage_bits U32 = 32. Proof. reflexivity. Qed.
Lemma storage_u64 : storage_bits U64 = 64. Proof. reflexivity. Qed.
Lemma max_value_prefix : forall n ty, n < 2 ^ 64 -> fixed_from_max_value n = Ok ty ->
  In ty [U8; U16; U32; U64] /\ n < 2 ^ storage_bits ty /\
  forall w, In w [8; 16; 32; 64] -> n < 2 ^ w -> storage_bits ty <= w.
Proof.
  intros n ty Hn H. unfold fixed_from_max_value in H.
  destruct (N.ltb_spec (2 ^ 32 - 1) n); [|destruct (N.ltb_spec (2 ^ 16 - 1) n); [|destruct (N.ltb_spec (2 ^ 8 - 1) n)]];
    cbn in H; inversion H; subst ty; (split; [cbn; tauto|]);
    rewrite ?storage_u8, ?storage_u16, ?storage_u32, ?storage_u64;
    (split; [lia|]); intros w [<-|[<-|[<-|[<-|[]]]]] Hw; lia.
Qed.
Lemma max_value_ok : forall n, exists ty, fixed_from_max_value n = Ok ty.
Proof.
  intros n. unfold fixed_from_max_value.
  destruct (2 ^ 32 - 1 <? n); [|destruct (2 ^ 16 - 1 <? n); [|destruct (2 ^ 8 - 1 <? n)]];
    eexists; reflexivity.
Qed.

Lemma length_prefix : forall env id v x mk k vf f n,
  message_from_model env id v = Ok (x, mk) ->
  nth_error (sm_fields v) k = Some vf -> nth_error (m_fields x) k = Some f ->
  declared_max (smf_info vf) = Some n -> n < 2 ^ 64 ->
  exists ty, prefix_of (mf_ty f) = Some ty /\ In ty [U8; U16; U32; U64] /\
    n < 2 ^ storage_bits ty /\
    forall w, In w [8; 16; 32; 64] -> n < 2 ^ w -> storage_bits ty <= w.
Proof.
  intros env id v x mk k vf f n H Hv Hf Hd Hn.
  destruct (message_fields _ _ _ _ _ H) as (_ & _ & _ & Hk). destruct (Hk _ _ Hv) as (f' & mk' & Hf' & Hm).
  assert (f' = f) by congruence. subst f'. unfold mfield_from_model in Hm.
  destruct (smf_info vf) as [t|ml t|[ml|]| |on t]; cbn in Hd; try discriminate; inversion Hd; subst ml.
  - apply bind_ok in Hm. destruct Hm as (r & _ & Hm). apply bind_ok in Hm. destruct Hm as (ty & Hty & Hm).
    exists ty. apply max_value_prefix in Hty; [|assumption].
    destruct r; inversion Hm; subst; (split; [reflexivity|assumption]).
  - apply bind_ok in Hm. destruct Hm as (ty & Hty & Hm).
    exists ty. apply max_value_prefix in Hty; [|assumption]. inversion Hm; subst. split; [reflexivity|assumption].
Qed.
