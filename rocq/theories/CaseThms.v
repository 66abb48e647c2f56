(** Numbers in descriptions and the case labels of unions (C53). *)

From Coq Require Import Arith NArith ZArith Ascii String List Bool Lia ZifyBool ZifyN ZifyNat.
From Verif Require Import Base Schema Codec Compiler StructFacts SpecComp CompThms SpecCase.
Import ListNotations.
Local Open Scope N_scope.
Local Open Scope string_scope.

Lemma digit_of_spec : forall c d, digit_of c = Some d <-> d <= 9 /\ N_of_ascii c = 48 + d.
Proof.
  intros c d. unfold digit_of. destruct ((48 <=? N_of_ascii c)%N && (N_of_ascii c <=? 57)%N) eqn:E.
  - split; intro H; [inversion H; lia|]. f_equal. lia.
  - split; intro H; [discriminate|lia].
Qed.

Lemma append_nil_r : forall s, s ++ "" = s.
Proof. induction s as [|c s IH]; cbn; [|rewrite IH]; reflexivity. Qed.
Lemma append_assoc : forall a b c, (a ++ b) ++ c = a ++ (b ++ c).
Proof. induction a as [|x a IH]; intros; cbn; [|rewrite IH]; reflexivity. Qed.

Lemma parse_digits_snoc : forall s acc n c d, parse_digits acc s = Some n -> digit_of c = Some d ->
  parse_digits acc (s ++ String c "") = Some (10 * n + d).
Proof.
  induction s as [|x s IH]; intros acc n c d H Hd; cbn [append parse_digits] in *.
  - rewrite Hd. congruence.
  - destruct (digit_of x); [|discriminate]. eapply IH; eassumption.
Qed.

(** A prefix with its value, then the rest. *)
Lemma parse_digits_decimal : forall s p acc n, decimal p acc -> parse_digits acc s = Some n -> decimal (p ++ s) n.
Proof.
  induction s as [|c s IH]; intros p acc n Hp H; cbn [parse_digits] in H.
  - rewrite append_nil_r. congruence.
  - destruct (digit_of c) as [d|] eqn:E; [|discriminate]. apply digit_of_spec in E.
    change (String c s) with (String c "" ++ s). rewrite <- append_assoc. eapply IH; [|exact H].
    apply dec_more; tauto.
Qed.

Lemma decimal_nonempty : forall s n, decimal s n -> s <> "".
Proof. intros s n H. destruct H; [discriminate|]. destruct s; discriminate. Qed.

Lemma parse_nat_digits_spec : forall s n, parse_nat_digits s = Some n <-> decimal s n.
Proof.
  intros s n. split.
  - unfold parse_nat_digits. destruct s as [|c s]; [discriminate|]. cbn [parse_digits].
    destruct (digit_of c) as [d|] eqn:E; [|discriminate]. intro H. apply digit_of_spec in E.
    change (String c s) with (String c "" ++ s). eapply parse_digits_decimal; [|exact H].
    constructor; lia.
  - intro H. assert (parse_digits 0 s = Some n) as Hp.
    { induction H as [c d Hd Hc|s n c d H IH Hd Hc].
      - cbn [parse_digits]. assert (digit_of c = Some d) as -> by (apply digit_of_spec; lia). f_equal.
      - apply parse_digits_snoc; [assumption|apply digit_of_spec; lia]. }
    unfold parse_nat_digits. apply decimal_nonempty in H. destruct s; [congruence|exact Hp].
Qed.

Lemma decimal_digit : forall c r n, decimal (String c r) n -> 48 <= N_of_ascii c <= 57.
Proof.
  intros c r n H. apply parse_nat_digits_spec in H. cbn in H. destruct (digit_of c) as [d|] eqn:E; [|discriminate].
  apply digit_of_spec in E. lia.
Qed.

Lemma plus_cases : forall (s : string) (P : string -> Prop),
  (forall r, s = String "+" r -> P r) -> ((forall r, s <> String "+" r) -> P s) ->
  P (match s with String "+"%char r => r | _ => s end).
Proof.
  intros s P H1 H2. destruct s as [|c r]; [apply H2; discriminate|].
  destruct (ascii_dec c "+"%char) as [->|Hn]; [apply H1; reflexivity|].
  assert (E : match c with "+"%char => r | _ => String c r end = String c r).
  { destruct c as [[] [] [] [] [] [] [] []]; try reflexivity. exfalso. apply Hn. reflexivity. }
  rewrite E. apply H2. intros r' Hr. inversion Hr. congruence.
Qed.

Lemma unsigned_spec : forall s n,
  parse_nat_digits (match s with String "+"%char r => r | _ => s end) = Some n <-> unsigned_label s n.
Proof.
  intros s n. apply plus_cases.
  - intros r ->. rewrite parse_nat_digits_spec. unfold unsigned_label. split.
    + intro H. right. exists r. auto.
    + intros [H|(r' & Hr & H)]; [|congruence]. apply decimal_digit in H. cbn in H. lia.
  - intros Hn. rewrite parse_nat_digits_spec. unfold unsigned_label. split; [auto|].
    intros [H|(r & -> & _)]; [assumption|]. exfalso. exact (Hn r eq_refl).
Qed.

Lemma unsigned_no_minus : forall r n, ~ unsigned_label (String "-" r) n.
Proof. intros r n [H|(r' & Hr & _)]; [|discriminate]. apply decimal_digit in H. cbn in H. lia. Qed.

Lemma usize_mod_pow : usize_mod = 2 ^ 64.
Proof. reflexivity. Qed.

Lemma parse_usize_spec : forall s n, parse_usize s = Some n <-> unsigned_label s n /\ n < 2 ^ 64.
Proof.
  intros s n. unfold parse_usize. cbv zeta. rewrite <- usize_mod_pow, <- unsigned_spec.
  destruct (parse_nat_digits _) as [x|]; [|split; [discriminate|intros [H _]; discriminate]].
  destruct (N.ltb_spec x usize_mod) as [Hx|Hx].
  - split; [intro H; inversion H; subst; auto|intros [H _]; exact H].
  - split; [discriminate|]. intros [H Hn]. inversion H; subst. lia.
Qed.

Lemma parse_isize_spec : forall s z,
  parse_isize s = Some z <-> signed_label s z /\ (- 2 ^ 63 <= z < 2 ^ 63)%Z.
Proof.
  intros s z.
  assert (Hpow : (2 ^ 63 = Z.of_N (2 ^ 63))%Z) by reflexivity. rewrite Hpow.
  set (P := 2 ^ 63) in *. assert (HP : 0 < P) by (subst P; reflexivity).
  assert (Hother : (forall r, s <> String "-" r) ->
     (match parse_nat_digits (match s with String "+"%char r => r | _ => s end) with
      | Some n => if (n <? P)%N then Some (Z.of_N n) else None | None => None end = Some z <->
      signed_label s z /\ (- Z.of_N P <= z < Z.of_N P)%Z)).
  { intro Hs. unfold signed_label. pose proof (unsigned_spec s) as Hu.
    destruct (parse_nat_digits _) as [n|].
    - pose proof (proj1 (Hu n) eq_refl) as Hn. split.
      + destruct (N.ltb_spec n P); [|discriminate]. intro H'. inversion H'; subst. split; [|lia].
        left. exists n. auto.
      + intros [[(n' & Hn' & ->)|(r & n' & -> & _)] Hz]; [|exfalso; exact (Hs r eq_refl)].
        apply Hu in Hn'. inversion Hn'; subst. destruct (N.ltb_spec n' P); [reflexivity|lia].
    - split; [discriminate|]. intros [[(n' & Hn' & ->)|(r & n' & -> & _)] Hz]; [|exfalso; exact (Hs r eq_refl)].
      apply Hu in Hn'. discriminate. }
  destruct s as [|c r]; [apply Hother; discriminate|].
  destruct (ascii_dec c "-"%char) as [->|Hc].
  - clear Hother. cbn [parse_isize]. fold P. unfold signed_label. split.
    + destruct (parse_nat_digits r) as [n|] eqn:E; [|discriminate]. destruct (N.leb_spec n P); [|discriminate].
      intro H'. inversion H'; subst. apply parse_nat_digits_spec in E. split; [|lia]. right. exists r, n. auto.
    + intros [[(n & Hn & _)|(r' & n & Hr & Hn & ->)] Hz]; [exfalso; exact (unsigned_no_minus _ _ Hn)|].
      inversion Hr; subst r'. apply parse_nat_digits_spec in Hn. rewrite Hn.
      destruct (N.leb_spec n P); [reflexivity|lia].
  - assert (E : parse_isize (String c r) =
      match parse_nat_digits (match String c r with String "+"%char r0 => r0 | _ => String c r end) with
      | Some n => if (n <? P)%N then Some (Z.of_N n) else None | None => None end).
    { destruct c as [[] [] [] [] [] [] [] []]; try reflexivity. exfalso. apply Hc. reflexivity. }
    rewrite E. apply Hother. intros r' Hr. inversion Hr. congruence.
Qed.

Lemma isize_as_usize_spec : forall z, (- 2 ^ 63 <= z < 2 ^ 63)%Z ->
  isize_as_usize z = if (z <? 0)%Z then Z.to_N (z + 2 ^ 64) else Z.to_N z.
Proof.
  intros z Hz. unfold isize_as_usize. f_equal.
  assert ((2 ^ 64 = 2 * 2 ^ 63)%Z) as -> by reflexivity. assert (0 < 2 ^ 63)%Z as Hp by reflexivity.
  set (P := (2 ^ 63)%Z) in *. destruct (Z.ltb_spec z 0).
  - rewrite <- (Z_mod_plus_full z 1 (2 * P)). rewrite Z.mod_small; lia.
  - rewrite Z.mod_small; lia.
Qed.

(** ** One case *)

Lemma label_spec : forall view label n,
  (match view with
   | VFloat _ _ _ _ => Err EFloatInUnionDiscriminant
   | VEnum e => ok_or (sget label (e_map e)) (EInvalidUnionCase label)
   | VTransmute | VSignedCast _ =>
       v <- ok_or (parse_isize label) (EInvalidUnionCase label) ;; Ok (isize_as_usize v)
   | VNone => ok_or (parse_usize label) (EInvalidUnionCase label)
   end = Ok n) <-> label_number view label n.
Proof.
  assert (Hs : forall view label n, (view = VTransmute \/ exists mp, view = VSignedCast mp) ->
    ((v <- ok_or (parse_isize label) (EInvalidUnionCase label) ;; Ok (isize_as_usize v)) = Ok n <->
     label_number view label n)).
  { intros view label n Hv. split.
    - intro H. apply bind_ok in H. destruct H as (z & Hz & H). inversion H; subst. apply ok_or_ok in Hz.
      apply parse_isize_spec in Hz. destruct Hz as [Hl Hr]. rewrite isize_as_usize_spec by assumption.
      apply ln_signed; assumption.
    - intro H. inversion H as [e n' He _|z _ Hl Hr|n' He _ _]; [|subst n|]; try (destruct Hv as [Hv|[mp Hv]]; congruence).
      rewrite (proj2 (parse_isize_spec label z) (conj Hl Hr)). cbn [ok_or bind].
      rewrite isize_as_usize_spec by assumption. reflexivity. }
  intros view label n. destruct view as [a b ai bi|e| |mp|].
  - split; [discriminate|]. intro H. inversion H as [e n' He _|z [Hz|[mp Hz]] _ _|n' He _ _]; discriminate.
  - split.
    + intro H. apply ok_or_ok in H. eapply ln_enum; [reflexivity|exact H].
    + intro H. inversion H as [e' n' He Hn|z [Hz|[mp Hz]] _ _|n' He _ _]; [|discriminate..]. inversion He; subst. rewrite Hn. reflexivity.
  - apply Hs. auto.
  - apply Hs. eauto.
  - split.
    + intro H. apply ok_or_ok in H. apply parse_usize_spec in H. apply ln_plain; tauto.
    + intro H. inversion H as [e' n' He _|z [Hz|[mp Hz]] _ _|n' He Hl Hn]; [discriminate..|].
      rewrite (proj2 (parse_usize_spec label n) (conj Hl Hn)). reflexivity.
Qed.

Lemma item_spec : forall structs messages o r,
  (match o with
   | None => Ok None
   | Some v => r <- ok_or (referenced_lookup structs messages v) (EUndefinedReference v) ;; Ok (Some r)
   end = Ok r) <-> case_item structs messages o r.
Proof.
  intros structs messages [name|] r.
  - unfold referenced_lookup. split.
    + destruct (sget name structs) as [s|] eqn:E; [cbn; intro H; inversion H; subst; constructor; assumption|].
      destruct (sget name messages) as [x|] eqn:E2; [|discriminate]. cbn. intro H; inversion H; subst. constructor; assumption.
    + intro H. inversion H as [|? s Hs|? x Hs Hx]; subst; rewrite Hs; [reflexivity|]. rewrite Hx. reflexivity.
  - split; [intro H; inversion H; constructor|intro H; inversion H; reflexivity].
Qed.

Lemma case_spec : forall structs messages f d c,
  ucase_from_model structs messages f d = Ok c <-> case_of structs messages (ff_view f) d c.
Proof.
  intros structs messages f d c. unfold ucase_from_model. split.
  - intro H. apply bind_ok in H. destruct H as (n & Hn & H). apply bind_ok in H. destruct H as (r & Hr & H).
    inversion H; subst. constructor; cbn; [reflexivity|apply label_spec; exact Hn|apply item_spec; exact Hr].
  - intros [Hn Hc Hi]. apply label_spec in Hc. apply item_spec in Hi. rewrite Hc. cbn [bind]. rewrite Hi. cbn [bind].
    destruct c as [n' k i]. cbn in *. subst. reflexivity.
Qed.

Theorem union_cases : forall structs messages v u,
  union_from_model structs messages v = Ok u ->
  u_name u = sun_name v /\
  (sun_cases v = [] /\ u_cases u = [] \/
   exists f, get_leaf (E:=cerror) (u_disc u) = Ok f /\ Forall2 (case_of structs messages (ff_view f)) (sun_cases v) (u_cases u)).
Proof.
  intros structs messages v u H. unfold union_from_model in H.
  apply bind_ok in H. destruct H as (d & Hd & H). apply bind_ok in H. destruct H as (cs & Hcs & H).
  inversion H; subst. cbn [u_name u_cases u_disc]. split; [reflexivity|]. clear H.
  revert cs Hcs. induction (sun_cases v) as [|c l IH]; intros cs Hcs; cbn [ucases_from_model] in Hcs.
  - inversion Hcs. left. auto.
  - right. apply bind_ok in Hcs. destruct Hcs as (f & Hf & Hcs). apply bind_ok in Hcs. destruct Hcs as (c' & Hc & Hcs).
    apply bind_ok in Hcs. destruct Hcs as (cs' & Hcs' & Hcs). inversion Hcs; subst. exists f. split; [exact Hf|].
    constructor; [apply case_spec; exact Hc|]. destruct (IH _ Hcs') as [[-> ->]|(g & Hg & HF)]; [constructor|].
    rewrite Hg in Hf. inversion Hf; subst. exact HF.
Qed.

(** Conversely, a union whose discriminant is found and whose cases all have a
    meaning compiles. *)
Theorem union_compiles : forall structs messages v d f cs,
  disc_from_model structs (sun_discriminant v) = Ok d -> get_leaf (E:=cerror) d = Ok f ->
  Forall2 (case_of structs messages (ff_view f)) (sun_cases v) cs ->
  exists u, union_from_model structs messages v = Ok u /\ u_disc u = d /\ u_cases u = cs.
Proof.
  intros structs messages v d f cs Hd Hf HF. unfold union_from_model. rewrite Hd. cbn [bind].
  assert (ucases_from_model structs messages d (sun_cases v) = Ok cs) as ->.
  { induction HF as [|c c' l l' Hc HF IH]; [reflexivity|]. cbn [ucases_from_model]. rewrite Hf. cbn [bind].
    apply case_spec in Hc. rewrite Hc. cbn [bind]. rewrite IH. reflexivity. }
  eexists. split; [reflexivity|]. split; reflexivity.
Qed.

(** ** The discriminant *)

Lemma find_field_at : forall n l i k f, nth_error l k = Some f -> field_name f = n ->
  (forall j g, (j < k)%nat -> nth_error l j = Some g -> field_name g <> n) ->
  find_field n i l = Some ((i + k)%nat, f).
Proof.
  intros n. induction l as [|g l IH]; intros i [|k] f Hk Hn Hb; cbn in Hk |- *; try discriminate.
  - inversion Hk; subst. rewrite String.eqb_refl, Nat.add_0_r. reflexivity.
  - destruct (String.eqb_spec (field_name g) n) as [He|_]; [exfalso; exact (Hb 0%nat g ltac:(lia) eq_refl He)|].
    rewrite (IH (S i) k f Hk Hn); [do 2 f_equal; lia|]. intros j g' Hj Hg. exact (Hb (S j) g' ltac:(lia) Hg).
Qed.

Lemma names_walk : forall rn s parts path f, names_scalar s parts path f -> forall idx,
  exists leaf k, disc_walk rn s idx parts = Ok (leaf, (idx ++ path)%list) /\
    last (map Some path) None = Some k /\ path <> [] /\ nth_error (s_fields leaf) k = Some (FFixed f).
Proof.
  intros rn s parts path f H. induction H as [s n k f (Hk & Hn & Hb)|s n k name r loc rest path f (Hk & Hn & Hb) H IH]; intro idx;
    cbn [disc_walk]; rewrite (find_field_at _ _ 0 _ _ Hk Hn Hb); cbn [ok_or bind]; cbv beta iota.
  - exists s, k. cbn [plus]. repeat split; [discriminate|assumption].
  - destruct (IH (idx ++ [k])%list) as (leaf & k' & Hw & Hl & Hne & Hf). exists leaf, k'. cbn [plus].
    rewrite Hw, <- app_assoc. cbn [app]. repeat split; [|discriminate|assumption].
    cbn [map last]. destruct path; [contradiction|]. exact Hl.
Qed.

Lemma last_map_app : forall (l l' : list nat), l' <> [] -> last (map Some (l ++ l')) None = last (map Some l') None.
Proof.
  induction l as [|x l IH]; intros l' H; [reflexivity|]. cbn [app map]. rewrite <- (IH l' H).
  destruct (l ++ l')%list eqn:E; [|reflexivity]. apply app_eq_nil in E. destruct E. contradiction.
Qed.

Lemma split_dot_no_dot : forall s, no_dot s -> split_dot s = (s, []).
Proof.
  induction s as [|c s IH]; intro H; [reflexivity|]. cbn [split_dot]. rewrite IH.
  - destruct (Ascii.eqb_spec c "."%char) as [->|]; [exfalso; exact (H 0%nat eq_refl)|reflexivity].
  - intro i. exact (H (S i)).
Qed.
Lemma split_dot_concat : forall t h, Forall no_dot (h :: t) -> split_dot (String.concat "." (h :: t)) = (h, t).
Proof.
  induction t as [|x t IH]; intros h H; inversion H as [|? ? Hh Ht]; subst.
  - apply split_dot_no_dot. assumption.
  - change (String.concat "." (h :: x :: t)) with (h ++ "." ++ String.concat "." (x :: t)).
    specialize (IH x Ht). generalize dependent (String.concat "." (x :: t)). intros tail IH. clear H Ht.
    induction h as [|c h IHh]; cbn [append split_dot].
    + rewrite IH. rewrite Ascii.eqb_refl. reflexivity.
    + change (split_dot (h ++ "." ++ tail)) with (split_dot (h ++ ("." ++ tail))). cbn [append] in IHh |- *.
      rewrite IHh by (intro i; exact (Hh (S i))).
      destruct (Ascii.eqb_spec c "."%char) as [->|]; [exfalso; exact (Hh 0%nat eq_refl)|reflexivity].
Qed.

Theorem discriminant_found : forall structs disc name parts root path f,
  joined disc (name :: parts) -> Forall no_dot (name :: parts) ->
  sget name structs = Some root -> names_scalar root parts path f ->
  exists d, disc_from_model structs disc = Ok d /\ d_root d = root /\ d_index_list d = path /\
    get_leaf (E:=cerror) d = Ok f.
Proof.
  intros structs disc name parts root path f Hj Hd Hr Hn. unfold joined in Hj. subst disc.
  unfold disc_from_model. rewrite split_dot_concat by assumption. rewrite Hr. cbn [ok_or bind].
  destruct (names_walk name _ _ _ _ Hn []) as (leaf & k & Hw & Hl & Hne & Hf). rewrite Hw. cbn [bind app].
  rewrite Hl. cbn [unwrap bind]. eexists. split; [reflexivity|]. cbn [d_root d_index_list]. split; [reflexivity|].
  split; [reflexivity|]. unfold get_leaf. cbn [d_leaf d_leaf_index]. rewrite Hf. reflexivity.
Qed.

Lemma walk_names : forall rn parts s idx leaf idx', disc_walk rn s idx parts = Ok (leaf, idx') ->
  path_to_struct s parts \/
  exists pre post path f, parts = (pre ++ post)%list /\ names_scalar s pre path f /\ idx' = (idx ++ path)%list /\
    exists k, last (map Some path) None = Some k /\ path <> [] /\ nth_error (s_fields leaf) k = Some (FFixed f).
Proof.
  intros rn. induction parts as [|n parts IH]; intros s idx leaf idx' H; [left; constructor|].
  cbn [disc_walk] in H. apply bind_ok in H. destruct H as ((k & f) & Hf & H). apply ok_or_ok in Hf.
  apply find_field_spec in Hf. destruct Hf as (_ & Hn & Hname & Hb). rewrite Nat.sub_0_r in *.
  assert (Hat : first_at n (s_fields s) k f) by (split; [|split]; assumption).
  destruct f as [g|g|nm r loc]; [|discriminate|].
  - inversion H; subst. right. exists [field_name (FFixed g)], parts, [k], g. split; [reflexivity|].
    split; [constructor; exact Hat|]. split; [reflexivity|]. exists k. repeat split; [discriminate|assumption].
  - destruct (IH _ _ _ _ H) as [Hp|(pre & post & path & f & -> & Hns & -> & k' & Hl & Hne & Hf)].
    + left. econstructor; [|exact Hp]. exists k. exact Hat.
    + right. exists (n :: pre), post, (k :: path), f. split; [reflexivity|]. split; [econstructor; [exact Hat|exact Hns]|].
      split; [rewrite <- app_assoc; reflexivity|]. exists k'. repeat split; [|discriminate|assumption].
      cbn [map last]. destruct path; [contradiction|]. exact Hl.
Qed.

(** Conversely, an accepted path names a scalar, up to components that follow
    it, unless it leads to a structure. *)
Theorem discriminant_sound : forall structs disc d, disc_from_model structs disc = Ok d ->
  exists name parts, joined disc (name :: parts) /\ Forall no_dot (name :: parts) /\
    sget name structs = Some (d_root d) /\
    (path_to_struct (d_root d) parts \/
     exists used ignored f, parts = (used ++ ignored)%list /\ names_scalar (d_root d) used (d_index_list d) f /\
       get_leaf (E:=cerror) d = Ok f).
Proof.
  intros structs disc d H. unfold disc_from_model in H. destruct (split_dot disc) as (name & parts) eqn:Hs.
  apply split_dot_spec in Hs. destruct Hs as (Hj & Hd). exists name, parts. split; [exact Hj|]. split; [exact Hd|].
  apply bind_ok in H. destruct H as (root & Hr & H). apply ok_or_ok in Hr.
  apply bind_ok in H. destruct H as ((leaf & idx) & Hw & H). apply bind_ok in H. destruct H as (li & Hli & H).
  inversion H; subst. cbn [d_root d_index_list]. split; [exact Hr|].
  destruct (walk_names _ _ _ _ _ _ Hw) as [Hp|(pre & post & path & f & -> & Hns & -> & k & Hl & Hne & Hf)]; [left; exact Hp|].
  right. exists pre, post, f. split; [reflexivity|]. split; [exact Hns|]. unfold get_leaf. cbn [d_leaf d_leaf_index].
  cbn [app] in Hli. rewrite Hl in Hli. cbn in Hli. inversion Hli; subst. rewrite Hf. reflexivity.
Qed.
