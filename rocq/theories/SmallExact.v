(** Exact conditions for the order of enum variants (C17), discriminant paths
    (C54), iterating an array over any data (C36) and unknown enum values (C69). *)

From Coq Require Import Arith NArith ZArith Ascii String List Bool Lia ZifyBool ZifyN ZifyNat Permutation Sorted.
From Verif Require Import Base Schema Codec Compiler Access Runtime SpecComp SpecItems SpecCase SpecOffsets SpecEvolve
  StructFacts EnumThms ArrayThms CompThms CaseThms ListThms EvolveMore.
Import ListNotations.
Local Open Scope N_scope.
Local Open Scope list_scope.

(** ** Enums *)

Lemma insert_stable : forall n x l,
  filter (fun v => snd v =? n) (insert_variant x l) = filter (fun v => snd v =? n) (x :: l).
Proof.
  intros n x. induction l as [|y l IH]; [reflexivity|]. cbn [insert_variant].
  destruct (N.leb_spec (snd x) (snd y)) as [L|L]; [reflexivity|]. cbn [filter] in *. rewrite IH.
  destruct (N.eqb_spec (snd y) n), (N.eqb_spec (snd x) n); try reflexivity. lia.
Qed.
Lemma sort_stable : forall n l, filter (fun v => snd v =? n) (sort_variants l) = filter (fun v => snd v =? n) l.
Proof.
  intros n. induction l as [|x l IH]; [reflexivity|]. cbn [sort_variants fold_right]. rewrite insert_stable.
  cbn [filter]. unfold sort_variants in IH. rewrite IH. reflexivity.
Qed.

Lemma not_nodup_split : forall (l : list (string * N)), ~ NoDup (map snd l) ->
  exists l1 l2 l3 a b n, l = l1 ++ (a, n) :: l2 ++ (b, n) :: l3.
Proof.
  induction l as [|[a n] l IH]; cbn [map]; intro H; [destruct H; constructor|].
  destruct (in_dec N.eq_dec n (map snd l)) as [I|I].
  - apply in_map_iff in I. destruct I as ((b & n') & E & I). cbn in E. subst n'. apply in_split in I.
    destruct I as (l2 & l3 & ->). exists [], l2, l3, a, b, n. reflexivity.
  - destruct IH as (l1 & l2 & l3 & a' & b & n' & ->).
    + intro Hn. apply H. constructor; assumption.
    + exists ((a, n) :: l1), l2, l3, a', b, n'. reflexivity.
Qed.

Theorem enum_deterministic_exact : forall name v, NoDup (map fst v) ->
  ((forall v', Permutation v v' ->
      enum_from_model {| se_name := name; se_variants := v |} =
      enum_from_model {| se_name := name; se_variants := v' |})
   <-> NoDup (map snd v)).
Proof.
  intros name v Hf. split; [|intros Hn v' Hp; apply enum_deterministic; assumption].
  intro H. destruct (ListDec.NoDup_dec N.eq_dec (map snd v)) as [Y|Y]; [exact Y|exfalso].
  destruct (not_nodup_split _ Y) as (l1 & l2 & l3 & a & b & n & ->).
  assert (P : Permutation (l1 ++ (a, n) :: l2 ++ (b, n) :: l3) (l1 ++ (b, n) :: l2 ++ (a, n) :: l3)).
  { apply Permutation_app_head. transitivity ((a, n) :: (b, n) :: l2 ++ l3).
    - constructor. symmetry. apply Permutation_middle.
    - etransitivity; [apply perm_swap|]. constructor. apply Permutation_middle. }
  specialize (H _ P). unfold enum_from_model in H. cbn [se_variants se_name] in H.
  assert (Q : sort_variants (l1 ++ (a, n) :: l2 ++ (b, n) :: l3) = sort_variants (l1 ++ (b, n) :: l2 ++ (a, n) :: l3)).
  { destruct (rev (sort_variants (l1 ++ (a, n) :: l2 ++ (b, n) :: l3))) as [|[k x] r] eqn:R1.
    - apply (f_equal (@length _)) in R1. rewrite rev_length in R1.
      rewrite (Permutation_length (sort_perm _)), !app_length in R1. cbn in R1. lia.
    - destruct (rev (sort_variants (l1 ++ (b, n) :: l2 ++ (a, n) :: l3))) as [|[k' x'] r'] eqn:R2.
      + apply (f_equal (@length _)) in R2. rewrite rev_length in R2.
        rewrite (Permutation_length (sort_perm _)), !app_length in R2. cbn in R2. lia.
      + cbn in H. inversion H. reflexivity. }
  apply (f_equal (filter (fun v => snd v =? n))) in Q. rewrite !sort_stable, !filter_app in Q.
  apply app_inv_head in Q. cbn [filter snd] in Q. rewrite N.eqb_refl in Q. injection Q as E _. subst b.
  rewrite map_app in Hf. apply NoDup_remove_2 in Hf. apply Hf. apply in_or_app. right.
  apply (in_map fst _ (a, n)). apply in_or_app. right. left. reflexivity.
Qed.

(** ** Discriminant paths *)

Lemma walk_struct : forall rn s parts, path_to_struct s parts -> forall idx,
  exists leaf idx', disc_walk rn s idx parts = Ok (leaf, idx ++ idx') /\ length idx' = length parts.
Proof.
  intros rn s parts H. induction H as [s|s n name r loc rest (k & Hk & Hn & Hb) H IH]; intro idx.
  - exists s, []. rewrite app_nil_r. split; reflexivity.
  - cbn [disc_walk]. rewrite (find_field_at _ _ 0 _ _ Hk Hn Hb). cbn [ok_or bind]. cbv beta iota. cbn [plus].
    destruct (IH (idx ++ [k])) as (leaf & idx' & E & L). exists leaf, (k :: idx'). rewrite E, <- app_assoc.
    split; [reflexivity|]. cbn. rewrite L. reflexivity.
Qed.
Lemma last_some : forall (l : list nat), l <> [] -> exists k, last (map Some l) None = Some k.
Proof.
  induction l as [|x [|y l] IH]; intro H; [contradiction|exists x; reflexivity|].
  destruct IH as (k & E); [discriminate|]. exists k. exact E.
Qed.
Lemma walk_more : forall rn s used path f, names_scalar s used path f -> forall idx ignored,
  exists leaf k, disc_walk rn s idx (used ++ ignored) = Ok (leaf, idx ++ path) /\
    last (map Some path) None = Some k /\ path <> [].
Proof.
  intros rn s used path f H. induction H as [s n k f (Hk & Hn & Hb)|s n k name r loc rest path f (Hk & Hn & Hb) H IH];
    intros idx ign; cbn [app disc_walk]; rewrite (find_field_at _ _ 0 _ _ Hk Hn Hb); cbn [ok_or bind]; cbv beta iota; cbn [plus].
  - exists s, k. repeat split. discriminate.
  - destruct (IH (idx ++ [k]) ign) as (leaf & k' & Hw & Hl & Hne). exists leaf, k'.
    rewrite Hw, <- app_assoc. cbn [app]. repeat split; [|discriminate]. cbn [map last]. destruct path; [contradiction|]. exact Hl.
Qed.

Theorem discriminant_exact : forall structs disc,
  (exists d, disc_from_model structs disc = Ok d) <->
  exists name parts root, joined disc (name :: parts) /\ Forall no_dot (name :: parts) /\
    sget name structs = Some root /\
    ((parts <> [] /\ path_to_struct root parts) \/
     exists used ignored path f, parts = used ++ ignored /\ names_scalar root used path f).
Proof.
  intros structs disc. split.
  - intros (d & H). pose proof H as H0. destruct (discriminant_sound _ _ _ H) as (name & parts & Hj & Hd & Hr & Hp).
    exists name, parts, (d_root d). split; [exact Hj|]. split; [exact Hd|]. split; [exact Hr|].
    destruct Hp as [Hp|(used & ign & f & Hu & Hn & _)]; [left|right; exists used, ign, (d_index_list d), f; split; assumption].
    split; [|exact Hp]. intros ->. unfold joined in Hj. subst disc. unfold disc_from_model in H0.
    rewrite split_dot_concat in H0 by assumption. rewrite Hr in H0. cbn in H0. discriminate.
  - intros (name & parts & root & Hj & Hd & Hr & Hp). unfold joined in Hj. subst disc.
    unfold disc_from_model. rewrite split_dot_concat by assumption. rewrite Hr. cbn [ok_or bind].
    destruct Hp as [(Hne & Hp)|(used & ign & path & f & -> & Hn)].
    + destruct (walk_struct name _ _ Hp []) as (leaf & idx & Hw & Hl). rewrite Hw. cbn [bind app].
      destruct (last_some idx) as (k & Hk); [intros ->; destruct parts; [contradiction|discriminate]|].
      rewrite Hk. cbn [unwrap bind]. eexists. reflexivity.
    + destruct (walk_more name _ _ _ _ Hn [] ign) as (leaf & k & Hw & Hl & Hne). rewrite Hw. cbn [bind app].
      rewrite Hl. cbn [unwrap bind]. eexists. reflexivity.
Qed.

(** ** Arrays *)

Lemma chunks_aux_any : forall {A} n fuel (b : list A), (0 < n)%nat -> (length b <= fuel)%nat ->
  (forall i, (i * n < length b)%nat -> nth_error (chunks_aux fuel n b) i = Some (firstn n (skipn (i * n) b))) /\
  (forall i, (length b <= i * n)%nat -> nth_error (chunks_aux fuel n b) i = None).
Proof.
  intros A n. induction fuel as [|fuel IH]; intros b Hn Hf.
  - destruct b; [|cbn in Hf; lia]. split; intros i Hi; [cbn in Hi; lia|]. destruct i; reflexivity.
  - destruct b as [|x b]; [split; intros i Hi; [cbn in Hi; lia|]; destruct i; reflexivity|].
    cbn [chunks_aux]. set (l := x :: b) in *.
    assert (Hl : length (skipn n l) = (length l - n)%nat) by apply skipn_length.
    assert (Hx : (0 < length l)%nat) by (unfold l; cbn; lia).
    destruct (IH (skipn n l) Hn ltac:(lia)) as (H1 & H2). split; intros i Hi.
    + destruct i as [|i]; [reflexivity|]. cbn [nth_error]. rewrite H1 by lia. f_equal.
      rewrite skipn_add. reflexivity.
    + destruct i as [|i]; [lia|]. cbn [nth_error]. apply H2. lia.
Qed.

Lemma chunks_any : forall {A} E n (b : list A), 0 < n ->
  chunks (E:=E) n b = Ok (chunks_aux (length b) (N.to_nat n) b).
Proof.
  intros A E n b Hn. unfold chunks. replace (n =? 0) with false by lia. destruct (N.leb_spec (len b) n) as [L|L]; [|reflexivity].
  destruct b as [|x b]; [reflexivity|]. cbn [length chunks_aux]. unfold len in L.
  rewrite firstn_all2 by lia. rewrite skipn_all2 by lia. destruct (length b); reflexivity.
Qed.

Theorem arr_items_exact : forall E size data,
  (arr_items (E:=E) size data = Panic <-> size = 0) /\
  (0 < size -> exists ws, arr_items (E:=E) size data = Ok ws /\ forall i,
     (i * size < len data -> nth_error ws (N.to_nat i) = Some (window data (i * size) (N.min ((i + 1) * size) (len data)))) /\
     (len data <= i * size -> nth_error ws (N.to_nat i) = None)).
Proof.
  intros E size data. unfold arr_items. split.
  - destruct (N.eq_dec size 0) as [Z|Z].
    + split; intro H; [exact Z|]. rewrite Z. reflexivity.
    + rewrite chunks_any by lia. split; intro H; [discriminate H|contradiction].
  - intro Hs. rewrite chunks_any by exact Hs. eexists. split; [reflexivity|]. intro i.
    destruct (chunks_aux_any (N.to_nat size) (length data) data ltac:(lia) ltac:(lia)) as (H1 & H2). split; intro Hi.
    + rewrite H1 by (unfold len in Hi; nia). f_equal. unfold window, len in *.
      replace (N.to_nat i * N.to_nat size)%nat with (N.to_nat (i * size)) by lia.
      destruct (N.le_gt_cases ((i + 1) * size) (N.of_nat (length data))).
      * rewrite N.min_l by lia. f_equal. nia.
      * rewrite N.min_r by lia. rewrite !firstn_all2; [reflexivity| |]; rewrite skipn_length; nia.
    + apply H2. unfold len in Hi. nia.
Qed.

(** ** Unknown enum values *)

Theorem enum_unknown_exact : forall E m f d e data raw, enum_from_model d = Ok e -> ff_view f = VEnum e ->
  get_raw (E:=E) m f data = Ok raw ->
  (get_view (E:=E) m f data = Ok (XEnum None) <-> forall v, In v (se_variants d) -> snd v < raw) /\
  (get_view (E:=E) m f data = Ok (XEnum (Some raw)) <-> exists v, In v (se_variants d) /\ raw <= snd v).
Proof.
  intros E m f d e data raw He Hv Hr. destruct (enum_sorted _ _ He) as (_ & _ & _ & Hin & Hmax).
  unfold get_raw in Hr. apply bind_ok in Hr. destruct Hr as (a & Ha & Hr). unfold get_view. rewrite Ha. cbn [bind].
  rewrite Hr. cbn [bind]. unfold view_get. rewrite Hv. apply in_map_iff in Hin. destruct Hin as (v0 & E0 & I0).
  destruct (N.ltb_spec (e_largest e) raw) as [L|L]; split; split; intro H; try reflexivity; try discriminate.
  - intros v Hv'. apply (in_map snd) in Hv'. specialize (Hmax _ Hv'). lia.
  - destruct H as (v & Hv' & Hle). apply (in_map snd) in Hv'. specialize (Hmax _ Hv'). lia.
  - specialize (H _ I0). lia.
  - exists v0. split; [exact I0|]. lia.
Qed.
