(** Proofs about enum compilation (C17) and the enum view (C08). *)

From Coq Require Import Arith NArith ZArith String List Bool Lia ZifyBool ZifyN ZifyNat Permutation Sorted.
From Verif Require Import Base Schema Bits Codec Compiler Access SpecStruct StructFacts StructThms ViewThms.
Import ListNotations.
Local Open Scope N_scope.
Ltac Zify.zify_post_hook ::= idtac.

Definition vle (a b : string * N) : Prop := snd a <= snd b.

Lemma insert_perm : forall x l, Permutation (insert_variant x l) (x :: l).
Proof.
  intros x. induction l as [|y l IH]; cbn; [reflexivity|]. destruct (snd x <=? snd y); [reflexivity|].
  rewrite IH. apply perm_swap.
Qed.
Lemma sort_perm : forall l, Permutation (sort_variants l) l.
Proof.
  induction l as [|x l IH]; cbn; [reflexivity|]. rewrite insert_perm. constructor. exact IH.
Qed.
Lemma insert_sorted : forall x l, StronglySorted vle l -> StronglySorted vle (insert_variant x l).
Proof.
  intros x l H. induction H as [|y l Hs IH Hy]; cbn.
  - constructor; constructor.
  - destruct (N.leb_spec (snd x) (snd y)).
    + constructor; [constructor; assumption|]. constructor; [assumption|].
      eapply Forall_impl; [|exact Hy]. unfold vle in *. intros z Hz. lia.
    + constructor; [assumption|]. rewrite insert_perm. constructor; [unfold vle; lia|assumption].
Qed.
Lemma sort_sorted : forall l, StronglySorted vle (sort_variants l).
Proof. induction l; cbn; [constructor|apply insert_sorted; assumption]. Qed.

Lemma sorted_last : forall l x r, StronglySorted vle l -> rev l = x :: r ->
  In x l /\ Forall (fun y => snd y <= snd x) l.
Proof.
  intros l x r H Hr. assert (Hl : l = rev r ++ [x]).
  { rewrite <- (rev_involutive l), Hr. reflexivity. }
  subst l. split; [apply in_or_app; right; left; reflexivity|].
  clear Hr. remember (rev r) as q. clear r Heqq. induction q as [|y q IH]; cbn in *.
  - constructor; [lia|constructor].
  - inversion H; subst. constructor; [|apply IH; assumption].
    rewrite Forall_forall in H3. apply (H3 x). apply in_or_app. right. left. reflexivity.
Qed.

Lemma enum_sorted : forall de e, enum_from_model de = Ok e ->
  e_name e = se_name de /\
  Permutation (e_variants e) (se_variants de) /\
  StronglySorted (fun a b => snd a <= snd b) (e_variants e) /\
  In (e_largest e) (map snd (se_variants de)) /\
  forall v, In v (map snd (se_variants de)) -> v <= e_largest e.
Proof.
  intros de e H. unfold enum_from_model in H.
  destruct (rev (sort_variants (se_variants de))) as [|(nm & n) r] eqn:Hr; [discriminate|].
  cbn in H. inversion H; subst; cbn.
  destruct (sorted_last _ _ _ (sort_sorted _) Hr) as (Hin & Hall).
  split; [reflexivity|]. split; [apply sort_perm|]. split; [apply sort_sorted|].
  split.
  - change n with (snd (nm, n)). apply in_map. eapply Permutation_in; [apply sort_perm|exact Hin].
  - intros v Hv. apply in_map_iff in Hv. destruct Hv as (y & <- & Hy).
    rewrite Forall_forall in Hall. apply (Hall y).
    eapply Permutation_in; [symmetry; apply sort_perm|exact Hy].
Qed.

Lemma enum_result : forall de,
  (se_variants de = [] /\ enum_from_model de = Err EZeroEnum) \/
  (se_variants de <> [] /\ exists e, enum_from_model de = Ok e).
Proof.
  intros de. unfold enum_from_model.
  destruct (rev (sort_variants (se_variants de))) as [|(nm & n) r] eqn:Hr.
  - left. assert (Hn : sort_variants (se_variants de) = []).
    { rewrite <- (rev_involutive (sort_variants _)), Hr. reflexivity. }
    pose proof (sort_perm (se_variants de)) as Hp. rewrite Hn in Hp. apply Permutation_nil in Hp.
    rewrite Hp. split; reflexivity.
  - right. split; [|eexists; reflexivity]. intro Hc. rewrite Hc in Hr. discriminate.
Qed.

(** Two sorted permutations with distinct values are equal. *)
Lemma sorted_unique : forall l1 l2, NoDup (map snd l1) -> Permutation l1 l2 ->
  StronglySorted vle l1 -> StronglySorted vle l2 -> l1 = l2.
Proof.
  induction l1 as [|x l1 IH]; intros l2 Hn Hp H1 H2.
  - apply Permutation_nil in Hp. congruence.
  - destruct l2 as [|y l2]; [symmetry in Hp; apply Permutation_nil in Hp; discriminate|].
    assert (Hxy : x = y).
    { assert (Hin1 : In x (y :: l2)) by (eapply Permutation_in; [exact Hp|left; reflexivity]).
      assert (Hin2 : In y (x :: l1)) by (eapply Permutation_in; [symmetry; exact Hp|left; reflexivity]).
      destruct Hin2 as [->|Hin2]; [reflexivity|]. destruct Hin1 as [->|Hin1]; [reflexivity|].
      inversion H1 as [|? ? _ Hx]; subst. inversion H2 as [|? ? _ Hy]; subst.
      rewrite Forall_forall in Hx, Hy. specialize (Hx _ Hin2). specialize (Hy _ Hin1).
      unfold vle in *. assert (snd x = snd y) by lia.
      inversion Hn as [|? ? Hnx _]; subst. exfalso. apply Hnx. rewrite H. apply in_map. exact Hin2. }
    subst y. apply Permutation_cons_inv in Hp. f_equal.
    inversion Hn; inversion H1; inversion H2; subst. apply IH; assumption.
Qed.

Lemma enum_deterministic : forall name v1 v2,
  Permutation v1 v2 -> NoDup (map snd v1) ->
  enum_from_model {| se_name := name; se_variants := v1 |} =
  enum_from_model {| se_name := name; se_variants := v2 |}.
Proof.
  intros name v1 v2 Hp Hn.
  assert (He : sort_variants v1 = sort_variants v2).
  { apply sorted_unique.
    - eapply Permutation_NoDup; [|exact Hn]. apply Permutation_map. symmetry. apply sort_perm.
    - rewrite sort_perm, Hp. symmetry. apply sort_perm.
    - apply sort_sorted.
    - apply sort_sorted. }
  unfold enum_from_model. cbn [se_variants se_name]. rewrite He. reflexivity.
Qed.

Lemma sget_In : forall {A} k (v : A) m, NoDup (map fst m) -> (sget k m = Some v <-> In (k, v) m).
Proof.
  intros A k v. induction m as [|(k' & v') m IH]; intro Hn; cbn.
  - split; [discriminate|tauto].
  - inversion Hn as [|? ? Hk Hm]; subst. destruct (String.eqb_spec k k') as [->|Hne].
    + split.
      * intro H. inversion H. auto.
      * intros [H|H]; [inversion H; reflexivity|]. exfalso. apply Hk.
        change k' with (fst (k', v)). apply in_map. exact H.
    + rewrite IH by assumption. split; [auto|]. intros [H|H]; [inversion H; congruence|exact H].
Qed.

Lemma fold_insert_rev : forall (l : list (string * N)) acc,
  fold_left (fun m kv => sinsert (fst kv) (snd kv) m) l acc = rev l ++ acc.
Proof.
  induction l as [|(k & v) l IH]; intros acc; cbn [fold_left rev]; [reflexivity|].
  rewrite IH, <- app_assoc. reflexivity.
Qed.

Lemma enum_lookup : forall de e, enum_from_model de = Ok e -> NoDup (map fst (se_variants de)) ->
  forall k v, sget k (e_map e) = Some v <-> In (k, v) (se_variants de).
Proof.
  intros de e H Hn k v. unfold enum_from_model in H.
  destruct (rev (sort_variants (se_variants de))) as [|(nm & n) r] eqn:Hr; [discriminate|].
  cbn in H. inversion H; subst; cbn [e_map]. rewrite fold_insert_rev, app_nil_r.
  assert (Hp : Permutation (rev (sort_variants (se_variants de))) (se_variants de)).
  { rewrite <- Permutation_rev. apply sort_perm. }
  rewrite sget_In.
  - split; apply Permutation_in; [exact Hp|symmetry; exact Hp].
  - eapply Permutation_NoDup; [|exact Hn]. apply Permutation_map. symmetry. exact Hp.
Qed.

(** ** C08 *)
Lemma enum_view_exact : forall {E} m mr enums structs id d s i df f n name de e o,
  structure_from_model m Little enums structs id d = Ok s ->
  no_overflow m structs d ->
  nth_error (ss_fields d) i = Some df ->
  sf_info df = STUnsigned n -> sf_view df = Some (SVEnum name) ->
  sget name enums = Some e -> enum_from_model de = Ok e ->
  nth_error (s_fields s) i = Some (FFixed f) -> declared_at structs d i o n ->
  addressable o n ->
  (forall x y, declared_value de y -> x <= y -> declared_value de x) ->
  forall buf, s_byte_size s <= len buf -> bytes_ok buf ->
    (exists raw r, is_field_value buf o n raw /\ get_view (E:=E) mr f buf = Ok (XEnum r) /\
       (declared_value de raw -> r = Some raw) /\ (~ declared_value de raw -> r = None)) /\
    (forall x, declared_value de x -> x < 2 ^ n ->
       exists buf', set_view (E:=E) mr f buf (XEnum (Some x)) = Ok buf' /\
         is_field_update buf o n x buf' /\
         get_view (E:=E) mr f buf' = Ok (XEnum (Some x))).
Proof.
  intros E m mr enums structs id d s i df f n name de e o H Hno Hd Hi Hv He Hde Hf Hat Ha Hhole buf Hl Hb.
  destruct (enum_view (E:=E) m mr _ _ _ _ _ _ _ _ _ _ _ _ _ H Hno Hd Hi Hv He Hf Hat eq_refl Ha) as (_ & Hview).
  destruct (Hview buf Hl Hb) as ((raw & Hraw & Hget) & Hset).
  destruct (enum_sorted _ _ Hde) as (_ & _ & _ & Hin & Hmax). split.
  - exists raw, (if e_largest e <? raw then None else Some raw).
    split; [assumption|]. split; [assumption|].
    destruct (N.ltb_spec (e_largest e) raw); (split; [intro Hdv; try reflexivity|intro Hdv; try reflexivity]).
    + specialize (Hmax _ Hdv). lia.
    + exfalso. apply Hdv. eapply Hhole; [exact Hin|assumption].
  - intros x Hx Hxn. apply Hset; [assumption|]. apply Hmax. exact Hx.
Qed.
