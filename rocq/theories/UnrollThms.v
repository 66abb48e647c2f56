(** C93: an array field as separate fields. *)

From Coq Require Import Arith NArith ZArith Ascii String List Bool Lia ZifyBool ZifyN ZifyNat.
From Verif Require Import Base Schema Codec Compiler Access SpecStruct StructFacts StructThms BitsFacts NestedThms ItemsThms ArrayThms ArrayExact LayoutExact EvolveThms NestThms SpecUnroll.
Import ListNotations.
Local Open Scope N_scope.
Local Open Scope list_scope.
Ltac Zify.zify_post_hook ::= idtac.

(** ** Compilation *)
Section Unrolled.
Variables (m : mode) (endi : endianness) (enums : smap enum_) (structs : smap structure).
Variables (before : list sfield) (df : sfield) (items after : list sfield) (d d' : sstruct) (b : N).
Hypothesis Hu : unrolled before df items after d d'.
Hypothesis Hb : get_bit_size (sf_info df) = Some b.
Let k := N.of_nat (length items).

Definition item_of (ty : fixed_type) (view : fview) (o : N) (nm : string) (n : nat) : field :=
  FFixed {| ff_name := nm; ff_ty := ty; ff_loc := location_from_model b (o + b * N.of_nat n); ff_view := view; ff_endianness := endi |}.
Definition typed (ty : fixed_type) (view : fview) : Prop :=
  view_from_model m enums (get_simple_type (sf_info df)) b (sf_view df) = Ok view /\ fixed_from_model (sf_info df) = Ok ty.
Fixpoint items_of (ty : fixed_type) (view : fview) (o : N) (l : list sfield) (n : nat) : list field :=
  match l with [] => [] | v :: r => item_of ty view o (sf_name v) n :: items_of ty view o r (S n) end.

Lemma info_cases : forall T (g : string -> T) (x : T), match sf_info df with STStruct n => g n | _ => x end = x.
Proof. destruct Hu as (_ & _ & _ & _ & _ & Hs & _). intros T g x. destruct (sf_info df) as [| | | |n]; try reflexivity. exfalso. exact (Hs n eq_refl). Qed.
Lemma item_bits : forall v, In v items -> declared_bits structs v = Some b.
Proof.
  destruct Hu as (_ & _ & _ & _ & _ & Hs & Hi). intros v Hv. destruct (Hi v Hv) as (E1 & _ & E3). unfold declared_bits. rewrite E1, E3.
  destruct (sf_info df) as [x|x|x|x|n]; cbn in Hb; try discriminate Hb; injection Hb as ->; rewrite N.mul_1_r; reflexivity.
Qed.
Lemma array_bits : declared_bits structs df = Some (b * k).
Proof.
  destruct Hu as (_ & _ & _ & Hk & _ & Hs & Hi). unfold declared_bits. rewrite Hk.
  destruct (sf_info df) as [x|x|x|x|n]; cbn in Hb; try discriminate Hb; injection Hb as ->; reflexivity.
Qed.
Lemma items_total : forall l, incl l items -> declared_total structs l = Some (b * N.of_nat (length l)).
Proof.
  induction l as [|v l IH]; intro Hi; cbn [declared_total length]; [rewrite N.mul_0_r; reflexivity|].
  rewrite item_bits by (apply Hi; left; reflexivity). rewrite IH by (intros x Hx; apply Hi; right; exact Hx). f_equal. lia.
Qed.
Lemma item_compiled : forall v o, In v items -> o + b < usize_mod ->
  field_from_model m endi enums structs o v =
  (view <- view_from_model m enums (get_simple_type (sf_info df)) b (sf_view df) ;; ty <- fixed_from_model (sf_info df) ;;
   Ok (FFixed {| ff_name := sf_name v; ff_ty := ty; ff_loc := location_from_model b o; ff_view := view; ff_endianness := endi |}, o + b)).
Proof.
  destruct Hu as (_ & _ & _ & _ & _ & Hs & Hi). intros v o Hv Hl. destruct (Hi v Hv) as (E1 & E2 & E3). unfold field_from_model. rewrite E1, E2, E3.
  destruct (sf_info df) as [x|x|x|x|n] eqn:Ei; cbn in Hb; try discriminate Hb; injection Hb as ->; cbn [get_bit_size ok_or bind].
  all: match goal with |- context [view_from_model ?a ?b ?c ?d ?e] => destruct (view_from_model a b c d e) as [view|e0|]; [|reflexivity..] end; cbn [bind].
  all: rewrite umul_ok by lia; cbn [bind]; rewrite N.mul_1_r.
  all: match goal with |- context [fixed_from_model ?a] => destruct (fixed_from_model a) as [ty|e0|]; [|reflexivity..] end; cbn [bind].
  all: change (1 <? 1) with false; cbv iota; rewrite uadd_ok by lia; reflexivity.
Qed.
Lemma array_compiled : forall o, o + b * k < usize_mod ->
  field_from_model m endi enums structs o df =
  (view <- view_from_model m enums (get_simple_type (sf_info df)) b (sf_view df) ;; ty <- fixed_from_model (sf_info df) ;;
   if (b * k) mod 8 =? 0 then
   Ok (FArray {| fa_name := sf_name df; fa_ty := ty; fa_array_len := k; fa_loc := location_from_model (b * k) o; fa_endianness := endi |}, o + b * k)
   else Err EUnalignedArrayCodec).
Proof.
  destruct Hu as (_ & _ & _ & Hk & H1 & Hs & _). intros o Hl. unfold field_from_model. rewrite Hk. fold k in H1 |- *.
  destruct (sf_info df) as [x|x|x|x|n] eqn:Ei; cbn in Hb; try discriminate Hb; injection Hb as ->; cbn [get_bit_size ok_or bind].
  all: match goal with |- context [view_from_model ?a ?b ?c ?d ?e] => destruct (view_from_model a b c d e) as [view|e0|]; [|reflexivity..] end; cbn [bind].
  all: rewrite umul_ok by lia; cbn [bind].
  all: match goal with |- context [fixed_from_model ?a] => destruct (fixed_from_model a) as [ty|e0|]; [|reflexivity..] end; cbn [bind].
  all: replace (1 <? k) with true by lia; destruct ((b * k) mod 8 =? 0); cbn [negb]; [|reflexivity]; rewrite uadd_ok by lia; reflexivity.
Qed.
Lemma items_compiled : forall ty view l o n, typed ty view -> incl l items -> o + b * N.of_nat (n + length l) < usize_mod ->
  fields_from_model m endi enums structs (o + b * N.of_nat n) l = Ok (items_of ty view o l n, o + b * N.of_nat (n + length l)).
Proof.
  intros ty view l. induction l as [|v l IH]; intros o n (T1 & T2) Hi Hl; cbn [fields_from_model items_of length] in *.
  - rewrite Nat.add_0_r. reflexivity.
  - assert (L : o + b * N.of_nat n + b <= o + b * N.of_nat (n + S (length l))) by (rewrite Nat2N.inj_add; nia).
    rewrite item_compiled; [|apply Hi; left; reflexivity|lia]. rewrite T1. cbn [bind]. rewrite T2. cbn [bind].
    replace (o + b * N.of_nat n + b) with (o + b * N.of_nat (S n)) by lia. rewrite IH; [|split; assumption|intros x Hx; apply Hi; right; exact Hx|].
    + cbn [bind]. replace (S n + length l)%nat with (n + S (length l))%nat by lia. reflexivity.
    + replace (S n + length l)%nat with (n + S (length l))%nat by lia. exact Hl.
Qed.
Lemma items_nth : forall ty view o l n i v, nth_error l i = Some v -> nth_error (items_of ty view o l n) i = Some (item_of ty view o (sf_name v) (n + i)).
Proof.
  intros ty view o. induction l as [|u l IH]; intros n i v Hi; [destruct i; discriminate|]. destruct i as [|i]; cbn [nth_error items_of] in *.
  - injection Hi as ->. rewrite Nat.add_0_r. reflexivity.
  - rewrite (IH (S n) i v Hi). f_equal. f_equal. lia.
Qed.
Lemma items_length : forall ty view o l n, length (items_of ty view o l n) = length l.
Proof. intros ty view o. induction l as [|u l IH]; intro n; cbn; [reflexivity|]. rewrite IH. reflexivity. Qed.

Lemma same_total : declared_total structs (ss_fields d') = declared_total structs (ss_fields d).
Proof.
  destruct Hu as (E1 & E2 & _). rewrite E1, E2. pose proof (items_total items (incl_refl _)) as Hi. fold k in Hi.
  generalize before. intro l0. induction l0 as [|v l IH]; cbn [app declared_total].
  - rewrite array_bits. destruct (declared_total structs after) as [a|] eqn:Ha.
    + rewrite (total_app _ _ _ _ _ Hi Ha). reflexivity.
    + destruct (declared_total structs (items ++ after)) as [t|] eqn:Ht; [|reflexivity]. apply StructThms.declared_total_app in Ht.
      destruct Ht as (? & ? & _ & K & _). congruence.
  - rewrite IH. reflexivity.
Qed.

Record unroll_shape (s s' : structure) (o : N) (ty : fixed_type) (view : fview) (fb fa : list field) : Prop := {
  us_start : declared_total structs before = Some o;
  us_nb : length fb = length before;
  us_array : s_fields s = fb ++ FArray {| fa_name := sf_name df; fa_ty := ty; fa_array_len := k; fa_loc := location_from_model (b * k) o; fa_endianness := endi |} :: fa;
  us_items : s_fields s' = fb ++ items_of ty view o items 0 ++ fa;
  us_name : s_name s' = s_name s;
  us_bits : s_bit_size s' = s_bit_size s;
  us_bytes : s_byte_size s' = s_byte_size s }.

Hypothesis Hfit : forall t, declared_total structs (ss_fields d) = Some t -> t < usize_mod.

Theorem unroll_array : forall i j s, structure_from_model m endi enums structs i d = Ok s -> (b * k) mod 8 = 0 /\
  exists s' o ty view fb fa, structure_from_model m endi enums structs j d' = Ok s' /\ unroll_shape s s' o ty view fb fa.
Proof.
  intros i j s Hs. destruct Hu as (E1 & E2 & E3 & _). unfold structure_from_model in *.
  apply bind_ok in Hs. destruct Hs as ((fs & T) & Hs & K). injection K as <-.
  assert (HT : declared_total structs (ss_fields d) = Some T).
  { pose proof (fields_from_model_layout _ _ _ _ _ _ _ _ Hs) as (_ & t & Ht & Hlay). rewrite Ht. f_equal. symmetry. apply Hlay. right. apply Hfit, Ht. }
  pose proof (Hfit _ HT) as LT. rewrite E1 in Hs, HT. apply StructThms.declared_total_app in HT. destruct HT as (o & t' & HB & HT & ->).
  cbn [declared_total] in HT. rewrite array_bits in HT. destruct (declared_total structs after) as [A|] eqn:HA; [|discriminate HT]. injection HT as <-.
  rewrite fields_app in Hs. apply bind_ok in Hs. destruct Hs as ((fb & o1) & Hbf & Hs). apply bind_ok in Hs. destruct Hs as ((fs' & o2) & Hs & K). injection K as <- ->.
  destruct (fields_end m endi enums structs before 0 o fb o1 HB ltac:(lia) Hbf) as (-> & Lb). rewrite N.add_0_l in *.
  cbn [fields_from_model] in Hs. rewrite array_compiled in Hs by lia.
  destruct (view_from_model m enums (get_simple_type (sf_info df)) b (sf_view df)) as [view|e|] eqn:Hv; [|discriminate..]. cbn [bind] in Hs.
  destruct (fixed_from_model (sf_info df)) as [ty|e|] eqn:Ht; [|discriminate..]. cbn [bind] in Hs.
  destruct ((b * k) mod 8 =? 0) eqn:Hm; [|discriminate Hs]. cbn [bind] in Hs. apply bind_ok in Hs. destruct Hs as ((fa & o3) & Ha & K). injection K as <- ->.
  split; [lia|]. exists (MkStructure j (ss_name d') (fb ++ items_of ty view o items 0 ++ fa) (bytes_of_bits (o + (b * k + A))) (o + (b * k + A))).
  exists o, ty, view, fb, fa. split.
  - rewrite E2, fields_app, Hbf. cbn [bind]. rewrite fields_app. pose proof (items_compiled ty view items o 0 (conj Hv Ht) (incl_refl _)) as Hi.
    cbn [Nat.add] in Hi. fold k in Hi. rewrite N.mul_0_r, N.add_0_r in Hi. rewrite Hi by lia. cbn [bind]. rewrite Ha. reflexivity.
  - constructor; cbn [s_fields s_name s_bit_size s_byte_size]; try reflexivity; assumption.
Qed.
Theorem unroll_items : forall i j s', structure_from_model m endi enums structs j d' = Ok s' -> (b * k) mod 8 = 0 ->
  exists s, structure_from_model m endi enums structs i d = Ok s.
Proof.
  intros i j s Hs Hm. destruct Hu as (E1 & E2 & E3 & _ & H1 & _). unfold structure_from_model in *.
  apply bind_ok in Hs. destruct Hs as ((fs & T) & Hs & K). injection K as <-.
  assert (HT : declared_total structs (ss_fields d') = Some T).
  { pose proof (fields_from_model_layout _ _ _ _ _ _ _ _ Hs) as (_ & t & Ht & Hlay). rewrite Ht. f_equal. symmetry. apply Hlay. right. apply Hfit. rewrite <- same_total. exact Ht. }
  pose proof (Hfit T) as LT. rewrite <- same_total in LT. specialize (LT HT). rewrite E2 in Hs, HT. apply StructThms.declared_total_app in HT. destruct HT as (o & t' & HB & HT & ->).
  apply StructThms.declared_total_app in HT. destruct HT as (I & A & HI & HA & ->). rewrite (items_total items (incl_refl _)) in HI. injection HI as <-. fold k in LT, Hs.
  rewrite fields_app in Hs. apply bind_ok in Hs. destruct Hs as ((fb & o1) & Hbf & Hs). apply bind_ok in Hs. destruct Hs as ((fs' & o2) & Hs & K). injection K as <- ->.
  destruct (fields_end m endi enums structs before 0 o fb o1 HB ltac:(lia) Hbf) as (-> & Lb). rewrite N.add_0_l in *.
  rewrite fields_app in Hs. apply bind_ok in Hs. destruct Hs as ((fi & o4) & Hi & Hs). apply bind_ok in Hs. destruct Hs as ((fa & o3) & Ha & _).
  assert (HT : exists ty view, typed ty view).
  { assert (Lk : b <= b * k) by (unfold k; nia). destruct (nth_error items 0) as [v|] eqn:El; [|apply nth_error_None in El; lia].
    assert (Hv0 : exists l, items = v :: l) by (destruct items as [|u l]; [discriminate El|injection El as ->; exists l; reflexivity]). destruct Hv0 as (l & Hv0).
    rewrite Hv0 in Hi. cbn [fields_from_model] in Hi. rewrite item_compiled in Hi; [|rewrite Hv0; left; reflexivity|lia].
    destruct (view_from_model m enums (get_simple_type (sf_info df)) b (sf_view df)) as [view|e|] eqn:Hv; [|discriminate..]. cbn [bind] in Hi.
    destruct (fixed_from_model (sf_info df)) as [ty|e|] eqn:Ht; [|discriminate..]. exists ty, view. split; assumption. }
  destruct HT as (ty & view & HT). pose proof (items_compiled ty view items o 0 HT (incl_refl _)) as Hi'.
  cbn [Nat.add] in Hi'. fold k in Hi'. rewrite N.mul_0_r, N.add_0_r in Hi'. rewrite Hi' in Hi by lia. injection Hi as <- <-.
  rewrite E1, fields_app, Hbf. cbn [bind fields_from_model]. rewrite array_compiled by lia. destruct HT as (-> & HT). cbn [bind]. rewrite HT. cbn [bind].
  rewrite Hm. change (0 =? 0) with true. cbn [bind]. rewrite Ha. cbn [bind]. eexists. reflexivity.
Qed.
End Unrolled.
