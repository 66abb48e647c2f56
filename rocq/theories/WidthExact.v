(** Which widths are accepted, for C15, and which arrays, for C11: from the exact acceptance of
    structures (C75). *)

From Coq Require Import Arith NArith ZArith Ascii String List Bool Lia ZifyBool ZifyN ZifyNat.
From Verif Require Import Base Schema Compiler SpecStruct SpecComp SpecPanic SpecAccept AcceptThms.
Import ListNotations.
Local Open Scope N_scope.

Lemma scalar_width_exact : forall m endi enums structs id name t,
  (exists s, structure_from_model m endi enums structs id
     {| ss_name := name; ss_fields := [ {| sf_name := "x"; sf_info := t; sf_view := None; sf_array_len := None |} ] |} = Ok s) <->
  match t with
  | STUnsigned b | STSigned b => 1 <= b <= 64
  | STFloat b => b = 32 \/ b = 64
  | STBoolean b => m = Debug -> b < 2 ^ 64
  | STStruct n => exists r, sget n structs = Some r /\ (m = Debug -> s_bit_size r < 2 ^ 64)
  end.
Proof.
  intros m endi enums structs id name t. rewrite structure_accepted. unfold struct_accepted. cbn [ss_fields].
  rewrite Forall_cons_iff. unfold field_accepted, view_fits, width_fits, range_fits, declared_total, declared_bits.
  assert (B : 64 < 2 ^ 64) by reflexivity.
  destruct t as [b|b|b|b|n]; cbn [sf_info sf_view sf_array_len items_of get_bit_size]; split.
  all: try (intros (((Hv & (b' & Hb' & Hw) & _) & _) & Hm); injection Hb' as <-; first [exact Hw|exact Hv]).
  - intro Hb. split; [split; [split; [exact I|split; [exists b; split; [reflexivity|lia]|unfold items_of; cbn; lia]]|constructor]|].
    intros _. split; [repeat constructor; intros; discriminate|]. eexists. split; [reflexivity|]. lia.
  - intro Hb. split; [split; [split; [exact I|split; [exists b; split; [reflexivity|lia]|unfold items_of; cbn; lia]]|constructor]|].
    intros _. split; [repeat constructor; intros; discriminate|]. eexists. split; [reflexivity|]. lia.
  - intro Hb. split; [split; [split; [exact Hb|split; [exists b; split; [reflexivity|lia]|unfold items_of; cbn; lia]]|constructor]|].
    intros _. split; [repeat constructor; intros; discriminate|]. eexists. split; [reflexivity|]. lia.
  - intros (_ & Hm) ->. destruct (Hm eq_refl) as (_ & t & Ht & Hl). injection Ht as Ht. lia.
  - intro Hb. split; [split; [split; [exact I|split; [exact I|unfold items_of; cbn; lia]]|constructor]|].
    intro Em. split; [repeat constructor; intros; discriminate|]. eexists. split; [reflexivity|]. specialize (Hb Em). lia.
  - intros (((r & Hr) & _) & Hm). exists r. split; [exact Hr|]. intro Em. destruct (Hm Em) as (_ & t & Ht & Hl).
    rewrite Hr in Ht. injection Ht as Ht. lia.
  - intros (r & Hr & Hb). split; [split; [exists r; exact Hr|constructor]|]. intro Em. specialize (Hb Em).
    split; [repeat constructor; intros; discriminate|]. rewrite Hr. eexists. split; [reflexivity|]. lia.
Qed.

Lemma array_width_exact : forall m endi enums structs id name t k, 1 < k ->
  (exists s, structure_from_model m endi enums structs id
     {| ss_name := name; ss_fields := [ {| sf_name := "x"; sf_info := t; sf_view := None; sf_array_len := Some k |} ] |} = Ok s) <->
  match t with
  | STUnsigned b | STSigned b => 1 <= b <= 64 /\ (b * k) mod 8 = 0 /\ (m = Debug -> b * k < 2 ^ 64)
  | STFloat b => (b = 32 \/ b = 64) /\ (m = Debug -> b * k < 2 ^ 64)
  | STBoolean b => (b * k) mod 8 = 0 /\ (m = Debug -> b * k < 2 ^ 64)
  | STStruct n => exists r, sget n structs = Some r /\ (m = Debug -> s_bit_size r < 2 ^ 64)
  end.
Proof.
  intros m endi enums structs id name t k Hk. rewrite structure_accepted. unfold struct_accepted. cbn [ss_fields].
  rewrite Forall_cons_iff. unfold field_accepted, view_fits, width_fits, range_fits, declared_total, declared_bits.
  assert (D : forall b, exists T, Some (b * k + 0) = Some T /\ (T < 2 ^ 64 <-> b * k < 2 ^ 64))
    by (intro b; eexists; split; [reflexivity|lia]).
  destruct t as [b|b|b|b|n]; cbn [sf_info sf_view sf_array_len items_of get_bit_size]; unfold items_of; cbn [sf_array_len]; split.
  all: try (intros (((Hv & Hw & Ha) & _) & Hm); destruct (Ha Hk) as (b2 & Hb2 & Hmod); injection Hb2 as <-;
    assert (Hd : m = Debug -> b * k < 2 ^ 64)
      by (intro Em; destruct (Hm Em) as (_ & T & HT & Hl); injection HT as HT; lia);
    try (destruct Hw as (b' & Hb' & Hw); injection Hb' as <-);
    first [exact (conj Hw (conj Hmod Hd))|exact (conj Hv Hd)|exact (conj Hmod Hd)]).
  - intros (Hb & Hmod & Hd). split; [split; [split; [exact I|split; [exists b; auto|intros _; exists b; auto]]|constructor]|].
    intro Em. split; [repeat constructor; intros; discriminate|]. eexists. split; [reflexivity|]. specialize (Hd Em). lia.
  - intros (Hb & Hmod & Hd). split; [split; [split; [exact I|split; [exists b; auto|intros _; exists b; auto]]|constructor]|].
    intro Em. split; [repeat constructor; intros; discriminate|]. eexists. split; [reflexivity|]. specialize (Hd Em). lia.
  - intros (Hb & Hd). split; [split; [split; [exact Hb|split; [exists b; split; [reflexivity|lia]|intros _; exists b; split; [reflexivity|]]]|constructor]|].
    + destruct Hb as [-> | ->].
      * replace (32 * k) with (4 * k * 8) by lia. apply N.mod_mul. discriminate.
      * replace (64 * k) with (8 * k * 8) by lia. apply N.mod_mul. discriminate.
    + intro Em. split; [repeat constructor; intros; discriminate|]. eexists. split; [reflexivity|]. specialize (Hd Em). lia.
  - intros (Hmod & Hd). split; [split; [split; [exact I|split; [exact I|intros _; exists b; auto]]|constructor]|].
    intro Em. split; [repeat constructor; intros; discriminate|]. eexists. split; [reflexivity|]. specialize (Hd Em). lia.
  - intros (((r & Hr) & _) & Hm). exists r. split; [exact Hr|]. intro Em. destruct (Hm Em) as (_ & t & Ht & Hl).
    rewrite Hr in Ht. injection Ht as Ht. lia.
  - intros (r & Hr & Hb). split; [split; [exists r; exact Hr|constructor]|]. intro Em. specialize (Hb Em).
    split; [repeat constructor; intros; discriminate|]. rewrite Hr. eexists. split; [reflexivity|]. lia.
Qed.
