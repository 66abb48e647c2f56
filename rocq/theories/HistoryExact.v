(** Exactly when the scalar fields of a structure are independent (C05). *)

From Coq Require Import Arith NArith ZArith String List Bool Lia ZifyBool ZifyN ZifyNat.
From Verif Require Import Base Schema Bits BitsFacts Codec CodecFacts Compiler Access SpecStruct
  StructFacts StructThms StackThms.
Import ListNotations.
Local Open Scope N_scope.
Ltac Zify.zify_post_hook ::= idtac.

(** The field before a field ends where it starts. *)
Lemma declared_before : forall structs d k o w, declared_at structs d (S k) o w ->
  exists o' w', declared_at structs d k o' w' /\ o = o' + w'.
Proof.
  intros structs d k o w (Ht & f & Hf & _).
  assert (Hk : exists g, nth_error (ss_fields d) k = Some g).
  { destruct (nth_error (ss_fields d) k) as [g|] eqn:Hg; [eauto|]. exfalso.
    apply nth_error_None in Hg. assert (nth_error (ss_fields d) (S k) <> None) as Hn by congruence.
    apply nth_error_Some in Hn. lia. }
  destruct Hk as (g & Hg). rewrite (firstn_S_nth _ _ _ Hg) in Ht. apply declared_total_app in Ht.
  destruct Ht as (ta & tb & Ha & Hb & ->). cbn [declared_total] in Hb.
  destruct (declared_bits structs g) as [w'|] eqn:Hw'; [|discriminate]. injection Hb as <-.
  exists ta, w'. split; [|lia]. split; [exact Ha|]. exists g. auto.
Qed.

Section Exact.
Context {E : Type}.

Theorem history_exact : forall m mr enums structs id d s,
  structure_from_model m Little enums structs id d = Ok s ->
  no_overflow m structs d ->
  (forall i, (i < length (ss_fields d))%nat -> exists f o w,
     nth_error (s_fields s) i = Some (FFixed f) /\ declared_at structs d i o w /\ 0 < w <= 64) ->
  ((forall h buf, (forall i v, In (i, v) h -> (i < length (ss_fields d))%nat) ->
      s_byte_size s <= len buf -> bytes_ok buf ->
      exists buf', run_history (E:=E) mr s h buf = Ok buf' /\
        forall i f o w, nth_error (s_fields s) i = Some (FFixed f) -> declared_at structs d i o w ->
          get_raw (E:=E) mr f buf' =
            match last_set h i with
            | Some v => Ok (v mod 2 ^ w)
            | None => get_raw mr f buf
            end) <->
   forall i o w, declared_at structs d i o w -> addressable o w).
Proof.
  intros m mr enums structs id d s Hs Hno Hall.
  assert (Hat : forall i o w, declared_at structs d i o w -> (i < length (ss_fields d))%nat).
  { intros i o w (_ & f & Hf & _). apply nth_error_Some. congruence. }
  assert (Hfun : forall i o w o' w', declared_at structs d i o w -> declared_at structs d i o' w' -> o = o' /\ w = w').
  { intros i o w o' w' (H1 & f & H2 & H3) (H4 & g & H5 & H6). split; congruence. }
  split.
  - intros H.
    set (zb := repeat 0 (N.to_nat (s_byte_size s))).
    assert (Hzl : len zb = s_byte_size s) by (unfold zb, len; rewrite repeat_length; lia).
    assert (Hzo : bytes_ok zb) by apply bytes_ok_zeros.
    assert (Hfield : forall i o w, declared_at structs d i o w -> exists f,
      nth_error (s_fields s) i = Some (FFixed f) /\ 0 < w <= 64 /\
      ff_loc f = location_from_model w o /\ ff_endianness f = Little /\ o / 8 + ceil8 w <= s_byte_size s).
    { intros i o w Hd. destruct (Hall i (Hat i o w Hd)) as (f & o' & w' & Hf & Hd' & Hw).
      destruct (Hfun _ _ _ _ _ Hd Hd') as (-> & ->). exists f. split; [exact Hf|]. split; [exact Hw|].
      pose proof (fixed_little _ _ _ _ _ _ _ _ Hs Hf) as Hl.
      destruct (fixed_in_structure _ _ _ _ _ _ _ _ _ _ Hs Hno Hf Hd') as (Hloc & Hle & Hwin). auto. }
    assert (A : forall i o w, declared_at structs d i o w -> acc_width o w = w).
    { intros i o w Hd. destruct (Hfield i o w Hd) as (f & Hf & Hw & Hloc & Hl & Hwin).
      destruct (H [(i, 2 ^ w - 1)] zb) as (b & Hb & Hg).
      { intros j v [K|[]]. inversion K; subst. eapply Hat; eassumption. }
      { lia. } { assumption. }
      specialize (Hg i f o w Hf Hd). cbn [last_set] in Hg. rewrite Nat.eqb_refl in Hg.
      assert (Hp : 0 < 2 ^ w) by (apply N.neq_0_lt_0, N.pow_nonzero; discriminate).
      rewrite N.mod_small in Hg by lia.
      cbn [run_history] in Hb. rewrite Hf in Hb.
      destruct (ac_set_LE (E:=E) mr f o w zb (2 ^ w - 1) Hloc Hl Hw ltac:(lia) Hzo) as (b1 & Hb1 & Hu1 & Hu2 & _).
      rewrite Hb1 in Hb. cbn [bind] in Hb. injection Hb as <-.
      assert (Hlen : len b1 = len zb) by (unfold len; congruence).
      destruct (ac_get_LE (E:=E) mr f o w b1 Hloc Hl Hw ltac:(lia) Hu2) as (v & Hv & Hbits).
      rewrite Hg in Hv. injection Hv as <-. specialize (Hbits (w - 1)). rewrite testbit_mask in Hbits.
      pose proof (acc_width_le o w).
      destruct (N.ltb_spec (w - 1) w); [|lia]. destruct (N.ltb_spec (w - 1) (acc_width o w)); [lia|discriminate]. }
    assert (B : forall i o w, declared_at structs d i o w -> addressable o w).
    { induction i as [|k IH]; intros o w Hd; pose proof (A _ _ _ Hd) as HA; unfold acc_width in HA; unfold addressable;
        destruct (N.eqb_spec (w mod 8) 0) as [He|He].
      - destruct Hd as (Ht & _). cbn in Ht. injection Ht as <-. reflexivity.
      - destruct (N.min_spec w (8 * ceil8 w - o mod 8)) as [(K & _)|(K & K2)]; [lia|].
        rewrite HA in K2. lia.
      - destruct (declared_before _ _ _ _ _ Hd) as (o' & w' & Hd' & Ho). pose proof (IH o' w' Hd') as Ha'.
        destruct (N.eq_dec (o mod 8) 0) as [Hz|Hz]; [exact Hz|exfalso].
        destruct (Hfield _ _ _ Hd) as (f & Hf & Hw & Hloc & Hl & Hwin).
        destruct (Hfield _ _ _ Hd') as (f' & Hf' & Hw' & Hloc' & Hl' & Hwin').
        destruct (addressable_acc _ _ Ha') as (Hs' & _). pose proof (A _ _ _ Hd') as HA'.
        destruct (H [(k, 0); (S k, 2 ^ w - 1)] zb) as (b & Hb & Hg).
        { intros j v [K|[K|[]]]; inversion K; subst; eapply Hat; eassumption. }
        { lia. } { assumption. }
        specialize (Hg k f' o' w' Hf' Hd'). cbn [last_set] in Hg.
        destruct (Nat.eqb_spec (S k) k) as [K|_]; [lia|]. rewrite Nat.eqb_refl, N.mod_0_l in Hg by (apply N.pow_nonzero; discriminate).
        cbn [run_history] in Hb. rewrite Hf', Hf in Hb.
        destruct (ac_set_LE (E:=E) mr f' o' w' zb 0 Hloc' Hl' Hw' ltac:(lia) Hzo) as (b1 & Hb1 & Hu1 & Hu2 & Hu3).
        rewrite Hb1 in Hb. cbn [bind] in Hb. assert (Hlen : len b1 = len zb) by (unfold len; congruence).
        destruct (ac_set_LE (E:=E) mr f o w b1 (2 ^ w - 1) Hloc Hl Hw ltac:(lia) Hu2) as (b2 & Hb2 & Hv1 & Hv2 & Hv3).
        rewrite Hb2 in Hb. cbn [bind] in Hb. injection Hb as <-.
        assert (Hlen2 : len b2 = len zb) by (unfold len in *; congruence).
        destruct (ac_get_LE (E:=E) mr f' o' w' b2 Hloc' Hl' Hw' ltac:(lia) Hv2) as (v & Hv & Hbits).
        rewrite Hg in Hv. injection Hv as <-. specialize (Hbits (w' - 1)). rewrite N.bits_0, Hs', HA' in Hbits.
        rewrite Hv3 in Hbits. unfold acc_start, acc_width in Hbits. rewrite He in Hbits. cbn [N.eqb] in Hbits.
        rewrite testbit_mask in Hbits.
        pose proof (N.div_mod o 8 ltac:(discriminate)) as Hdm. pose proof (N.mod_lt o 8 ltac:(discriminate)) as Hm8.
        pose proof (N.div_mod w 8 ltac:(discriminate)) as Hdw.
        replace (o' + (w' - 1)) with (o - 1) in Hbits by lia.
        destruct (N.ltb_spec (w' - 1) w'); [|lia]. destruct (N.leb_spec (8 * (o / 8)) (o - 1)); [|lia].
        destruct (N.ltb_spec (o - 1) (8 * (o / 8) + w)); [|lia]. cbn [andb] in Hbits.
        destruct (N.ltb_spec (o - 1 - 8 * (o / 8)) w); [discriminate|lia].
      - destruct (N.min_spec w (8 * ceil8 w - o mod 8)) as [(K & _)|(K & K2)]; [lia|].
        rewrite HA in K2. lia. }
    exact B.
  - intros Ha h buf Hh Hlen Hok.
    assert (Hgood : forall i v, In (i, v) h -> good_field structs d s i).
    { intros i v Hin. destruct (Hall i (Hh i v Hin)) as (f & o & w & Hf & Hd & Hw). exists f, o, w.
      split; [exact Hf|]. split; [exact Hd|]. split; [exact Hw|]. eapply Ha; eassumption. }
    destruct (history_correct (E:=E) m mr enums structs id d s Hs Hno h buf Hgood Hlen Hok) as (buf' & H1 & _ & _ & H4).
    exists buf'. split; [exact H1|]. intros i f o w Hf Hd. apply (H4 i f o w Hf Hd); [|exact (Ha _ _ _ Hd)].
    destruct (Hall i (Hat i o w Hd)) as (f' & o' & w' & Hf' & Hd' & Hw').
    destruct (Hfun _ _ _ _ _ Hd Hd') as (_ & Ew). rewrite Ew. exact Hw'.
Qed.

End Exact.
