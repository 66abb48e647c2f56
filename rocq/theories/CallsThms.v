(** Calls of setters, raw and through views, do not disturb each other (C100). *)

From Coq Require Import Arith NArith ZArith String List Bool Lia ZifyBool ZifyN ZifyNat.
From Verif Require Import Base Schema Bits BitsFacts Codec CodecFacts Compiler Access SpecStruct
  StructFacts StructThms ViewThms NestedThms Place SpecPlace PlaceThms Calls SpecCalls.
Import ListNotations.
Local Open Scope N_scope.
Ltac Zify.zify_post_hook ::= idtac.

Section Calls.
Context {E : Type} (mr : mode).

(** A view is the raw accessor and a conversion. *)
Lemma place_scalar : forall s path item o w, at_place s path item o w -> item = None -> exists f, scalar_at s path f.
Proof.
  intros s path item o w H. induction H as [s i f Hf|s i f n b Hf Hn Hb Hs|s i nm r loc rest item o w Hf Hp IH]; intro He; [|discriminate|].
  - exists f. apply sc_here. exact Hf.
  - destruct (IH He) as (f & H). exists f. eapply sc_in; eassumption.
Qed.

Lemma view_get_split : forall path s f, scalar_at s path f -> forall data v, follow_get (E:=E) mr s path None data = Ok v ->
  exists a, gen_fixed (E:=E) f = Ok a /\ follow_view_get (E:=E) mr s path data = view_get mr f (ac_raw a) v.
Proof.
  intros path s f H. induction H as [s i f Hf|s i name r loc rest f Hf H IH]; intros data v; cbn [follow_get follow_view_get]; rewrite Hf.
  - unfold get_raw, get_view. destruct (gen_fixed (E:=E) f) as [a| |] eqn:Hg; cbn [bind]; try discriminate.
    intro Hv. exists a. rewrite Hv. split; reflexivity.
  - destruct (slice data (l_byte_offset loc) (l_byte_offset loc + l_byte_size loc)) as [w| |]; cbn [bind]; try discriminate. apply IH.
Qed.
Lemma view_set_split : forall path s f, scalar_at s path f -> forall data x data', follow_view_set (E:=E) mr s path data x = Ok data' ->
  exists a v, gen_fixed (E:=E) f = Ok a /\ view_set (E:=E) f (ac_raw a) x = Ok v.
Proof.
  intros path s f H. induction H as [s i f Hf|s i name r loc rest f Hf H IH]; intros data x data'; cbn [follow_view_set]; rewrite Hf.
  - unfold set_view. destruct (gen_fixed (E:=E) f) as [a| |] eqn:Hg; cbn [bind]; try discriminate.
    destruct (view_set (E:=E) f (ac_raw a) x) as [v| |] eqn:Hv; cbn [bind]; try discriminate. intros _. eauto.
  - unfold update_slice. destruct (slice data (l_byte_offset loc) (l_byte_offset loc + l_byte_size loc)) as [w| |]; cbn [bind]; try discriminate.
    destruct (follow_view_set (E:=E) mr r rest w x) as [w'| |] eqn:Hw; cbn [bind]; try discriminate. intros _. eapply IH. exact Hw.
Qed.
Lemma view_set_raw : forall path s f, scalar_at s path f -> forall a x v, gen_fixed (E:=E) f = Ok a -> view_set (E:=E) f (ac_raw a) x = Ok v ->
  forall data, follow_view_set (E:=E) mr s path data x = follow_set mr s path None data v.
Proof.
  intros path s f H. induction H as [s i f Hf|s i name r loc rest f Hf H IH]; intros a x v Hg Hv data; cbn [follow_view_set follow_set]; rewrite Hf.
  - unfold set_view, set_raw. rewrite Hg. cbn [bind]. rewrite Hv. reflexivity.
  - unfold update_slice. destruct (slice data (l_byte_offset loc) (l_byte_offset loc + l_byte_size loc)) as [w| |]; cbn [bind]; try reflexivity.
    rewrite (IH a x v Hg Hv w). reflexivity.
Qed.

(** A call that does not panic is a raw write. *)
Definition writes (s : structure) (c : call) (v : N) : Prop :=
  forall data, make_call (E:=E) mr s c data = place_set mr s (target c) data v.
Lemma call_writes : forall s c buf buf', (exists o w, reachable s (target c) o w) -> make_call (E:=E) mr s c buf = Ok buf' -> exists v, writes s c v.
Proof.
  intros s [p v|path x] buf buf' (o & w & R1 & _) H; cbn [make_call target pl_path pl_item] in *.
  - exists v. intro data. reflexivity.
  - destruct (place_scalar _ _ _ _ _ R1 eq_refl) as (f & Hf). destruct (view_set_split _ _ _ Hf _ _ _ H) as (a & v & Ha & Hv).
    exists v. intro data. cbn [make_call target place_set pl_path pl_item]. unfold place_set. cbn [pl_path pl_item]. eapply view_set_raw; eassumption.
Qed.

Lemma calls_raw : forall s h, Forall (fun c => exists v, writes s c v) h ->
  exists r, map fst r = map target h /\ Forall2 (fun c pv => writes s c (snd pv) /\ target c = fst pv) h r /\
    forall data, make_calls (E:=E) mr s h data = place_run mr s r data.
Proof.
  intros s h H. induction H as [|c h (v & Hv) H (r & R1 & R2 & R3)].
  - exists []. repeat split; constructor.
  - exists ((target c, v) :: r). split; [cbn; f_equal; exact R1|]. split; [constructor; [split; [exact Hv|reflexivity]|exact R2]|].
    intro data. cbn [make_calls place_run]. rewrite (Hv data). destruct (place_set mr s (target c) data v) as [d| |]; cbn [bind]; [apply R3|reflexivity|reflexivity].
Qed.
Lemma last_agree : forall s h r, Forall2 (fun c pv => writes s c (snd pv) /\ target c = fst pv) h r -> forall p,
  match last_call h p, last_written r p with
  | Some c, Some v => writes s c v /\ target c = p
  | None, None => True
  | _, _ => False
  end.
Proof.
  intros s h r H. induction H as [|c (q & v) h r (W & T) H IH]; intro p; cbn [last_call last_written fst snd] in *; [exact I|].
  specialize (IH p). destruct (last_call h p) as [c'|], (last_written r p) as [v'|]; try contradiction; [exact IH|]. subst q.
  destruct (same_place (target c) p); [split; assumption|exact I].
Qed.

Theorem calls_independent : forall m structs name s, built m structs -> sget name structs = Some s ->
  forall h buf, (forall c, In c h -> (exists o w, reachable s (target c) o w) /\ exists b, make_call (E:=E) mr s c buf = Ok b) ->
  s_byte_size s <= len buf -> bytes_ok buf ->
  exists buf', make_calls (E:=E) mr s h buf = Ok buf' /\ length buf' = length buf /\ bytes_ok buf' /\
    forall p o w, reachable s p o w ->
      place_get (E:=E) mr s p buf' = after mr s (last_call h p) buf (place_get mr s p) /\
      (pl_item p = None ->
       follow_view_get (E:=E) mr s (pl_path p) buf' = after mr s (last_call h p) buf (follow_view_get mr s (pl_path p))).
Proof.
  intros m structs name s Hb Hs h buf Hh Hlen Hbuf.
  assert (W : Forall (fun c => exists v, writes s c v) h).
  { apply Forall_forall. intros c Hc. destruct (Hh c Hc) as (R & b & Hm). eapply call_writes; eassumption. }
  destruct (calls_raw s h W) as (r & R1 & R2 & R3).
  assert (Hr : forall p v, In (p, v) r -> exists o w, reachable s p o w).
  { intros p v Hin. apply (in_map fst) in Hin. rewrite R1 in Hin. apply in_map_iff in Hin. destruct Hin as (c & Ht & Hc). cbn [fst] in Ht.
    rewrite <- Ht. exact (proj1 (Hh c Hc)). }
  destruct (places_independent (E:=E) mr m structs name s Hb Hs r buf Hr Hlen Hbuf) as (buf' & Hrun & Hl & Hok & Hget).
  exists buf'. rewrite R3. split; [exact Hrun|]. split; [exact Hl|]. split; [exact Hok|]. intros p o w Hp.
  pose proof (built_ok _ _ Hb _ _ Hs) as Hsok. pose proof (built_deep _ _ Hb _ _ Hs) as Hd.
  specialize (Hget p o w Hp). pose proof (last_agree s h r R2 p) as HL.
  assert (G : place_get (E:=E) mr s p buf' = after mr s (last_call h p) buf (place_get mr s p) /\
    exists v, place_get (E:=E) mr s p buf' = Ok v).
  { assert (X : exists v, place_get (E:=E) mr s p buf' = Ok v).
    { destruct Hp as (P1 & P2 & P3 & P4 & P5).
      destruct (proj1 (follow_correct (E:=E) mr _ _ s o w buf' Hsok Hd P1 P2 P3 P4 P5 ltac:(unfold len in *; lia) Hok)) as (v & Hv & _). eauto. }
    split; [|exact X]. destruct (last_call h p) as [c|], (last_written r p) as [v|]; try contradiction; [|exact Hget].
    destruct HL as (HW & HT). cbn [after]. rewrite HW, HT.
    destruct (places_independent (E:=E) mr m structs name s Hb Hs [(p, v)] buf) as (b1 & H1 & _ & _ & G1); try assumption.
    { intros p' v' [Y|[]]. inversion Y; subst. eauto. }
    cbn [place_run] in H1. destruct (place_set (E:=E) mr s p buf v) as [b2| |]; cbn [bind] in *; try discriminate. injection H1 as <-.
    rewrite (G1 p o w Hp), Hget. cbn [last_written]. destruct (same_place p p); [reflexivity|congruence]. }
  destruct G as (G & v & Hv). split; [exact G|]. intro Hi. pose proof (proj1 Hp) as Hpl. rewrite Hi in Hpl.
  destruct (place_scalar _ _ _ _ _ Hpl eq_refl) as (f & Hf).
  assert (S : forall d x, place_get (E:=E) mr s p d = Ok x -> exists a, gen_fixed (E:=E) f = Ok a /\ follow_view_get (E:=E) mr s (pl_path p) d = view_get mr f (ac_raw a) x).
  { intros d x Hx. unfold place_get in Hx. rewrite Hi in Hx. eapply view_get_split; eassumption. }
  destruct (S _ _ Hv) as (a & Ha & ->). rewrite Hv in G. unfold after in *. destruct (last_call h p) as [c|].
  - destruct (make_call mr s c buf) as [b1| |]; cbn [bind] in *; try discriminate. destruct (S b1 v (eq_sym G)) as (a' & Ha' & ->). congruence.
  - destruct (S buf v (eq_sym G)) as (a' & Ha' & ->). congruence.
Qed.

(** ** Values that are kept *)
Definition whole (w : N) : bool := (w =? 8) || (w =? 16) || (w =? 32) || (w =? 64).
Definition view_fine (f : fixed_field) : Prop :=
  let w := l_bit_size (ff_loc f) in
  match ff_view f with
  | VSignedCast mp => mp = 2 ^ (w - 1) - 1 /\ whole w = false
  | VTransmute => match ff_ty f with I8 | I16 | I32 | I64 => whole w = true | _ => True end
  | _ => True
  end.
Lemma field_fine : forall m endi enums structs o1 df f o2, field_from_model m endi enums structs o1 df = Ok (FFixed f, o2) ->
  0 < l_bit_size (ff_loc f) -> view_fine f.
Proof.
  intros m endi enums structs o1 df f o2 H Hw. unfold field_from_model in H. destruct (sf_info df) as [b|b|b|b|x] eqn:Hi.
  5: { inv_bind H. inv_bind H. discriminate. }
  all: cbn [get_bit_size ok_or bind get_simple_type] in H; inv_bind H; inv_bind H; inv_bind H.
  all: match type of H with context [1 <? ?n] => destruct (N.ltb_spec 1 n) as [Hn|Hn] end;
    [destruct (negb _); [discriminate|]; inv_bind H; discriminate|]; inv_bind H; inversion H; subst f; clear H;
    cbn [ff_loc l_bit_size location_from_model] in Hw; unfold view_fine; cbn [ff_view ff_ty ff_loc l_bit_size location_from_model].
  all: match goal with
    | V : view_from_model _ _ _ _ _ = Ok ?v, F : fixed_from_model _ = Ok ?t, U : umul _ ?bb _ = Ok ?w |- _ =>
        rename V into HV; rename F into HF; rename U into HU; rename v into view; rename t into ty; rename w into width end.
  all: destruct (sf_view df) as [[n|a z|a]|]; cbn [view_from_model simple_eqb negb andb] in HV; try discriminate.
  all: try (inv_bind HV).
  all: try (inv_bind HV).
  all: try (inversion HV; subst view; exact I).
  - assert (Hb64 : 0 < b <= 64) by (eapply fixed_ok_bits; [exact HF|reflexivity|discriminate]).
    assert (width = b) as ->.
    { destruct (match sf_array_len df with Some n => n | None => 1 end) as [|p]; unfold umul in HU.
      - rewrite N.mul_0_r in HU. destruct (0 <? usize_mod); [injection HU as <-; lia|]. destruct m; cbn [overflow] in HU; [discriminate|].
        injection HU as <-. cbn in Hw. lia.
      - assert (Npos p = 1) as Hp1 by lia. rewrite Hp1, N.mul_1_r in HU. destruct (N.ltb_spec b usize_mod) as [_|X]; [congruence|]. exfalso. unfold usize_mod in X. lia. }
    unfold whole. destruct (N.eqb_spec b 8), (N.eqb_spec b 16), (N.eqb_spec b 32), (N.eqb_spec b 64); cbn [negb andb] in HV;
      try (injection HV as <-; destruct ty; try exact I; reflexivity).
    unfold usub at 1 in HV. destruct (N.leb_spec 1 b); [|lia]. cbn [bind] in HV.
    unfold ushl1 in HV. destruct (N.ltb_spec (b - 1) 64); [|lia]. cbn [bind] in HV. unfold usub in HV. pose proof (pow2_pos (b - 1)).
    destruct (N.leb_spec 1 (2 ^ (b - 1))); [|lia]. cbn [bind] in HV. injection HV as <-. split; reflexivity.
  - unfold fixed_from_model in HF. cbn [get_bit_size get_simple_type ok_or bind simple_eqb andb map_numeric] in HF.
    destruct (negb (b =? 32) && negb (b =? 64)); [discriminate|]. injection HV as <-.
    repeat match type of HF with (if ?c then _ else _) = _ => destruct c end; try discriminate; injection HF as <-; exact I.
  - cbn in HF. injection HF as <-. injection HV as <-. exact I.
Qed.
Lemma built_fine : forall m structs, built m structs -> forall n s, sget n structs = Some s ->
  forall path f, scalar_at s path f -> 0 < l_bit_size (ff_loc f) -> view_fine f.
Proof.
  intros m structs H. induction H as [|enums visible id d s k others Hv IHv Hs Hno Ho IHo]; intros n r Hr path f Hf Hw.
  - discriminate.
  - cbn in Hr. destruct (String.eqb n k); [|eapply IHo; eassumption]. injection Hr as <-.
    inversion Hf as [s0 i f0 Hi|s0 i nm r loc rest f0 Hi Hin]; subst.
    + destruct (structure_nth _ _ _ _ _ _ _ _ _ Hs Hi) as (df & o1 & o2 & _ & Hfm). eapply field_fine; eassumption.
    + destruct (structure_nth _ _ _ _ _ _ _ _ _ Hs Hi) as (df & o1 & o2 & _ & Hfm).
      unfold field_from_model in Hfm. destruct (sf_info df) as [b|b|b|b|x].
      1-4: cbn [get_bit_size ok_or bind] in Hfm; inv_bind Hfm; inv_bind Hfm; inv_bind Hfm;
        destruct (1 <? _); [destruct (negb _); [discriminate|]|]; inv_bind Hfm; discriminate.
      inv_bind Hfm. inv_bind Hfm. inversion Hfm; subst. match goal with X : ok_or _ _ = Ok _ |- _ => apply ok_or_ok in X; eapply IHv; eassumption end.
Qed.
Lemma raw_whole : forall f a, gen_fixed (E:=E) f = Ok a -> whole (l_bit_size (ff_loc f)) = true -> 8 * N.of_nat (ac_raw a) = l_bit_size (ff_loc f).
Proof.
  intros f a H Hw. unfold gen_fixed, get_unsigned_integer_type in H. set (w := l_bit_size (ff_loc f)) in *. clearbody w. unfold whole in Hw.
  destruct (N.eqb_spec w 8), (N.eqb_spec w 16), (N.eqb_spec w 32), (N.eqb_spec w 64); try discriminate; try lia; subst w;
    cbn in H; injection H as <-; reflexivity.
Qed.
(** What a setter stores is what the getter gives. *)
Lemma view_kept : forall f a x, 0 < l_bit_size (ff_loc f) <= 64 -> gen_fixed (E:=E) f = Ok a -> view_fine f -> representable f x ->
  exists v, view_set (E:=E) f (ac_raw a) x = Ok v /\ view_get (E:=E) mr f (ac_raw a) (v mod 2 ^ l_bit_size (ff_loc f)) = Ok x.
Proof.
  intros f a x Hw Hg Hf Hx. destruct (gen_fixed_ok (E:=E) f Hw) as (a' & Hg' & _ & _ & Hr & Hb & _). assert (a' = a) by congruence. subst a'. clear Hg'.
  unfold view_fine in Hf. unfold representable in Hx. unfold view_set, view_get. pose proof (raw_whole f a Hg) as Hwh.
  set (w := l_bit_size (ff_loc f)) in *. clearbody w. pose proof (pow2_pos w) as Hp.
  assert (SG : forall z, (- 2 ^ (Z.of_N w - 1) <= z < 2 ^ (Z.of_N w - 1))%Z -> twos_complement w (as_unsigned (ac_raw a) z mod 2 ^ w) = z).
  { intros z Hz. rewrite as_unsigned_mod by assumption. apply twos_roundtrip; [lia|exact Hz]. }
  assert (ML : forall v, v mod 2 ^ w < 2 ^ w) by (intro v; apply N.mod_lt; lia).
  destruct (ff_view f) as [fa fb fc fd|e| |mp|].
  all: try solve [destruct (ff_ty f); destruct x as [z|bo|n|y|[n|]]; try contradiction].
  all: destruct x as [z|bo|n|y|[n|]]; try solve [destruct (ff_ty f); contradiction].
  - destruct Hx as (H1 & H2). eexists. split; [reflexivity|].
    assert (Ht : n < tmod (ac_raw a)) by (apply N.lt_le_trans with (2 ^ w); [exact H2|unfold tmod; apply pow2_small; exact Hb]).
    rewrite (N.mod_small n (tmod (ac_raw a))) by exact Ht. rewrite (N.mod_small n) by exact H2.
    destruct (N.ltb_spec (e_largest e) n); [lia|reflexivity].
  - assert (T : ff_ty f = I8 \/ ff_ty f = I16 \/ ff_ty f = I32 \/ ff_ty f = I64) by (destruct (ff_ty f); try contradiction; auto).
    exists (as_unsigned (ac_raw a) z).
    assert (X : as_signed (ac_raw a) (as_unsigned (ac_raw a) z mod 2 ^ w) = z).
    { assert (8 * N.of_nat (ac_raw a) = w) as H8 by (apply Hwh; destruct T as [T|[T|[T|T]]]; rewrite T in Hf; exact Hf).
      rewrite as_signed_twos; [|lia|unfold tmod; rewrite H8; apply ML]. rewrite H8. apply SG.
      destruct T as [T|[T|[T|T]]]; rewrite T in Hx; exact Hx. }
    destruct T as [T|[T|[T|T]]]; rewrite T, X; split; reflexivity.
  - destruct (ff_ty f); try contradiction. eexists. split; [reflexivity|].
    assert (2 <= 2 ^ w) by (rewrite (pow2_half w) by lia; pose proof (pow2_pos (w - 1)); lia).
    rewrite N.mod_small by (destruct bo; lia). destruct bo; reflexivity.
  - destruct (ff_ty f); try contradiction; eexists; (split; [reflexivity|]); rewrite N.mod_small by exact Hx; reflexivity.
  - assert (T : ff_ty f = I8 \/ ff_ty f = I16 \/ ff_ty f = I32 \/ ff_ty f = I64) by (destruct (ff_ty f); try contradiction; auto).
    destruct Hf as (-> & Hnw). assert (w < 8 * N.of_nat (ac_raw a)) as Hlt.
    { unfold whole in Hnw. destruct (N.eqb_spec w 8), (N.eqb_spec w 16), (N.eqb_spec w 32), (N.eqb_spec w 64); try discriminate. lia. }
    exists (as_unsigned (ac_raw a) z). rewrite signed_get_correct by (try apply ML; lia). cbn [bind].
    rewrite SG by (destruct T as [T|[T|[T|T]]]; rewrite T in Hx; exact Hx).
    destruct T as [T|[T|[T|T]]]; rewrite T; split; reflexivity.
  - exists (Z.to_N z). split; [reflexivity|]. rewrite N.mod_small; [rewrite Z2N.id by lia; reflexivity|].
    apply N2Z.inj_lt. rewrite Z2N.id, N2Z.inj_pow by lia. apply Hx.
Qed.

Theorem values_kept : forall m structs name s, built m structs -> sget name structs = Some s ->
  forall h buf, (forall c, In c h -> exists o w, reachable s (target c) o w) ->
  (forall path x f, In (CView path x) h -> scalar_at s path f -> representable f x) ->
  s_byte_size s <= len buf -> bytes_ok buf ->
  exists buf', make_calls (E:=E) mr s h buf = Ok buf' /\ length buf' = length buf /\ bytes_ok buf' /\
    forall path o w, reachable s {| pl_path := path; pl_item := None |} o w ->
      match last_call h {| pl_path := path; pl_item := None |} with
      | Some (CView _ x) => follow_view_get (E:=E) mr s path buf' = Ok x
      | Some (CRaw _ v) => follow_get (E:=E) mr s path None buf' = Ok (v mod 2 ^ w)
      | None => follow_view_get (E:=E) mr s path buf' = follow_view_get mr s path buf /\
                follow_get (E:=E) mr s path None buf' = follow_get mr s path None buf
      end.
Proof.
  intros m structs name s Hb Hs h buf Hh Hx Hlen Hbuf.
  assert (ONE : forall p v o w, reachable s p o w -> exists b, place_set (E:=E) mr s p buf v = Ok b /\ place_get (E:=E) mr s p b = Ok (v mod 2 ^ w)).
  { intros p v o w Hp. destruct (places_independent (E:=E) mr m structs name s Hb Hs [(p, v)] buf) as (b1 & H1 & _ & _ & G1); try assumption.
    { intros p' v' [Y|[]]. inversion Y; subst. eauto. }
    cbn [place_run] in H1. destruct (place_set (E:=E) mr s p buf v) as [b2| |]; cbn [bind] in *; try discriminate. injection H1 as <-.
    exists b2. split; [reflexivity|]. rewrite (G1 p o w Hp). cbn [last_written]. destruct (same_place p p); [reflexivity|congruence]. }
  assert (VIEW : forall path x o w, In (CView path x) h -> reachable s {| pl_path := path; pl_item := None |} o w ->
    exists b, make_call (E:=E) mr s (CView path x) buf = Ok b /\ follow_view_get (E:=E) mr s path b = Ok x).
  { intros path x o w Hin Hp. pose proof (proj1 Hp) as Hat. cbn [pl_path pl_item] in Hat.
    destruct (place_scalar _ _ _ _ _ Hat eq_refl) as (f & Hf).
    assert (Hwf : l_bit_size (ff_loc f) = w).
    { clear - Hat Hf. remember None as it eqn:Hit. revert f Hf. induction Hat as [s i g Hg|s i g n b Hg|s i nm r loc rest item o w Hg Hat IH]; intros f Hf; [|discriminate|].
      - inversion Hf as [s0 i0 f0 Hi|s0 i0 nm r loc rest f0 Hi Hin]; subst; [congruence|]. inversion Hin.
      - inversion Hf as [s0 i0 f0 Hi|s0 i0 nm0 r0 loc0 rest0 f0 Hi Hin]; subst; [congruence|].
        rewrite Hg in Hi. injection Hi as _ <- _. exact (IH eq_refl f Hin). }
    assert (Hw : 0 < l_bit_size (ff_loc f) <= 64) by (rewrite Hwf; apply Hp).
    destruct (gen_fixed_ok (E:=E) f Hw) as (a & Ha & _).
    destruct (view_kept f a x Hw Ha (built_fine _ _ Hb _ _ Hs _ _ Hf (proj1 Hw)) (Hx _ _ _ Hin Hf)) as (v & Hv & Hg).
    destruct (ONE _ v _ _ Hp) as (b & Hb1 & Hb2). exists b. cbn [make_call]. rewrite (view_set_raw _ _ _ Hf _ _ _ Ha Hv).
    split; [exact Hb1|]. unfold place_get in Hb2. cbn [pl_path pl_item] in Hb2.
    destruct (view_get_split _ _ _ Hf _ _ Hb2) as (a' & Ha' & ->). assert (a' = a) by congruence. subst a'. rewrite <- Hwf. exact Hg. }
  assert (LI : forall p c, last_call h p = Some c -> In c h /\ target c = p).
  { clear. induction h as [|c h IH]; intros p c' H; [discriminate|]. cbn [last_call] in H. destruct (last_call h p) as [x|] eqn:Hl.
    - injection H as <-. destruct (IH _ _ Hl) as (I1 & I2). split; [right; exact I1|exact I2].
    - destruct (same_place (target c) p) as [Ht|]; [|discriminate]. injection H as <-. split; [left; reflexivity|exact Ht]. }
  destruct (calls_independent m structs name s Hb Hs h buf) as (buf' & H1 & H2 & H3 & H4); try assumption.
  { intros c Hc. destruct (Hh c Hc) as (o & w & Hr). split; [eauto|]. destruct c as [p v|path x].
    - destruct (ONE _ v _ _ Hr) as (b & Hb1 & _). eauto.
    - destruct (VIEW _ _ _ _ Hc Hr) as (b & Hb1 & _). eauto. }
  exists buf'. split; [exact H1|]. split; [exact H2|]. split; [exact H3|]. intros path o w Hp.
  destruct (H4 _ o w Hp) as (G1 & G2). specialize (G2 eq_refl). cbn [pl_path] in G2. unfold place_get in G1. cbn [pl_path pl_item] in G1.
  destruct (last_call h {| pl_path := path; pl_item := None |}) as [[q v|q x]|] eqn:Hl; cbn [after] in *.
  - destruct (LI _ _ Hl) as (_ & Ht). cbn [target] in Ht. subst q. destruct (ONE _ v _ _ Hp) as (b & Hb1 & Hb2).
    rewrite G1. cbn [make_call]. rewrite Hb1. cbn [bind]. exact Hb2.
  - destruct (LI _ _ Hl) as (Hin & Ht). cbn [target] in Ht. injection Ht as ->. destruct (VIEW _ _ _ _ Hin Hp) as (b & Hb1 & Hb2).
    rewrite G2, Hb1. exact Hb2.
  - split; assumption.
Qed.

(** ** The values that are kept are the representable ones *)
Lemma twos_range : forall n r, 0 < n -> r < 2 ^ n -> (- 2 ^ (Z.of_N n - 1) <= twos_complement n r < 2 ^ (Z.of_N n - 1))%Z.
Proof.
  intros n r Hn Hr. unfold twos_complement.
  assert (H2 : (2 ^ Z.of_N n = 2 * 2 ^ (Z.of_N n - 1))%Z) by (rewrite <- Z.pow_succ_r by lia; f_equal; lia).
  assert (Hpn : (Z.of_N (2 ^ (n - 1)) = 2 ^ (Z.of_N n - 1))%Z) by (rewrite N2Z.inj_pow; f_equal; lia).
  assert (Hpm : (Z.of_N (2 ^ n) = 2 ^ Z.of_N n)%Z) by (rewrite N2Z.inj_pow; reflexivity).
  destruct (N.ltb_spec r (2 ^ (n - 1))); lia.
Qed.
Lemma view_only : forall f a x v, 0 < l_bit_size (ff_loc f) <= 64 -> gen_fixed (E:=E) f = Ok a -> view_fine f ->
  (forall a b c d, ff_view f <> VFloat a b c d) ->
  view_set (E:=E) f (ac_raw a) x = Ok v -> view_get (E:=E) mr f (ac_raw a) (v mod 2 ^ l_bit_size (ff_loc f)) = Ok x -> representable f x.
Proof.
  intros f a x v Hw Hg Hf Hno Hs Hx. destruct (gen_fixed_ok (E:=E) f Hw) as (a' & Hg' & _ & _ & Hr & Hb & _). assert (a' = a) by congruence. subst a'. clear Hg'.
  unfold view_fine in Hf. unfold representable. unfold view_set in Hs. unfold view_get in Hx. pose proof (raw_whole f a Hg) as Hwh.
  set (w := l_bit_size (ff_loc f)) in *. clearbody w. pose proof (pow2_pos w) as Hp.
  assert (ML : forall v, v mod 2 ^ w < 2 ^ w) by (intro u; apply N.mod_lt; lia).
  destruct (ff_view f) as [fa fb fc fd|e| |mp|].
  - exfalso. eapply Hno. reflexivity.
  - destruct x as [z|bo|n|y|[n|]]; try discriminate. destruct (N.ltb_spec (e_largest e) (v mod 2 ^ w)); [discriminate|].
    injection Hx as <-. split; [lia|apply ML].
  - destruct (ff_ty f); destruct x as [z|bo|n|y|[n|]]; try discriminate; try exact I.
    all: try (injection Hx as Hx; rewrite <- Hx; apply ML).
    all: injection Hx as <-; rewrite as_signed_twos by (try lia; unfold tmod; rewrite (Hwh Hf); apply ML);
      rewrite (Hwh Hf); apply twos_range; [lia|apply ML].
  - destruct Hf as (-> & Hnw). assert (w < 8 * N.of_nat (ac_raw a)) as Hlt.
    { unfold whole in Hnw. destruct (N.eqb_spec w 8), (N.eqb_spec w 16), (N.eqb_spec w 32), (N.eqb_spec w 64); try discriminate. lia. }
    rewrite signed_get_correct in Hx by (try apply ML; lia). cbn [bind] in Hx. injection Hx as <-.
    destruct (ff_ty f); try discriminate Hs; apply twos_range; try lia; apply ML.
  - destruct x as [z|bo|n|y|[n|]]; try discriminate. injection Hx as <-.
    assert (Z.of_N (2 ^ w) = 2 ^ Z.of_N w)%Z by (rewrite N2Z.inj_pow; reflexivity). pose proof (ML v). lia.
Qed.
Theorem values_exact : forall m structs name s, built m structs -> sget name structs = Some s ->
  forall path o w f x buf, reachable s {| pl_path := path; pl_item := None |} o w -> scalar_at s path f ->
  (forall a b c d, ff_view f <> VFloat a b c d) -> s_byte_size s <= len buf -> bytes_ok buf ->
  ((exists buf', make_call (E:=E) mr s (CView path x) buf = Ok buf' /\ follow_view_get (E:=E) mr s path buf' = Ok x) <-> representable f x).
Proof.
  intros m structs name s Hb Hs path o w f x buf Hp Hf Hno Hlen Hbuf.
  assert (SAME : forall g, scalar_at s path g -> g = f).
  { clear - Hf. induction Hf as [s i f Hf|s i nm r loc rest f Hf H IH]; intros g Hg.
    - inversion Hg as [s0 i0 f0 Hi|s0 i0 nm r loc rest f0 Hi Hin]; subst; [congruence|inversion Hin].
    - inversion Hg as [s0 i0 f0 Hi|s0 i0 nm0 r0 loc0 rest0 f0 Hi Hin]; subst; [congruence|]. rewrite Hf in Hi. injection Hi as _ <- _. exact (IH g Hin). }
  split.
  - intros (b & H1 & H2). cbn [make_call] in H1. destruct (view_set_split _ _ _ Hf _ _ _ H1) as (a & v & Ha & Hv).
    rewrite (view_set_raw _ _ _ Hf _ _ _ Ha Hv) in H1.
    destruct (places_independent (E:=E) mr m structs name s Hb Hs [({| pl_path := path; pl_item := None |}, v)] buf) as (b1 & R & _ & _ & G); try assumption.
    { intros p' v' [Y|[]]. inversion Y; subst. eauto. }
    cbn [place_run] in R. unfold place_set in R. cbn [pl_path pl_item] in R. rewrite H1 in R. cbn [bind] in R. injection R as <-.
    specialize (G _ o w Hp). cbn [last_written] in G.
    destruct (same_place {| pl_path := path; pl_item := None |} {| pl_path := path; pl_item := None |}) as [_|X]; [|congruence].
    unfold place_get in G. cbn [pl_path pl_item] in G. destruct (view_get_split _ _ _ Hf _ _ G) as (a' & Ha' & Hv').
    assert (a' = a) by congruence. subst a'. rewrite Hv' in H2.
    assert (Hwf : l_bit_size (ff_loc f) = w).
    { destruct Hp as (Hat & _). cbn [pl_path pl_item] in Hat. clear - Hat Hf. remember None as it eqn:Hit. revert f Hf.
      induction Hat as [s i g Hg|s i g n b Hg|s i nm r loc rest item o w Hg Hat IH]; intros f Hf; [|discriminate|].
      - inversion Hf as [s0 i0 f0 Hi|s0 i0 nm r loc rest f0 Hi Hin]; subst; [congruence|]. inversion Hin.
      - inversion Hf as [s0 i0 f0 Hi|s0 i0 nm0 r0 loc0 rest0 f0 Hi Hin]; subst; [congruence|].
        rewrite Hg in Hi. injection Hi as _ <- _. exact (IH eq_refl f Hin). }
    assert (Hw : 0 < l_bit_size (ff_loc f) <= 64) by (rewrite Hwf; apply Hp).
    eapply view_only; [exact Hw|exact Ha|exact (built_fine _ _ Hb _ _ Hs _ _ Hf (proj1 Hw))|exact Hno|exact Hv|rewrite Hwf; exact H2].
  - intro Hx. destruct (values_kept m structs name s Hb Hs [CView path x] buf) as (b & R & _ & _ & G); try assumption.
    + intros c [<-|[]]. cbn [target]. eauto.
    + intros path' x' g [Y|[]] Hg. injection Y as <- <-. rewrite (SAME g Hg). exact Hx.
    + cbn [make_calls] in R. destruct (make_call mr s (CView path x) buf) as [b'| |]; cbn [bind] in R; try discriminate. injection R as <-.
      exists b'. split; [reflexivity|]. specialize (G path o w Hp). cbn [last_call target] in G.
      destruct (same_place {| pl_path := path; pl_item := None |} {| pl_path := path; pl_item := None |}) as [_|X]; [exact G|congruence].
Qed.
End Calls.
