(** Refutations for the structure properties, by concrete witnesses, and the
    exact characterisations derived from the general lemmas. *)

From Coq Require Import Arith NArith ZArith String List Bool Lia Floats.SpecFloat.
From Verif Require Import Base Schema Bits BitsFacts Codec Compiler Access SpecStruct StructFacts
  StructThms ViewThms ArrayThms EnumThms NestedThms Samples.
Import ListNotations.
Local Open Scope N_scope.
Local Open Scope string_scope.

Ltac solve_at := split; [vm_compute; reflexivity|eexists; split; vm_compute; reflexivity].

Lemma layout_release_refuted : exists d s,
  structure_from_model Release Little [] [] 0 d = Ok s /\
  declared_total [] (ss_fields d) = Some (2 ^ 64) /\ s_bit_size s = 0 /\ s_byte_size s = 0.
Proof.
  exists huge. eexists. split; [vm_compute; reflexivity|]. repeat split.
Qed.

Lemma straddle_compiles : structure_from_model Debug Little [] [] 0 straddle = Ok straddle_s.
Proof. vm_compute. reflexivity. Qed.
Lemma no_overflow_debug : forall structs d, no_overflow Debug structs d.
Proof. intros. left. reflexivity. Qed.

Lemma get_raw_refuted : exists d s i f o w buf v,
  structure_from_model Debug Little [] [] 0 d = Ok s /\
  nth_error (s_fields s) i = Some (FFixed f) /\ declared_at [] d i o w /\ 0 < w <= 64 /\
  len buf = s_byte_size s /\ bytes_ok buf /\
  get_raw (E:=cerror) Release f buf = Ok v /\ ~ is_field_value buf o w v.
Proof.
  exists straddle, straddle_s, 1%nat, (straddle_fixed 1), 4, 8.
  destruct (get_raw_wrong (E:=cerror) Debug Release [] [] 0 straddle straddle_s 1 (straddle_fixed 1) 4 8)
    as (buf & v & H1 & H2 & H3 & H4).
  - exact straddle_compiles.
  - apply no_overflow_debug.
  - reflexivity.
  - solve_at.
  - lia.
  - vm_compute. discriminate.
  - exists buf, v. repeat split; try assumption; try reflexivity. eexists; split; reflexivity. discriminate.
Qed.

Lemma set_raw_refuted : exists d s i f o w buf v buf',
  structure_from_model Debug Little [] [] 0 d = Ok s /\
  nth_error (s_fields s) i = Some (FFixed f) /\ declared_at [] d i o w /\ 0 < w <= 64 /\
  len buf = s_byte_size s /\ bytes_ok buf /\ v < 2 ^ w /\
  set_raw (E:=cerror) Release f buf v = Ok buf' /\ ~ is_field_update buf o w v buf'.
Proof.
  exists straddle, straddle_s, 1%nat, (straddle_fixed 1), 4, 8.
  destruct (set_raw_wrong (E:=cerror) Debug Release [] [] 0 straddle straddle_s 1 (straddle_fixed 1) 4 8)
    as (buf & v & buf' & H1 & H2 & H3 & H4 & H5).
  - exact straddle_compiles.
  - apply no_overflow_debug.
  - reflexivity.
  - solve_at.
  - lia.
  - vm_compute. discriminate.
  - exists buf, v, buf'. repeat split; try assumption; try reflexivity. eexists; split; reflexivity. discriminate.
Qed.

Lemma get_raw_iff : forall {E} m mr enums structs id d s i f o w,
  structure_from_model m Little enums structs id d = Ok s ->
  no_overflow m structs d ->
  nth_error (s_fields s) i = Some (FFixed f) -> declared_at structs d i o w ->
  0 < w <= 64 ->
  ((forall buf, s_byte_size s <= len buf -> bytes_ok buf ->
     exists v, get_raw (E:=E) mr f buf = Ok v /\ is_field_value buf o w v) <-> addressable o w).
Proof.
  intros E m mr enums structs id d s i f o w H Hno Hf Hat Hw. split.
  - intro Hall. destruct (addressable_dec o w) as [Ha|Ha]; [assumption|exfalso].
    destruct (get_raw_wrong (E:=E) m mr _ _ _ _ _ _ _ _ _ H Hno Hf Hat Hw Ha) as (buf & v & H1 & H2 & H3 & H4).
    destruct (Hall buf) as (v' & H5 & H6); [rewrite H1; apply N.le_refl|assumption|].
    assert (v' = v) by congruence. subst. contradiction.
  - intros Ha buf Hl Hb. eapply get_raw_exact; eassumption.
Qed.

Lemma set_raw_iff : forall {E} m mr enums structs id d s i f o w,
  structure_from_model m Little enums structs id d = Ok s ->
  no_overflow m structs d ->
  nth_error (s_fields s) i = Some (FFixed f) -> declared_at structs d i o w ->
  0 < w <= 64 ->
  ((forall buf v, s_byte_size s <= len buf -> bytes_ok buf ->
     exists buf', set_raw (E:=E) mr f buf v = Ok buf' /\ is_field_update buf o w v buf') <-> addressable o w).
Proof.
  intros E m mr enums structs id d s i f o w H Hno Hf Hat Hw. split.
  - intro Hall. destruct (addressable_dec o w) as [Ha|Ha]; [assumption|exfalso].
    destruct (set_raw_wrong (E:=E) m mr _ _ _ _ _ _ _ _ _ H Hno Hf Hat Hw Ha)
      as (buf & v & b' & H1 & H2 & H3 & H4 & H5).
    destruct (Hall buf v) as (v' & H6 & H7); [rewrite H1; apply N.le_refl|assumption|].
    assert (v' = b') by congruence. subst. contradiction.
  - intros Ha buf v Hl Hb. eapply set_raw_exact; eassumption.
Qed.

Lemma history_refuted : exists d s f0 f1 buf buf',
  structure_from_model Debug Little [] [] 0 d = Ok s /\
  nth_error (s_fields s) 0 = Some (FFixed f0) /\ nth_error (s_fields s) 1 = Some (FFixed f1) /\
  len buf = s_byte_size s /\ bytes_ok buf /\
  run_history (E:=cerror) Release s [(0%nat, 5); (1%nat, 170)] buf = Ok buf' /\
  get_raw (E:=cerror) Release f0 buf' = Ok 10.
Proof.
  exists straddle, straddle_s, (straddle_fixed 0), (straddle_fixed 1), [0; 0]. eexists.
  split; [exact straddle_compiles|]. split; [reflexivity|]. split; [reflexivity|].
  split; [reflexivity|]. split; [repeat constructor|]. split; vm_compute; reflexivity.
Qed.

Lemma enum_hole_refuted : exists d s f de e,
  structure_from_model Debug Little [("Holes", e)] [] 0 d = Ok s /\ enum_from_model de = Ok e /\
  nth_error (s_fields s) 0 = Some (FFixed f) /\ s_byte_size s = 1 /\
  get_view (E:=cerror) Release f [3] = Ok (XEnum (Some 3)) /\ ~ declared_value de 3.
Proof.
  exists {| ss_name := "E"; ss_fields := [ {| sf_name := "h"; sf_info := STUnsigned 8;
             sf_view := Some (SVEnum "Holes"); sf_array_len := None |} ] |}.
  eexists. eexists. exists holes, (the_enum holes).
  split; [vm_compute; reflexivity|]. split; [reflexivity|]. split; [reflexivity|]. split; [reflexivity|].
  split; [reflexivity|]. cbv. intros [H|[H|H]]; congruence.
Qed.

Lemma enum_narrow_refuted : exists d s f de e,
  structure_from_model Debug Little [("Holes", e)] [] 0 d = Ok s /\ enum_from_model de = Ok e /\
  nth_error (s_fields s) 0 = Some (FFixed f) /\ declared_value de 5 /\
  set_view (E:=cerror) Release f [0] (XEnum (Some 5)) = Ok [1] /\
  get_view (E:=cerror) Release f [1] = Ok (XEnum (Some 1)).
Proof.
  exists {| ss_name := "E"; ss_fields := [ {| sf_name := "h"; sf_info := STUnsigned 2;
             sf_view := Some (SVEnum "Holes"); sf_array_len := None |} ] |}.
  eexists. eexists. exists holes, (the_enum holes).
  split; [vm_compute; reflexivity|]. split; [reflexivity|]. split; [reflexivity|].
  split; [cbv; auto|]. split; vm_compute; reflexivity.
Qed.

Lemma float_range_refuted : exists d s f x y buf,
  structure_from_model Debug Little [] [] 0 d = Ok s /\ nth_error (s_fields s) 0 = Some (FFixed f) /\
  (* the field stores the range -1 .. 1 in 8 bits *)
  ss_fields d = [ {| sf_name := "v"; sf_info := STFloat 8; sf_array_len := None;
                     sf_view := Some (SVFloatRange f_minus_one f_one) |} ] /\
  (* the largest raw value reads as 0, not 1 *)
  get_view (E:=cerror) Release f [255] = Ok (XFloat x) /\ x = S754_zero false /\
  (* 1/2 is stored and read back as a negative number *)
  set_view (E:=cerror) Release f [0] (XFloat f_half) = Ok buf /\
  get_view (E:=cerror) Release f buf = Ok (XFloat y) /\ SFltb y (S754_zero false) = true.
Proof.
  exists (float_range f_minus_one f_one). do 5 eexists.
  split; [vm_compute; reflexivity|]. split; [reflexivity|]. split; [reflexivity|].
  split; [vm_compute; reflexivity|]. split; [reflexivity|]. split; [vm_compute; reflexivity|].
  split; vm_compute; reflexivity.
Qed.

Lemma subbyte_array_refuted : exists d s f,
  structure_from_model Debug Little [] [] 0 d = Ok s /\ nth_error (s_fields s) 0 = Some (FArray f) /\
  ss_fields d = [ {| sf_name := "x"; sf_info := STUnsigned 4; sf_view := None; sf_array_len := Some 2 |} ] /\
  (forall buf, len buf = s_byte_size s -> arr_len (E:=cerror) f buf = Panic) /\
  (forall buf, len buf = s_byte_size s -> arr_get (E:=cerror) Release f buf 1 = Ok 0).
Proof.
  exists nibbles, nibbles_s, (first_array nibbles_s).
  split; [vm_compute; reflexivity|]. split; [reflexivity|]. split; [reflexivity|].
  split; intros buf Hb; change (s_byte_size nibbles_s) with 1 in Hb;
    (destruct buf as [|x [|y buf]];
     [discriminate|vm_compute; reflexivity|unfold len in Hb; cbn in Hb; lia]).
Qed.

Lemma oddbit_array_refuted : exists d s f,
  structure_from_model Debug Little [] [] 0 d = Ok s /\ nth_error (s_fields s) 0 = Some (FArray f) /\
  ss_fields d = [ {| sf_name := "x"; sf_info := STUnsigned 12; sf_view := None; sf_array_len := Some 2 |} ] /\
  (forall buf, len buf = s_byte_size s -> arr_len (E:=cerror) f buf = Ok 3).
Proof.
  exists odd12, odd12_s, (first_array odd12_s).
  split; [vm_compute; reflexivity|]. split; [reflexivity|]. split; [reflexivity|].
  intros buf Hb; change (s_byte_size odd12_s) with 3 in Hb.
  do 3 (destruct buf as [|? buf]; [discriminate|]). destruct buf; [vm_compute; reflexivity|].
  unfold len in Hb; cbn in Hb; lia.
Qed.

Lemma shifted_array_refuted : exists d s f,
  structure_from_model Debug Little [] [] 0 d = Ok s /\ nth_error (s_fields s) 1 = Some (FArray f) /\
  declared_at [] d 1 4 16 /\
  arr_get (E:=cerror) Release f [240; 0; 0] 0 = Ok 240 /\ is_field_value [240; 0; 0] 4 8 15.
Proof.
  exists shifted_array, shifted_array_s, (second_array shifted_array_s).
  split; [vm_compute; reflexivity|]. split; [reflexivity|]. split; [solve_at|].
  split; [vm_compute; reflexivity|]. intro j.
  destruct (N.ltb_spec j 8) as [Hj|Hj].
  - assert (Hc : j = 0 \/ j = 1 \/ j = 2 \/ j = 3 \/ j = 4 \/ j = 5 \/ j = 6 \/ j = 7) by lia.
    destruct Hc as [-> | [-> | [-> | [-> | [-> | [-> | [-> | ->]]]]]]]; reflexivity.
  - apply testbit_high with 8; [reflexivity|assumption].
Qed.

Lemma array_release_index_refuted : exists f buf,
  nth_error (s_fields demo_s) 7 = Some (FArray f) /\ len buf = s_byte_size demo_s /\
  arr_len (E:=cerror) f buf = Ok 3 /\
  arr_get (E:=cerror) Release f buf (2 ^ 63) = arr_get Release f buf 0 /\
  arr_get (E:=cerror) Debug f buf (2 ^ 63) = Panic.
Proof.
  exists demo_array, demo_buf. repeat split; vm_compute; reflexivity.
Qed.

Lemma nested_refuted : exists s path o w buf,
  sget "Shifted" shifted_structs = Some s /\ built Debug shifted_structs /\
  path_at s path o w /\ 0 < w <= 64 /\ addressable o w /\ len buf = s_byte_size s /\ bytes_ok buf /\
  path_get (E:=cerror) Release s path buf = Ok 15 /\ ~ is_field_value buf o w 15.
Proof.
  exists shifted_s, [1%nat; 0%nat], 4, 4, [15; 0; 0].
  split; [reflexivity|]. split.
  { assert (Hi : built Debug [("Inner", inner_s)]).
    { apply (built_def Debug [] [] 0 inner inner_s "Inner" []); [constructor| | |constructor].
      - vm_compute. reflexivity.
      - apply no_overflow_debug. }
    apply (built_def Debug [] [("Inner", inner_s)] 0 shifted shifted_s "Shifted" [("Inner", inner_s)]); try exact Hi.
    - vm_compute. reflexivity.
    - apply no_overflow_debug. }
  split.
  { change 4 with (total_bits (firstn 1 (s_fields shifted_s)) + 0) at 1.
    eapply path_struct; [reflexivity|]. 
    apply (path_scalar inner_s 0 (first_fixed inner_s)). reflexivity. }
  split; [lia|]. split; [vm_compute; discriminate|]. split; [reflexivity|]. split; [repeat constructor|].
  split; [vm_compute; reflexivity|]. intro H. specialize (H 0). vm_compute in H. discriminate.
Qed.

Lemma array_accepted : forall m endi enums structs id d s i df f b k,
  structure_from_model m endi enums structs id d = Ok s ->
  nth_error (ss_fields d) i = Some df -> nth_error (s_fields s) i = Some (FArray f) ->
  get_bit_size (sf_info df) = Some b -> sf_array_len df = Some k ->
  (m = Debug \/ b * k < 2 ^ 64) -> (b * k) mod 8 = 0.
Proof.
  intros m endi enums structs id d s i df f b k H Hd Hf Hb Hk Hno.
  destruct (structure_nth _ _ _ _ _ _ _ _ _ H Hf) as (df' & o1 & o2 & Hd' & Hfm).
  assert (df' = df) by congruence. subst df'.
  apply array_shape in Hfm. destruct Hfm as (b' & k' & Hb' & Hk' & _ & _ & _ & Hm).
  assert (b' = b) by congruence. assert (k' = k) by congruence. subst b' k'. apply Hm. exact Hno.
Qed.

(** Views of fields that are not addressable. *)
Definition signed_d : sstruct :=
  {| ss_name := "Signed"; ss_fields := [scalar "a" (STUnsigned 5); scalar "b" (STSigned 12)] |}.
Definition views_d : sstruct :=
  {| ss_name := "Views"; ss_fields :=
       [scalar "a" (STUnsigned 5); scalar "b" (STUnsigned 8); scalar "c" (STBoolean 4); scalar "d" (STFloat 32)] |}.
Definition nth_fixed (s : structure) (i : nat) : fixed_field :=
  match nth_error (s_fields s) i with Some (FFixed f) => f | _ => straddle_fixed 0 end.

Lemma signed_refuted : exists d s f,
  structure_from_model Debug Little [] [] 0 d = Ok s /\
  nth_error (ss_fields d) 1 = Some (scalar "b" (STSigned 12)) /\ declared_at [] d 1 5 12 /\
  nth_error (s_fields s) 1 = Some (FFixed f) /\ ~ addressable 5 12 /\
  set_view (E:=cerror) Release f [0; 0; 0] (XInt (-1)) = Ok [224; 255; 0] /\
  get_view (E:=cerror) Release f [224; 255; 0] = Ok (XInt 2047).
Proof.
  exists signed_d, (compile_one Debug [] [] signed_d), (nth_fixed (compile_one Debug [] [] signed_d) 1).
  split; [vm_compute; reflexivity|]. split; [reflexivity|]. split; [solve_at|]. split; [vm_compute; reflexivity|].
  split; [intro H; vm_compute in H; congruence|]. split; vm_compute; reflexivity.
Qed.

Lemma field_value_small : forall buf o w v, v < 2 ^ w ->
  forallb (fun j => Bool.eqb (N.testbit v (N.of_nat j)) (bit_at buf (o + N.of_nat j))) (seq 0 (N.to_nat w)) = true ->
  is_field_value buf o w v.
Proof.
  intros buf o w v Hv H j. destruct (N.ltb_spec j w) as [Hj|Hj].
  - rewrite forallb_forall in H. specialize (H (N.to_nat j)). rewrite N2Nat.id in H.
    cbn [andb]. apply eqb_prop. apply H. apply in_seq. lia.
  - apply testbit_high with w; assumption.
Qed.

Lemma views_refuted : exists d s f g h,
  structure_from_model Debug Little [] [] 0 d = Ok s /\
  ss_fields d = [scalar "a" (STUnsigned 5); scalar "b" (STUnsigned 8); scalar "c" (STBoolean 4); scalar "d" (STFloat 32)] /\
  nth_error (s_fields s) 1 = Some (FFixed f) /\ nth_error (s_fields s) 2 = Some (FFixed g) /\
  nth_error (s_fields s) 3 = Some (FFixed h) /\
  get_view (E:=cerror) Release f [7; 0; 0; 0; 0; 0; 0] = Ok (XInt 7) /\
  get_view (E:=cerror) Release g [0; 0; 1; 0; 0; 0; 0] = Ok (XBool false) /\
  get_view (E:=cerror) Release h [0; 0; 1; 0; 0; 0; 0] = Ok (XFloatBits 1) /\
  (is_field_value [7; 0; 0; 0; 0; 0; 0] 5 8 0 /\ is_field_value [0; 0; 1; 0; 0; 0; 0] 13 4 8 /\
   is_field_value [0; 0; 1; 0; 0; 0; 0] 17 32 0).
Proof.
  pose (s := compile_one Debug [] [] views_d).
  exists views_d, s, (nth_fixed s 1), (nth_fixed s 2), (nth_fixed s 3).
  split; [vm_compute; reflexivity|]. split; [reflexivity|].
  do 3 (split; [vm_compute; reflexivity|]). do 3 (split; [vm_compute; reflexivity|]).
  split; [|split]; apply field_value_small; vm_compute; reflexivity.
Qed.
