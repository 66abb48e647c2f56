(** Property theorems C01-C13: layout of structures and the generated
    accessors. Statements use the description (Schema), the compiler
    (Compiler), the accessors (Access), the bit-level specification (Bits) and
    SpecStruct; the proofs are elsewhere. [m] is the build mode of the
    compiler, [mr] that of the program containing the generated code. *)

From Coq Require Import Arith NArith ZArith String List Bool Lia Permutation Sorted Floats.SpecFloat.
From Verif Require Import Base Schema Bits Codec Compiler Access SpecStruct
  StructThms ViewThms ArrayThms EnumThms NestedThms BEThms BEExact StackThms NestedExact ArrayExact ViewExact HistoryExact WidthExact Samples StructRefute LayoutExact.
Import ListNotations.
Local Open Scope N_scope.
Local Open Scope string_scope.

(** ** C01: layout *)

Theorem C01_layout_debug : forall endi enums structs id d s,
  structure_from_model Debug endi enums structs id d = Ok s ->
  s_name s = ss_name d /\
  length (s_fields s) = length (ss_fields d) /\
  declared_total structs (ss_fields d) = Some (s_bit_size s) /\
  s_byte_size s = ceil8 (s_bit_size s) /\
  forall i f, nth_error (s_fields s) i = Some f ->
    exists o w, declared_at structs d i o w /\
      8 * l_byte_offset (field_loc f) + l_bit_offset (field_loc f) = o /\
      l_bit_offset (field_loc f) < 8 /\
      l_bit_size (field_loc f) = w /\
      o + w <= s_bit_size s.
Proof. exact (fun endi enums structs id d s H => layout Debug endi enums structs id d s H (or_introl eq_refl)). Qed.
Print Assumptions C01_layout_debug.

(** A release build of the compiler wraps the size: guard needed. *)
Theorem C01_layout_partial : forall m endi enums structs id d s,
  structure_from_model m endi enums structs id d = Ok s ->
  no_overflow m structs d ->
  s_name s = ss_name d /\
  length (s_fields s) = length (ss_fields d) /\
  declared_total structs (ss_fields d) = Some (s_bit_size s) /\
  s_byte_size s = ceil8 (s_bit_size s) /\
  forall i f, nth_error (s_fields s) i = Some f ->
    exists o w, declared_at structs d i o w /\
      8 * l_byte_offset (field_loc f) + l_bit_offset (field_loc f) = o /\
      l_bit_offset (field_loc f) < 8 /\
      l_bit_size (field_loc f) = w /\
      o + w <= s_bit_size s.
Proof. exact layout. Qed.
Print Assumptions C01_layout_partial.

Example C01_nonvacuous :
  structure_from_model Debug Little sample_enums [] 0 demo = Ok demo_s /\
  s_bit_size demo_s = 128 /\ s_byte_size demo_s = 16 /\ declared_at [] demo 2 8 24.
Proof.
  split; [vm_compute; reflexivity|]. split; [reflexivity|]. split; [reflexivity|]. solve_at.
Qed.

Theorem C01_layout_release_refuted : exists d s,
  structure_from_model Release Little [] [] 0 d = Ok s /\
  declared_total [] (ss_fields d) = Some (2 ^ 64) /\ s_bit_size s = 0 /\ s_byte_size s = 0.
Proof. exact layout_release_refuted. Qed.
Print Assumptions C01_layout_release_refuted.

(** Exactly what a structure that compiles looks like, in both build modes:
    with overflow checks the total is below 2^64 bits, without them every
    position and size is reduced modulo 2^64. *)
Theorem C01_layout_exact : forall m endi enums structs id d s,
  (forall n r, sget n structs = Some r -> s_bit_size r < 2 ^ 64) ->
  structure_from_model m endi enums structs id d = Ok s ->
  s_name s = ss_name d /\
  length (s_fields s) = length (ss_fields d) /\
  exists t, declared_total structs (ss_fields d) = Some t /\
    (m = Debug -> t < 2 ^ 64) /\
    s_bit_size s = t mod 2 ^ 64 /\
    s_byte_size s = ceil8 (s_bit_size s) /\
    forall i f, nth_error (s_fields s) i = Some f ->
      exists o w, declared_at structs d i o w /\
        8 * l_byte_offset (field_loc f) + l_bit_offset (field_loc f) = o mod 2 ^ 64 /\
        l_bit_offset (field_loc f) < 8 /\
        l_bit_size (field_loc f) = w mod 2 ^ 64.
Proof. exact layout_exact. Qed.
Print Assumptions C01_layout_exact.

Example C01_exact_nonvacuous : exists s,
  structure_from_model Release Little [] [] 0 wrapping = Ok s /\
  (forall n r, sget n (@nil (string * structure)) = Some r -> s_bit_size r < 2 ^ 64) /\
  declared_total [] (ss_fields wrapping) = Some (2 ^ 64 + 8) /\ s_bit_size s = 8.
Proof.
  eexists. split; [vm_compute; reflexivity|]. split; [discriminate|]. split; vm_compute; reflexivity.
Qed.

(** ** C02: accessors stay in bounds and do not panic *)

Theorem C02_windows_in_bounds : forall m endi enums structs id d s i f,
  structure_from_model m endi enums structs id d = Ok s ->
  no_overflow m structs d ->
  nth_error (s_fields s) i = Some f ->
  l_byte_offset (field_loc f) + l_byte_size (field_loc f) <= s_byte_size s.
Proof. exact window_in_bounds. Qed.
Print Assumptions C02_windows_in_bounds.

Theorem C02_raw_accessors_total : forall E m mr enums structs id d s i f o w buf v,
  structure_from_model m Little enums structs id d = Ok s ->
  no_overflow m structs d ->
  nth_error (s_fields s) i = Some (FFixed f) -> declared_at structs d i o w ->
  0 < w <= 64 ->
  s_byte_size s <= len buf -> bytes_ok buf ->
  (exists x, get_raw (E:=E) mr f buf = Ok x /\ x < 2 ^ w) /\
  (exists buf', set_raw (E:=E) mr f buf v = Ok buf' /\ length buf' = length buf /\ bytes_ok buf').
Proof. exact (@raw_accessors_total). Qed.
Print Assumptions C02_raw_accessors_total.

Theorem C02_view_getter_total : forall E m mr enums structs id d s i f o w buf,
  structure_from_model m Little enums structs id d = Ok s ->
  no_overflow m structs d ->
  nth_error (s_fields s) i = Some (FFixed f) -> declared_at structs d i o w ->
  0 < w <= 64 -> s_byte_size s <= len buf -> bytes_ok buf ->
  exists x, get_view (E:=E) mr f buf = Ok x.
Proof. exact (@get_view_total). Qed.
Print Assumptions C02_view_getter_total.

Theorem C02_view_setter_total : forall E m mr enums structs id d s i f o w buf x,
  structure_from_model m Little enums structs id d = Ok s ->
  no_overflow m structs d ->
  nth_error (s_fields s) i = Some (FFixed f) -> declared_at structs d i o w ->
  0 < w <= 64 -> s_byte_size s <= len buf -> bytes_ok buf -> view_value f x ->
  exists buf', set_view (E:=E) mr f buf x = Ok buf'.
Proof. exact (@set_view_total). Qed.
Print Assumptions C02_view_setter_total.

Example C02_nonvacuous :
  structure_from_model Debug Little sample_enums [] 0 demo = Ok demo_s /\
  nth_error (s_fields demo_s) 1 = Some (FFixed (demo_fixed 1)) /\ declared_at [] demo 1 3 5 /\
  s_byte_size demo_s <= len demo_buf /\ bytes_ok demo_buf /\ view_value (demo_fixed 1) (XInt (-3)) /\
  get_raw (E:=cerror) Debug (demo_fixed 1) demo_buf = Ok 20.
Proof.
  split; [vm_compute; reflexivity|]. split; [reflexivity|]. split; [solve_at|].
  split; [vm_compute; discriminate|]. split; [repeat constructor|]. split; [exact I|vm_compute; reflexivity].
Qed.

(** For both byte orders: an accessor panics exactly when the shift of the
    big-endian bit codec is negative and overflow checks are on. *)
Theorem C02_panics_exact : forall E m mr endi enums structs id d s i f o w buf,
  structure_from_model m endi enums structs id d = Ok s ->
  no_overflow m structs d ->
  nth_error (s_fields s) i = Some (FFixed f) -> declared_at structs d i o w ->
  0 < w <= 64 -> s_byte_size s <= len buf -> bytes_ok buf ->
  (shift_overflows mr endi o w ->
     get_raw (E:=E) mr f buf = Panic /\ (forall v, set_raw (E:=E) mr f buf v = Panic) /\
     get_view (E:=E) mr f buf = Panic /\ (forall x, set_view (E:=E) mr f buf x = Panic)) /\
  (~ shift_overflows mr endi o w ->
     (exists v, get_raw (E:=E) mr f buf = Ok v) /\
     (forall v, exists b, set_raw (E:=E) mr f buf v = Ok b) /\
     (exists x, get_view (E:=E) mr f buf = Ok x) /\
     (forall x, view_value f x -> exists b, set_view (E:=E) mr f buf x = Ok b)).
Proof. exact accessor_panics. Qed.
Print Assumptions C02_panics_exact.

(** Without overflow checks in the compiler, a structure of 2^64 bits or more
    can have accessors outside its own bytes. *)
Theorem C02_release_refuted : exists d s i f o w,
  structure_from_model Release Little [] [] 0 d = Ok s /\
  nth_error (s_fields s) i = Some (FFixed f) /\ declared_at [] d i o w /\ 0 < w <= 64 /\
  s_byte_size s = 1 /\
  forall E mr buf, len buf = 1 ->
    get_raw (E:=E) mr f buf = Panic /\ forall v, set_raw (E:=E) mr f buf v = Panic.
Proof. exact windows_release_refuted. Qed.
Print Assumptions C02_release_refuted.

Example C02_panics_nonvacuous : exists s f,
  structure_from_model Debug Big sample_enums [] 0 demo = Ok s /\
  nth_error (s_fields s) 1 = Some (FFixed f) /\ declared_at [] demo 1 3 5 /\
  s_byte_size s <= len demo_buf /\ bytes_ok demo_buf /\
  ~ shift_overflows Debug Big 3 5 /\ get_raw (E:=cerror) Debug f demo_buf = Ok 5 /\
  shift_overflows Debug Big 4 5.
Proof.
  eexists _, _. split; [vm_compute; reflexivity|]. split; [reflexivity|]. split; [solve_at|].
  split; [vm_compute; discriminate|]. split; [repeat constructor|].
  split; [intros (_ & _ & K); vm_compute in K; discriminate K|]. split; [vm_compute; reflexivity|].
  repeat split.
Qed.

(** ** C03: the raw getter returns the declared bits *)

Theorem C03_get_raw_exact_partial : forall E m mr enums structs id d s i f o w buf,
  structure_from_model m Little enums structs id d = Ok s ->
  no_overflow m structs d ->
  nth_error (s_fields s) i = Some (FFixed f) -> declared_at structs d i o w ->
  0 < w <= 64 -> addressable o w ->
  s_byte_size s <= len buf -> bytes_ok buf ->
  exists v, get_raw (E:=E) mr f buf = Ok v /\ is_field_value buf o w v.
Proof. exact (@get_raw_exact). Qed.
Print Assumptions C03_get_raw_exact_partial.

(** The guard is necessary: for any other position some buffer is misread. *)
Theorem C03_get_raw_exact_iff : forall E m mr enums structs id d s i f o w,
  structure_from_model m Little enums structs id d = Ok s ->
  no_overflow m structs d ->
  nth_error (s_fields s) i = Some (FFixed f) -> declared_at structs d i o w ->
  0 < w <= 64 ->
  ((forall buf, s_byte_size s <= len buf -> bytes_ok buf ->
     exists v, get_raw (E:=E) mr f buf = Ok v /\ is_field_value buf o w v) <-> addressable o w).
Proof. exact (@get_raw_iff). Qed.
Print Assumptions C03_get_raw_exact_iff.

Theorem C03_get_raw_refuted : exists d s i f o w buf v,
  structure_from_model Debug Little [] [] 0 d = Ok s /\
  nth_error (s_fields s) i = Some (FFixed f) /\ declared_at [] d i o w /\ 0 < w <= 64 /\
  len buf = s_byte_size s /\ bytes_ok buf /\
  get_raw (E:=cerror) Release f buf = Ok v /\ ~ is_field_value buf o w v.
Proof. exact get_raw_refuted. Qed.
Print Assumptions C03_get_raw_refuted.

Example C03_nonvacuous :
  declared_at [] demo 1 3 5 /\ addressable 3 5 /\ declared_at [] demo 2 8 24 /\ addressable 8 24 /\
  get_raw (E:=cerror) Release (demo_fixed 2) demo_buf = Ok 16712193.
Proof.
  split; [solve_at|]. split; [vm_compute; discriminate|]. split; [solve_at|].
  split; vm_compute; reflexivity.
Qed.

(** ** C04: the raw setter changes the declared bits only *)

Theorem C04_set_raw_exact_partial : forall E m mr enums structs id d s i f o w buf v,
  structure_from_model m Little enums structs id d = Ok s ->
  no_overflow m structs d ->
  nth_error (s_fields s) i = Some (FFixed f) -> declared_at structs d i o w ->
  0 < w <= 64 -> addressable o w ->
  s_byte_size s <= len buf -> bytes_ok buf ->
  exists buf', set_raw (E:=E) mr f buf v = Ok buf' /\ is_field_update buf o w v buf'.
Proof. exact (@set_raw_exact). Qed.
Print Assumptions C04_set_raw_exact_partial.

Theorem C04_set_raw_exact_iff : forall E m mr enums structs id d s i f o w,
  structure_from_model m Little enums structs id d = Ok s ->
  no_overflow m structs d ->
  nth_error (s_fields s) i = Some (FFixed f) -> declared_at structs d i o w ->
  0 < w <= 64 ->
  ((forall buf v, s_byte_size s <= len buf -> bytes_ok buf ->
     exists buf', set_raw (E:=E) mr f buf v = Ok buf' /\ is_field_update buf o w v buf') <-> addressable o w).
Proof. exact (@set_raw_iff). Qed.
Print Assumptions C04_set_raw_exact_iff.

Theorem C04_set_raw_refuted : exists d s i f o w buf v buf',
  structure_from_model Debug Little [] [] 0 d = Ok s /\
  nth_error (s_fields s) i = Some (FFixed f) /\ declared_at [] d i o w /\ 0 < w <= 64 /\
  len buf = s_byte_size s /\ bytes_ok buf /\ v < 2 ^ w /\
  set_raw (E:=cerror) Release f buf v = Ok buf' /\ ~ is_field_update buf o w v buf'.
Proof. exact set_raw_refuted. Qed.
Print Assumptions C04_set_raw_refuted.

Example C04_nonvacuous :
  set_raw (E:=cerror) Release (demo_fixed 1) [255; 0] 9 = Ok [79; 0] /\ addressable 3 5.
Proof. split; [vm_compute; reflexivity|vm_compute; discriminate]. Qed.

(** ** C05: fields are independent variables *)

Theorem C05_history_partial : forall E m mr enums structs id d s,
  structure_from_model m Little enums structs id d = Ok s ->
  no_overflow m structs d ->
  forall h buf,
  (forall i v, In (i, v) h -> good_field structs d s i) ->
  s_byte_size s <= len buf -> bytes_ok buf ->
  exists buf', run_history (E:=E) mr s h buf = Ok buf' /\ length buf' = length buf /\ bytes_ok buf' /\
    forall i f o w, nth_error (s_fields s) i = Some (FFixed f) -> declared_at structs d i o w ->
      0 < w <= 64 -> addressable o w ->
      get_raw (E:=E) mr f buf' =
        match last_set h i with
        | Some v => Ok (v mod 2 ^ w)
        | None => get_raw mr f buf
        end.
Proof. exact (@history_correct). Qed.
Print Assumptions C05_history_partial.

(** The guard is the weakest possible: in a structure of scalars, the fields are independent variables
    exactly if every field is addressable. *)
Theorem C05_history_exact : forall E m mr enums structs id d s,
  structure_from_model m Little enums structs id d = Ok s ->
  no_overflow m structs d ->
  (forall i, (i < length (ss_fields d))%nat -> exists f o w,
     nth_error (s_fields s) i = Some (FFixed f) /\ declared_at structs d i o w /\ 0 < w <= 64) ->
  ((forall h buf, (forall i v, In (i, v) h -> (i < length (ss_fields d))%nat) ->
      s_byte_size s <= len buf -> bytes_ok buf ->
      exists buf', run_history (E:=E) mr s h buf = Ok buf' /\
        forall i f o w, nth_error (s_fields s) i = Some (FFixed f) -> declared_at structs d i o w ->
          get_raw (E:=E) mr f buf' =
            match last_set h i with
            | Some v => Ok (v mod 2 ^ w)
            | None => get_raw mr f buf
            end) <->
   forall i o w, declared_at structs d i o w -> addressable o w).
Proof. exact (@history_exact). Qed.
Print Assumptions C05_history_exact.

Definition even : sstruct :=
  {| ss_name := "Even"; ss_fields := [scalar "x" (STUnsigned 4); scalar "y" (STUnsigned 4); scalar "z" (STUnsigned 16)] |}.
Example C05_exact_nonvacuous :
  (structure_from_model Debug Little [] [] 0 straddle = Ok straddle_s /\ no_overflow Debug [] straddle /\
   (forall i, (i < length (ss_fields straddle))%nat -> exists f o w,
     nth_error (s_fields straddle_s) i = Some (FFixed f) /\ declared_at [] straddle i o w /\ 0 < w <= 64) /\
   declared_at [] straddle 1 4 8 /\ ~ addressable 4 8) /\
  exists s, structure_from_model Debug Little [] [] 0 even = Ok s /\ no_overflow Debug [] even /\
   (forall i, (i < length (ss_fields even))%nat -> exists f o w,
     nth_error (s_fields s) i = Some (FFixed f) /\ declared_at [] even i o w /\ 0 < w <= 64) /\
   forall i o w, declared_at [] even i o w -> addressable o w.
Proof.
  split.
  - split; [vm_compute; reflexivity|]. split; [left; reflexivity|]. split.
    + intros [|[|[|i]]] H; cbn in H; try lia; do 3 eexists; (split; [reflexivity|]); (split; [solve_at|]); lia.
    + split; [solve_at|]. intro H. vm_compute in H. congruence.
  - eexists. split; [vm_compute; reflexivity|]. split; [left; reflexivity|]. split.
    + intros [|[|[|i]]] H; cbn in H; try lia; do 3 eexists; (split; [reflexivity|]); (split; [solve_at|]); lia.
    + intros [|[|[|i]]] o w (H1 & f & H2 & H3); cbn in H1, H2; try (destruct i; discriminate);
        inversion H1; inversion H2; subst; inversion H3; vm_compute; first [reflexivity|discriminate].
Qed.

(** Field 0 was set to 5 and reads as 10 after field 1 was set. *)
Theorem C05_history_refuted : exists d s f0 f1 buf buf',
  structure_from_model Debug Little [] [] 0 d = Ok s /\
  nth_error (s_fields s) 0 = Some (FFixed f0) /\ nth_error (s_fields s) 1 = Some (FFixed f1) /\
  len buf = s_byte_size s /\ bytes_ok buf /\
  run_history (E:=cerror) Release s [(0%nat, 5); (1%nat, 170)] buf = Ok buf' /\
  get_raw (E:=cerror) Release f0 buf' = Ok 10.
Proof. exact history_refuted. Qed.
Print Assumptions C05_history_refuted.

Example C05_nonvacuous :
  let h := [(0%nat, 5); (1%nat, 17); (2%nat, 70000); (0%nat, 15)] in
  (forall i v, In (i, v) h -> good_field [] demo demo_s i) /\ last_set h 0 = Some 15.
Proof.
  split; [|reflexivity]. intros i v H. cbn in H.
  destruct H as [H|[H|[H|[H|H]]]]; inversion H; subst;
    (eexists; eexists; eexists; split; [reflexivity|]; split; [solve_at|]; split; [lia|];
     vm_compute; first [reflexivity|discriminate]).
Qed.

(** ** C06: signed view *)

Theorem C06_signed_view_partial : forall E m mr enums structs id d s i df f n o w,
  structure_from_model m Little enums structs id d = Ok s ->
  no_overflow m structs d ->
  nth_error (ss_fields d) i = Some df ->
  sf_info df = STSigned n -> sf_view df = None ->
  nth_error (s_fields s) i = Some (FFixed f) -> declared_at structs d i o w ->
  w = n -> addressable o n ->
  1 <= n <= 64 /\
  forall buf, s_byte_size s <= len buf -> bytes_ok buf ->
    (exists raw, is_field_value buf o n raw /\
       get_view (E:=E) mr f buf = Ok (XInt (twos_complement n raw))) /\
    (forall z, (- 2 ^ (Z.of_N n - 1) <= z < 2 ^ (Z.of_N n - 1))%Z ->
       exists buf', set_view (E:=E) mr f buf (XInt z) = Ok buf' /\
         is_field_update buf o n (Z.to_N (z mod 2 ^ Z.of_N n)) buf' /\
         get_view (E:=E) mr f buf' = Ok (XInt z)).
Proof. exact (@signed_view). Qed.
Print Assumptions C06_signed_view_partial.

Example C06_nonvacuous :
  nth_error (ss_fields demo) 1 = Some (scalar "b" (STSigned 5)) /\
  nth_error (s_fields demo_s) 1 = Some (FFixed (demo_fixed 1)) /\ declared_at [] demo 1 3 5 /\
  get_view (E:=cerror) Debug (demo_fixed 1) demo_buf = Ok (XInt (-12)).
Proof.
  split; [reflexivity|]. split; [reflexivity|]. split; [solve_at|]. vm_compute; reflexivity.
Qed.

(** The guard is necessary: both directions hold exactly for addressable fields. *)
Theorem C06_signed_exact : forall E m mr enums structs id d s i df f n o,
  structure_from_model m Little enums structs id d = Ok s ->
  no_overflow m structs d ->
  nth_error (ss_fields d) i = Some df ->
  sf_info df = STSigned n -> sf_view df = None ->
  nth_error (s_fields s) i = Some (FFixed f) -> declared_at structs d i o n ->
  ((forall buf, s_byte_size s <= len buf -> bytes_ok buf ->
      exists raw, is_field_value buf o n raw /\
        get_view (E:=E) mr f buf = Ok (XInt (twos_complement n raw))) <-> addressable o n) /\
  ((forall buf z, s_byte_size s <= len buf -> bytes_ok buf ->
      (- 2 ^ (Z.of_N n - 1) <= z < 2 ^ (Z.of_N n - 1))%Z ->
      exists buf', set_view (E:=E) mr f buf (XInt z) = Ok buf' /\
        is_field_update buf o n (Z.to_N (z mod 2 ^ Z.of_N n)) buf') <-> addressable o n).
Proof. exact (@signed_exact). Qed.
Print Assumptions C06_signed_exact.

(** Signed numbers of 12 bits that start at bit 5 are accepted and lose their sign. *)
Theorem C06_signed_refuted : exists d s f,
  structure_from_model Debug Little [] [] 0 d = Ok s /\
  nth_error (ss_fields d) 1 = Some (scalar "b" (STSigned 12)) /\ declared_at [] d 1 5 12 /\
  nth_error (s_fields s) 1 = Some (FFixed f) /\ ~ addressable 5 12 /\
  set_view (E:=cerror) Release f [0; 0; 0] (XInt (-1)) = Ok [224; 255; 0] /\
  get_view (E:=cerror) Release f [224; 255; 0] = Ok (XInt 2047).
Proof. exact signed_refuted. Qed.
Print Assumptions C06_signed_refuted.

(** ** C07: unsigned, boolean and bit-cast float views *)

Theorem C07_unsigned_view_partial : forall E m mr enums structs id d s i df f n o w,
  structure_from_model m Little enums structs id d = Ok s ->
  no_overflow m structs d ->
  nth_error (ss_fields d) i = Some df ->
  sf_info df = STUnsigned n -> sf_view df = None ->
  nth_error (s_fields s) i = Some (FFixed f) -> declared_at structs d i o w ->
  w = n -> addressable o n ->
  1 <= n <= 64 /\
  forall buf, s_byte_size s <= len buf -> bytes_ok buf ->
    (exists raw, is_field_value buf o n raw /\
       get_view (E:=E) mr f buf = Ok (XInt (Z.of_N raw))) /\
    (forall x, x < 2 ^ n ->
       exists buf', set_view (E:=E) mr f buf (XInt (Z.of_N x)) = Ok buf' /\
         is_field_update buf o n x buf' /\
         get_view (E:=E) mr f buf' = Ok (XInt (Z.of_N x))).
Proof. exact (@unsigned_view). Qed.
Print Assumptions C07_unsigned_view_partial.

Theorem C07_bool_view_partial : forall E m mr enums structs id d s i df f n o w,
  structure_from_model m Little enums structs id d = Ok s ->
  no_overflow m structs d ->
  nth_error (ss_fields d) i = Some df ->
  sf_info df = STBoolean n -> sf_view df = None ->
  nth_error (s_fields s) i = Some (FFixed f) -> declared_at structs d i o w ->
  w = n -> addressable o n -> 1 <= n <= 64 ->
  forall buf, s_byte_size s <= len buf -> bytes_ok buf ->
    (exists raw, is_field_value buf o n raw /\
       get_view (E:=E) mr f buf = Ok (XBool (negb (N.eqb raw 0)))) /\
    (forall x, exists buf', set_view (E:=E) mr f buf (XBool x) = Ok buf' /\
         is_field_update buf o n (if x then 1 else 0) buf' /\
         get_view (E:=E) mr f buf' = Ok (XBool x)).
Proof. exact (@bool_view). Qed.
Print Assumptions C07_bool_view_partial.

Theorem C07_float_bits_view_partial : forall E m mr enums structs id d s i df f n o w,
  structure_from_model m Little enums structs id d = Ok s ->
  no_overflow m structs d ->
  nth_error (ss_fields d) i = Some df ->
  sf_info df = STFloat n -> sf_view df = None ->
  nth_error (s_fields s) i = Some (FFixed f) -> declared_at structs d i o w ->
  w = n -> addressable o n ->
  (n = 32 \/ n = 64) /\
  forall buf, s_byte_size s <= len buf -> bytes_ok buf ->
    (exists raw, is_field_value buf o n raw /\
       get_view (E:=E) mr f buf = Ok (XFloatBits raw)) /\
    (forall x, x < 2 ^ n ->
       exists buf', set_view (E:=E) mr f buf (XFloatBits x) = Ok buf' /\
         is_field_update buf o n x buf' /\
         get_view (E:=E) mr f buf' = Ok (XFloatBits x)).
Proof. exact (@float_bits_view). Qed.
Print Assumptions C07_float_bits_view_partial.

Example C07_nonvacuous :
  nth_error (s_fields demo_s) 2 = Some (FFixed (demo_fixed 2)) /\ declared_at [] demo 2 8 24 /\ addressable 8 24 /\
  nth_error (s_fields demo_s) 4 = Some (FFixed (demo_fixed 4)) /\ declared_at [] demo 4 40 32 /\ addressable 40 32 /\
  nth_error (s_fields demo_s) 5 = Some (FFixed (demo_fixed 5)) /\ declared_at [] demo 5 72 1 /\ addressable 72 1 /\
  get_view (E:=cerror) Debug (demo_fixed 5) demo_buf = Ok (XBool true) /\
  get_view (E:=cerror) Debug (demo_fixed 4) demo_buf = Ok (XFloatBits 1065353216).
Proof.
  split; [reflexivity|]. split; [solve_at|]. split; [reflexivity|].
  split; [reflexivity|]. split; [solve_at|]. split; [reflexivity|].
  split; [reflexivity|]. split; [solve_at|]. split; [vm_compute; discriminate|].
  split; vm_compute; reflexivity.
Qed.

(** The guard is necessary. *)
Theorem C07_unsigned_exact : forall E m mr enums structs id d s i df f n o,
  structure_from_model m Little enums structs id d = Ok s ->
  no_overflow m structs d ->
  nth_error (ss_fields d) i = Some df ->
  sf_info df = STUnsigned n -> sf_view df = None ->
  nth_error (s_fields s) i = Some (FFixed f) -> declared_at structs d i o n ->
  ((forall buf, s_byte_size s <= len buf -> bytes_ok buf ->
      exists raw, is_field_value buf o n raw /\ get_view (E:=E) mr f buf = Ok (XInt (Z.of_N raw))) <->
     addressable o n) /\
  ((forall buf x, s_byte_size s <= len buf -> bytes_ok buf -> x < 2 ^ n ->
      exists buf', set_view (E:=E) mr f buf (XInt (Z.of_N x)) = Ok buf' /\ is_field_update buf o n x buf') <->
     addressable o n).
Proof. exact (@unsigned_exact). Qed.
Print Assumptions C07_unsigned_exact.

(** The same for booleans. *)
Theorem C07_bool_exact : forall E m mr enums structs id d s i df f n o,
  structure_from_model m Little enums structs id d = Ok s ->
  no_overflow m structs d ->
  nth_error (ss_fields d) i = Some df ->
  sf_info df = STBoolean n -> sf_view df = None ->
  nth_error (s_fields s) i = Some (FFixed f) -> declared_at structs d i o n -> 1 <= n <= 64 ->
  ((forall buf, s_byte_size s <= len buf -> bytes_ok buf ->
      exists raw, is_field_value buf o n raw /\ get_view (E:=E) mr f buf = Ok (XBool (negb (N.eqb raw 0)))) <->
     addressable o n) /\
  ((forall buf x, s_byte_size s <= len buf -> bytes_ok buf ->
      exists buf', set_view (E:=E) mr f buf (XBool x) = Ok buf' /\
        is_field_update buf o n (if x then 1 else 0) buf') <->
     addressable o n).
Proof. exact (@bool_exact). Qed.
Print Assumptions C07_bool_exact.

(** The same for bit-cast floats. *)
Theorem C07_float_bits_exact : forall E m mr enums structs id d s i df f n o,
  structure_from_model m Little enums structs id d = Ok s ->
  no_overflow m structs d ->
  nth_error (ss_fields d) i = Some df ->
  sf_info df = STFloat n -> sf_view df = None ->
  nth_error (s_fields s) i = Some (FFixed f) -> declared_at structs d i o n ->
  ((forall buf, s_byte_size s <= len buf -> bytes_ok buf ->
      exists raw, is_field_value buf o n raw /\ get_view (E:=E) mr f buf = Ok (XFloatBits raw)) <->
     addressable o n) /\
  ((forall buf x, s_byte_size s <= len buf -> bytes_ok buf -> x < 2 ^ n ->
      exists buf', set_view (E:=E) mr f buf (XFloatBits x) = Ok buf' /\ is_field_update buf o n x buf') <->
     addressable o n).
Proof. exact (@float_bits_exact). Qed.
Print Assumptions C07_float_bits_exact.

(** An unsigned number, a boolean and a float that are accepted and misread. *)
Theorem C07_views_refuted : exists d s f g h,
  structure_from_model Debug Little [] [] 0 d = Ok s /\
  ss_fields d = [scalar "a" (STUnsigned 5); scalar "b" (STUnsigned 8); scalar "c" (STBoolean 4); scalar "d" (STFloat 32)] /\
  nth_error (s_fields s) 1 = Some (FFixed f) /\ nth_error (s_fields s) 2 = Some (FFixed g) /\
  nth_error (s_fields s) 3 = Some (FFixed h) /\
  get_view (E:=cerror) Release f [7; 0; 0; 0; 0; 0; 0] = Ok (XInt 7) /\
  get_view (E:=cerror) Release g [0; 0; 1; 0; 0; 0; 0] = Ok (XBool false) /\
  get_view (E:=cerror) Release h [0; 0; 1; 0; 0; 0; 0] = Ok (XFloatBits 1) /\
  (is_field_value [7; 0; 0; 0; 0; 0; 0] 5 8 0 /\ is_field_value [0; 0; 1; 0; 0; 0; 0] 13 4 8 /\
   is_field_value [0; 0; 1; 0; 0; 0; 0] 17 32 0).
Proof. exact views_refuted. Qed.
Print Assumptions C07_views_refuted.

(** ** C08: enum view *)

(** Proved when the declared numbers have no hole (all numbers from 0 to the
    largest are declared); the setter part also needs the number to fit. *)
Theorem C08_enum_view_partial : forall E m mr enums structs id d s i df f n name de e o,
  structure_from_model m Little enums structs id d = Ok s ->
  no_overflow m structs d ->
  nth_error (ss_fields d) i = Some df ->
  sf_info df = STUnsigned n -> sf_view df = Some (SVEnum name) ->
  sget name enums = Some e -> enum_from_model de = Ok e ->
  nth_error (s_fields s) i = Some (FFixed f) -> declared_at structs d i o n ->
  addressable o n ->
  (forall x y, declared_value de y -> x <= y -> declared_value de x) ->
  forall buf, s_byte_size s <= len buf -> bytes_ok buf ->
    (exists raw r, is_field_value buf o n raw /\ get_view (E:=E) mr f buf = Ok (XEnum r) /\
       (declared_value de raw -> r = Some raw) /\ (~ declared_value de raw -> r = None)) /\
    (forall x, declared_value de x -> x < 2 ^ n ->
       exists buf', set_view (E:=E) mr f buf (XEnum (Some x)) = Ok buf' /\
         is_field_update buf o n x buf' /\
         get_view (E:=E) mr f buf' = Ok (XEnum (Some x))).
Proof. exact (@enum_view_exact). Qed.
Print Assumptions C08_enum_view_partial.

Example C08_nonvacuous :
  enum_from_model color = Ok (the_enum color) /\ sget "Color" sample_enums = Some (the_enum color) /\
  nth_error (s_fields demo_s) 3 = Some (FFixed (demo_fixed 3)) /\ declared_at [] demo 3 32 8 /\
  addressable 32 8 /\ (forall x y, declared_value color y -> x <= y -> declared_value color x) /\
  get_view (E:=cerror) Debug (demo_fixed 3) demo_buf = Ok (XEnum (Some 1)).
Proof.
  split; [reflexivity|]. split; [reflexivity|]. split; [reflexivity|]. split; [solve_at|].
  split; [reflexivity|]. split; [|vm_compute; reflexivity].
  intros x y Hy Hx. cbn in *. assert (x = 0 \/ x = 1 \/ x = 2) by lia. intuition lia.
Qed.

(** The exact conditions: the getter is right when the field is addressable and no number that the field can
    hold is a hole below the largest number, the setter when all numbers fit. *)
Theorem C08_enum_exact : forall E m mr enums structs id d s i df f n name de e o,
  structure_from_model m Little enums structs id d = Ok s ->
  no_overflow m structs d ->
  nth_error (ss_fields d) i = Some df ->
  sf_info df = STUnsigned n -> sf_view df = Some (SVEnum name) ->
  sget name enums = Some e -> enum_from_model de = Ok e ->
  nth_error (s_fields s) i = Some (FFixed f) -> declared_at structs d i o n ->
  ((forall buf, s_byte_size s <= len buf -> bytes_ok buf ->
      exists raw r, is_field_value buf o n raw /\ get_view (E:=E) mr f buf = Ok (XEnum r) /\
        (declared_value de raw -> r = Some raw) /\ (~ declared_value de raw -> r = None)) <->
     addressable o n /\
     forall x y, declared_value de y -> x <= y -> x < 2 ^ n -> declared_value de x) /\
  ((forall buf x, s_byte_size s <= len buf -> bytes_ok buf -> declared_value de x ->
      exists buf', set_view (E:=E) mr f buf (XEnum (Some x)) = Ok buf' /\ is_field_update buf o n x buf' /\
        get_view (E:=E) mr f buf' = Ok (XEnum (Some x))) <->
     addressable o n /\ forall x, declared_value de x -> x < 2 ^ n).
Proof. exact (@enum_exact). Qed.
Print Assumptions C08_enum_exact.

(** A number in a hole is returned as if it were a variant (the generated code
    transmutes it: undefined behaviour). *)
Theorem C08_enum_hole_refuted : exists d s f de e,
  structure_from_model Debug Little [("Holes", e)] [] 0 d = Ok s /\ enum_from_model de = Ok e /\
  nth_error (s_fields s) 0 = Some (FFixed f) /\ s_byte_size s = 1 /\
  get_view (E:=cerror) Release f [3] = Ok (XEnum (Some 3)) /\ ~ declared_value de 3.
Proof. exact enum_hole_refuted. Qed.
Print Assumptions C08_enum_hole_refuted.

(** An enum wider than its field is truncated to another number. *)
Theorem C08_enum_narrow_refuted : exists d s f de e,
  structure_from_model Debug Little [("Holes", e)] [] 0 d = Ok s /\ enum_from_model de = Ok e /\
  nth_error (s_fields s) 0 = Some (FFixed f) /\ declared_value de 5 /\
  set_view (E:=cerror) Release f [0] (XEnum (Some 5)) = Ok [1] /\
  get_view (E:=cerror) Release f [1] = Ok (XEnum (Some 1)).
Proof. exact enum_narrow_refuted. Qed.
Print Assumptions C08_enum_narrow_refuted.

(** ** C09: float views *)

Theorem C09_float_range_refuted : exists d s f x y buf,
  structure_from_model Debug Little [] [] 0 d = Ok s /\ nth_error (s_fields s) 0 = Some (FFixed f) /\
  (* the field stores the range -1 .. 1 in 8 bits *)
  ss_fields d = [ {| sf_name := "v"; sf_info := STFloat 8; sf_array_len := None;
                     sf_view := Some (SVFloatRange f_minus_one f_one) |} ] /\
  (* the largest raw value reads as 0, not 1 *)
  get_view (E:=cerror) Release f [255] = Ok (XFloat x) /\ x = S754_zero false /\
  (* 1/2 is stored and read back as a negative number *)
  set_view (E:=cerror) Release f [0] (XFloat f_half) = Ok buf /\
  get_view (E:=cerror) Release f buf = Ok (XFloat y) /\ SFltb y (S754_zero false) = true.
Proof. exact float_range_refuted. Qed.
Print Assumptions C09_float_range_refuted.

(** ** C10: arrays of whole-byte items *)

Theorem C10_array_field_partial : forall E m mr enums structs id d s i df f b k o,
  structure_from_model m Little enums structs id d = Ok s ->
  no_overflow m structs d ->
  nth_error (ss_fields d) i = Some df ->
  get_bit_size (sf_info df) = Some b -> get_simple_type (sf_info df) <> Boolean ->
  sf_array_len df = Some k ->
  nth_error (s_fields s) i = Some (FArray f) -> declared_at structs d i o (b * k) ->
  b mod 8 = 0 -> o mod 8 = 0 ->
  1 < k /\ 8 <= b <= 64 /\
  forall buf, s_byte_size s <= len buf -> bytes_ok buf ->
    arr_len (E:=E) f buf = Ok k /\
    (forall n, n < k -> exists v, arr_get (E:=E) mr f buf n = Ok v /\
       is_field_value buf (o + b * n) b v) /\
    (forall n v, n < k -> exists buf', arr_set (E:=E) mr f buf n v = Ok buf' /\
       is_field_update buf (o + b * n) b v buf') /\
    (exists l, arr_iter (E:=E) f buf = Ok l /\ len l = k /\
       forall n v, n < k -> arr_get (E:=E) mr f buf n = Ok v -> nth_error l (N.to_nat n) = Some v).
Proof. exact (@array_field_correct). Qed.
Print Assumptions C10_array_field_partial.

Example C10_nonvacuous :
  nth_error (s_fields demo_s) 7 = Some (FArray demo_array) /\ declared_at [] demo 7 80 (16 * 3) /\
  arr_iter (E:=cerror) demo_array demo_buf = Ok [1; 2; 3] /\
  arr_get (E:=cerror) Release demo_array demo_buf 1 = Ok 2.
Proof. split; [reflexivity|]. split; [solve_at|]. split; vm_compute; reflexivity. Qed.

(** An array that does not start on a byte boundary is misread. *)
Theorem C10_unaligned_array_refuted : exists d s f,
  structure_from_model Debug Little [] [] 0 d = Ok s /\ nth_error (s_fields s) 1 = Some (FArray f) /\
  declared_at [] d 1 4 16 /\
  arr_get (E:=cerror) Release f [240; 0; 0] 0 = Ok 240 /\ is_field_value [240; 0; 0] 4 8 15.
Proof. exact shifted_array_refuted. Qed.
Print Assumptions C10_unaligned_array_refuted.

(** The guard on alignment is necessary: the items of an accepted array are read, or written, as declared
    exactly when the array starts on a byte boundary and its items are whole bytes. *)
Theorem C10_array_exact : forall E m mr enums structs id d s i df f b k o,
  structure_from_model m Little enums structs id d = Ok s ->
  no_overflow m structs d ->
  nth_error (ss_fields d) i = Some df ->
  get_bit_size (sf_info df) = Some b -> get_simple_type (sf_info df) <> Boolean ->
  sf_array_len df = Some k ->
  nth_error (s_fields s) i = Some (FArray f) -> declared_at structs d i o (b * k) ->
  ((forall buf n, s_byte_size s <= len buf -> bytes_ok buf -> n < k ->
      exists v, arr_get (E:=E) mr f buf n = Ok v /\ is_field_value buf (o + b * n) b v) <->
     b mod 8 = 0 /\ o mod 8 = 0) /\
  ((forall buf n v, s_byte_size s <= len buf -> bytes_ok buf -> n < k ->
      exists buf', arr_set (E:=E) mr f buf n v = Ok buf' /\ is_field_update buf (o + b * n) b v buf') <->
     b mod 8 = 0 /\ o mod 8 = 0).
Proof. exact (@array_exact). Qed.
Print Assumptions C10_array_exact.

(** What any accepted array does: item [n] stands for [b / 8] whole bytes counted from the byte the array
    starts in, and asking for the length panics when an item is narrower than a byte. *)
Theorem C10_array_reach : forall E m mr enums structs id d s i df f b k o,
  structure_from_model m Little enums structs id d = Ok s ->
  no_overflow m structs d ->
  nth_error (ss_fields d) i = Some df ->
  get_bit_size (sf_info df) = Some b -> get_simple_type (sf_info df) <> Boolean ->
  sf_array_len df = Some k ->
  nth_error (s_fields s) i = Some (FArray f) -> declared_at structs d i o (b * k) ->
  1 < k /\ 1 <= b <= 64 /\ o + b * k <= s_bit_size s /\ s_byte_size s = ceil8 (s_bit_size s) /\
  forall buf, s_byte_size s <= len buf -> bytes_ok buf ->
    arr_len (E:=E) f buf = (if (b <? 8)%N then Panic else Ok (b * k / 8 / (b / 8))) /\
    (forall n, n < k -> exists v, arr_get (E:=E) mr f buf n = Ok v /\
       is_field_value buf (8 * (o / 8 + b / 8 * n)) (8 * (b / 8)) v) /\
    (forall n v, n < k -> exists buf', arr_set (E:=E) mr f buf n v = Ok buf' /\
       is_field_update buf (8 * (o / 8 + b / 8 * n)) (8 * (b / 8)) v buf').
Proof. exact (@array_reach). Qed.
Print Assumptions C10_array_reach.

(** In a release build an index far out of range reads item 0. *)
Theorem C10_release_index_refuted : exists f buf,
  nth_error (s_fields demo_s) 7 = Some (FArray f) /\ len buf = s_byte_size demo_s /\
  arr_len (E:=cerror) f buf = Ok 3 /\
  arr_get (E:=cerror) Release f buf (2 ^ 63) = arr_get Release f buf 0 /\
  arr_get (E:=cerror) Debug f buf (2 ^ 63) = Panic.
Proof. exact array_release_index_refuted. Qed.
Print Assumptions C10_release_index_refuted.

(** ** C11: arrays of fractional-byte items are not rejected *)

(** What is checked: the total width is a whole number of bytes. *)
Theorem C11_total_width_partial : forall m endi enums structs id d s i df f b k,
  structure_from_model m endi enums structs id d = Ok s ->
  nth_error (ss_fields d) i = Some df -> nth_error (s_fields s) i = Some (FArray f) ->
  get_bit_size (sf_info df) = Some b -> sf_array_len df = Some k ->
  (m = Debug \/ b * k < 2 ^ 64) -> (b * k) mod 8 = 0.
Proof. exact array_accepted. Qed.
Print Assumptions C11_total_width_partial.

Example C11_nonvacuous :
  structure_from_model Debug Little sample_enums [] 0 demo = Ok demo_s /\
  nth_error (s_fields demo_s) 7 = Some (FArray demo_array) /\
  structure_from_model Debug Little [] [] 0
    {| ss_name := "X"; ss_fields := [ {| sf_name := "x"; sf_info := STUnsigned 4; sf_view := None;
                                         sf_array_len := Some 3 |} ] |} = Err EUnalignedArrayCodec.
Proof. split; [vm_compute; reflexivity|]. split; reflexivity. Qed.

(** Which arrays are accepted: the width of an item need not be a whole number of bytes. *)
Theorem C11_accepted_exact : forall m endi enums structs id name t k, 1 < k ->
  (exists s, structure_from_model m endi enums structs id
     {| ss_name := name; ss_fields := [ {| sf_name := "x"; sf_info := t; sf_view := None; sf_array_len := Some k |} ] |} = Ok s) <->
  match t with
  | STUnsigned b | STSigned b => 1 <= b <= 64 /\ (b * k) mod 8 = 0 /\ (m = Debug -> b * k < 2 ^ 64)
  | STFloat b => (b = 32 \/ b = 64) /\ (m = Debug -> b * k < 2 ^ 64)
  | STBoolean b => (b * k) mod 8 = 0 /\ (m = Debug -> b * k < 2 ^ 64)
  | STStruct n => exists r, sget n structs = Some r /\ (m = Debug -> s_bit_size r < 2 ^ 64)
  end.
Proof. exact array_width_exact. Qed.
Print Assumptions C11_accepted_exact.

(** The length of an accepted array: a panic for items below a byte, and otherwise the declared length
    exactly if the bits lost to rounding make up less than one item. *)
Theorem C11_length_exact : forall E m enums structs id d s i df f b k o,
  structure_from_model m Little enums structs id d = Ok s ->
  no_overflow m structs d ->
  nth_error (ss_fields d) i = Some df ->
  get_bit_size (sf_info df) = Some b -> get_simple_type (sf_info df) <> Boolean ->
  sf_array_len df = Some k ->
  nth_error (s_fields s) i = Some (FArray f) -> declared_at structs d i o (b * k) ->
  forall buf, s_byte_size s <= len buf -> bytes_ok buf ->
    (arr_len (E:=E) f buf = Panic <-> b < 8) /\
    (arr_len (E:=E) f buf = Ok k <-> 8 <= b /\ k * (b mod 8) < 8 * (b / 8)).
Proof. exact (@array_len_exact). Qed.
Print Assumptions C11_length_exact.

Example C11_exact_nonvacuous : exists f,
  structure_from_model Debug Little sample_enums [] 0 demo = Ok demo_s /\ no_overflow Debug [] demo /\
  nth_error (s_fields demo_s) 7 = Some (FArray f) /\
  declared_at [] demo 7 80 (16 * 3) /\
  (exists s, structure_from_model Debug Little [] [] 0
     {| ss_name := "S"; ss_fields := [ {| sf_name := "x"; sf_info := STUnsigned 60; sf_view := None; sf_array_len := Some 2 |} ] |} = Ok s) /\
  2 * (60 mod 8) < 8 * (60 / 8) /\ ~ 2 * (12 mod 8) < 8 * (12 / 8).
Proof.
  eexists. split; [vm_compute; reflexivity|]. split; [left; reflexivity|]. split; [reflexivity|].
  split; [solve_at|]. split; [eexists; vm_compute; reflexivity|]. split; vm_compute; congruence.
Qed.

Theorem C11_subbyte_array_refuted : exists d s f,
  structure_from_model Debug Little [] [] 0 d = Ok s /\ nth_error (s_fields s) 0 = Some (FArray f) /\
  ss_fields d = [ {| sf_name := "x"; sf_info := STUnsigned 4; sf_view := None; sf_array_len := Some 2 |} ] /\
  (forall buf, len buf = s_byte_size s -> arr_len (E:=cerror) f buf = Panic) /\
  (forall buf, len buf = s_byte_size s -> arr_get (E:=cerror) Release f buf 1 = Ok 0).
Proof. exact subbyte_array_refuted. Qed.
Print Assumptions C11_subbyte_array_refuted.

Theorem C11_oddbit_array_refuted : exists d s f,
  structure_from_model Debug Little [] [] 0 d = Ok s /\ nth_error (s_fields s) 0 = Some (FArray f) /\
  ss_fields d = [ {| sf_name := "x"; sf_info := STUnsigned 12; sf_view := None; sf_array_len := Some 2 |} ] /\
  (forall buf, len buf = s_byte_size s -> arr_len (E:=cerror) f buf = Ok 3).
Proof. exact oddbit_array_refuted. Qed.
Print Assumptions C11_oddbit_array_refuted.

(** ** C12: nested structures *)

Theorem C12_nested_paths_partial : forall E m mr structs name s path o w,
  built m structs -> sget name structs = Some s ->
  path_at s path o w -> path_bytes_aligned s path -> 0 < w <= 64 -> addressable o w ->
  o + w <= s_bit_size s /\
  forall buf, s_byte_size s <= len buf -> bytes_ok buf ->
    (exists v, path_get (E:=E) mr s path buf = Ok v /\ is_field_value buf o w v) /\
    (forall v, exists buf', path_set (E:=E) mr s path buf v = Ok buf' /\ is_field_update buf o w v buf').
Proof. exact (@nested_paths). Qed.
Print Assumptions C12_nested_paths_partial.

Example C12_nonvacuous :
  built Debug outer_structs /\ sget "Outer" outer_structs = Some outer_s /\
  path_at outer_s [1%nat; 1%nat] 12 12 /\ path_bytes_aligned outer_s [1%nat; 1%nat] /\ addressable 12 12 /\
  path_get (E:=cerror) Debug outer_s [1%nat; 1%nat] [1; 48; 18; 4] = Ok 291.
Proof.
  split.
  { assert (Hi : built Debug [("Inner", inner_s)]).
    { apply (built_def Debug [] [] 0 inner inner_s "Inner" []); [constructor| | |constructor].
      - vm_compute. reflexivity.
      - apply no_overflow_debug. }
    apply (built_def Debug [] [("Inner", inner_s)] 0 outer outer_s "Outer" [("Inner", inner_s)]); try exact Hi.
    - vm_compute. reflexivity.
    - apply no_overflow_debug. }
  split; [reflexivity|]. split.
  { change 12 with (total_bits (firstn 1 (s_fields outer_s)) + 4) at 1.
    eapply path_struct; [reflexivity|].
    change 4 with (total_bits (firstn 1 (s_fields inner_s))).
    refine (path_scalar inner_s 1 (second_fixed inner_s) _). reflexivity. }
  split; [vm_compute; auto|]. split; [vm_compute; discriminate|vm_compute; reflexivity].
Qed.

(** A structure that does not start on a byte boundary is misread. *)
Theorem C12_unaligned_nested_refuted : exists s path o w buf,
  sget "Shifted" shifted_structs = Some s /\ built Debug shifted_structs /\
  path_at s path o w /\ 0 < w <= 64 /\ addressable o w /\ len buf = s_byte_size s /\ bytes_ok buf /\
  path_get (E:=cerror) Release s path buf = Ok 15 /\ ~ is_field_value buf o w 15.
Proof. exact nested_refuted. Qed.
Print Assumptions C12_unaligned_nested_refuted.

(** The guards are necessary: a chain of accessors reads, or writes, the declared bits exactly when every
    structure on the way starts on a byte boundary and the last field lies within the bytes fetched. *)
Theorem C12_nested_exact : forall E m mr structs name s path o w,
  built m structs -> sget name structs = Some s -> path_at s path o w -> 0 < w <= 64 ->
  ((forall buf, s_byte_size s <= len buf -> bytes_ok buf ->
      exists v, path_get (E:=E) mr s path buf = Ok v /\ is_field_value buf o w v) <->
     path_bytes_aligned s path /\ addressable o w) /\
  ((forall buf v, s_byte_size s <= len buf -> bytes_ok buf ->
      exists buf', path_set (E:=E) mr s path buf v = Ok buf' /\ is_field_update buf o w v buf') <->
     path_bytes_aligned s path /\ addressable o w).
Proof. exact (@nested_exact). Qed.
Print Assumptions C12_nested_exact.

(** ** C13: big-endian codecs *)

(** Byte codec on a window of the type's own size. *)
Theorem C13_be_bytes_partial : forall E sz w v, length w = sz -> bytes_ok w ->
  byte_read (E:=E) BE sz w = Ok (be_value w) /\
  exists w', byte_write (E:=E) BE sz w v = Ok w' /\ length w' = sz /\ bytes_ok w' /\
    be_value w' = v mod tmod sz /\ byte_read (E:=E) BE sz w' = Ok (v mod tmod sz).
Proof. exact (@be_bytes_roundtrip). Qed.
Print Assumptions C13_be_bytes_partial.

(** Bit codec: correct when the gap below the field equals the bit offset. *)
Theorem C13_be_bits_partial : forall E m sz bo bs w v,
  length w = sz -> bytes_ok w -> (0 < sz <= 8)%nat -> 0 < bs < 64 ->
  2 * bo + bs mod 8 = 8 -> bo + bs <= 8 * N.of_nat sz ->
  exists w', bit_write (E:=E) m BE sz bo bs w v = Ok w' /\ length w' = sz /\ bytes_ok w' /\
    bits_replaced (be_value w) bo bs v (be_value w') /\
    bit_read (E:=E) m BE sz bo bs w' = Ok (v mod 2 ^ bs).
Proof. exact (@be_bits_symmetric). Qed.
Print Assumptions C13_be_bits_partial.

(** Bit codec on a zeroed window: the value reads back. *)
Theorem C13_be_bits_zeroed_partial : forall E m sz bo bs v,
  (0 < sz <= 8)%nat -> 0 < bs < 64 -> 0 < bs mod 8 ->
  bo + bs mod 8 <= 8 -> bo + bs <= 8 * N.of_nat sz -> 8 - bs mod 8 - bo + bs <= 8 * N.of_nat sz ->
  exists w', bit_write (E:=E) m BE sz bo bs (repeat 0 sz) v = Ok w' /\ length w' = sz /\ bytes_ok w' /\
    bit_read (E:=E) m BE sz bo bs w' = Ok (v mod 2 ^ bs).
Proof. exact (@be_bits_zero). Qed.
Print Assumptions C13_be_bits_zeroed_partial.

(** Accessors of a scalar field of one, two, four or eight whole bytes that is
    big endian: the first byte is the most significant, and nothing else
    changes. *)
Theorem C13_be_field_partial : forall E mr f k sz buf,
  ff_loc f = location_from_model (8 * N.of_nat sz) (8 * k) -> ff_endianness f = Big ->
  In sz [1; 2; 4; 8]%nat -> k + N.of_nat sz <= len buf -> bytes_ok buf ->
  let window (b : bytes) := firstn sz (skipn (N.to_nat k) b) in
  get_raw (E:=E) mr f buf = Ok (be_value (window buf)) /\
  forall v, exists buf', set_raw (E:=E) mr f buf v = Ok buf' /\
    length buf' = length buf /\ bytes_ok buf' /\
    firstn (N.to_nat k) buf' = firstn (N.to_nat k) buf /\
    skipn (N.to_nat k + sz) buf' = skipn (N.to_nat k + sz) buf /\
    be_value (window buf') = v mod 2 ^ (8 * N.of_nat sz) /\
    get_raw (E:=E) mr f buf' = Ok (v mod 2 ^ (8 * N.of_nat sz)).
Proof. exact (@be_field). Qed.
Print Assumptions C13_be_field_partial.

Example C13_field_nonvacuous :
  let f := {| ff_name := "x"; ff_ty := U16; ff_loc := location_from_model 16 8; ff_endianness := Big; ff_view := VNone |} in
  get_raw (E:=cerror) Release f [9; 1; 2; 9] = Ok 258 /\
  set_raw (E:=cerror) Release f [9; 1; 2; 9] 770 = Ok [9; 3; 2; 9].
Proof. split; vm_compute; reflexivity. Qed.

Example C13_nonvacuous :
  byte_read (E:=cerror) BE 2 [1; 2] = Ok 258 /\
  2 * 2 + 12 mod 8 = 8 /\ bit_write (E:=cerror) Debug BE 2 2 12 [255; 255] 0 = Ok [192; 3] /\
  bit_write (E:=cerror) Debug BE 2 0 12 [0; 0] 2751 = Ok [171; 240] /\
  bit_read (E:=cerror) Debug BE 2 0 12 [171; 240] = Ok 2751.
Proof. repeat split; vm_compute; reflexivity. Qed.

(** The byte codec is right exactly when the window has the type's own size:
    on a shorter window it neither reads nor writes big endian, nor returns
    what was written. *)
Theorem C13_be_bytes_exact : forall E sz l, (0 < l <= sz)%nat -> (sz <= 8)%nat ->
  ((forall w, length w = l -> bytes_ok w -> byte_read (E:=E) BE sz w = Ok (be_value w)) <-> l = sz) /\
  ((forall w v, length w = l -> bytes_ok w -> v < 2 ^ (8 * N.of_nat l) ->
      exists w', byte_write (E:=E) BE sz w v = Ok w' /\ length w' = l /\ bytes_ok w' /\
        be_value w' = v) <-> l = sz) /\
  ((forall w v, length w = l -> bytes_ok w -> v < 2 ^ (8 * N.of_nat l) ->
      exists w', byte_write (E:=E) BE sz w v = Ok w' /\ byte_read (E:=E) BE sz w' = Ok v) <-> l = sz).
Proof. exact (@be_bytes_exact). Qed.
Print Assumptions C13_be_bytes_exact.

(** There is a place [p] in the big-endian number where the bit codec puts
    every value, reading it back and leaving all other bits alone, exactly
    when the window has the type's own size, the field fits and the gap on
    both sides of the field in its last byte is the same. The one other case
    is a whole byte through u8, without overflow checks. *)
Theorem C13_be_bits_exact : forall E m sz l bo bs,
  In sz [1; 2; 4; 8]%nat -> (0 < l <= sz)%nat -> 0 < bs <= 8 * N.of_nat sz -> bo < 8 ->
  ((exists p, forall w v, length w = l -> bytes_ok w -> v < 2 ^ bs ->
      exists w', bit_write (E:=E) m BE sz bo bs w v = Ok w' /\ length w' = l /\ bytes_ok w' /\
        bits_replaced (be_value w) p bs v (be_value w') /\
        bit_read (E:=E) m BE sz bo bs w' = Ok v) <->
   (l = sz /\ bo + bs <= 8 * N.of_nat sz /\
    (2 * bo + bs mod 8 = 8 \/ (m = Release /\ sz = 1%nat /\ bo = 0 /\ bs = 8)))).
Proof. exact (@be_bits_exact). Qed.
Print Assumptions C13_be_bits_exact.

(** The bit codec stops with a panic exactly when overflow checks are on and
    the shift 8 - (size mod 8) - offset is negative or as wide as the type. *)
Theorem C13_be_bits_panic : forall E m sz bo bs w,
  In sz [1; 2; 4; 8]%nat -> (0 < length w <= sz)%nat -> bytes_ok w -> 0 < bs < 64 -> bo < 8 ->
  let overflows := m = Debug /\ (8 < bo + bs mod 8 \/ 8 * N.of_nat sz <= 8 - bs mod 8 - bo) in
  (bit_read (E:=E) m BE sz bo bs w = Panic <-> overflows) /\
  (forall v, bit_write (E:=E) m BE sz bo bs w v = Panic <-> overflows).
Proof. exact (@be_bits_panic). Qed.
Print Assumptions C13_be_bits_panic.

(** Without overflow checks the bit codec always runs: it clears the bits
    from the offset but puts the value, and looks for it, at the shift
    8 - (size mod 8) - offset taken modulo the width of the type. *)
Theorem C13_be_bits_release : forall E sz bo bs w,
  In sz [1; 2; 4; 8]%nat -> length w = sz -> bytes_ok w -> 0 < bs < 64 -> bs <= 8 * N.of_nat sz -> bo < 8 ->
  let sh := Z.to_N ((8 - Z.of_N (bs mod 8) - Z.of_N bo) mod (8 * Z.of_nat sz)) in
  bit_read (E:=E) Release BE sz bo bs w = Ok (be_value w / 2 ^ sh mod 2 ^ bs) /\
  forall v, v < 2 ^ bs -> exists w', bit_write (E:=E) Release BE sz bo bs w v = Ok w' /\
    length w' = sz /\ bytes_ok w' /\
    forall i, i < 8 * N.of_nat sz ->
      (N.testbit (be_value w') i = true <->
       (N.testbit (be_value w) i = true /\ ~ (bo <= i < bo + bs)) \/
       (sh <= i < sh + bs /\ N.testbit v (i - sh) = true)).
Proof. exact (@be_bits_read). Qed.
Print Assumptions C13_be_bits_release.

Example C13_exact_nonvacuous :
  (* right: 4 bits at offset 2 of a byte; 12 bits at offset 2 of two bytes *)
  (2 * 2 + 4 mod 8 = 8 /\ bit_write (E:=cerror) Debug BE 1 2 4 [255] 9 = Ok [231]) /\
  (* wrong: the same widths at offset 0, and 24 bits through u32 *)
  2 * 0 + 4 mod 8 <> 8 /\
  bit_write (E:=cerror) Release BE 1 0 8 [7] 9 = Ok [9] /\
  bit_write (E:=cerror) Debug BE 1 0 8 [7] 9 = Panic /\
  bit_read (E:=cerror) Release BE 2 4 5 [8; 0] = Ok 0.
Proof. repeat split; vm_compute; congruence. Qed.

(** Otherwise a write clobbers a neighbour, keeps stale bits, loses bytes or
    panics. *)
Theorem C13_be_refuted :
  (* 4 high bits := 0 in 0xFF: the low neighbour is cleared instead *)
  bit_write (E:=cerror) Debug BE 1 0 4 [255] 0 = Ok [240] /\
  bit_read (E:=cerror) Debug BE 1 0 4 [240] = Ok 15 /\
  (* a 24-bit value through u32 loses its low byte *)
  byte_write (E:=cerror) BE 4 [0; 0; 0] 66051 = Ok [0; 1; 2] /\
  byte_read (E:=cerror) BE 4 [0; 1; 2] = Ok 66048 /\
  (* offset 4 and 5 bits: arithmetic overflow *)
  bit_read (E:=cerror) Debug BE 2 4 5 [0; 0] = Panic.
Proof. repeat split; vm_compute; reflexivity. Qed.
Print Assumptions C13_be_refuted.
