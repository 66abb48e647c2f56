(** Property theorems C66 to C70: a description changes after programs were
    built from it. The vocabulary ([struct_extended], [message_extended],
    [enum_extended], [messages_added], [leaves_rest], [final_result],
    [needs_input]) is defined in SpecEvolve. *)

From Coq Require Import Arith NArith ZArith Ascii String List Bool Lia.
From Verif Require Import Base Schema Codec Bits Compiler Access Runtime Gen Loader SpecStruct SpecRun SpecComp SpecWire SpecExact SpecDecode SpecSwallow SpecEvolve SpecWalk
  StructThms WriteThms TotalThms ReadThms EvolveThms EvolveMore FinalThms OpenThms SwallowThms WalkApart SmallExact Samples SamplesComp SamplesMsg MsgRefute.
Import ListNotations.
Local Open Scope N_scope.

(** ** C66: fields added at the end of a structure *)

Theorem C66_layout : forall m endi enums structs id d d' s', struct_extended d d' ->
  structure_from_model m endi enums structs id d' = Ok s' -> no_overflow m structs d' ->
  exists s, structure_from_model m endi enums structs id d = Ok s /\ no_overflow m structs d /\ s_name s' = s_name s /\
    (exists more, s_fields s' = (s_fields s ++ more)%list) /\ s_bit_size s <= s_bit_size s' /\ s_byte_size s <= s_byte_size s'.
Proof. exact struct_evolution. Qed.
Print Assumptions C66_layout.

Theorem C66_accessors : forall E m mr endi enums structs id d s i (old rest : bytes),
  structure_from_model m endi enums structs id d = Ok s -> no_overflow m structs d -> s_byte_size s <= len old ->
  (forall f, nth_error (s_fields s) i = Some (FFixed f) ->
     get_raw (E:=E) mr f (old ++ rest)%list = get_raw mr f old /\
     get_view (E:=E) mr f (old ++ rest)%list = get_view mr f old /\
     (forall v, leaves_rest (set_raw (E:=E) mr f old v) (set_raw mr f (old ++ rest)%list v) rest) /\
     (forall x, leaves_rest (set_view (E:=E) mr f old x) (set_view mr f (old ++ rest)%list x) rest)) /\
  (forall f, nth_error (s_fields s) i = Some (FArray f) -> forall k,
     arr_get (E:=E) mr f (old ++ rest)%list k = arr_get mr f old k /\
     (forall v, leaves_rest (arr_set (E:=E) mr f old k v) (arr_set mr f (old ++ rest)%list k v) rest)) /\
  (forall path,
     path_get (E:=E) mr s (i :: path) (old ++ rest)%list = path_get mr s (i :: path) old /\
     (forall v, leaves_rest (path_set (E:=E) mr s (i :: path) old v) (path_set mr s (i :: path) (old ++ rest)%list v) rest)).
Proof. exact old_accessors. Qed.
Print Assumptions C66_accessors.

Theorem C66_read : forall m emb s s' b n' v', s_byte_size s <= s_byte_size s' ->
  read_ref m emb (RStruct s') b = Ok (n', v') ->
  exists old rest, v' = VStruct (old ++ rest) /\ read_ref m emb (RStruct s) b = Ok (s_byte_size s, VStruct old) /\
    len old = s_byte_size s.
Proof. exact struct_old_reader. Qed.
Print Assumptions C66_read.

Example C66_nonvacuous : struct_extended demo demo_more /\ no_overflow Debug [] demo_more /\
  exists s', structure_from_model Debug Little sample_enums [] 0 demo_more = Ok s' /\
    s_byte_size s' = 17 /\ s_byte_size demo_s = 16 /\
    read_ref Debug (fun _ => false) (RStruct s') (demo_buf ++ [7; 8]) = Ok (17, VStruct (demo_buf ++ [7])) /\
    get_raw (E:=rerror) Debug (demo_fixed 2) (demo_buf ++ [7]) = Ok 16712193 /\
    set_raw (E:=rerror) Debug (demo_fixed 2) (demo_buf ++ [7]) 0 = Ok ([165; 0; 0; 0] ++ skipn 4 demo_buf ++ [7])%list.
Proof.
  split; [split; [reflexivity|eexists; reflexivity]|]. split; [left; reflexivity|].
  eexists. split; [vm_compute; reflexivity|]. repeat split; vm_compute; reflexivity.
Qed.

(** ** C67: fields added at the end of a message *)

Theorem C67_compile : forall env id d d' x' mk', message_extended d d' -> message_from_model env id d' = Ok (x', mk') ->
  exists x mk, message_from_model env id d = Ok (x, mk) /\ m_id x' = m_id x /\ m_name x' = m_name x /\
    (exists more, m_fields x' = (m_fields x ++ more)%list) /\ exists more, mk' = (mk ++ more)%list.
Proof. exact message_prefix. Qed.
Print Assumptions C67_compile.

Theorem C67_old_reader_partial : forall m emb x x' v' b more, m_fields x' = (m_fields x ++ more)%list -> self_delimiting emb x ->
  encodes_lax m x' v' b -> len b < 2 ^ 64 ->
  exists vs vs2 b1 b2, v' = VMsg (vs ++ vs2) /\ b = (b1 ++ b2)%list /\ encodes_lax m x (VMsg vs) b1 /\
    read_msg m emb x b = Ok (len b1, VMsg vs).
Proof. exact old_reader. Qed.
Print Assumptions C67_old_reader_partial.

Theorem C67_new_reader : forall m emb x x' vs b f more, m_fields x' = (m_fields x ++ f :: more)%list -> m_id x' = m_id x ->
  self_delimiting emb x -> encodes_lax m x (VMsg vs) b -> len b < 2 ^ 64 -> needs_input f -> read_msg m emb x' b = Err Truncated.
Proof. exact new_reader_needs. Qed.
Print Assumptions C67_new_reader.

Theorem C67_new_reader_payload : forall m emb x x' vs b nm s endi,
  m_fields x' = (m_fields x ++ [MkMField nm TPayload false s endi])%list -> m_id x' = m_id x ->
  self_delimiting emb x -> encodes_lax m x (VMsg vs) b -> len b < 2 ^ 64 ->
  read_msg m emb x' b = Ok (len b, VMsg (vs ++ [VPayload []])).
Proof. exact new_reader_payload. Qed.
Print Assumptions C67_new_reader_payload.

Example C67_nonvacuous : self_delimiting extra_emb frame_x /\
  message_extended frame_d (frame_with (fld "last" (MTItem "Id"))) /\
  (exists mk, message_from_model frame_env (m_id frame_x) (frame_with (fld "last" (MTItem "Id"))) = Ok (frame_id_x, mk)) /\
  (exists f, m_fields frame_id_x = (m_fields frame_x ++ [f])%list /\ needs_input f) /\
  m_id frame_id_x = m_id frame_x /\
  (forall m, encodes_lax m frame_x frame_v frame_b) /\
  (forall m, read_msg m extra_emb frame_x (frame_b ++ [1; 2; 3; 4]) = Ok (len frame_b, frame_v)) /\
  (forall m, read_msg m extra_emb frame_id_x frame_b = Err Truncated) /\
  (exists nm s endi, m_fields frame_pay_x = (m_fields frame_x ++ [MkMField nm TPayload false s endi])%list) /\
  m_id frame_pay_x = m_id frame_x.
Proof.
  split; [apply frame_delimited|]. split; [split; [reflexivity|eexists; reflexivity]|].
  split; [eexists; vm_compute; reflexivity|]. split; [eexists; split; [reflexivity|apply needs_bytes; exact I]|].
  split; [reflexivity|]. split; [intro m; apply encodes_is_lax, frame_encodes|].
  split; [intros []; vm_compute; reflexivity|]. split; [intros []; vm_compute; reflexivity|].
  split; [do 3 eexists; reflexivity|reflexivity].
Qed.

(** Without the condition the claim fails: a reader of a message that ends with
    a list takes what was added for the last item. *)
Theorem C67_old_reader_refuted : exists emb x b s v, accepted_msg emb x /\
  forall m, read_msg m emb x b = Ok (len b, v) /\ read_msg m emb x (b ++ s) <> Ok (len b, v).
Proof. exact pieces_list_refuted. Qed.
Print Assumptions C67_old_reader_refuted.

(** For every message and input: what a reader of the message with more fields makes of the bytes
    is what the reader of the message without them makes of them, continued with the new fields
    from where that one ended. *)
Theorem C67_extended_exact : forall m emb x x' more b, m_fields x' = (m_fields x ++ more)%list -> emb (m_id x') = emb (m_id x) ->
  len b < 2 ^ 64 -> bytes_ok b ->
  (forall e, read_msg m emb x b = Err e -> read_msg m emb x' b = Err e) /\
  (read_msg m emb x b = Panic -> read_msg m emb x' b = Panic) /\
  (forall n' v', read_msg m emb x' b = Ok (n', v') ->
     exists n vs ws, read_msg m emb x b = Ok (n, VMsg vs) /\ v' = VMsg (vs ++ ws) /\ n <= n') /\
  (forall n vs, read_msg m emb x b = Ok (n, VMsg vs) -> let rest := skipn (N.to_nat n) b in
     (forall n' ws, read_msg m emb x' b = Ok (n', VMsg (vs ++ ws)) <->
        exists c r, rest = (c ++ r)%list /\ n' = n + len c /\ members m emb (emb (m_id x)) vs more rest (Found c ws r)) /\
     (forall e, read_msg m emb x' b = Err e <-> members m emb (emb (m_id x)) vs more rest (Stops (Reports e))) /\
     (read_msg m emb x' b = Panic <-> members m emb (emb (m_id x)) vs more rest (Stops Crashes))).
Proof. exact extended_exact. Qed.
Print Assumptions C67_extended_exact.

Example C67_extended_nonvacuous : exists more, m_fields frame_id_x = (m_fields frame_x ++ more)%list /\ more <> [] /\
  extra_emb (m_id frame_id_x) = extra_emb (m_id frame_x) /\
  forall m, read_msg m extra_emb frame_x (frame_b ++ [1; 2; 3; 4]) = Ok (len frame_b, frame_v) /\
    (exists n v, read_msg m extra_emb frame_id_x (frame_b ++ [1; 2; 3; 4]) = Ok (n, v) /\ len frame_b < n) /\
    read_msg m extra_emb frame_id_x frame_b = Err Truncated.
Proof.
  eexists. split; [reflexivity|]. split; [discriminate|]. split; [reflexivity|]. intros [].
  - split; [vm_compute; reflexivity|]. split; [|vm_compute; reflexivity]. do 2 eexists. split; [vm_compute; reflexivity|reflexivity].
  - split; [vm_compute; reflexivity|]. split; [|vm_compute; reflexivity]. do 2 eexists. split; [vm_compute; reflexivity|reflexivity].
Qed.

(** ** C68: input in pieces *)

Theorem C68_prefix : forall m emb x b n v c, len b < 2 ^ 64 -> read_msg m emb x b = Ok (n, v) -> n <= c -> c <= len b ->
  read_msg m emb x (firstn (N.to_nat c) b) = Ok (n, v).
Proof. exact read_prefix. Qed.
Print Assumptions C68_prefix.

Theorem C68_final_partial : forall m emb x, self_delimiting emb x -> forall b s, len (b ++ s) < 2 ^ 64 ->
  final_result (read_msg m emb x b) (read_msg m emb x (b ++ s)).
Proof. exact read_final. Qed.
Print Assumptions C68_final_partial.

Theorem C68_consumed_partial : forall m emb x b n v s, self_delimiting emb x -> len b < 2 ^ 64 -> n + len s < 2 ^ 64 ->
  read_msg m emb x b = Ok (n, v) -> read_msg m emb x (firstn (N.to_nat n) b ++ s)%list = Ok (n, v).
Proof. exact read_consumed. Qed.
Print Assumptions C68_consumed_partial.

Theorem C68_pieces_partial : forall mc mr w ps emb p x, session mc w ps -> sizes_fit mc ps -> In p ps -> In x (p_messages p) ->
  union_fields_usable x -> guarded_lengths emb x -> self_delimiting emb x ->
  forall b s, len (b ++ s) < 2 ^ 64 -> bytes_ok b ->
  read_msg mr emb x b = Err Truncated \/ read_msg mr emb x (b ++ s) = read_msg mr emb x b.
Proof. exact session_pieces. Qed.
Print Assumptions C68_pieces_partial.

Example C68_nonvacuous : session Debug (snd extra_pw) [lib_p; extra_p] /\ sizes_fit Debug [lib_p; extra_p] /\
  In frame_x (p_messages extra_p) /\ union_fields_usable frame_x /\ guarded_lengths (marked (snd extra_pw)) frame_x /\
  self_delimiting (marked (snd extra_pw)) frame_x /\
  (forall m, read_msg m extra_emb frame_x (firstn 5 frame_b) = Err Truncated /\
    read_msg m extra_emb frame_x (frame_b ++ [9; 9]) = Ok (len frame_b, frame_v) /\
    read_msg m extra_emb frame_x ([36; 0; 0] ++ [9]) = read_msg m extra_emb frame_x [36; 0; 0] /\
    exists e, e <> Truncated /\ read_msg m extra_emb frame_x [36; 0; 0] = Err e).
Proof.
  split; [exact extra_session|]. split; [left; reflexivity|]. split; [left; reflexivity|].
  split; [exact frame_usable|]. split; [apply frame_guarded|]. split; [apply frame_delimited|].
  intros []; repeat split; try (vm_compute; reflexivity); eexists; (split; [|vm_compute; reflexivity]); discriminate.
Qed.

(** Without conditions on the message. Every error but a truncated input is final. *)
Theorem C68_error_final : forall m emb x b s e, len (b ++ s) < 2 ^ 64 -> bytes_ok (b ++ s) -> e <> Truncated ->
  read_msg m emb x b = Err e -> read_msg m emb x (b ++ s) = Err e.
Proof. exact read_error_final. Qed.
Print Assumptions C68_error_final.

(** A message is final if there are bytes behind it: only the bytes it uses matter. *)
Theorem C68_left : forall m emb x b s n v, len b < 2 ^ 64 -> bytes_ok b -> n + len s < 2 ^ 64 -> bytes_ok s ->
  read_msg m emb x b = Ok (n, v) -> n < len b -> read_msg m emb x (firstn (N.to_nat n) b ++ s) = Ok (n, v).
Proof. exact read_left_final. Qed.
Print Assumptions C68_left.

(** A message that ends with the input stays as it is, or takes everything that follows. *)
Theorem C68_success_partial : forall m emb x b s n v, len (b ++ s) < 2 ^ 64 -> bytes_ok (b ++ s) ->
  read_msg m emb x b = Ok (n, v) ->
  read_msg m emb x (b ++ s) = Ok (n, v) \/ (n = len b /\ exists w, read_msg m emb x (b ++ s) = Ok (len (b ++ s), w)).
Proof. exact read_success_later. Qed.
Print Assumptions C68_success_partial.

(** A list that is not walked takes everything. An unknown discriminant is final, and so is a
    frame with a byte behind it. *)
Example C68_final_nonvacuous : forall m,
  read_msg m extra_emb pays_x [2; 1; 2] = Ok (3, VMsg [VListing [1; 2] 2]) /\
  read_msg m extra_emb pays_x [2; 1; 2; 3] = Ok (4, VMsg [VListing [1; 2; 3] 2]) /\
  (exists e, e <> Truncated /\ read_msg m extra_emb frame_x [36; 0; 0] = Err e) /\
  read_msg m extra_emb frame_x (frame_b ++ [9]) = Ok (len frame_b, frame_v) /\ len frame_b < len (frame_b ++ [9]).
Proof. intros []; repeat split; try (vm_compute; reflexivity); eexists; (split; [|vm_compute; reflexivity]); discriminate. Qed.

(** A value with a payload, or with a list that the reader does not walk, takes all the input. *)
Theorem C68_open : forall m emb x b n v, len b < 2 ^ 64 -> bytes_ok b -> read_msg m emb x b = Ok (n, v) ->
  open_value emb x v -> n = len b.
Proof. exact read_open_all. Qed.
Print Assumptions C68_open.

(** For messages whose lists hold no such values, these are exactly the values that are not final. *)
Theorem C68_success_exact_partial : forall m emb x b s n v, items_delimited emb x -> len (b ++ s) < 2 ^ 64 -> bytes_ok (b ++ s) ->
  s <> [] -> read_msg m emb x b = Ok (n, v) -> (read_msg m emb x (b ++ s) = Ok (n, v) <-> ~ open_value emb x v).
Proof. exact read_final_exact. Qed.
Print Assumptions C68_success_exact_partial.

Example C68_open_nonvacuous : extra_emb (m_id pays_x) = false /\ items_delimited extra_emb pays_x /\
  open_value extra_emb pays_x (VMsg [VListing [1; 2] 2]) /\
  items_delimited extra_emb frame_x /\ ~ open_value extra_emb frame_x frame_v /\
  forall m, read_msg m extra_emb pays_x [2; 1; 2] = Ok (3, VMsg [VListing [1; 2] 2]) /\
    read_msg m extra_emb frame_x frame_b = Ok (len frame_b, frame_v) /\
    read_msg m extra_emb frame_x (frame_b ++ [9]) = Ok (len frame_b, frame_v).
Proof.
  split; [reflexivity|]. split.
  { intros f ty y Hp Ht. exfalso. destruct Hp as [Hin E|g z Hin Hz Hp].
    - discriminate.
    - destruct Hin as [<- | []]. inversion Hz; subst. destruct Hp as [Hin E|g z' Hin Hz' Hp].
      + destruct Hin as [<- | []]. discriminate.
      + destruct Hin as [<- | []]. inversion Hz'. }
  split; [eapply open_some with (i := 0%nat); [reflexivity|reflexivity|]; eapply open_list; reflexivity|].
  assert (R : forall m, read_msg m extra_emb pays_x [2; 1; 2] = Ok (3, VMsg [VListing [1; 2] 2]) /\
    read_msg m extra_emb frame_x frame_b = Ok (len frame_b, frame_v) /\
    read_msg m extra_emb frame_x (frame_b ++ [9]) = Ok (len frame_b, frame_v)) by (intros []; vm_compute; repeat split).
  assert (D : items_delimited extra_emb frame_x) by (apply delimited_items, frame_delimited).
  split; [exact D|]. split; [|exact R]. destruct (R Debug) as (_ & R1 & R2).
  refine (proj1 (read_final_exact Debug extra_emb frame_x frame_b [9] _ _ D _ _ _ R1) R2); [reflexivity|repeat constructor|discriminate].
Qed.

(** In general the values that are not final are those with a payload, an unwalked list, or a walked
    list with an item that has one ([swallows], SpecSwallow): they use all the input. *)
Theorem C68_swallows : forall m emb x b n v, len b < 2 ^ 64 -> bytes_ok b -> read_msg m emb x b = Ok (n, v) ->
  swallows m emb x v -> n = len b.
Proof. exact read_swallows_all. Qed.
Print Assumptions C68_swallows.
Theorem C68_success_exact : forall m emb x b s n v, len (b ++ s) < 2 ^ 64 -> bytes_ok (b ++ s) -> s <> [] ->
  read_msg m emb x b = Ok (n, v) -> (read_msg m emb x (b ++ s) = Ok (n, v) <-> ~ swallows m emb x v).
Proof. exact read_final_all. Qed.
Print Assumptions C68_success_exact.

Example C68_swallows_nonvacuous : exists emb, emb (m_id pays_x) = true /\ forall m,
  read_msg m emb pays_x [2; 1; 2] = Ok (3, VMsg [VListing [1; 2] 2]) /\
  swallows m emb pays_x (VMsg [VListing [1; 2] 2]) /\
  read_msg m emb frame_x frame_b = Ok (len frame_b, frame_v) /\ ~ swallows m emb frame_x frame_v.
Proof.
  exists (fun _ => true). split; [reflexivity|]. intro m. split; [destruct m; vm_compute; reflexivity|]. split.
  { eapply swallows_some with (i := 0%nat); [reflexivity..|].
    apply (swallows_item m _ (MkMField "items" (TList U8 pay_x) false size_open Little) (VListing [1; 2] 2) U8 pay_x [1; 2] 2 0
      [] [1; 2] [1; 2] (VMsg [VPayload [1; 2]]) []); [reflexivity|reflexivity|cbn; lia|constructor| |].
    - constructor. change [1; 2] with ([1; 2] ++ [])%list at 2. eapply members_next; [|constructor]. apply member_plain; [reflexivity|constructor].
    - eapply swallows_some with (i := 0%nat); [reflexivity..|]. eapply swallows_payload; reflexivity. }
  assert (R : read_msg m (fun _ => true) frame_x frame_b = Ok (len frame_b, frame_v)) by (destruct m; vm_compute; reflexivity).
  split; [exact R|].
  refine (proj1 (read_final_all m _ frame_x frame_b [9] _ _ _ _ _ R) _); [reflexivity|repeat constructor|discriminate|destruct m; vm_compute; reflexivity].
Qed.

Theorem C68_payload_refuted : exists emb x b s, accepted_msg emb x /\
  forall m, read_msg m emb x b = Ok (1, VMsg [VPayload [1]]) /\ read_msg m emb x (b ++ s) = Ok (2, VMsg [VPayload [1; 2]]).
Proof. exact pieces_refuted. Qed.
Print Assumptions C68_payload_refuted.

(** ** C69: variants added to an enum *)

Theorem C69_compile : forall d d' e, enum_extended d d' -> enum_from_model d = Ok e ->
  exists e', enum_from_model d' = Ok e' /\ e_name e' = e_name e /\ incl (e_variants e) (e_variants e') /\ e_largest e <= e_largest e'.
Proof. exact enum_extension. Qed.
Print Assumptions C69_compile.

Theorem C69_layout : forall m endi enums enums' structs id d s, enums_extended enums enums' ->
  structure_from_model m endi enums structs id d = Ok s ->
  exists s', structure_from_model m endi enums' structs id d = Ok s' /\ Forall2 field_extended (s_fields s) (s_fields s') /\
    s_name s' = s_name s /\ s_bit_size s' = s_bit_size s /\ s_byte_size s' = s_byte_size s.
Proof. exact struct_enum_extension. Qed.
Print Assumptions C69_layout.

Theorem C69_accessors : forall E m f f' data, field_extended (FFixed f) (FFixed f') ->
  get_raw (E:=E) m f' data = get_raw m f data /\
  (forall v, set_raw (E:=E) m f' data v = set_raw m f data v) /\
  (forall x, set_view (E:=E) m f' data x = set_view m f data x) /\
  (forall x, get_view (E:=E) m f data = Ok x -> x <> XEnum None -> get_view (E:=E) m f' data = Ok x).
Proof. exact enum_field_extension. Qed.
Print Assumptions C69_accessors.

Example C69_nonvacuous : enum_extended holes holes_more /\
  enums_extended sample_enums [("Color"%string, the_enum color); ("Holes"%string, the_enum holes_more)] /\
  (exists s, structure_from_model Debug Little sample_enums [] 0 enum_fields = Ok s) /\
  forall m, get_view (E:=rerror) m (enum_fixed 0) [5; 0] = Ok (XEnum (Some 5)).
Proof.
  assert (X : enum_extended holes holes_more) by (split; [reflexivity|intros x [<- | [<- | []]]; cbn; auto]).
  split; [exact X|]. split.
  - intro name. cbn [sample_enums sget]. destruct (String.eqb name "Color").
    + exists color, color. split; [split; [reflexivity|apply incl_refl]|]. split; vm_compute; reflexivity.
    + destruct (String.eqb name "Holes"); [|exact I]. exists holes, holes_more. split; [exact X|]. split; vm_compute; reflexivity.
  - split; [eexists; vm_compute; reflexivity|]. intros []; vm_compute; reflexivity.
Qed.

(** A program built before the change does not always notice a variant it does
    not know. *)
Theorem C69_unknown_refuted : exists d d' e e' f n data,
  enum_extended d d' /\ enum_from_model d = Ok e /\ enum_from_model d' = Ok e' /\ ff_view f = VEnum e /\
  In f (map (fun x => match x with FFixed g => g | _ => f end) (s_fields enum_fields_s)) /\
  In n (map snd (se_variants d')) /\ ~ In n (map snd (se_variants d)) /\
  forall m, get_view (E:=rerror) m f data = Ok (XEnum (Some n)).
Proof. exact enum_evolution_refuted. Qed.
Print Assumptions C69_unknown_refuted.

(** Exact: a number is reported as unknown if and only if it is above all the
    variants that were known when the program was built. *)
Theorem C69_unknown_exact : forall E m f d e data raw, enum_from_model d = Ok e -> ff_view f = VEnum e ->
  get_raw (E:=E) m f data = Ok raw ->
  (get_view (E:=E) m f data = Ok (XEnum None) <-> forall v, In v (se_variants d) -> snd v < raw) /\
  (get_view (E:=E) m f data = Ok (XEnum (Some raw)) <-> exists v, In v (se_variants d) /\ raw <= snd v).
Proof. exact enum_unknown_exact. Qed.
Print Assumptions C69_unknown_exact.

Example C69_unknown_nonvacuous : exists d e, enum_from_model d = Ok e /\ ff_view (enum_fixed 0) = VEnum e /\
  forall m, get_raw (E:=rerror) m (enum_fixed 0) [5; 0] = Ok 5.
Proof.
  exists holes. eexists. split; [vm_compute; reflexivity|]. split; [vm_compute; reflexivity|]. intros []; vm_compute; reflexivity.
Qed.

(** ** C70: messages added at the end of a protocol *)

Theorem C70_compile : forall m solver w d d' p' w', messages_added d d' -> protocol_from_model m solver w d' = Ok (p', w') ->
  exists p w1 more, protocol_from_model m solver w d = Ok (p, w1) /\ p_enums p' = p_enums p /\ p_structs p' = p_structs p /\
    p_unions p' = p_unions p /\ p_messages p' = (p_messages p ++ more)%list /\
    (forall id, marked w1 id = true -> marked w' id = true) /\
    (forall id, marked w' id = true -> marked w1 id = true \/
       exists x, In x more /\ exists f ty y, In f (m_fields x) /\ mf_ty f = TList ty y /\ m_id y = id).
Proof. exact protocol_prefix. Qed.
Print Assumptions C70_compile.

(** Messages without a part that has a list and is itself listed by an added message are read
    alike. *)
Theorem C70_unlisted_partial : forall mc mr solver w d d' p w1 p' w2, messages_added d d' ->
  protocol_from_model mc solver w d = Ok (p, w1) -> protocol_from_model mc solver w d' = Ok (p', w2) ->
  exists more, p_messages p' = (p_messages p ++ more)%list /\
    forall x, (forall y z f ty u, within x y -> has_list y -> In z more -> In f (m_fields z) -> mf_ty f = TList ty u -> m_id u <> m_id y) ->
    forall b, read_msg mr (marked w2) x b = read_msg mr (marked w1) x b.
Proof. exact added_unlisted. Qed.
Print Assumptions C70_unlisted_partial.

Theorem C70_read_partial : forall m emb emb' x, (forall id, emb id = true -> emb' id = true) -> self_delimiting emb x ->
  self_delimiting emb' x /\ forall b, read_msg m emb' x b = read_msg m emb x b.
Proof. exact marks_irrelevant. Qed.
Print Assumptions C70_read_partial.

Example C70_nonvacuous : messages_added extra_v grown_v /\
  protocol_from_model Debug main_solver (snd lib_pw) grown_v = Ok grown_pw /\
  (forall id, marked (snd extra_pw) id = true -> marked (snd grown_pw) id = true) /\
  (exists id, marked (snd extra_pw) id = false /\ marked (snd grown_pw) id = true) /\
  (exists z, p_messages (fst grown_pw) = (p_messages extra_p ++ [z])%list /\
     forall y f ty u, within frame_x y -> In f (m_fields z) -> mf_ty f = TList ty u -> m_id u <> m_id y) /\
  self_delimiting (marked (snd extra_pw)) frame_x /\
  forall m, read_msg m (marked (snd grown_pw)) frame_x frame_b = Ok (len frame_b, frame_v).
Proof.
  split; [repeat (split; [reflexivity|]); eexists; reflexivity|]. split; [exact grown_ok|]. split.
  { intros id. unfold marked. change (w_embedded (snd grown_pw)) with (w_embedded (snd extra_pw) ++ [m_id outers_x])%list.
    rewrite existsb_app. intros ->. reflexivity. }
  split; [exists (m_id outers_x); split; vm_compute; reflexivity|]. split.
  { eexists. split; [reflexivity|]. intros y f ty u Hy [<- | []] Et. injection Et as <- <-.
    destruct (within_frame _ Hy) as [-> | ->]; vm_compute; discriminate. }
  split; [apply frame_delimited|].
  intros []; vm_compute; reflexivity.
Qed.

Theorem C70_read_refuted : exists solver w d d' p w1 p' w2 x v b,
  messages_added d d' /\ protocol_from_model Debug solver w d = Ok (p, w1) /\ protocol_from_model Debug solver w d' = Ok (p', w2) /\
  In x (p_messages p) /\ In x (p_messages p') /\
  forall m, encodes m x v b /\ read_msg m (marked w1) x b = Ok (len b, v) /\ read_msg m (marked w2) x b = Err Truncated.
Proof. exact added_message_refuted. Qed.
Print Assumptions C70_read_refuted.

(** What the old program accepts, the new one reads alike exactly if it finds in every list that it
    walks the items that the list counts; in any case if bytes follow the message. *)
Theorem C70_accepted_exact : forall mc mr solver w d d' p w1 p' w2, messages_added d d' ->
  protocol_from_model mc solver w d = Ok (p, w1) -> protocol_from_model mc solver w d' = Ok (p', w2) ->
  forall x b n v, len b < 2 ^ 64 -> bytes_ok b -> read_msg mr (marked w1) x b = Ok (n, v) ->
  (n < len b -> read_msg mr (marked w2) x b = Ok (n, v)) /\
  (read_msg mr (marked w2) x b = Ok (n, v) <-> walkable mr (marked w2) x v).
Proof. exact added_accepted. Qed.
Print Assumptions C70_accepted_exact.

(** Of the same message: a value that is read alike and one that is not. *)
Example C70_accepted_nonvacuous : messages_added extra_v grown_v /\
  protocol_from_model Debug main_solver (snd lib_pw) extra_v = Ok extra_pw /\
  protocol_from_model Debug main_solver (snd lib_pw) grown_v = Ok grown_pw /\
  (forall m, read_msg m (marked (snd extra_pw)) outers_x (1 :: inner_b) = Ok (1 + len inner_b, VMsg [VListing inner_b 1])) /\
  (forall m, walkable m (marked (snd grown_pw)) outers_x (VMsg [VListing inner_b 1])) /\
  (forall m, read_msg m (marked (snd extra_pw)) outers_x (2 :: inner_b ++ inner_b) =
     Ok (1 + len inner_b + len inner_b, VMsg [VListing (inner_b ++ inner_b) 2])) /\
  (forall m, ~ walkable m (marked (snd grown_pw)) outers_x (VMsg [VListing (inner_b ++ inner_b) 2])).
Proof.
  assert (A : messages_added extra_v grown_v) by (repeat (split; [reflexivity|]); eexists; reflexivity).
  split; [exact A|]. split; [vm_compute; reflexivity|]. split; [exact grown_ok|].
  assert (R1 : forall m, read_msg m (marked (snd extra_pw)) outers_x (1 :: inner_b) = Ok (1 + len inner_b, VMsg [VListing inner_b 1]))
    by (intros []; vm_compute; reflexivity).
  assert (R2 : forall m, read_msg m (marked (snd extra_pw)) outers_x (2 :: inner_b ++ inner_b) =
     Ok (1 + len inner_b + len inner_b, VMsg [VListing (inner_b ++ inner_b) 2])) by (intros []; vm_compute; reflexivity).
  split; [exact R1|]. split.
  { intro m. assert (L : len (1 :: inner_b) < 2 ^ 64) by (vm_compute; reflexivity).
    assert (B : bytes_ok (1 :: inner_b)) by (repeat constructor).
    apply (proj2 (C70_accepted_exact Debug m main_solver (snd lib_pw) extra_v grown_v extra_p (snd extra_pw) (fst grown_pw) (snd grown_pw)
      A extra_ok grown_ok _ _ _ _ L B (R1 m))). destruct m; vm_compute; reflexivity. }
  split; [exact R2|]. intros m W. assert (L : len (2 :: inner_b ++ inner_b) < 2 ^ 64) by (vm_compute; reflexivity).
  assert (B : bytes_ok (2 :: inner_b ++ inner_b)) by (repeat constructor).
  pose proof (proj2 (proj2 (C70_accepted_exact Debug m main_solver (snd lib_pw) extra_v grown_v extra_p (snd extra_pw) (fst grown_pw) (snd grown_pw)
      A extra_ok grown_ok _ _ _ _ L B (R2 m))) W) as E. revert E. clear. destruct m; vm_compute; discriminate.
Qed.
