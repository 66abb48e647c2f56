(** Property theorems C22-C41: generated messages, unions, lists, arrays and
    strings. The format is specified in SpecWire; a compiled message is any
    [message], the compiler's output being a special case; theorems that depend
    on what the compiler guarantees are about sessions (SpecRun). *)

From Coq Require Import Arith NArith ZArith Ascii String List Bool Lia.
From Verif Require Import Base Schema Codec Bits Compiler Access SpecComp SpecStruct Utf8 SpecUtf8 Utf8Thms Runtime Gen Loader
  SpecRun SpecWire SpecOffsets SpecUnion SpecReadable MsgFacts WriteThms ReadThms SoundThms TotalThms OffsetThms ListThms ListMore LinkThms
  UnionThms SetDiscThms ReadableThms ItemThms ItemExact LengthExact SmallExact Samples SamplesComp SamplesMsg MsgRefute.
Import ListNotations.
Local Open Scope N_scope.

(** ** C22: writing emits the wire format *)

Theorem C22_write : forall m x v b s, encodes m x v b -> write_vec m x v s = (s ++ b, Ok tt).
Proof. exact write_vec_encodes. Qed.
Print Assumptions C22_write.

Theorem C22_deterministic : forall m x v b b', encodes m x v b -> encodes m x v b' -> b = b'.
Proof. exact encodes_unique. Qed.
Print Assumptions C22_deterministic.

Example C22_nonvacuous : encodes Release packet_x packet_v packet_b /\ len packet_b = 45 /\
  write_vec Release packet_x packet_v [] = (packet_b, Ok tt).
Proof. split; [exact (packet_encodes Release)|]. split; vm_compute; reflexivity. Qed.

(** ** C23: decoding inverts encoding *)

Theorem C23_whole_partial : forall m emb x v b, readable emb x -> encodes_lax m x v b ->
  len b < 2 ^ 64 -> read_msg m emb x b = Ok (len b, v).
Proof. exact roundtrip_whole. Qed.
Print Assumptions C23_whole_partial.

Theorem C23_suffix : forall m emb x v b s, self_delimiting emb x -> encodes_lax m x v b ->
  len (b ++ s) < 2 ^ 64 -> read_msg m emb x (b ++ s) = Ok (len b, v).
Proof. exact roundtrip_suffix. Qed.
Print Assumptions C23_suffix.

(** What the writer produces is such an encoding. *)
Theorem C23_written_is_lax : forall m x v b, encodes m x v b -> encodes_lax m x v b.
Proof. exact encodes_is_lax. Qed.
Print Assumptions C23_written_is_lax.

Example C23_nonvacuous : readable main_emb packet_x /\ encodes_lax Debug packet_x packet_v packet_b /\
  self_delimiting extra_emb frame_x /\ encodes_lax Debug frame_x frame_v frame_b.
Proof.
  split; [apply tidy_readable, packet_tidy|]. split; [apply encodes_is_lax, packet_encodes|].
  split; [apply frame_delimited|apply encodes_is_lax, frame_encodes].
Qed.

Theorem C23_after_payload_refuted : exists emb x, accepted_msg emb x /\
  (forall m, exists v b, encodes m x v b) /\
  forall m b, len b < 2 ^ 64 -> read_msg m emb x b = Err Truncated.
Proof. exact after_payload_refuted. Qed.
Print Assumptions C23_after_payload_refuted.

(** ** C24: decoding accepts only encodings *)

Theorem C24_sound_partial : forall m emb x, checked_lengths m emb x -> forall b n v,
  len b < 2 ^ 64 -> bytes_ok b -> read_msg m emb x b = Ok (n, v) ->
  n <= len b /\ encodes_lax m x v (firstn (N.to_nat n) b).
Proof. exact read_sound. Qed.
Print Assumptions C24_sound_partial.

Theorem C24_rewrite_partial : forall m emb x b n v, checked_lengths m emb x -> no_optional emb x ->
  len b < 2 ^ 64 -> bytes_ok b -> read_msg m emb x b = Ok (n, v) ->
  n <= len b /\ forall s, write_vec m x v s = (s ++ firstn (N.to_nat n) b, Ok tt).
Proof. exact read_write. Qed.
Print Assumptions C24_rewrite_partial.

Example C24_nonvacuous : checked_lengths Release extra_emb frame_x /\
  read_msg Release extra_emb frame_x (frame_b ++ [9]) = Ok (len frame_b, frame_v) /\
  checked_lengths Release main_emb ping_x /\ no_optional main_emb ping_x /\
  read_msg Release main_emb ping_x (ping_b 7 eve ++ [1]) = Ok (9, ping_v 7 eve).
Proof.
  split; [apply frame_checked|]. split; [vm_compute; reflexivity|].
  split; [intros e f H; apply part_ping in H; destruct H as [<- | [<- | []]]; exact I|].
  split; [intros e f H; apply part_ping in H; destruct H as [<- | [<- | []]]; reflexivity|].
  vm_compute. reflexivity.
Qed.

Theorem C24_presence_refuted : exists emb x b v, accepted_msg emb x /\
  (forall m, read_msg m emb x b = Ok (len b, v)) /\
  (forall m, exists b', write_vec m x v [] = (b', Ok tt) /\ b' <> b).
Proof. exact presence_refuted. Qed.
Print Assumptions C24_presence_refuted.

Theorem C24_list_refuted : exists emb x b v, accepted_msg emb x /\
  (forall m, read_msg m emb x b = Ok (len b, v)) /\ (forall m b', ~ encodes_lax m x v b').
Proof. exact unsized_refuted. Qed.
Print Assumptions C24_list_refuted.

(** ** C25: the size is within the input *)

Theorem C25_size : forall m emb x b n v, len b < 2 ^ 64 -> read_msg m emb x b = Ok (n, v) -> n <= len b.
Proof. exact read_bounded. Qed.
Print Assumptions C25_size.

Example C25_nonvacuous : read_msg Release main_emb packet_x packet_b = Ok (45, packet_v) /\ len packet_b = 45.
Proof. split; vm_compute; reflexivity. Qed.

(** ** C26: decoding does not panic *)

Theorem C26_no_panic_partial : forall mc mr w ps emb p x, session mc w ps -> sizes_fit mc ps ->
  In p ps -> In x (p_messages p) -> union_fields_usable x -> guarded_lengths emb x ->
  forall b, len b < 2 ^ 64 -> bytes_ok b -> read_msg mr emb x b <> Panic.
Proof. exact session_no_panic. Qed.
Print Assumptions C26_no_panic_partial.

Example C26_nonvacuous : session Debug (snd extra_pw) [lib_p; extra_p] /\ sizes_fit Debug [lib_p; extra_p] /\
  In frame_x (p_messages extra_p) /\ union_fields_usable frame_x /\ guarded_lengths (marked (snd extra_pw)) frame_x.
Proof.
  split; [exact extra_session|]. split; [left; reflexivity|]. split; [left; reflexivity|].
  split; [exact frame_usable|apply frame_guarded].
Qed.

Theorem C26_string_refuted : exists emb x v p q, accepted_msg emb x /\ (forall m, encodes m x v (p ++ q)) /\
  q <> [] /\ self_delimiting emb x /\ forall m, read_msg m emb x p = Panic.
Proof. exact varchar_panic_refuted. Qed.
Print Assumptions C26_string_refuted.

Theorem C26_array_refuted : exists emb x b, accepted_msg emb x /\ read_msg Debug emb x b = Panic.
Proof. exact array_panic_refuted. Qed.
Print Assumptions C26_array_refuted.

(** ** C27: truncated input *)

Theorem C27_truncated_partial : forall m emb x, self_delimiting emb x ->
  (forall e f ty, part emb x e f -> mf_ty f <> TVarcharString ty) ->
  forall v p q, encodes_lax m x v (p ++ q) -> q <> [] -> len (p ++ q) < 2 ^ 64 ->
  read_msg m emb x p = Err Truncated.
Proof. exact (fun m emb x => truncated m emb (fun _ => True) x). Qed.
Print Assumptions C27_truncated_partial.

Example C27_nonvacuous : self_delimiting extra_emb frame_x /\
  (forall e f ty, part extra_emb frame_x e f -> mf_ty f <> TVarcharString ty) /\
  encodes_lax Debug frame_x frame_v (firstn 13 frame_b ++ skipn 13 frame_b) /\ skipn 13 frame_b <> [].
Proof.
  split; [apply frame_delimited|]. split.
  - intros e f ty H. apply part_frame in H.
    destruct H as [[<- | [<- | [<- | [<- | []]]]] | [<- | [<- | []]]]; discriminate.
  - split; [apply encodes_is_lax, frame_encodes|discriminate].
Qed.

Theorem C27_string_refuted : exists emb x v p q, accepted_msg emb x /\ (forall m, encodes m x v (p ++ q)) /\
  q <> [] /\ self_delimiting emb x /\ forall m, read_msg m emb x p = Panic.
Proof. exact varchar_panic_refuted. Qed.
Print Assumptions C27_string_refuted.

(** ** C28: unique decodability *)

Theorem C28_unique : forall m emb x v b s v' b' s', self_delimiting emb x ->
  encodes_lax m x v b -> encodes_lax m x v' b' -> len (b ++ s) < 2 ^ 64 -> b ++ s = b' ++ s' ->
  v = v' /\ b = b' /\ s = s'.
Proof. exact uniquely_decodable. Qed.
Print Assumptions C28_unique.

Example C28_nonvacuous : self_delimiting extra_emb frame_x /\ encodes_lax Release frame_x frame_v frame_b /\
  len (frame_b ++ [1; 2]) < 2 ^ 64.
Proof. split; [apply frame_delimited|]. split; [apply encodes_is_lax, frame_encodes|vm_compute; reflexivity]. Qed.

(** ** C29: offsets *)

Theorem C29_offsets : forall m emb x b, len b < 2 ^ 64 ->
  match read_msg m emb x b with
  | Ok (n, v) => exists o, read_msg_offsets m emb x b = Ok (n, (v, o)) /\
      describes m emb x (firstn (N.to_nat n) b) v o
  | Err e => read_msg_offsets m emb x b = Err e
  | Panic => read_msg_offsets m emb x b = Panic
  end.
Proof. exact offsets_correct. Qed.
Print Assumptions C29_offsets.

Example C29_nonvacuous : exists ping_offsets,
  read_msg_offsets Debug main_emb raw_x raw_b =
  Ok (15, (raw_v, MkOffsets [(0, 3, None); (3, 12, Some ping_offsets); (12, 15, None)])) /\
  ping_offsets = MkOffsets [(0, 4, None); (4, 8, None)].
Proof. eexists. split; vm_compute; reflexivity. Qed.

(** ** C30: size_of *)

Theorem C30_size_of : forall m x v s s' r, write_vec m x v s = (s', r) ->
  exists b, s' = s ++ b /\
    (len b < 2 ^ 64 ->
     size_of_msg m x v = match r with Ok _ => Ok (len b) | Err e => Err e | Panic => Panic end).
Proof. exact size_of_written. Qed.
Print Assumptions C30_size_of.

Example C30_nonvacuous : write_vec Debug packet_x packet_v [9] = (9 :: packet_b, Ok tt) /\
  size_of_msg Debug packet_x packet_v = Ok 45.
Proof. split; vm_compute; reflexivity. Qed.

(** ** C31: failing writers *)

Theorem C31_prefix : forall m x v b St (w : sink St) received s s' r, honest w received ->
  encodes m x v b -> write_msg m w x v s = (s', r) ->
  (r = Ok tt /\ received s' = received s ++ b) \/
  (exists e s1 c, r = Err e /\ write_all w s1 c = (s', Err e) /\
     exists p q, b = p ++ q /\ received s' = received s ++ p).
Proof. exact failing_writer. Qed.
Print Assumptions C31_prefix.

(** A writer that accepts [cap] bytes: exactly that many are received. *)
Theorem C31_limited : forall m x v b cap, encodes m x v b ->
  write_msg m (limited_sink cap) x v [] =
  if len b <=? cap then (b, Ok tt) else (firstn (N.to_nat cap) b, Err Io).
Proof. exact limited_writer. Qed.
Print Assumptions C31_limited.

Example C31_nonvacuous : honest (limited_sink 20) (fun s => s) /\ encodes Debug packet_x packet_v packet_b /\
  write_msg Debug (limited_sink 20) packet_x packet_v [] = (firstn 20 packet_b, Err Io).
Proof. split; [apply limited_honest|]. split; [apply packet_encodes|vm_compute; reflexivity]. Qed.

(** ** C32: unions *)

Theorem C32_read : forall m emb u data d b, discriminant m u data d ->
  (forall k c, first_case u d k c ->
     read_union m emb u (Some (VStruct data)) b =
     match uc_item c with
     | None => Ok (0, VUnion k None)
     | Some t => '(n, v) <- read_ref m emb t b ;; Ok (n, VUnion k (Some v))
     end) /\
  ((forall c, In c (u_cases u) -> uc_case c <> d) ->
     read_union m emb u (Some (VStruct data)) b = Err (InvalidUnionDiscriminant d)).
Proof. exact union_read. Qed.
Print Assumptions C32_read.

Theorem C32_message_read : forall m emb x b n vs k f u on i,
  read_msg m emb x b = Ok (n, VMsg vs) ->
  nth_error (m_fields x) k = Some f -> mf_ty f = TUnion u on i -> mf_optional f = false ->
  exists data d j c item, nth_error vs i = Some (VStruct data) /\ discriminant m u data d /\
    first_case u d j c /\ nth_error vs k = Some (VUnion j item) /\ (item = None <-> uc_item c = None).
Proof. exact message_union_read. Qed.
Print Assumptions C32_message_read.

Theorem C32_write_mismatch_partial : forall m St (w : sink St) u data d k c t x s,
  discriminant m u data d -> nth_error (u_cases u) k = Some c -> uc_item c = Some t -> uc_case c <> d ->
  write_union m w u (Some (VStruct data)) (VUnion k (Some x)) s = (s, Err (InvalidUnionDiscriminant d)).
Proof. exact union_write_mismatch. Qed.
Print Assumptions C32_write_mismatch_partial.

Theorem C32_set_discriminant_partial : forall mc m w ps p u k c o n data item b emb r,
  session mc w ps -> sizes_fit mc ps -> In p ps -> In u (p_unions p) ->
  path_at (d_root (u_disc u)) (d_index_list (u_disc u)) o n ->
  path_bytes_aligned (d_root (u_disc u)) (d_index_list (u_disc u)) -> 0 < n <= 64 -> addressable o n ->
  first_case u (uc_case c) k c -> uc_case c < 2 ^ n ->
  len data = s_byte_size (d_root (u_disc u)) -> bytes_ok data -> encodes_case m c item b ->
  exists data', set_discriminant m u k data = Ok data' /\ len data' = len data /\ bytes_ok data' /\
    (forall t, ~ (o <= t < o + n) -> bit_at data' t = bit_at data t) /\
    (forall s, write_union m vec_sink u (Some (VStruct data')) (VUnion k item) s = (s ++ b, Ok tt)) /\
    (case_delimited emb c -> len (b ++ r) < 2 ^ 64 ->
     read_union m emb u (Some (VStruct data')) (b ++ r) = Ok (len b, VUnion k item)).
Proof. exact session_set_discriminant. Qed.
Print Assumptions C32_set_discriminant_partial.

(** Whether or not the number fits: what is stored, which case is selected afterwards, and the error otherwise. *)
Theorem C32_set_exact : forall mc m w ps p u k c o n data,
  session mc w ps -> sizes_fit mc ps -> In p ps -> In u (p_unions p) ->
  path_at (d_root (u_disc u)) (d_index_list (u_disc u)) o n ->
  path_bytes_aligned (d_root (u_disc u)) (d_index_list (u_disc u)) -> 0 < n <= 64 -> addressable o n ->
  nth_error (u_cases u) k = Some c ->
  len data = s_byte_size (d_root (u_disc u)) -> bytes_ok data ->
  exists data', set_discriminant m u k data = Ok data' /\ is_field_update data o n (uc_case c) data' /\
    (forall emb b size j item, read_union m emb u (Some (VStruct data')) b = Ok (size, VUnion j item) ->
       (j = k <-> first_case u (uc_case c) k c /\ uc_case c < 2 ^ n)) /\
    ((forall c', In c' (u_cases u) -> uc_case c' <> uc_case c mod 2 ^ n) ->
       forall emb b, read_union m emb u (Some (VStruct data')) b = Err (InvalidUnionDiscriminant (uc_case c mod 2 ^ n))) /\
    (forall t v St (snk : sink St) s, uc_item c = Some t -> 2 ^ n <= uc_case c ->
       write_union m snk u (Some (VStruct data')) (VUnion k (Some v)) s
       = (s, Err (InvalidUnionDiscriminant (uc_case c mod 2 ^ n)))).
Proof. exact set_discriminant_exact. Qed.
Print Assumptions C32_set_exact.

Theorem C32_set_refuted : exists v p w u,
  protocol_from_model Debug no_imports world0 v = Ok (p, w) /\ p_unions p = [u] /\
  map su_case (flat_map sun_cases (sp_unions v)) = ["20"%string; "4"%string] /\
  map uc_case (u_cases u) = [20; 4] /\
  forall m emb b, set_discriminant m u 0 [0] = Ok [4] /\ set_discriminant m u 1 [0] = Ok [4] /\
    read_union m emb u (Some (VStruct [4])) b = Ok (0, VUnion 1 None).
Proof. exact set_discriminant_refuted. Qed.
Print Assumptions C32_set_refuted.

Example C32_nonvacuous :
  In body_u (p_unions extra_p) /\
  path_at (d_root (u_disc body_u)) (d_index_list (u_disc body_u)) 0 4 /\
  path_bytes_aligned (d_root (u_disc body_u)) (d_index_list (u_disc body_u)) /\ addressable 0 4 /\
  (exists c, first_case body_u (uc_case c) 0 c /\ uc_case c = 1 /\
     encodes_case Debug c (Some (ping_v 7 bob)) (ping_b 7 bob)) /\
  set_discriminant Debug body_u 0 [34; 9; 9] = Ok [33; 9; 9] /\
  discriminant Debug body_u [33; 9; 9] 1 /\ discriminant Debug body_u [39; 9; 9] 7.
Proof.
  split; [left; reflexivity|]. split; [exact (path_scalar (d_root (u_disc body_u)) 0 _ eq_refl)|].
  split; [exact I|]. split; [vm_compute; discriminate|].
  split; [|repeat split; vm_compute; reflexivity].
  eexists. split; [split; [reflexivity|split; [reflexivity|]]|].
  - intros j c' Hj. lia.
  - split; [reflexivity|]. apply ping_encodes; [lia|apply bob_ok|apply bob_ok].
Qed.

Theorem C32_empty_case_refuted : exists emb x v b, accepted_msg emb x /\
  (forall m, write_vec m x v [] = (b, Ok tt)) /\
  (exists fields, v = VMsg fields /\ nth_error fields 1 = Some (VUnion 2 None)) /\
  forall m, read_msg m emb x b = Err Truncated.
Proof. exact empty_case_refuted. Qed.
Print Assumptions C32_empty_case_refuted.

(** ** C33: lists built item by item *)

Theorem C33_build : forall m x vs bs, Forall2 (encodes m x) vs bs -> forall l,
  li_len l + len vs < 2 ^ 64 ->
  write_items m (map (write_vec m x) vs) l
  = ({| li_data := li_data l ++ concat bs; li_len := li_len l + len vs |}, Ok tt).
Proof. exact write_items_ok. Qed.
Print Assumptions C33_build.

(** Such a list as it is put into a message. *)
Theorem C33_to_ref : forall m x vs bs, Forall2 (encodes m x) vs bs -> len vs < 2 ^ 64 ->
  exists l, write_items m (map (write_vec m x) vs) (li_new []) = (l, Ok tt) /\
    li_data (li_to_ref l) = concat bs /\ li_len (li_to_ref l) = len vs.
Proof. exact list_to_ref. Qed.
Print Assumptions C33_to_ref.

Theorem C33_iterate_partial : forall m emb x vs bs, self_delimiting emb x -> Forall2 (encodes_lax m x) vs bs ->
  forall s k, len (concat bs ++ s) < 2 ^ 64 -> (length vs <= k)%nat ->
  iter_take m (read_msg m emb x) k (concat bs ++ s, len vs) = Ok (map Ok vs, (s, 0)).
Proof. exact iterate_encodings. Qed.
Print Assumptions C33_iterate_partial.

Example C33_nonvacuous : self_delimiting main_emb ping_x /\
  Forall2 (encodes Debug ping_x) [ping_v 258 bob; ping_v 7 eve] [ping_b 258 bob; ping_b 7 eve].
Proof.
  split; [apply ping_delimited|].
  constructor; [apply ping_encodes; [lia|apply bob_ok|apply bob_ok]|].
  constructor; [apply ping_encodes; [lia|apply eve_ok|apply eve_ok]|constructor].
Qed.

Theorem C33_payload_items_refuted : exists emb x y b data, accepted_msg emb x /\
  inside (mf_ty (hd (MkMField "" TPayload false size_open Little) (m_fields x))) y /\
  (forall m, encodes m x (VMsg [VListing data 2]) b) /\
  data = [1; 2] /\ (forall m, encodes m y (VMsg [VPayload [1]]) [1] /\ encodes m y (VMsg [VPayload [2]]) [2]) /\
  (forall m, read_msg m emb x b = Ok (len b, VMsg [VListing data 2])) /\
  forall m, iter_take m (read_msg m emb y) 2 (data, 2) =
            Ok ([Ok (VMsg [VPayload [1; 2]]); Ok (VMsg [VPayload []])], ([], 0)).
Proof. exact payload_items_refuted. Qed.
Print Assumptions C33_payload_items_refuted.

(** ** C34: iteration of lists from the wire *)

(** The number of successful results never exceeds the length. *)
Theorem C34_at_most_len_partial : forall m emb x k data n rs s, len data < 2 ^ 64 ->
  iter_take m (read_msg m emb x) k (data, n) = Ok (rs, s) -> oks rs + snd s = n /\ len rs <= N.of_nat k.
Proof. exact iterate_msg_oks. Qed.
Print Assumptions C34_at_most_len_partial.

(** A list that the reader has walked iterates to its end without error. *)
Theorem C34_walked_partial : forall m emb endi prev ty x b k data n,
  len b < 2 ^ 64 ->
  read_ty m emb true endi prev (TList ty x) b = Ok (k, VListing data n) ->
  exists vs, len vs = n /\ forall c, n <= N.of_nat c ->
    iter_take m (read_msg m emb x) c (data, n) = Ok (map Ok vs, ([], 0)).
Proof. exact decoded_list_iterates. Qed.
Print Assumptions C34_walked_partial.

Definition two_pings : bytes := Eval vm_compute in (ping_b 258 bob ++ ping_b 7 eve).
Example C34_nonvacuous :
  read_ty Debug main_emb true Little [] (TList U8 ping_x) (2 :: two_pings ++ [1]) = Ok (18, VListing two_pings 2) /\
  iter_take Debug (read_msg Debug main_emb ping_x) 5 (two_pings, 2)
  = Ok ([Ok (ping_v 258 bob); Ok (ping_v 7 eve)], ([], 0)).
Proof. split; vm_compute; reflexivity. Qed.

Theorem C34_stuck_refuted : exists emb x b data n, accepted_msg emb x /\
  (forall m, read_msg m emb x b = Ok (len b, VMsg [VListing data n])) /\
  (exists y, In y [ping_x] /\ inside (mf_ty (hd (MkMField "" TPayload false size_open Little) (m_fields x))) y /\
   forall m k, iter_take m (read_msg m emb y) k (data, n) = Ok (repeat (Err Truncated) k, (data, n))).
Proof. exact stuck_refuted. Qed.
Print Assumptions C34_stuck_refuted.

(** ** C35: a failed write_item *)

Theorem C35_length_kept_partial : forall m x v l l' e, write_item m (write_vec m x v) l = (l', Err e) ->
  li_len l' = li_len l /\ exists p, li_data l' = li_data l ++ p.
Proof. exact failed_write_item. Qed.
Print Assumptions C35_length_kept_partial.

Theorem C35_earlier_items_partial : forall m emb x v l' e vs bs, self_delimiting emb x ->
  Forall2 (encodes m x) vs bs ->
  write_item m (write_vec m x v) {| li_data := concat bs; li_len := len vs |} = (l', Err e) ->
  len (li_data l') < 2 ^ 64 -> exists s, forall k, (length vs <= k)%nat ->
  iter_take m (read_msg m emb x) k (li_iter l') = Ok (map Ok vs, (s, 0)).
Proof. exact failed_write_item_keeps. Qed.
Print Assumptions C35_earlier_items_partial.

(** [write_items] stops at the first item that fails. *)
Theorem C35_stops : forall m x vs bs (f : wr bytes) rest (l : listing bytes) s e, Forall2 (encodes m x) vs bs ->
  li_len l + len vs < 2 ^ 64 -> f (li_data l ++ concat bs) = (s, Err e) ->
  write_items m (map (write_vec m x) vs ++ f :: rest) l = ({| li_data := s; li_len := li_len l + len vs |}, Err e).
Proof. exact write_items_stop. Qed.
Print Assumptions C35_stops.

Definition bad_frame : value :=
  VMsg [VStruct [2; 0; 0]; VUnion 0 (Some (ping_v 1 bob)); VOpt None; VListing [] 0].
Example C35_nonvacuous : exists l' e, self_delimiting extra_emb frame_x /\
  Forall2 (encodes Debug frame_x) [frame_v] [frame_b] /\
  write_item Debug (write_vec Debug frame_x bad_frame) {| li_data := concat [frame_b]; li_len := len [frame_v] |}
  = (l', Err e) /\ len (li_data l') = 24.
Proof.
  do 2 eexists. split; [apply frame_delimited|]. split; [constructor; [apply frame_encodes|constructor]|].
  split; [vm_compute; reflexivity|reflexivity].
Qed.

Example C35_stops_nonvacuous : exists l,
  write_items Debug [write_vec Debug frame_x frame_v; write_vec Debug frame_x bad_frame; write_vec Debug frame_x frame_v] (li_new [])
  = (l, Err (InvalidUnionDiscriminant 2)) /\ li_len l = 1 /\ len (li_data l) = 24.
Proof. eexists. split; [vm_compute; reflexivity|split; reflexivity]. Qed.

Theorem C35_partial_bytes_refuted : exists emb x bad good l1 l2 items, accepted_msg emb x /\ self_delimiting emb x /\
  (forall m, write_item m (write_vec m x bad) (li_new []) = (l1, Err (InvalidUnionDiscriminant 2))) /\
  li_data l1 <> [] /\
  (forall m, exists b, encodes m x good b) /\
  (forall m, write_item m (write_vec m x good) l1 = (l2, Ok tt)) /\ li_len l2 = 1 /\
  (forall m, exists s, iter_take m (read_msg m emb x) 1 (li_iter l2) = Ok (items, s)) /\
  items <> [Ok good].
Proof. exact failed_item_refuted. Qed.
Print Assumptions C35_partial_bytes_refuted.

(** ** C36: arrays *)

Theorem C36_from_parts : forall E m size data n, n * size < 2 ^ 64 ->
  arr_from_parts (E:=E) m size data n =
  Ok (if len data =? n * size then Some {| li_data := data; li_len := n |} else None).
Proof. exact arr_from_parts_spec. Qed.
Print Assumptions C36_from_parts.

Theorem C36_get : forall E m size data n i, len data = n * size -> len data < 2 ^ 64 -> i < n ->
  arr_item (E:=E) m size data i = Ok (window data (i * size) ((i + 1) * size)) /\
  len (window data (i * size) ((i + 1) * size)) = size.
Proof. exact arr_item_spec. Qed.
Print Assumptions C36_get.

Theorem C36_get_mut : forall E m size data n i (f : bytes -> outcome E bytes) w, len data = n * size ->
  len data < 2 ^ 64 -> i < n -> f (window data (i * size) ((i + 1) * size)) = Ok w -> len w = size ->
  exists data', arr_item_mut m size data i f = Ok data' /\ len data' = len data /\
    window data' (i * size) ((i + 1) * size) = w /\
    forall j, j < n -> j <> i ->
      window data' (j * size) ((j + 1) * size) = window data (j * size) ((j + 1) * size).
Proof. exact arr_item_mut_spec. Qed.
Print Assumptions C36_get_mut.

Theorem C36_iterate_partial : forall E size data n, 0 < size -> len data = n * size ->
  exists ws, arr_items (E:=E) size data = Ok ws /\ len ws = n /\
    forall i, i < n -> nth_error ws (N.to_nat i) = Some (window data (i * size) ((i + 1) * size)).
Proof. exact arr_items_spec. Qed.
Print Assumptions C36_iterate_partial.

Theorem C36_iterate_mut_partial : forall E size data n (f : nat -> bytes -> outcome E bytes) g, 0 < size ->
  len data = n * size ->
  (forall i, i < n -> f (N.to_nat i) (window data (i * size) ((i + 1) * size)) = Ok (g i) /\ len (g i) = size) ->
  exists data', arr_items_mut size data f = Ok data' /\ len data' = len data /\
    forall i, i < n -> window data' (i * size) ((i + 1) * size) = g i.
Proof. exact arr_items_mut_spec. Qed.
Print Assumptions C36_iterate_mut_partial.

Theorem C36_wire_partial : forall m endi ty size b total data n, len b < 2 ^ 64 -> bytes_ok b ->
  (m = Debug \/ tmod (get_byte_size ty) * size <= 2 ^ 64) ->
  array_from_slice m (value_reader endi ty) size b = Ok (total, (data, n)) ->
  len data = n * size /\ total = N.of_nat (get_byte_size ty) + n * size /\ total <= len b /\
  data = firstn (N.to_nat (n * size)) (skipn (get_byte_size ty) b).
Proof. exact wire_array. Qed.
Print Assumptions C36_wire_partial.

Example C36_nonvacuous :
  array_from_slice Debug (value_reader Little U8) 6 (2 :: line_b ++ line_b ++ [7]) = Ok (13, (line_b ++ line_b, 2)) /\
  arr_item (E:=rerror) Debug 6 (line_b ++ [9; 8; 7; 6; 5; 4]) 1 = Ok [9; 8; 7; 6; 5; 4] /\
  arr_items (E:=rerror) 6 (line_b ++ line_b) = Ok [line_b; line_b] /\
  arr_items_mut (E:=rerror) 2 [1; 2; 3; 4] (fun i w => Ok [N.of_nat i; hd 0 w]) = Ok [0; 1; 1; 3].
Proof. repeat split; vm_compute; reflexivity. Qed.

Theorem C36_shape_refuted : exists emb x b n, accepted_msg emb x /\
  read_msg Release emb x b = Ok (len b, VMsg [VListing [] n]) /\ n = 2 ^ 62 /\
  forall m E, arr_item (E:=E) m 4 [] (2 ^ 61) = Panic.
Proof. exact array_shape_refuted. Qed.
Print Assumptions C36_shape_refuted.

Theorem C36_empty_items_refuted : forall E data, arr_items (E:=E) 0 data = Panic.
Proof. exact empty_items_refuted. Qed.
Print Assumptions C36_empty_items_refuted.

(** Exact, over any data: iterating panics if and only if the items are empty;
    otherwise it gives the consecutive windows, the last one cut at the end of
    the data, and nothing after it. *)
Theorem C36_iterate_exact : forall E size data,
  (arr_items (E:=E) size data = Panic <-> size = 0) /\
  (0 < size -> exists ws, arr_items (E:=E) size data = Ok ws /\ forall i,
     (i * size < len data -> nth_error ws (N.to_nat i) = Some (window data (i * size) (N.min ((i + 1) * size) (len data)))) /\
     (len data <= i * size -> nth_error ws (N.to_nat i) = None)).
Proof. exact arr_items_exact. Qed.
Print Assumptions C36_iterate_exact.

(** ** C37: lengths and their prefixes *)

(** The prefix that is written is the length modulo the range of the prefix, so
    it is right exactly for lengths that fit. *)
Theorem C37_prefix_partial : forall e sz (data : bytes) n s,
  listing_write vec_sink (order_of e) sz data n s = (s ++ num_bytes e sz (n mod tmod sz) ++ data, Ok tt).
Proof. exact prefix_written. Qed.
Print Assumptions C37_prefix_partial.

Example C37_nonvacuous : listing_write vec_sink (order_of Big) 2 [7] 513 [] = ([2; 1; 7], Ok tt).
Proof. vm_compute. reflexivity. Qed.

(** A string survives exactly if its length fits the prefix, an array if its number of items does. For
    lists, the number of items that is read is that written modulo the range of the prefix. *)
Theorem C37_string_exact : forall m e ty s r b, is_utf8 s ->
  varchar_write vec_sink (order_of e) (get_byte_size ty) s [] = (b, Ok tt) -> len (b ++ r) < 2 ^ 64 ->
  (varchar_from_slice m (value_reader e ty) (b ++ r) = Ok (len b, s) <-> len s < 2 ^ (8 * N.of_nat (get_byte_size ty))).
Proof. exact string_length_exact. Qed.
Print Assumptions C37_string_exact.

Theorem C37_array_exact : forall m e ty size data n r b, len data = n * size ->
  listing_write vec_sink (order_of e) (get_byte_size ty) data n [] = (b, Ok tt) -> len (b ++ r) < 2 ^ 64 ->
  (array_from_slice m (value_reader e ty) size (b ++ r) = Ok (len b, (data, n)) <->
   n < 2 ^ (8 * N.of_nat (get_byte_size ty))).
Proof. exact array_length_exact. Qed.
Print Assumptions C37_array_exact.

Theorem C37_list_count : forall (A : Type) m e ty (item : reader A) data n r b,
  listing_write vec_sink (order_of e) (get_byte_size ty) data n [] = (b, Ok tt) ->
  (forall k d c, list_from_slice m (value_reader e ty) item (b ++ r) = Ok (k, (d, c)) ->
     c = n mod 2 ^ (8 * N.of_nat (get_byte_size ty))) /\
  (forall k d c, unsized_from_slice (value_reader e ty) (b ++ r) = Ok (k, (d, c)) ->
     c = n mod 2 ^ (8 * N.of_nat (get_byte_size ty))).
Proof. exact list_count. Qed.
Print Assumptions C37_list_count.

Example C37_exact_nonvacuous :
  is_utf8 [104; 105] /\ varchar_write vec_sink (order_of Big) (get_byte_size U16) [104; 105] [] = ([0; 2; 104; 105], Ok tt) /\
  varchar_from_slice Debug (value_reader Big U16) ([0; 2; 104; 105] ++ [9]) = Ok (4, [104; 105]) /\
  listing_write vec_sink (order_of Little) (get_byte_size U8) [1; 2; 3; 4] 2 [] = ([2; 1; 2; 3; 4], Ok tt) /\
  array_from_slice Debug (value_reader Little U8) 2 ([2; 1; 2; 3; 4] ++ [9]) = Ok (5, ([1; 2; 3; 4], 2)) /\
  unsized_from_slice (value_reader Little U8) ([2; 1; 2; 3; 4] ++ [9]) = Ok (6, ([1; 2; 3; 4; 9], 2)).
Proof. split; [apply utf8_iff; vm_compute; reflexivity|]. repeat split; vm_compute; reflexivity. Qed.

Theorem C37_string_refuted : exists emb x s rest, accepted_msg emb x /\ is_utf8 s /\
  (forall m, write_vec m x (VMsg [VStr s]) [] = (0 :: rest, Ok tt)) /\
  (forall m, read_msg m emb x (0 :: rest) = Ok (1, VMsg [VStr []])) /\ s <> [].
Proof. exact prefix_refuted. Qed.
Print Assumptions C37_string_refuted.

Theorem C37_list_refuted : exists s, s <> [] /\ forall data,
  listing_write vec_sink LE 1 data 256 [] = (s ++ data, Ok tt)%list /\ number Little 1 0 s.
Proof. exact list_prefix_refuted. Qed.
Print Assumptions C37_list_refuted.

(** ** C38: accepted message types can be decoded *)

Theorem C38_tidy_partial : forall emb x, tidy x -> readable emb x.
Proof. exact tidy_readable. Qed.
Print Assumptions C38_tidy_partial.

Example C38_nonvacuous : tidy packet_x /\ accepted_msg main_emb packet_x.
Proof.
  split; [exact packet_tidy|]. exists (snd main_pw), [lib_p; main_p], main_p.
  split; [exact main_session|]. split; [right; left; reflexivity|]. split; [apply messages_in|reflexivity].
Qed.

Theorem C38_after_payload_refuted : exists emb x, accepted_msg emb x /\
  (forall m, exists v b, encodes m x v b) /\
  forall m b, len b < 2 ^ 64 -> read_msg m emb x b = Err Truncated.
Proof. exact after_payload_refuted. Qed.
Print Assumptions C38_after_payload_refuted.

Theorem C38_nested_list_refuted : exists emb x y b data, accepted_msg emb x /\
  inside (mf_ty (hd (MkMField "" TPayload false size_open Little) (m_fields x))) y /\
  (forall m, encodes m x (VMsg [VListing data 2]) b) /\
  (forall m, encodes m y outer_v inner_b) /\ data = (inner_b ++ inner_b)%list /\
  exists first s, first <> outer_v /\
  forall m, iter_take m (read_msg m emb y) 2 (data, 2) = Ok ([Ok first; Err Truncated], s).
Proof. exact nested_list_refuted. Qed.
Print Assumptions C38_nested_list_refuted.

(** ** C39: structure items *)

Theorem C39_item_size_partial : forall mc enums structs id d s env unsorted v n f marks m present prev y b,
  structure_from_model mc Little enums structs id d = Ok s -> regular s ->
  smf_info v = MTItem n -> sget n (pe_structs env) = Some s ->
  mfield_from_model env unsorted v = Ok (f, marks) ->
  enc_ty m present (mf_endi f) prev (mf_ty f) y b -> len b = s_byte_size s.
Proof. exact item_size. Qed.
Print Assumptions C39_item_size_partial.

Definition id_d : sstruct := {| ss_name := "Id"; ss_fields := [scalar "id" (STUnsigned 32)] |}.
Definition id_s : structure := Eval vm_compute in get_ok unit_structure (structure_from_model Debug Little [] [] 1 id_d).
Example C39_nonvacuous : exists f marks,
  structure_from_model Debug Little [] [] 1 id_d = Ok id_s /\ regular id_s /\
  mfield_from_model {| pe_endianness := Little; pe_structs := [("Id"%string, id_s)]; pe_messages := []; pe_unions := [] |}
    [] (fld "x" (MTItem "Id")) = Ok (f, marks) /\
  enc_ty Debug (fun _ => True) (mf_endi f) [] (mf_ty f) (VScalar 258) [2; 1; 0; 0].
Proof.
  do 2 eexists. split; [vm_compute; reflexivity|]. split.
  - intros g E. inversion E. right. split; [discriminate|]. do 2 right. left. reflexivity.
  - split; [vm_compute; reflexivity|]. num.
Qed.

(** The guard is the weakest possible, in terms of the description. *)
Theorem C39_item_size_exact : forall mc enums structs id d s env unsorted v n f marks m present,
  structure_from_model mc Little enums structs id d = Ok s -> no_overflow mc structs d ->
  smf_info v = MTItem n -> sget n (pe_structs env) = Some s ->
  mfield_from_model env unsorted v = Ok (f, marks) ->
  ((forall prev y b, enc_ty m present (mf_endi f) prev (mf_ty f) y b -> len b = s_byte_size s) <-> ~ misfit d).
Proof. exact item_size_exact. Qed.
Print Assumptions C39_item_size_exact.

Example C39_exact_nonvacuous :
  ~ misfit id_d /\ misfit {| ss_name := "M"; ss_fields := [scalar "x" (STUnsigned 24)] |} /\
  ~ misfit {| ss_name := "M"; ss_fields := [scalar "x" (STSigned 24)] |} /\
  structure_from_model Debug Little [] [] 1 id_d = Ok id_s /\ no_overflow Debug [] id_d.
Proof.
  split; [intros (f & E & _ & H); inversion E; subst; cbn in H; intuition discriminate|].
  split; [eexists; split; [reflexivity|]; split; [reflexivity|]; cbn; auto|].
  split; [intros (f & E & _ & H); inversion E; subst; exact H|].
  split; [vm_compute; reflexivity|left; reflexivity].
Qed.

Theorem C39_flattened_refuted : exists emb x s b, accepted_msg emb x /\
  In s (p_structs extra_p) /\ s_name s = "Medium"%string /\ s_byte_size s = 3 /\
  (exists d, In d (sp_structs extra_v) /\ ss_name d = "Medium"%string /\
     structure_from_model Debug Little [] [] (s_id s) d = Ok s) /\
  length (m_fields x) = 1%nat /\ (forall m, encodes m x (VMsg [VScalar 1]) b) /\ len b = 4.
Proof. exact flattened_refuted. Qed.
Print Assumptions C39_flattened_refuted.

(** ** C40: NUL-terminated strings *)

(** The strings that come back are exactly those without NUL. *)
Theorem C40_roundtrip_partial : forall m s r, is_utf8 s -> len (s ++ 0 :: r) < 2 ^ 64 ->
  (nts_from_slice m (s ++ 0 :: r) = Ok (len s + 1, s) <-> no_nul s).
Proof. exact nts_roundtrip. Qed.
Print Assumptions C40_roundtrip_partial.

Example C40_nonvacuous : is_utf8 eve /\ no_nul eve.
Proof. exact eve_ok. Qed.

Theorem C40_nul_refuted : exists s b, is_utf8 s /\
  nts_write vec_sink s [] = (b, Ok tt) /\ (forall m, nts_from_slice m b = Ok (2, [97])) /\ s <> [97].
Proof. exact nul_refuted. Qed.
Print Assumptions C40_nul_refuted.

(** ** C41: UTF-8 *)

Theorem C41_utf8 : forall b, from_utf8 b = true <-> is_utf8 b.
Proof. exact utf8_iff. Qed.
Print Assumptions C41_utf8.

Theorem C41_terminated : forall m s r, no_nul s -> len (s ++ 0 :: r) < 2 ^ 64 ->
  (is_utf8 s -> nts_from_slice m (s ++ 0 :: r) = Ok (len s + 1, s)) /\
  (~ is_utf8 s -> nts_from_slice m (s ++ 0 :: r) = Err InvalidUtf8).
Proof. exact nts_decode. Qed.
Print Assumptions C41_terminated.

Theorem C41_prefixed : forall m e ty p s r, number e (get_byte_size ty) (len s) p -> len (p ++ s ++ r) < 2 ^ 64 ->
  (is_utf8 s -> varchar_from_slice m (value_reader e ty) (p ++ s ++ r) = Ok (len p + len s, s)) /\
  (~ is_utf8 s -> varchar_from_slice m (value_reader e ty) (p ++ s ++ r) = Err InvalidUtf8).
Proof. exact varchar_decode. Qed.
Print Assumptions C41_prefixed.

Example C41_nonvacuous : is_utf8 eve /\ ~ is_utf8 [0xC0; 0x80] /\ ~ is_utf8 [0xED; 0xA0; 0x80] /\
  number Big 2 4 [0; 4].
Proof.
  split; [utf|]. split; [intro H; apply utf8_iff in H; vm_compute in H; discriminate|].
  split; [intro H; apply utf8_iff in H; vm_compute in H; discriminate|num].
Qed.
