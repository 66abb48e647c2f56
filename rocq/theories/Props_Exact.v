(** Property theorems for C23, C24, C26, C27, C38 and C81: exactly which values are read back, and
    where reading panics. The vocabulary ([open_value], [followed], [items_delimited],
    [reaches]) is defined in SpecExact, and [swallows] and [unreadable] in SpecSwallow. *)

From Coq Require Import Arith NArith ZArith Ascii String List Bool Lia.
From Verif Require Import Base Schema Codec Bits Compiler Access Runtime Gen SpecWire SpecExact SpecDecode SpecSwallow SpecGenuine MsgFacts
  ReadThms ExactThms ReachThms DecodeThms SwallowThms GenuineThms Samples SamplesComp SamplesMsg MsgRefute.
Import ListNotations.
Local Open Scope N_scope.

(** In front of other bytes, the encoding of a value is read back if and only if the
    value contains no payload and no list that is not walked. Otherwise the reader never
    returns this value. *)
Theorem C23_suffix_exact_partial : forall m emb x v b s, items_delimited emb x -> encodes_lax m x v b -> s <> [] ->
  len (b ++ s) < 2 ^ 64 ->
  (read_msg m emb x (b ++ s) = Ok (len b, v) <-> ~ open_value emb x v) /\
  (open_value emb x v -> forall n, read_msg m emb x (b ++ s) <> Ok (n, v)).
Proof. exact suffix_exact. Qed.
Print Assumptions C23_suffix_exact_partial.

(** As the whole input, it is read back if and only if no such member has bytes behind
    it. *)
Theorem C38_whole_exact_partial : forall m emb x v b, items_delimited emb x -> encodes_lax m x v b -> len b < 2 ^ 64 ->
  (read_msg m emb x b = Ok (len b, v) <-> ~ followed m emb x v b) /\
  (followed m emb x v b -> forall n, read_msg m emb x b <> Ok (n, v)).
Proof. exact whole_exact. Qed.
Print Assumptions C38_whole_exact_partial.

Definition after_v : value := VMsg [VPayload [1]; VScalar 5].
Definition after_b : bytes := [1; 5; 0; 0; 0].
Example C38_exact_nonvacuous : items_delimited main_emb raw_x /\ (forall m, encodes_lax m raw_x raw_v raw_b) /\
  open_value main_emb raw_x raw_v /\ (forall m, ~ followed m main_emb raw_x raw_v raw_b) /\
  items_delimited extra_emb after_x /\ (forall m, encodes_lax m after_x after_v after_b) /\
  (forall m, followed m extra_emb after_x after_v after_b).
Proof.
  assert (HR : items_delimited main_emb raw_x).
  { intros f ty y Hp Et. exfalso.
    assert (Hw : In f (m_fields raw_x) \/ In f (m_fields ping_x)).
    { destruct Hp as [Hf _|g z Hg Hz Hp]; [left; exact Hf|right].
      destruct Hg as [<- | [<- | [<- | []]]]; inversion Hz; subst.
      destruct Hp as [Hf _|g z' Hg Hz' Hp]; [exact Hf|].
      destruct Hg as [<- | [<- | []]]; inversion Hz'. }
    destruct Hw as [[<- | [<- | [<- | []]]] | [<- | [<- | []]]]; discriminate. }
  assert (HE : forall m, encodes_lax m raw_x raw_v raw_b) by (intro m; apply encodes_is_lax, raw_encodes).
  assert (HA : forall m, encodes_lax m after_x after_v after_b).
  { intro m. apply encodes_is_lax, enc_msg_eq. cbn [m_fields after_x enc_fields].
    exists [1], [5; 0; 0; 0]. split; [reflexivity|]. split; [split; [byt|reflexivity]|].
    exists [5; 0; 0; 0], []. split; [reflexivity|]. split; [num|reflexivity]. }
  split; [exact HR|]. split; [exact HE|]. split.
  { eapply open_some with (i := 2%nat); [reflexivity..|]. eapply open_payload; reflexivity. }
  split.
  { intro m. apply (whole_exact m main_emb raw_x raw_v raw_b HR (HE m)); [vm_compute; reflexivity|].
    destruct m; vm_compute; reflexivity. }
  split.
  { intros f ty y Hp Et. exfalso. destruct Hp as [Hf _|g z Hg Hz Hp].
    - destruct Hf as [<- | [<- | []]]; discriminate.
    - destruct Hg as [<- | [<- | []]]; inversion Hz. }
  split; [exact HA|].
  intro m. apply (followed_here m extra_emb after_x [] (nth 0 (m_fields after_x) (MkMField "" TPayload false size_open Little))
    (skipn 1 (m_fields after_x)) [] (VPayload [1]) [VScalar 5] [] [1] [5; 0; 0; 0]).
  - reflexivity.
  - reflexivity.
  - split; [byt|reflexivity].
  - exists [5; 0; 0; 0], []. split; [reflexivity|]. split; [num|reflexivity].
  - eapply open_payload; reflexivity.
  - discriminate.
Qed.

(** The same for every message, lists whose items hold such values included. *)
Theorem C23_suffix_exact : forall m emb x v b s, encodes_lax m x v b -> s <> [] ->
  len (b ++ s) < 2 ^ 64 -> bytes_ok (b ++ s) ->
  (read_msg m emb x (b ++ s) = Ok (len b, v) <-> ~ unreadable m emb x v b /\ ~ swallows m emb x v) /\
  (unreadable m emb x v b \/ swallows m emb x v -> forall n, read_msg m emb x (b ++ s) <> Ok (n, v)).
Proof. exact suffix_all. Qed.
Print Assumptions C23_suffix_exact.
Theorem C38_whole_exact : forall m emb x v b, encodes_lax m x v b -> len b < 2 ^ 64 -> bytes_ok b ->
  (read_msg m emb x b = Ok (len b, v) <-> ~ unreadable m emb x v b) /\
  (unreadable m emb x v b -> forall n, read_msg m emb x b <> Ok (n, v)).
Proof. exact whole_all. Qed.
Print Assumptions C38_whole_exact.

Theorem C81_encoding_exact : forall m emb x v b s, encodes_lax m x v b -> len (b ++ s) < 2 ^ 64 -> bytes_ok (b ++ s) ->
  (read_msg m emb x (b ++ s) = Ok (len b, v) <-> ~ unreadable m emb x v b /\ (s <> [] -> ~ swallows m emb x v)) /\
  (forall n, read_msg m emb x (b ++ s) = Ok (n, v) -> n = len b).
Proof. exact read_encoding_all. Qed.
Print Assumptions C81_encoding_exact.

(** A list of payloads that is walked: read back when it is the whole input, though not as the items that
    were written, and not when bytes follow. A payload with a number behind it as the item: never. *)
Definition walked : N -> bool := fun _ => true.
Definition afters_x : message := MkMessage 30 "Afters" [MkMField "items" (TList U8 after_x) false size_open Little] size_open.
Example C38_walked_nonvacuous :
  (forall m, encodes_lax m pays_x (VMsg [VListing [1; 2] 2]) [2; 1; 2] /\
    swallows m walked pays_x (VMsg [VListing [1; 2] 2]) /\ ~ unreadable m walked pays_x (VMsg [VListing [1; 2] 2]) [2; 1; 2]) /\
  (forall m, encodes_lax m afters_x (VMsg [VListing after_b 1]) (1 :: after_b) /\
    unreadable m walked afters_x (VMsg [VListing after_b 1]) (1 :: after_b)).
Proof.
  assert (HP : forall m, encodes_lax m pays_x (VMsg [VListing [1; 2] 2]) [2; 1; 2]).
  { intro m. apply enc_msg_eq. cbn [m_fields pays_x enc_fields]. exists [2; 1; 2], []. split; [reflexivity|].
    split; [|reflexivity]. exists [2], [VMsg [VPayload [1]]; VMsg [VPayload [2]]], [[1]; [2]].
    assert (Hp : forall c, c < 256 -> encodes_lax m pay_x (VMsg [VPayload [c]]) [c]).
    { intros c Hc. apply enc_msg_eq. cbn [m_fields pay_x enc_fields]. exists [c], []. split; [reflexivity|].
      split; [|reflexivity]. split; [|reflexivity]. constructor; [exact Hc|constructor]. }
    split; [num|]. split; [reflexivity|]. split; [|split; reflexivity].
    constructor; [apply Hp; lia|]. constructor; [apply Hp; lia|constructor]. }
  assert (HA : forall m, encodes_lax m afters_x (VMsg [VListing after_b 1]) (1 :: after_b)).
  { intro m. apply enc_msg_eq. cbn [m_fields afters_x enc_fields]. exists (1 :: after_b), []. split; [reflexivity|].
    split; [|reflexivity]. exists [1], [after_v], [after_b].
    split; [num|]. split; [reflexivity|]. split; [|split; reflexivity]. constructor; [|constructor].
    apply C38_exact_nonvacuous. }
  split; intro m; (split; [solve [apply HP | apply HA]|]).
  - split.
    + eapply swallows_some with (i := 0%nat); [reflexivity..|].
      apply (swallows_item m walked (MkMField "items" (TList U8 pay_x) false size_open Little) (VListing [1; 2] 2) U8 pay_x [1; 2] 2 0
        [] [1; 2] [1; 2] (VMsg [VPayload [1; 2]]) []); [reflexivity|reflexivity|cbn; lia|constructor| |].
      * constructor. change [1; 2] with ([1; 2] ++ [])%list at 2. eapply members_next; [|constructor]. apply member_plain; [reflexivity|constructor].
      * eapply swallows_some with (i := 0%nat); [reflexivity..|]. eapply swallows_payload; reflexivity.
    + apply (whole_all m walked pays_x _ _ (HP m)); [reflexivity|byt|]. destruct m; vm_compute; reflexivity.
  - apply (unreadable_list m walked afters_x [] (MkMField "items" (TList U8 after_x) false size_open Little) [] [] (VListing after_b 1) []
      [] (1 :: after_b) [] U8 after_x after_b 1); try reflexivity.
    + destruct (HA m) as (c & d & E & H & Z). cbn in Z. subst d. rewrite app_nil_r in E. subst c. exact H.
    + intro I. change (N.to_nat 1) with 1%nat in I. inversion I as [|? ? ? p v r q s D I'| |]; subst. inversion I'; subst.
      destruct (decode_exact m walked after_x after_b) as (HO & _ & _); [reflexivity|byt|].
      match goal with Z : (p ++ [])%list = after_b |- _ => rewrite Z in D;
        assert (R : read_msg m walked after_x after_b = Ok (len p, v)) by (apply HO; exists p, []; repeat split; [symmetry; exact Z|exact D]) end.
      destruct m; vm_compute in R; discriminate.
Qed.

(** ** C24: what is accepted is an encoding exactly when the value has one: the data of its lists are items
    and the data of its arrays have their length ([genuine], SpecGenuine). *)
Theorem C24_encoding_exact : forall m emb x b n v, len b < 2 ^ 64 -> bytes_ok b -> read_msg m emb x b = Ok (n, v) ->
  (encodes_lax m x v (firstn (N.to_nat n) b) <-> genuine m x v) /\ ((exists b', encodes_lax m x v b') <-> genuine m x v).
Proof. exact accepted_encoding. Qed.
Print Assumptions C24_encoding_exact.

(** Two bytes taken for a list of two payloads have an encoding; a byte taken for a list of five pings has none. *)
Example C24_exact_nonvacuous :
  (forall m, read_msg m walked pays_x [2; 1; 2] = Ok (3, VMsg [VListing [1; 2] 2]) /\ genuine m pays_x (VMsg [VListing [1; 2] 2])) /\
  (forall m, read_msg m extra_emb inner_x [5; 255] = Ok (2, VMsg [VListing [255] 5]) /\ ~ genuine m inner_x (VMsg [VListing [255] 5])).
Proof.
  split.
  - intro m. assert (R : read_msg m walked pays_x [2; 1; 2] = Ok (3, VMsg [VListing [1; 2] 2])) by (destruct m; vm_compute; reflexivity).
    split; [exact R|]. destruct (accepted_encoding m walked pays_x [2; 1; 2] _ _ eq_refl ltac:(byt) R) as (_ & G). apply G.
    exists [2; 1; 2]. apply C38_walked_nonvacuous.
  - intro m. assert (R : read_msg m extra_emb inner_x [5; 255] = Ok (2, VMsg [VListing [255] 5])) by (destruct m; vm_compute; reflexivity).
    split; [exact R|]. intro G. destruct (accepted_encoding m extra_emb inner_x [5; 255] _ _ eq_refl ltac:(byt) R) as (_ & GE).
    apply GE in G. destruct G as (b' & E). exact (unsized_none m b' E).
Qed.

(** When the reader reaches a member and its content fails, the whole message fails in
    the same way: no error is replaced or dropped on the way out. *)
Theorem C27_error_is_reported_partial : forall m emb x c e prev f d, items_delimited emb x -> reaches m emb x c e prev f ->
  len (c ++ d) < 2 ^ 64 ->
  (forall er, read_ty m emb e (mf_endi f) prev (mf_ty f) d = Err er -> read_msg m emb x (c ++ d) = Err er) /\
  (read_ty m emb e (mf_endi f) prev (mf_ty f) d = Panic -> read_msg m emb x (c ++ d) = Panic).
Proof. exact reach_errors. Qed.
Print Assumptions C27_error_is_reported_partial.

(** The guard of C26 is needed: every string with a length prefix that the reader reaches
    makes it panic when fewer bytes follow than the prefix announces. *)
Theorem C26_string_exact_partial : forall m emb x c e prev f ty n p short, items_delimited emb x ->
  reaches m emb x c e prev f -> mf_ty f = TVarcharString ty -> number (mf_endi f) (get_byte_size ty) n p ->
  len short < n -> len (c ++ p ++ short) < 2 ^ 64 -> read_msg m emb x (c ++ p ++ short) = Panic.
Proof. exact string_panics. Qed.
Print Assumptions C26_string_exact_partial.

(** With overflow checks, so does every array whose announced byte length does not fit. *)
Theorem C26_array_exact_partial : forall emb x c e prev f ty s n p rest, items_delimited emb x ->
  reaches Debug emb x c e prev f -> mf_ty f = TArray ty s -> number (mf_endi f) (get_byte_size ty) n p ->
  2 ^ 64 <= len p + n * s_byte_size s -> len (c ++ p ++ rest) < 2 ^ 64 ->
  read_msg Debug emb x (c ++ p ++ rest) = Panic.
Proof. exact array_panics. Qed.
Print Assumptions C26_array_exact_partial.

Definition note_f : mfield := nth 1 (m_fields packet_x) (MkMField "" TPayload false size_open Little).
Definition ids_f : mfield := nth 0 (m_fields big_x) (MkMField "" TPayload false size_open Little).
Example C26_exact_nonvacuous : items_delimited main_emb packet_x /\
  (forall m, reaches m main_emb packet_x [1; 7; 0; 1] (main_emb (m_id packet_x)) [VStruct [1; 7; 0]] note_f) /\
  (exists ty, mf_ty note_f = TVarcharString ty /\ number (mf_endi note_f) (get_byte_size ty) 300 [44; 1]) /\
  items_delimited extra_emb big_x /\ reaches Debug extra_emb big_x [] (extra_emb (m_id big_x)) [] ids_f /\
  (exists ty s, mf_ty ids_f = TArray ty s /\ number (mf_endi ids_f) (get_byte_size ty) (2 ^ 62) [0; 0; 0; 0; 0; 0; 0; 64] /\
    2 ^ 64 <= len [0; 0; 0; 0; 0; 0; 0; 64] + 2 ^ 62 * s_byte_size s).
Proof.
  split.
  { intros f ty y Hp Et. assert (Hw : In f (m_fields packet_x) \/ In f (m_fields ping_x)).
    { assert (Hz : exists z, within packet_x z /\ In f (m_fields z)) by (eapply part_within; exact Hp).
      destruct Hz as (z & Hz & Hf). apply within_packet in Hz. destruct Hz as [-> | ->]; auto. }
    destruct Hw as [[<- | [<- | [<- | [<- | [<- | []]]]]] | [<- | [<- | []]]]; inversion Et; subst. apply ping_delimited. }
  split.
  { intro m. apply (reaches_member m main_emb packet_x (firstn 1 (m_fields packet_x)) note_f (skipn 2 (m_fields packet_x))
      [VStruct [1; 7; 0]] [1; 7; 0] [1]).
    - reflexivity.
    - exists [1; 7; 0], []. split; [reflexivity|]. split; [|reflexivity]. split; [reflexivity|]. split; [byt|reflexivity].
    - intros [|[|i]] f w Ef Ew; try discriminate. inversion Ef; subst. inversion Ew; subst. intro Ho. inversion Ho as [| |e0 f0 w0 y0 z0 Hh Hv]; try discriminate. inversion Hh; discriminate.
    - exists 1. split; [lia|reflexivity]. }
  split.
  { eexists. split; [reflexivity|]. num. }
  split.
  { intros f ty y Hp Et. exfalso. destruct Hp as [Hf _|g z Hg Hz Hp].
    - destruct Hf as [<- | []]; discriminate.
    - destruct Hg as [<- | []]; inversion Hz. }
  split.
  { apply (reaches_member Debug extra_emb big_x [] ids_f [] [] [] []).
    - reflexivity.
    - reflexivity.
    - intros [|i] f w Ef; discriminate.
    - reflexivity. }
  eexists. eexists. split; [reflexivity|]. split; [num|]. vm_compute. discriminate.
Qed.
