(** Property theorems for C33, C34, C35 and C84: what iterating a list gives for any data and length, and what a
    failed item leaves. [iterates] is in SpecIterate, [decodes] in SpecDecode, [has_type] and [sends] in SpecEncode. *)

From Coq Require Import Arith NArith ZArith Ascii String List Bool Lia.
From Verif Require Import Base Schema Codec Bits Compiler Access Runtime Gen SpecWire SpecUnion SpecDecode SpecSwallow MsgFacts DecodeThms SpecEncode EncodeThms
  SpecIterate IterThms SpecOffsets OffsetIter SwallowThms Samples SamplesComp SamplesMsg MsgRefute Props_Msg.
Import ListNotations.
Local Open Scope N_scope.

(** The encodings of any values one after another: iterating gives these values if and only if each
    can be read back there ([unreadable] and [swallows], SpecSwallow). *)
Theorem C33_iterate_exact : forall m emb x vs bs, Forall2 (encodes_lax m x) vs bs ->
  forall s k, len (concat bs ++ s) < 2 ^ 64 -> bytes_ok (concat bs ++ s) -> (length vs <= k)%nat ->
  (iter_take m (read_msg m emb x) k ((concat bs ++ s)%list, len vs) = Ok (map Ok vs, (s, 0)) <->
   forall vs1 v vs2 bs1 b bs2, vs = (vs1 ++ v :: vs2)%list -> bs = (bs1 ++ b :: bs2)%list -> length bs1 = length vs1 ->
     ~ unreadable m emb x v b /\ ((concat bs2 ++ s)%list <> [] -> ~ swallows m emb x v)).
Proof. exact iterate_swallows. Qed.
Print Assumptions C33_iterate_exact.

(** One payload is given back; the first of two is not. *)
Example C33_iterate_nonvacuous : forall m emb,
  Forall2 (encodes_lax m pay_x) [VMsg [VPayload [1]]; VMsg [VPayload [2]]] [[1]; [2]] /\
  (~ unreadable m emb pay_x (VMsg [VPayload [2]]) [2]) /\ swallows m emb pay_x (VMsg [VPayload [1]]).
Proof.
  intros m emb. assert (Hp : forall c, c < 256 -> encodes_lax m pay_x (VMsg [VPayload [c]]) [c]).
  { intros c Hc. apply enc_msg_eq. cbn [m_fields pay_x enc_fields]. exists [c], []. split; [reflexivity|].
    split; [|reflexivity]. split; [|reflexivity]. constructor; [exact Hc|constructor]. }
  split; [constructor; [apply Hp; lia|]; constructor; [apply Hp; lia|constructor]|]. split.
  - apply (whole_all m emb pay_x _ _ (Hp 2 ltac:(lia))); [reflexivity|repeat constructor|]. destruct m; vm_compute; reflexivity.
  - eapply swallows_some with (i := 0%nat); [reflexivity..|]. eapply swallows_payload; reflexivity.
Qed.

(** ** C34: iteration, whether the list was walked or not *)

Theorem C34_iterate_exact : forall m emb y k data n, len data < 2 ^ 64 -> bytes_ok data -> n < 2 ^ 64 ->
  (forall rs s, iter_take m (read_msg m emb y) k (data, n) = Ok (rs, s) <-> iterates m emb y data n k (Some (rs, s))) /\
  (iter_take m (read_msg m emb y) k (data, n) = Panic <-> iterates m emb y data n k None) /\
  forall e, iter_take m (read_msg m emb y) k (data, n) <> Err e.
Proof. exact iterate_all. Qed.
Print Assumptions C34_iterate_exact.

(** Two pings under a length of three: the third and every later call fail alike. *)
Example C34_iterate_nonvacuous : len two_pings < 2 ^ 64 /\ bytes_ok two_pings /\
  iterates Debug main_emb ping_x two_pings 3 5
    (Some ([Ok (ping_v 258 bob); Ok (ping_v 7 eve); Err Truncated; Err Truncated; Err Truncated], ([], 1))).
Proof.
  assert (Hl : len two_pings < 2 ^ 64) by reflexivity.
  assert (Hb : bytes_ok two_pings) by (repeat constructor).
  split; [exact Hl|]. split; [exact Hb|]. apply C34_iterate_exact; [exact Hl|exact Hb|reflexivity|]. vm_compute. reflexivity.
Qed.

(** ** C35: an item that fails *)

(** Whatever the item sends before it fails stays in the list; the length grows only if it finishes. *)
Theorem C35_item_exact : forall m x v p r l, sends m x v p r -> li_len l + 1 < 2 ^ 64 ->
  write_item m (write_vec m x v) l =
  ({| li_data := li_data l ++ p; li_len := match r with Ok _ => li_len l + 1 | Err _ | Panic => li_len l end |}, r).
Proof. exact item_result. Qed.
Print Assumptions C35_item_exact.

(** The list is left unchanged exactly if the item fails before it sends anything. *)
Theorem C35_unchanged_exact : forall m x v l e, has_type x v ->
  (write_item m (write_vec m x v) l = (l, Err e) <-> sends m x v [] (Err e)).
Proof. exact item_unchanged. Qed.
Print Assumptions C35_unchanged_exact.

(** The union of the frame has the case of another discriminant: the three bytes of the header are kept. *)
Example C35_item_nonvacuous : has_type frame_x bad_frame /\ sends Debug frame_x bad_frame [2; 0; 0] (Err (InvalidUnionDiscriminant 2)).
Proof.
  assert (H : has_type frame_x bad_frame).
  { constructor. constructor; [apply mandatory_typed; [reflexivity|constructor; constructor]|].
    constructor.
    { apply mandatory_typed; [reflexivity|]. cbn [mf_ty]. eapply case_item_typed; [reflexivity|reflexivity|].
      constructor. constructor. constructor; [apply mandatory_typed; [reflexivity|constructor; reflexivity]|].
      constructor; [apply mandatory_typed; [reflexivity|constructor]|constructor]. }
    constructor; [apply absent_typed; reflexivity|]. constructor; [apply mandatory_typed; [reflexivity|constructor]|constructor]. }
  split; [exact H|]. apply encode_exact; [exact H|]. intro s. unfold write_vec. vm_compute. reflexivity.
Qed.

(** ** C84: iterating with offsets *)

(** Any number of calls on a list of any data and length: the same values and errors, or the
    same panic, and correct offsets for every value. *)
Theorem C84_offsets : forall m emb y k data n, len data < 2 ^ 64 ->
  match iter_take m (read_msg m emb y) k (data, n) with
  | Ok (rs, s) => exists ros, iter_take m (read_msg_offsets m emb y) k (data, n) = Ok (ros, s) /\ with_offsets m emb y data rs ros
  | Err e => iter_take m (read_msg_offsets m emb y) k (data, n) = Err e
  | Panic => iter_take m (read_msg_offsets m emb y) k (data, n) = Panic
  end.
Proof. exact offsets_iterate. Qed.
Print Assumptions C84_offsets.

Example C84_nonvacuous : len two_pings < 2 ^ 64 /\
  exists v w o o' s, iter_take Debug (read_msg Debug main_emb ping_x) 5 (two_pings, 3) = Ok ([Ok v; Ok w; Err Truncated; Err Truncated; Err Truncated], s) /\
    iter_take Debug (read_msg_offsets Debug main_emb ping_x) 5 (two_pings, 3) = Ok ([Ok (v, o); Ok (w, o'); Err Truncated; Err Truncated; Err Truncated], s).
Proof. split; [reflexivity|]. do 5 eexists. split; vm_compute; reflexivity. Qed.
