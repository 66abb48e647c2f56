(** Property theorems for C79 and C80: what writing gives for every value, and writing again what was read.
    [has_type] and [sends] are in SpecEncode, [tidied] is in SpecReencode. *)

From Coq Require Import Arith NArith ZArith Ascii String List Bool Lia.
From Verif Require Import Base Schema Codec Bits Compiler Access Runtime Gen SpecWire SpecUnion SpecDecode DecodeThms SpecEncode EncodeThms
  SpecReencode ReencodeThms Samples SamplesComp SamplesMsg MsgRefute.
Import ListNotations.
Local Open Scope N_scope.

(** ** C79: what writing gives for every value *)

(** Writing to a vector appends [p] and ends with [r] exactly if the specification says so. *)
Theorem C79_encode_exact : forall m x v, has_type x v -> forall p r,
  sends m x v p r <-> forall s, write_vec m x v s = (s ++ p, r).
Proof. exact encode_exact. Qed.
Print Assumptions C79_encode_exact.

(** Every value of the type has such a result. *)
Theorem C79_total : forall m x v, has_type x v -> exists p r, sends m x v p r.
Proof. exact sends_total. Qed.
Print Assumptions C79_total.

(** Any other destination gets the same bytes and ends alike, unless it fails itself: then it has received
    a beginning of them and its error is returned. *)
Theorem C79_anywhere : forall m x v p r St (w : sink St) received s s' q, honest w received ->
  sends m x v p r -> write_msg m w x v s = (s', q) ->
  (q = r /\ received s' = received s ++ p) \/
  (exists e s1 c, q = Err e /\ write_all w s1 c = (s', Err e) /\ exists p1 p2, p = p1 ++ p2 /\ received s' = received s ++ p1).
Proof. exact encode_anywhere. Qed.
Print Assumptions C79_anywhere.

(** [size_of] counts the bytes, or fails alike. *)
Theorem C79_size : forall m x v p r, sends m x v p r -> len p < 2 ^ 64 ->
  size_of_msg m x v = match r with Ok _ => Ok (len p) | Err e => Err e | Panic => Panic end.
Proof. exact encode_size. Qed.
Print Assumptions C79_size.

(** The values that have an encoding and those that were read are values of the type; for the former the
    encoding is sent. *)
Theorem C79_encodings : forall m x v b, encodes m x v b -> has_type x v /\ sends m x v b finished.
Proof. exact encodes_sent. Qed.
Print Assumptions C79_encodings.
Theorem C79_decoded : forall m emb x b n v, len b < 2 ^ 64 -> bytes_ok b -> read_msg m emb x b = Ok (n, v) -> has_type x v.
Proof. exact read_typed. Qed.
Print Assumptions C79_decoded.

(** A packet; a packet whose union has the case of another discriminant; one whose header lies in a
    buffer that is too short. *)
Definition mismatch_v : value := Eval cbn in
  VMsg [VStruct [0; 7; 0]; VOpt (Some (VStr [104; 105])); VUnion 1 (Some (VStruct line_b)); VListing [] 0; VListing [] 0].
Definition short_v : value := Eval cbn in
  VMsg [VStruct [1; 7]; VOpt None; VUnion 1 (Some (VStruct line_b)); VListing [] 0; VListing [] 0].
Example packet_typed : forall d o l n k data, content_typed (mf_ty (nth 1 (m_fields packet_x) (MkMField "" TPayload false size_open Little))) o ->
  has_type packet_x (VMsg [VStruct d; VOpt (Some o); VUnion 1 (Some (VStruct l)); VListing data n; VListing data k]) /\
  has_type packet_x (VMsg [VStruct d; VOpt None; VUnion 1 (Some (VStruct l)); VListing data n; VListing data k]).
Proof.
  intros d o l n k data Ho. split; constructor.
  all: constructor; [apply mandatory_typed; [reflexivity|constructor; constructor]|].
  1: constructor; [apply present_typed; [reflexivity|exact Ho]|].
  2: constructor; [apply absent_typed; reflexivity|].
  all: constructor; [apply mandatory_typed; [reflexivity|eapply case_item_typed; [reflexivity|reflexivity|constructor]]|].
  all: constructor; [apply mandatory_typed; [reflexivity|constructor]|].
  all: constructor; [apply mandatory_typed; [reflexivity|constructor]|].
  all: constructor.
Qed.
Example C79_nonvacuous :
  has_type packet_x packet_v /\ has_type packet_x mismatch_v /\ has_type packet_x short_v /\
  sends Release packet_x packet_v packet_b finished /\
  sends Release packet_x mismatch_v [0; 7; 0; 1; 2; 0; 104; 105] (Err (InvalidUnionDiscriminant 0)) /\
  sends Release packet_x short_v [] Panic /\ honest (limited_sink 20) (fun s => s).
Proof.
  destruct (encodes_sent _ _ _ _ (packet_encodes Release)) as (HT & HS).
  assert (H2 : has_type packet_x mismatch_v) by (apply packet_typed; constructor).
  assert (H3 : has_type packet_x short_v) by (eapply (packet_typed _ (VStr []) _ _ _ _); constructor).
  split; [exact HT|]. split; [exact H2|]. split; [exact H3|]. split; [exact HS|].
  assert (G : forall v p r, has_type packet_x v -> write_vec Release packet_x v [] = (p, r) -> sends Release packet_x v p r).
  { intros v p r Hv Hw. destruct (sends_total Release packet_x v Hv) as (p' & r' & Hs).
    pose proof (proj1 (encode_exact _ _ _ Hv _ _) Hs []) as Hw'. rewrite Hw in Hw'. inversion Hw'; subst. exact Hs. }
  split; [apply G; [exact H2|vm_compute; reflexivity]|].
  split; [apply G; [exact H3|vm_compute; reflexivity]|apply WriteThms.limited_honest].
Qed.

(** ** C80: writing again what was read *)

(** Whatever was read is written without an error, in as many bytes as were read, [size_of] says so, and
    these bytes, in place of the ones that were read, are read as the same value. They are the bytes that
    were read, except that presence bytes above 1 become 1. *)
Theorem C80_again : forall m emb x b n v, len b < 2 ^ 64 -> bytes_ok b -> read_msg m emb x b = Ok (n, v) ->
  exists c, (forall s, write_vec m x v s = (s ++ c, Ok tt)) /\ size_of_msg m x v = Ok n /\ len c = n /\
    tidied (firstn (N.to_nat n) b) c /\
    read_msg m emb x (c ++ skipn (N.to_nat n) b) = Ok (n, v) /\
    (no_optional emb x -> c = firstn (N.to_nat n) b).
Proof. exact reencode. Qed.
Print Assumptions C80_again.

(** A packet whose presence byte is 7. *)
Definition seven_b : bytes := Eval vm_compute in (firstn 3 packet_b ++ [7] ++ skipn 4 packet_b)%list.
Example C80_nonvacuous : read_msg Debug main_emb packet_x seven_b = Ok (45, packet_v) /\
  write_vec Debug packet_x packet_v [] = (packet_b, Ok tt) /\ packet_b <> seven_b /\ tidied seven_b packet_b /\
  no_optional main_emb ping_x /\ read_msg Debug main_emb ping_x (ping_b 7 eve ++ [1]) = Ok (9, ping_v 7 eve).
Proof.
  split; [vm_compute; reflexivity|]. split; [vm_compute; reflexivity|]. split; [discriminate|].
  split; [repeat (constructor; [first [left; reflexivity|right; split; reflexivity]|]); constructor|].
  split; [|vm_compute; reflexivity].
  intros e f H; apply part_ping in H; destruct H as [<- | [<- | []]]; reflexivity.
Qed.
