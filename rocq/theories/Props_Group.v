(** Property theorems C91: members of a message can be put into a message of their own. [m] is the build
    profile of the compiler and [m'] the one of the programs. [p1] is the protocol with the group, whose last
    two messages are the group [y] and the message [x] with it; [z] is the message with all members. *)

From Coq Require Import Arith NArith String List Bool Lia.
From Verif Require Import Base Schema Compiler Access Runtime Gen Loader SpecWire SpecRun SpecGroup GroupRun ApartRefute SamplesGrow SamplesGroup.
Import ListNotations.
Local Open Scope N_scope.
Local Open Scope string_scope.

(** If the protocol with the group is accepted then so is the one without. Corresponding values are written
    alike, to every sink and with every outcome, and they have the same encodings. *)
Theorem C91_write : forall m w solver v pre before members after grp outer flat p1 w1, grouped before members after grp outer flat ->
  protocol_from_model m solver w (with_messages v (pre ++ [grp; outer])%list) = Ok (p1, w1) -> sget (sm_name grp) (p_structs_by_name p1) = None ->
  forall m', exists p2 w2 l y x z,
  protocol_from_model m solver w (with_messages v (pre ++ [flat])%list) = Ok (p2, w2) /\
  p_messages p1 = (l ++ [y; x])%list /\ p_messages p2 = (l ++ [z])%list /\ m_name x = sm_name outer /\ m_name z = sm_name outer /\
  (forall St (o : sink St) val val' s, flattens (length before) (length members) val val' -> write_msg m' o z val' s = write_msg m' o x val s) /\
  (forall pres val val' b, flattens (length before) (length members) val val' -> (enc_msg m' pres z val' b <-> enc_msg m' pres x val b)).
Proof. exact protocol_group_write. Qed.
Print Assumptions C91_write.

(** Reading takes as many bytes and gives corresponding values, or fails alike, in the state after each protocol. *)
Theorem C91_read : forall m m' w ps solver v pre before members after grp outer flat p1 w1,
  session m w ps -> (forall name q, r_protocol solver name = Some q -> In q ps) -> grouped before members after grp outer flat ->
  protocol_from_model m solver w (with_messages v (pre ++ [grp; outer])%list) = Ok (p1, w1) -> sget (sm_name grp) (p_structs_by_name p1) = None ->
  exists p2 w2 l y x z,
  protocol_from_model m solver w (with_messages v (pre ++ [flat])%list) = Ok (p2, w2) /\
  p_messages p1 = (l ++ [y; x])%list /\ p_messages p2 = (l ++ [z])%list /\ m_name x = sm_name outer /\ m_name z = sm_name outer /\
  forall b, len b < 2 ^ 64 ->
    same_reading (length before) (length members) (read_msg m' (marked w1) x b) (read_msg m' (marked w2) z b).
Proof. exact session_group_read. Qed.
Print Assumptions C91_read.

(** With other messages behind, which may be different ones, the format and writing are the same, too. Reading
    in a state [emb] agrees with reading in a state [emb'] for the protocol without the group if the same messages
    are marked as items of lists in both, and the group is marked whenever the message with it is or no member of
    it is a list of messages. *)
Theorem C91_followed_partial : forall m w solver v pre post post' before members after grp outer flat p1 p2 w1 w2, grouped before members after grp outer flat ->
  protocol_from_model m solver w (with_messages v (pre ++ [grp; outer] ++ post)%list) = Ok (p1, w1) ->
  protocol_from_model m solver w (with_messages v (pre ++ [flat] ++ post')%list) = Ok (p2, w2) ->
  sget (sm_name grp) (p_structs_by_name p1) = None ->
  forall m', exists l l1 l2 y x z,
  p_messages p1 = (l ++ y :: x :: l1)%list /\ p_messages p2 = (l ++ z :: l2)%list /\ m_name x = sm_name outer /\ m_name z = sm_name outer /\
  (forall St (o : sink St) val val' s, flattens (length before) (length members) val val' -> write_msg m' o z val' s = write_msg m' o x val s) /\
  (forall pres val val' b, flattens (length before) (length members) val val' -> (enc_msg m' pres z val' b <-> enc_msg m' pres x val b)) /\
  forall emb emb' b, emb (m_id y) = emb (m_id x) \/ (forall f ty u, In f (m_fields y) -> mf_ty f <> TList ty u) ->
    emb' (m_id z) = emb (m_id x) -> (forall f u t, In f (m_fields z) -> inside (mf_ty f) u -> within u t -> emb' (m_id t) = emb (m_id t)) -> len b < 2 ^ 64 ->
    same_reading (length before) (length members) (read_msg m' emb x b) (read_msg m' emb' z b).
Proof. exact followed_all. Qed.
Print Assumptions C91_followed_partial.

(** A union and its discriminant are in the group; another union stays behind it. *)
Example C91_nonvacuous : session Debug world_new [] /\ (forall name q, r_protocol alone name = Some q -> In q []) /\
  grouped first_f group_f last_f group_d packet_d flat_d /\
  protocol_from_model Debug alone world_new (with_messages parts_old ([] ++ [group_d; packet_d])%list) = Ok group_pw /\
  sget (sm_name group_d) (p_structs_by_name (fst group_pw)) = None /\ nth_error (p_messages (fst group_pw)) 1 = Some packet_x /\
  read_msg Debug (marked (snd group_pw)) packet_x packet_b =
    Ok (8, VMsg [VStruct [2; 0]; VMsg [VStruct [1; 0]; VUnion 0 None; VStr [65]]; VUnion 1 (Some (VStruct [7; 8]))]) /\
  read_msg Debug (marked (snd flat_pw)) flat_x packet_b =
    Ok (8, VMsg [VStruct [2; 0]; VStruct [1; 0]; VUnion 0 None; VStr [65]; VUnion 1 (Some (VStruct [7; 8]))]).
Proof.
  split; [constructor|]. split; [intros ? ? H; discriminate H|]. split; [exact packet_grouped|]. split; [exact group_run|].
  split; [reflexivity|]. split; [reflexivity|]. split; vm_compute; reflexivity.
Qed.

(** A list of the message with the group marks that one only. A message which is then read without a group
    is rejected with one. *)
Theorem C91_listed_refuted : exists grp outer flat before members after x x' v b p w p' w' pre post d,
  grouped before members after grp outer flat /\
  protocol_from_model Debug alone world_new (with_messages d (pre ++ [grp; outer] ++ post)%list) = Ok (p, w) /\
  protocol_from_model Debug alone world_new (with_messages d (pre ++ [flat] ++ post)%list) = Ok (p', w') /\
  sget (sm_name grp) (p_structs_by_name p) = None /\
  In x (p_messages p) /\ In x' (p_messages p') /\ m_name x' = m_name x /\ (forall m, encodes m x v b) /\
  (forall m, read_msg m (marked w') x' b = Ok (len b, v)) /\ forall m, read_msg m (marked w) x b = Err Truncated.
Proof. exact group_listed_refuted. Qed.
Print Assumptions C91_listed_refuted.
