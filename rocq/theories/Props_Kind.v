(** Property theorems C96: fields of structures may get another kind of number (signed, unsigned, float,
    boolean) or another view. [d] is a description and [d'] its new version; both are compiled. *)

From Coq Require Import Arith NArith String List Bool Lia.
From Verif Require Import Base Schema Codec Compiler Access Runtime Gen Loader SpecStruct SpecReadable SpecWire SpecKind KindRun Samples SamplesGroup SamplesKind.
Import ListNotations.
Local Open Scope N_scope.
Local Open Scope string_scope.

(** Every structure keeps its sizes, and every chain of accessors reads and writes the same bits. *)
Theorem C96_layout : forall m solver w d d' p p' w1 w1', retyped d d' ->
  protocol_from_model m solver w d = Ok (p, w1) -> protocol_from_model m solver w d' = Ok (p', w1') ->
  Forall2 same_layout (p_structs p) (p_structs p') /\
  forall n, match sget n (p_structs_by_name p), sget n (p_structs_by_name p') with
            | Some s, Some s' => same_layout s s'
            | None, None => True
            | _, _ => False
            end.
Proof. exact layout_run. Qed.
Print Assumptions C96_layout.

(** Every message reads the same inputs as the same values, and has the same encodings, if the cases of unions
    keep their numbers and no changed structure is a single number of a width without a type. The same
    messages are marked as embedded ([w1]). *)
Theorem C96_wire_partial : forall m solver w d d' p p' w1 w1', retyped d d' ->
  protocol_from_model m solver w d = Ok (p, w1) -> protocol_from_model m solver w d' = Ok (p', w1') ->
  Forall2 (sound m) (sp_structs d) (sp_structs d') -> Forall2 same_numbers (p_unions p) (p_unions p') ->
  w1' = w1 /\ Forall2 same_format (p_messages p) (p_messages p') /\
  forall n, match sget n (p_messages_by_name p), sget n (p_messages_by_name p') with
            | Some x, Some x' => same_format x x'
            | None, None => True
            | _, _ => False
            end.
Proof. exact wire_run. Qed.
Print Assumptions C96_wire_partial.

(** A discriminant that gets an enum as its view, a place that gets a sign, and a number on its own that gets
    a sign, in a message with a union and a string. *)
Example C96_nonvacuous : retyped plain_d named_d /\
  protocol_from_model Release alone world_new plain_d = Ok (fst plain_pw, snd plain_pw) /\
  protocol_from_model Release alone world_new named_d = Ok (fst named_pw, snd named_pw) /\
  Forall2 (sound Release) (sp_structs plain_d) (sp_structs named_d) /\
  Forall2 same_numbers (p_unions (fst plain_pw)) (p_unions (fst named_pw)) /\
  sget "Shape" (p_messages_by_name (fst plain_pw)) = Some shape_x /\ p_structs (fst named_pw) <> p_structs (fst plain_pw) /\
  bytes_ok shape_b /\ read_msg Release (fun _ => false) shape_x shape_b = Ok (10, shape_v).
Proof.
  split; [exact named_retyped|]. split; [vm_compute; reflexivity|]. split; [vm_compute; reflexivity|]. split; [exact named_sound|].
  split; [repeat constructor|]. split; [vm_compute; reflexivity|]. split; [vm_compute; discriminate|]. split; [repeat constructor|]. vm_compute. reflexivity.
Qed.

(** A single number of 24 bits is sent as three bytes with a sign and as four without. *)
Theorem C96_single_refuted : retyped (wide (STSigned 24)) (wide (STUnsigned 24)) /\
  protocol_from_model Release alone world_new (wide (STSigned 24)) = Ok wide_s /\
  protocol_from_model Release alone world_new (wide (STUnsigned 24)) = Ok wide_u /\
  sget "Ping" (p_messages_by_name (fst wide_s)) = Some ping_s /\ sget "Ping" (p_messages_by_name (fst wide_u)) = Some ping_u /\
  bytes_ok [1; 2; 3] /\
  (forall m emb, read_msg m emb ping_s [1; 2; 3] = Ok (3, VMsg [VStruct [1; 2; 3]]) /\ read_msg m emb ping_u [1; 2; 3] = Err Truncated) /\
  ~ same_format ping_s ping_u.
Proof.
  split; [repeat split; repeat constructor|]. do 4 (split; [vm_compute; reflexivity|]). split; [repeat constructor|].
  assert (K : forall m emb, read_msg m emb ping_s [1; 2; 3] = Ok (3, VMsg [VStruct [1; 2; 3]]) /\ read_msg m emb ping_u [1; 2; 3] = Err Truncated)
    by (intros [] emb; split; vm_compute; reflexivity).
  split; [exact K|]. intros [H _]. specialize (H Debug (fun _ => false) [1; 2; 3] ltac:(repeat constructor)). destruct (K Debug (fun _ => false)) as [E E'].
  rewrite E, E' in H. exact H.
Qed.
Print Assumptions C96_single_refuted.
