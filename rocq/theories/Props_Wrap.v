(** Property theorems C97: a list of messages that hold one structure, and an array of the structure. [d] has the
    lists and [d'] arrays in place of some of them. *)

From Coq Require Import Arith NArith String List Bool Lia.
From Verif Require Import Base Schema Codec Compiler Access Runtime Gen Loader SpecReadable SpecWire SpecRun SpecKind SpecWrap MsgFacts ReadThms WrapRun Samples SamplesGroup SamplesWrap.
Import ListNotations.
Local Open Scope N_scope.
Local Open Scope string_scope.

(** Every list can be made an array. *)
Theorem C97_accepted : forall m solver w d d' p w1, unwrapped m d d' -> names_differ d -> protocol_from_model m solver w d = Ok (p, w1) ->
  exists p' w1', protocol_from_model m solver w d' = Ok (p', w1').
Proof. exact wrap_accepted. Qed.
Print Assumptions C97_accepted.

(** The wire format of all messages is the same, for the very same values. *)
Theorem C97_format_partial : forall m solver w d d' p p' w1 w1', unwrapped m d d' -> names_differ d ->
  protocol_from_model m solver w d = Ok (p, w1) -> protocol_from_model m solver w d' = Ok (p', w1') ->
  p_structs p' = p_structs p /\ p_unions p' = p_unions p /\ Forall2 written_alike (p_messages p) (p_messages p') /\
  forall n, match sget n (p_messages_by_name p), sget n (p_messages_by_name p') with
            | Some x, Some x' => written_alike x x'
            | None, None => True
            | _, _ => False
            end.
Proof. exact wrap_format. Qed.
Print Assumptions C97_format_partial.

(** Encodings are read alike, as the values they encode, if they are the whole input and nothing stands behind
    lists; whatever messages are marked as embedded. *)
Theorem C97_read_partial : forall m solver w d d' p p' w1 w1' n x x', unwrapped m d d' -> names_differ d ->
  protocol_from_model m solver w d = Ok (p, w1) -> protocol_from_model m solver w d' = Ok (p', w1') ->
  sget n (p_messages_by_name p) = Some x -> sget n (p_messages_by_name p') = Some x' -> tidy x ->
  forall mr emb emb' v b, encodes_lax mr x v b -> len b < 2 ^ 64 ->
  read_msg mr emb x b = Ok (len b, v) /\ read_msg mr emb' x' b = Ok (len b, v).
Proof. exact wrap_read. Qed.
Print Assumptions C97_read_partial.

Example C97_nonvacuous : unwrapped Release (scenes "Vertex") (scenes "Point") /\ names_differ (scenes "Vertex") /\
  protocol_from_model Release alone world_new (scenes "Vertex") = Ok (fst list_pw, snd list_pw) /\
  protocol_from_model Release alone world_new (scenes "Point") = Ok (fst array_pw, snd array_pw) /\
  sget "Mesh" (p_messages_by_name (fst list_pw)) = Some mesh_l /\ sget "Mesh" (p_messages_by_name (fst array_pw)) = Some mesh_a /\ mesh_a <> mesh_l /\ tidy mesh_l /\
  forall m, encodes_lax m mesh_l mesh_v mesh_b.
Proof.
  split; [apply scenes_unwrapped|]. split; [exact scenes_names|]. do 4 (split; [vm_compute; reflexivity|]). split; [vm_compute; discriminate|]. split; [exact mesh_tidy|].
  intro m. pose proof (wrap_format Release alone world_new _ _ (fst list_pw) (fst array_pw) (snd list_pw) (snd array_pw) (scenes_unwrapped Release) scenes_names eq_refl eq_refl) as (_ & _ & _ & K).
  specialize (K "Mesh"). destruct K as (_ & K & _). apply K. apply encodes_is_lax, mesh_encodes.
Qed.

(** With bytes behind the message, the array is read and the list takes them, unless the message with the list is
    itself an item of lists. *)
Theorem C97_behind_refuted : unwrapped Release (meshes "Vertex") (meshes "Point") /\ names_differ (meshes "Vertex") /\
  protocol_from_model Release alone world_new (meshes "Vertex") = Ok meshes_l /\ protocol_from_model Release alone world_new (meshes "Point") = Ok meshes_a /\
  sget "Mesh" (p_messages_by_name (fst meshes_l)) = Some mesh_l /\ sget "Mesh" (p_messages_by_name (fst meshes_a)) = Some mesh_a /\
  forall m, encodes m mesh_a mesh_v mesh_b /\
    read_msg m (marked (snd meshes_a)) mesh_a (mesh_b ++ [7])%list = Ok (len mesh_b, mesh_v) /\
    read_msg m (marked (snd meshes_l)) mesh_l (mesh_b ++ [7])%list = Ok (len mesh_b + 1, VMsg [VStr [65]; VListing [1; 2; 3; 4; 5; 6; 7] 2]).
Proof.
  split; [exact meshes_unwrapped|]. split; [exact meshes_names|]. do 4 (split; [vm_compute; reflexivity|]).
  intro m. split; [apply mesh_encodes|]. destruct m; split; vm_compute; reflexivity.
Qed.
Print Assumptions C97_behind_refuted.

(** A message that holds a single number of 24 bits takes four bytes in a list; an item of an array takes three. *)
Theorem C97_single_refuted : protocol_from_model Release alone world_new (tris "One") = Ok tri_l /\
  protocol_from_model Release alone world_new (tris "Tri") = Ok tri_a /\
  sget "All" (p_messages_by_name (fst tri_l)) = Some all_l /\ sget "All" (p_messages_by_name (fst tri_a)) = Some all_a /\
  ~ written_alike all_l all_a.
Proof.
  do 4 (split; [vm_compute; reflexivity|]). intros (K & _). apply (all_array Debug [1; 1; 2; 3; 4]). apply K. apply all_list.
Qed.
Print Assumptions C97_single_refuted.
