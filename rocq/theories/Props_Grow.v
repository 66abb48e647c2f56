(** Property theorems C86: cases that are added to a union do not disturb what there is. [mc] is the
    build profile of the compiler and [mr] the one of the programs; [w] and [w'] are the states in which
    the programs without and with the new cases are generated. *)

From Coq Require Import Arith NArith String List Bool Lia.
From Verif Require Import Base Schema Compiler Access Runtime Gen Loader SpecLoader SpecWire SpecRun SpecExact SpecDecode SpecApart WriteThms
  SpecGrow GrowThms GrowExact GrowWrite GrowComp GrowRun ApartRefute SamplesGrow.
Import ListNotations.
Local Open Scope N_scope.
Local Open Scope string_scope.

(** What is compiled from the descriptions with the new cases is what was compiled before, but for the
    new cases and structures, for sizes that the compiler notes and for the way it numbers things. *)
Theorem C86_compile : forall m same0 solver solver' w w' d d' p w1 p' w1', cases_added d d' ->
  numbers_alike same0 w w' -> grown_imports same0 solver solver' ->
  protocol_from_model m solver w d = Ok (p, w1) -> protocol_from_model m solver' w' d' = Ok (p', w1') ->
  exists same : N -> N -> Prop, (forall i i', same0 i i' -> same i i') /\ numbers_alike same w1 w1' /\ grown_protocol same p p'.
Proof. exact compile_cases. Qed.
Print Assumptions C86_compile.

Theorem C86_names : forall mc sep earlier earlier' d d' p p' w w', later_models earlier earlier' -> cases_added d d' ->
  run_gives mc sep earlier d p w -> run_gives mc sep earlier' d' p' w' ->
  map m_name (p_messages p') = map m_name (p_messages p) /\ map u_name (p_unions p') = map u_name (p_unions p) /\
  (forall k x x', nth_error (p_messages p) k = Some x -> nth_error (p_messages p') k = Some x' ->
     map mf_name (m_fields x') = map mf_name (m_fields x)) /\
  exists more, map s_name (p_structs p') = (map s_name (p_structs p) ++ more)%list.
Proof. exact program_names. Qed.
Print Assumptions C86_names.

(** The new program reads what the old one reads, with the same result, and reports the same errors,
    but where the old one finds a discriminant that stands for no case. *)
Theorem C86_new_reader : forall mc mr sep earlier earlier' d d' p p' w w', later_models earlier earlier' -> cases_added d d' ->
  run_gives mc sep earlier d p w -> run_gives mc sep earlier' d' p' w' ->
  forall k x x' b, nth_error (p_messages p) k = Some x -> nth_error (p_messages p') k = Some x' ->
  (forall r, read_msg mr (marked w) x b = r -> (forall n, r <> Err (InvalidUnionDiscriminant n)) -> read_msg mr (marked w') x' b = r) /\
  (forall r, read_msg_offsets mr (marked w) x b = r -> (forall n, r <> Err (InvalidUnionDiscriminant n)) ->
     read_msg_offsets mr (marked w') x' b = r).
Proof. exact program_new_reader. Qed.
Print Assumptions C86_new_reader.

(** The old program reads what the new one reads if no union has a new case; otherwise it reports that
    a discriminant stands for no case. *)
Theorem C86_old_reader : forall mc mr sep earlier earlier' d d' p p' w w', later_models earlier earlier' -> cases_added d d' ->
  run_gives mc sep earlier d p w -> run_gives mc sep earlier' d' p' w' ->
  forall k x x' b n v, nth_error (p_messages p) k = Some x -> nth_error (p_messages p') k = Some x' ->
  len b < 2 ^ 64 -> bytes_ok b -> read_msg mr (marked w') x' b = Ok (n, v) ->
  (~ uses_new mr (marked w') x x' v -> read_msg mr (marked w) x b = Ok (n, v)) /\
  (uses_new mr (marked w') x x' v -> exists n, read_msg mr (marked w) x b = Err (InvalidUnionDiscriminant n)).
Proof. exact program_old_reader. Qed.
Print Assumptions C86_old_reader.

(** Encodings stay what they are, and both programs write them. *)
Theorem C86_written : forall mc mr sep earlier earlier' d d' p p' w w', later_models earlier earlier' -> cases_added d d' ->
  run_gives mc sep earlier d p w -> run_gives mc sep earlier' d' p' w' ->
  forall k x x' v b, nth_error (p_messages p) k = Some x -> nth_error (p_messages p') k = Some x' -> encodes mr x v b ->
  encodes mr x' v b /\ forall s, write_vec mr x v s = ((s ++ b)%list, Ok tt) /\ write_vec mr x' v s = ((s ++ b)%list, Ok tt).
Proof. exact program_written. Qed.
Print Assumptions C86_written.

(** An imported union gets a case with a new structure; boxes of items with that union. *)
Example C86_nonvacuous : later_models [("crate::parts", parts_old)] [("crate::parts", parts_new)] /\ cases_added net_d net_d /\
  run_gives Debug "::" [("crate::parts", parts_old)] net_d (fst old_pw) (snd old_pw) /\
  run_gives Debug "::" [("crate::parts", parts_new)] net_d (fst new_pw) (snd new_pw) /\
  nth_error (p_messages (fst old_pw)) 1 = Some box_old /\ nth_error (p_messages (fst new_pw)) 1 = Some box_new /\ box_old <> box_new /\
  (forall m, read_msg m (marked (snd old_pw)) box_old box_b2 = Ok (5, box_v2) /\
     read_msg m (marked (snd new_pw)) box_new box_b2 = Ok (5, box_v2) /\ ~ uses_new m (marked (snd new_pw)) box_old box_new box_v2) /\
  forall m, read_msg m (marked (snd new_pw)) box_new box_b3 = Ok (6, box_v3) /\ uses_new m (marked (snd new_pw)) box_old box_new box_v3 /\
    read_msg m (marked (snd old_pw)) box_old box_b3 = Err (InvalidUnionDiscriminant 3).
Proof.
  split; [exact parts_added|]. split; [exact net_same|]. split; [exact old_run|]. split; [exact new_run|]. split; [reflexivity|]. split; [reflexivity|].
  split; [discriminate|]. split.
  - intro m. assert (R : read_msg m (marked (snd old_pw)) box_old box_b2 = Ok (5, box_v2)) by (destruct m; vm_compute; reflexivity).
    assert (R' : read_msg m (marked (snd new_pw)) box_new box_b2 = Ok (5, box_v2)) by (destruct m; vm_compute; reflexivity).
    split; [exact R|]. split; [exact R'|]. intro U.
    destruct (program_old_reader Debug m "::" _ _ _ _ _ _ _ _ parts_added net_same old_run new_run 1 box_old box_new box_b2 5 box_v2) as (_ & H);
      [reflexivity|reflexivity|vm_compute; reflexivity|repeat constructor; vm_compute; reflexivity|exact R'|].
    destruct (H U) as (n & E). congruence.
  - intro m. split; [destruct m; vm_compute; reflexivity|]. split; [apply box_new_case|destruct m; vm_compute; reflexivity].
Qed.

Example C86_written_nonvacuous : forall m, encodes m item_old (VMsg [VStruct [2; 0]; VUnion 1 (Some (VStruct [7; 8]))]) [2; 0; 7; 8].
Proof.
  intro m. unfold encodes. cbn. exists [2; 0], [7; 8]. split; [reflexivity|]. split; [repeat split; repeat constructor; lia|].
  exists [7; 8], []. split; [reflexivity|]. split; [|reflexivity]. exists [2; 0], 2. split; [reflexivity|]. split; [destruct m; vm_compute; reflexivity|].
  repeat split; try (intro; discriminate); repeat constructor; lia.
Qed.
