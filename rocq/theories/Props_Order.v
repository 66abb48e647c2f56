(** Property theorems C87: the order in which things are defined, and definitions that nothing refers
    to, do not change what programs read and write. [mc] is the build profile of the compiler and [mr]
    the one of the programs; [w] and [w'] are the states in which the two programs are generated. *)

From Coq Require Import Arith NArith String List Bool Lia Permutation.
From Verif Require Import Base Schema Compiler Access Runtime Gen Loader SpecLoader SpecWire SpecRun SpecApart SpecGrow SpecOrder OrderThms OrderComp OrderFacts
  OrderRun ApartRefute SamplesGrow SamplesOrder.
Import ListNotations.
Local Open Scope N_scope.
Local Open Scope string_scope.

(** The two programs have messages of the same names, and those of the same name read and write alike. *)
Theorem C87_messages : forall mc sep earlier earlier' d d' p p' w w', rearranged d d' ->
  run_gives mc sep earlier d p w -> run_gives mc sep earlier' d' p' w' ->
  Permutation (map m_name (p_messages p)) (map m_name (p_messages p')).
Proof. exact order_messages. Qed.
Print Assumptions C87_messages.

Theorem C87_alike : forall mc mr sep earlier earlier' d d' p p' w w', rearranged_all earlier earlier' -> rearranged d d' ->
  run_gives mc sep earlier d p w -> run_gives mc sep earlier' d' p' w' ->
  forall x x', In x (p_messages p) -> In x' (p_messages p') -> m_name x' = m_name x -> works_alike mr (marked w) (marked w') x x'.
Proof. exact order_alike. Qed.
Print Assumptions C87_alike.

(** Structures have the same size and fields, which are accessed alike. *)
Theorem C87_structures : forall mc mr sep earlier earlier' d d' p p' w w', rearranged_all earlier earlier' -> rearranged d d' ->
  run_gives mc sep earlier d p w -> run_gives mc sep earlier' d' p' w' ->
  forall n s, sget n (p_structs_by_name p) = Some s -> exists s', sget n (p_structs_by_name p') = Some s' /\
  s_byte_size s' = s_byte_size s /\ map field_name (s_fields s') = map field_name (s_fields s) /\
  (forall path data, path_get (E:=rerror) mr s' path data = path_get mr s path data) /\
  (forall path data v, path_set (E:=rerror) mr s' path data v = path_set mr s path data v) /\
  forall i f, nth_error (s_fields s) i = Some f -> (forall nm t loc, f <> FStruct nm t loc) -> nth_error (s_fields s') i = Some f.
Proof. exact order_structures. Qed.
Print Assumptions C87_structures.

Theorem C87_enums : forall mc sep earlier earlier' d d' p p' w w', rearranged_all earlier earlier' -> rearranged d d' ->
  run_gives mc sep earlier d p w -> run_gives mc sep earlier' d' p' w' ->
  forall n e, sget n (p_enums_by_name p) = Some e -> sget n (p_enums_by_name p') = Some e.
Proof. exact order_enums. Qed.
Print Assumptions C87_enums.

Theorem C87_unions : forall mc mr sep earlier earlier' d d' p p' w w', rearranged_all earlier earlier' -> rearranged d d' ->
  run_gives mc sep earlier d p w -> run_gives mc sep earlier' d' p' w' ->
  forall n u, sget n (p_unions_by_name p) = Some u -> exists u', sget n (p_unions_by_name p') = Some u' /\
  map uc_name (u_cases u') = map uc_name (u_cases u) /\ map uc_case (u_cases u') = map uc_case (u_cases u) /\
  forall k data, set_discriminant mr u' k data = set_discriminant mr u k data.
Proof. exact order_unions. Qed.
Print Assumptions C87_unions.

(** Two protocols; in the other version a structure that nothing refers to comes between the two that
    there are, the imports are swapped and the last message comes first. *)
Example C87_nonvacuous : rearranged_all [("crate::parts", parts_old)] [("crate::parts", parts_turned)] /\ rearranged net_first net_turned /\
  run_gives Debug "::" [("crate::parts", parts_old)] net_first (fst first_pw) (snd first_pw) /\
  run_gives Debug "::" [("crate::parts", parts_turned)] net_turned (fst turned_pw) (snd turned_pw) /\
  In crate_first (p_messages (fst first_pw)) /\ In crate_turned (p_messages (fst turned_pw)) /\
  m_name crate_turned = m_name crate_first /\ m_id crate_turned <> m_id crate_first /\
  map m_name (p_messages (fst turned_pw)) <> map m_name (p_messages (fst first_pw)) /\
  read_msg Debug (marked (snd first_pw)) crate_first crate_b = Ok (8, VMsg [VListing [2; 2; 0; 7; 8; 1; 0] 1]).
Proof.
  split; [exact parts_rearranged|]. split; [exact net_rearranged|]. split; [exact first_run|]. split; [exact turned_run|].
  split; [right; right; left; reflexivity|]. split; [right; right; right; left; reflexivity|]. split; [reflexivity|]. split; [vm_compute; discriminate|].
  split; [vm_compute; discriminate|]. vm_compute. reflexivity.
Qed.

(** That every name is given once is needed: here two structures of one name are swapped. *)
Theorem C87_twice_refuted : Permutation (sp_structs twice_one) (sp_structs twice_two) /\ sp_messages twice_one = sp_messages twice_two /\
  run_gives Debug "::" [] twice_one (fst one_pw2) (snd one_pw2) /\ run_gives Debug "::" [] twice_two (fst two_pw2) (snd two_pw2) /\
  p_messages (fst one_pw2) = [shape_one] /\ p_messages (fst two_pw2) = [shape_two] /\
  ~ works_alike Debug (marked (snd one_pw2)) (marked (snd two_pw2)) shape_one shape_two.
Proof. exact twice_differs. Qed.
Print Assumptions C87_twice_refuted.

(** The order decides whether a protocol is accepted: a message has to come after those it refers to. *)
Theorem C87_accepted_refuted : rearranged net_first net_early /\
  loader_compile Debug (loader_after (run_of [("crate::parts", parts_old)] net_early)) (solver_new "::") = Err (EUndefinedReference "Item").
Proof. exact early_refused. Qed.
Print Assumptions C87_accepted_refuted.
