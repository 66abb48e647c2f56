(** Property theorems C90: definitions can be moved to a protocol of their own. [mc] is the build profile
    of the compiler and [mr] the one of the programs. [d] is compiled after [earlier]; or [q] is, and then
    [d'], which imports from [q]. *)

From Coq Require Import Arith NArith String List Bool Lia Permutation.
From Verif Require Import Base Schema Compiler Access Runtime Gen Loader SpecLoader SpecWire SpecRun SpecApart SpecGrow SpecOrder SpecSplit SplitRun
  ApartRefute SamplesGrow SamplesOrder SamplesSplit.
Import ListNotations.
Local Open Scope N_scope.
Local Open Scope string_scope.

(** Every message is in one of the two protocols. *)
Theorem C90_messages : forall mc sep path earlier d q d' p pq p' w wq w', split_off d q d' -> run_gives mc sep earlier d p w ->
  run_gives mc sep earlier q pq wq -> run_gives mc sep (earlier ++ [(path, q)])%list d' p' w' ->
  Permutation (map m_name (p_messages p)) (map m_name (p_messages pq ++ p_messages p')%list).
Proof. exact split_messages. Qed.
Print Assumptions C90_messages.

(** There it reads and writes as before, if the code is generated in the state at the end of each run. *)
Theorem C90_alike : forall mc mr sep path earlier d q d' p pq p' w wq w', names_once earlier -> split_off d q d' -> run_gives mc sep earlier d p w ->
  run_gives mc sep earlier q pq wq -> run_gives mc sep (earlier ++ [(path, q)])%list d' p' w' ->
  forall x x', In x (p_messages p) -> In x' (p_messages pq) \/ In x' (p_messages p') -> m_name x' = m_name x -> works_alike mr (marked w) (marked w') x x'.
Proof. exact split_alike. Qed.
Print Assumptions C90_alike.

(** Structures and enums stay the same. *)
Theorem C90_structures : forall mc mr sep path earlier d q d' p pq p' w wq w', names_once earlier -> split_off d q d' -> run_gives mc sep earlier d p w ->
  run_gives mc sep earlier q pq wq -> run_gives mc sep (earlier ++ [(path, q)])%list d' p' w' ->
  forall r n s, r = pq \/ r = p' -> sget n (p_structs_by_name r) = Some s -> exists s', sget n (p_structs_by_name p) = Some s' /\
  s_byte_size s' = s_byte_size s /\ map field_name (s_fields s') = map field_name (s_fields s) /\
  (forall path data, path_get (E:=rerror) mr s' path data = path_get mr s path data) /\
  (forall path data v, path_set (E:=rerror) mr s' path data v = path_set mr s path data v) /\
  forall i f, nth_error (s_fields s) i = Some f -> (forall nm t loc, f <> FStruct nm t loc) -> nth_error (s_fields s') i = Some f.
Proof. exact split_structures. Qed.
Print Assumptions C90_structures.

Theorem C90_enums : forall mc sep path earlier d q d' p pq p' w wq w', names_once earlier -> split_off d q d' -> run_gives mc sep earlier d p w ->
  run_gives mc sep earlier q pq wq -> run_gives mc sep (earlier ++ [(path, q)])%list d' p' w' ->
  forall r n e, r = pq \/ r = p' -> sget n (p_enums_by_name r) = Some e -> sget n (p_enums_by_name p) = Some e.
Proof. exact split_enums. Qed.
Print Assumptions C90_enums.

(** Two messages are moved, and a message that is left has a list of one of them. *)
Example C90_nonvacuous : names_once [("crate::parts", parts_old)] /\ split_off net_first goods net_left /\
  run_gives Debug "::" [("crate::parts", parts_old)] net_first (fst first_pw) (snd first_pw) /\
  run_gives Debug "::" [("crate::parts", parts_old)] goods (fst goods_pw) (snd goods_pw) /\
  run_gives Debug "::" ([("crate::parts", parts_old)] ++ [("crate::goods", goods)])%list net_left (fst left_pw) (snd left_pw) /\
  In crate_first (p_messages (fst first_pw)) /\ In crate_left (p_messages (fst left_pw)) /\ m_name crate_left = m_name crate_first /\
  In box_goods (p_messages (fst goods_pw)) /\ marked (snd goods_pw) (m_id box_goods) <> marked (snd left_pw) (m_id box_goods) /\
  read_msg Debug (marked (snd first_pw)) crate_first crate_b = Ok (8, VMsg [VListing [2; 2; 0; 7; 8; 1; 0] 1]).
Proof.
  split; [exact parts_once|]. split; [exact net_split|]. split; [exact first_run|]. split; [exact goods_run|]. split; [exact left_run|].
  split; [right; right; left; reflexivity|]. split; [left; reflexivity|]. split; [reflexivity|]. split; [right; left; reflexivity|].
  split; [vm_compute; discriminate|]. vm_compute. reflexivity.
Qed.

(** If the two protocols are generated by runs of their own, what is left still writes as before, and
    reads as before provided that no message has a list of an imported message that has a list. *)
Theorem C90_apart_partial : forall mc mr sep path earlier d q d' p pq p' w wq w', names_once earlier -> split_off d q d' -> run_gives mc sep earlier d p w ->
  run_gives mc sep earlier q pq wq -> run_gives mc sep (earlier ++ [(path, q)])%list d' p' w' ->
  forall path' emb, program mc sep ((earlier ++ [(path, q)]) ++ [(path', d')])%list emb ->
  (forall e b u e' r t, ((earlier ++ [(path, q)]) ++ [(path', d')] = e ++ (b, u) :: e')%list -> run_gives mc sep e u r t -> ~ lists_imported r) ->
  forall x x', In x (p_messages p) -> In x' (p_messages p') -> m_name x' = m_name x ->
  (forall b, read_msg mr emb x' b = read_msg mr (marked w) x b) /\
  (forall St (o : sink St) v s, write_msg mr o x' v s = write_msg mr o x v s).
Proof. exact split_apart. Qed.
Print Assumptions C90_apart_partial.

Example C90_apart_nonvacuous : split_off boxes_one base_v boxes_v /\ run_gives Debug "::" [] boxes_one (fst boxes_one_pw) (snd boxes_one_pw) /\
  run_gives Debug "::" [] base_v (fst base_pw) (snd base_pw) /\ run_gives Debug "::" ([] ++ [("crate::base", base_v)])%list boxes_v (fst boxes_pw) (snd boxes_pw) /\
  (exists emb, program Debug "::" (([] ++ [("crate::base", base_v)]) ++ [("crate::boxes", boxes_v)])%list emb) /\
  (forall e b u e' r t, (([] ++ [("crate::base", base_v)]) ++ [("crate::boxes", boxes_v)] = e ++ (b, u) :: e')%list -> run_gives Debug "::" e u r t -> ~ lists_imported r) /\
  In box_one (p_messages (fst boxes_one_pw)) /\ In box_apart (p_messages (fst boxes_pw)) /\ m_name box_apart = m_name box_one /\
  read_msg Debug (marked (snd boxes_one_pw)) box_one [2; 7; 8; 9] = Ok (3, VMsg [VListing [7; 8] 2]).
Proof.
  split; [exact boxes_split|]. split; [exact boxes_one_run|]. split; [apply base_run|]. split; [exact boxes_run|]. split; [exact boxes_program|].
  split; [exact boxes_guard|]. split; [do 2 right; left; reflexivity|]. split; [left; reflexivity|]. split; [reflexivity|]. vm_compute. reflexivity.
Qed.

(** With such a list, what was read before is rejected. *)
Theorem C90_apart_refuted : split_off one_v base_v more_v /\
  run_gives Debug "::" [] one_v (fst one_pw) (snd one_pw) /\ run_gives Debug "::" [("crate::base", base_v)] more_v (fst more_pw) (snd more_pw) /\
  In outer_m (p_messages (fst one_pw)) /\ In outer_m (p_messages (fst more_pw)) /\
  (forall m, read_msg m (marked (snd one_pw)) outer_m two_inners = Ok (len two_inners, two_v)) /\
  forall m emb path', program Debug "::" [("crate::base", base_v); (path', more_v)] emb -> read_msg m emb outer_m two_inners = Err Truncated.
Proof. exact split_read_differs. Qed.
Print Assumptions C90_apart_refuted.
