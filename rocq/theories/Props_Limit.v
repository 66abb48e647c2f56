(** Property theorems C88: other limits for strings and lists. [mc] is the build profile of the compiler
    and [mr] the one of the programs; [l] and [l'] are the descriptions given to the compiler. *)

From Coq Require Import Arith NArith String List Bool Lia.
From Verif Require Import Base Schema Compiler Access Runtime Gen Loader SpecLoader SpecWire SpecRun SpecLimit LimitComp LimitThms ApartRefute SamplesGrow SamplesLimit.
Import ListNotations.
Local Open Scope N_scope.
Local Open Scope string_scope.

(** As long as the number of bytes for the length stays the same, so does everything the compiler
    comes to: the compiled protocols or the error. *)
Theorem C88_kept : forall mc sep l l', Forall2 (other_call kept) l l' ->
  loader_compile mc (loader_after l') (solver_new sep) = loader_compile mc (loader_after l) (solver_new sep).
Proof. exact kept_same. Qed.
Print Assumptions C88_kept.

Example C88_kept_nonvacuous : Forall2 (other_call kept) (book_calls 100 300) (book_calls 255 65535) /\ book_calls 100 300 <> book_calls 255 65535 /\
  exists ps w, loader_compile Debug (loader_after (book_calls 100 300)) (solver_new "::") = Ok (ps, w) /\ length ps = 1%nat.
Proof. split; [apply book_other; reflexivity|]. split; [discriminate|]. eexists _, _. split; [vm_compute; reflexivity|reflexivity]. Qed.

(** Whatever the limits, descriptions are accepted or rejected alike, with the same error, and have the
    same structures, enums and messages by name. *)
Theorem C88_accepted : forall mc sep l l', Forall2 (other_call (fun _ _ => True)) l l' ->
  ends_alike (fun r r' => snd r' = snd r /\ map p_name (fst r') = map p_name (fst r) /\
      map (fun p => map m_name (p_messages p)) (fst r') = map (fun p => map m_name (p_messages p)) (fst r) /\
      map p_structs (fst r') = map p_structs (fst r) /\ map p_enums (fst r') = map p_enums (fst r))
    (loader_compile mc (loader_after l) (solver_new sep)) (loader_compile mc (loader_after l') (solver_new sep)).
Proof. exact limits_accepted. Qed.
Print Assumptions C88_accepted.

Example C88_accepted_nonvacuous : Forall2 (other_call (fun _ _ => True)) (book_calls 100 100) (book_calls 0 5000000000) /\
  loader_compile Debug (loader_after (book_calls 100 100)) (solver_new "::") = Ok small_book.
Proof. split; [apply book_other; exact I|exact small_book_compiled]. Qed.

(** When limits are raised, a value keeps its encoding exactly if none of the lengths in it takes up
    another number of bytes; otherwise the encoding gets longer. Values without lists of messages that
    had an encoding still have one. *)
Theorem C88_wire : forall mc mr sep l l' ps w ps' w', Forall2 (other_call raised) l l' ->
  loader_compile mc (loader_after l) (solver_new sep) = Ok (ps, w) -> loader_compile mc (loader_after l') (solver_new sep) = Ok (ps', w') ->
  forall i p p' j x x', nth_error ps i = Some p -> nth_error ps' i = Some p' -> nth_error (p_messages p) j = Some x -> nth_error (p_messages p') j = Some x' ->
  (forall v b b', encodes mr x v b -> encodes mr x' v b' -> (length b <= length b')%nat /\ (b' = b <-> ~ affected x x' v)) /\
  (without_lists x -> forall v b, encodes mr x v b -> exists b', encodes mr x' v b').
Proof. exact limits_wire. Qed.
Print Assumptions C88_wire.

Example C88_wire_nonvacuous : Forall2 (other_call raised) (book_calls 100 100) (book_calls 300 100) /\
  loader_compile Debug (loader_after (book_calls 100 100)) (solver_new "::") = Ok small_book /\
  loader_compile Debug (loader_after (book_calls 300 100)) (solver_new "::") = Ok large_book /\
  nth_error (fst small_book) 0 = Some small_p /\ nth_error (fst large_book) 0 = Some large_p /\
  nth_error (p_messages small_p) 1 = Some small_page /\ nth_error (p_messages large_p) 1 = Some large_page /\
  affected small_page large_page page_v /\
  encodes Debug small_page page_v [1; 2; 5; 6; 7; 8; 1; 97; 9] /\ encodes Debug large_page page_v [1; 2; 5; 6; 7; 8; 1; 0; 97; 9].
Proof.
  split; [apply book_other; unfold raised; lia|]. split; [exact small_book_compiled|]. split; [exact large_book_compiled|]. do 4 (split; [reflexivity|]).
  split; [exact page_affected|]. split; [exact page_small|exact page_large].
Qed.

(** Programs before and after such a change cannot exchange messages: what one has written is read as
    something else by the other. *)
Theorem C88_exchange_refuted : encodes Debug small_line (VMsg [VStr [0]; VPayload [97]]) [1; 0; 97] /\
  read_msg Debug (marked (snd small_book)) small_line [1; 0; 97] = Ok (3, VMsg [VStr [0]; VPayload [97]]) /\
  read_msg Debug (marked (snd large_book)) large_line [1; 0; 97] = Ok (3, VMsg [VStr [97]; VPayload []]).
Proof. exact misread. Qed.
Print Assumptions C88_exchange_refuted.

(** The limits are not enforced: with a limit of 1, two bytes are written and read. *)
Theorem C88_enforced_refuted : loader_compile Debug (loader_after (book_calls 1 1)) (solver_new "::") = Ok tiny_book /\
  option_map p_messages (nth_error (fst tiny_book) 0) = Some [tiny_line; nth 1 (p_messages (nth 0 (fst tiny_book) (protocol_empty ""))) dummy_x] /\
  read_msg Debug (marked (snd tiny_book)) tiny_line [2; 97; 98] = Ok (3, VMsg [VStr [97; 98]; VPayload []]) /\
  write_msg Debug vec_sink tiny_line (VMsg [VStr [97; 98]; VPayload []]) [] = ([2; 97; 98], Ok tt).
Proof. exact not_enforced. Qed.
Print Assumptions C88_enforced_refuted.
