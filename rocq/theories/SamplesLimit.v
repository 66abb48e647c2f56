(** Samples for C88: limits that are raised. *)

From Coq Require Import Arith NArith ZArith Ascii String List Bool Lia.
From Verif Require Import Base Schema Codec Compiler Access SpecStruct SpecComp Runtime Gen Loader SpecLoader SpecRun SpecApart SpecWire
  Samples SamplesComp ApartRefute SpecGrow SamplesGrow SpecLimit.
Import ListNotations.
Local Open Scope N_scope.
Local Open Scope string_scope.

Definition line_d (limit : N) : smessage := {| sm_name := "Line"; sm_fields := [ fld "text" (MTString (Some limit)); fld "rest" MTPayload ] |}.
Definition page_d (limit : N) : smessage :=
  {| sm_name := "Page"; sm_fields := [ {| smf_name := "pairs"; smf_info := MTList limit "Pair"; smf_optional := Some true |}; fld "line" (MTItem "Line") ] |}.
Definition book (a b : N) : sprotocol := proto "book" [] [pair_s] [line_d a; page_d b].
Definition book_calls (a b : N) : list call := [LLoad (book a b)].
Lemma book_other : forall L : N -> N -> Prop, forall a a' b b', L a a' -> L b b' -> Forall2 (other_call L) (book_calls a b) (book_calls a' b').
Proof.
  intros L a a' b b' Ha Hb. constructor; [|constructor]. cbn. unfold other_limits. cbn. do 6 (split; [reflexivity|]).
  constructor; [|constructor; [|constructor]]; (split; [reflexivity|]); cbn.
  - constructor; [split; [reflexivity|]; split; [reflexivity|]; constructor; exact Ha|]. constructor; [|constructor]. split; [reflexivity|]. split; [reflexivity|]. apply limit_same.
  - constructor; [split; [reflexivity|]; split; [reflexivity|]; constructor; exact Hb|]. constructor; [|constructor]. split; [reflexivity|]. split; [reflexivity|]. apply limit_same.
Qed.
Definition compiled_book (a b : N) : list protocol * world :=
  match loader_compile Debug (loader_after (book_calls a b)) (solver_new "::") with Ok r => r | _ => ([], world_new) end.
Definition small_book := Eval vm_compute in compiled_book 100 100.
Definition large_book := Eval vm_compute in compiled_book 300 100.
Lemma small_book_compiled : loader_compile Debug (loader_after (book_calls 100 100)) (solver_new "::") = Ok small_book.
Proof. vm_compute. reflexivity. Qed.
Lemma large_book_compiled : loader_compile Debug (loader_after (book_calls 300 100)) (solver_new "::") = Ok large_book.
Proof. vm_compute. reflexivity. Qed.
Definition small_p : protocol := Eval vm_compute in nth 0 (fst small_book) (protocol_empty "").
Definition large_p : protocol := Eval vm_compute in nth 0 (fst large_book) (protocol_empty "").
Definition small_page : message := Eval vm_compute in nth 1 (p_messages small_p) dummy_x.
Definition large_page : message := Eval vm_compute in nth 1 (p_messages large_p) dummy_x.
Definition small_line : message := Eval vm_compute in nth 0 (p_messages small_p) dummy_x.
Definition large_line : message := Eval vm_compute in nth 0 (p_messages large_p) dummy_x.
(** A page with two pairs and a line of the text [a]. *)
Definition page_v : value := VMsg [VOpt (Some (VListing [5; 6; 7; 8] 2)); VMsg [VStr [97]; VPayload [9]]].
Lemma page_affected : affected small_page large_page page_v.
Proof.
  eapply (affected_inside _ _ _ 1); [reflexivity|reflexivity|reflexivity|apply SpecExact.holds_message; reflexivity|apply SpecExact.holds_message; reflexivity|].
  eapply (affected_length _ _ _ 0); [reflexivity|reflexivity|reflexivity|reflexivity|]. constructor. discriminate.
Qed.
Lemma utf8_a : SpecUtf8.is_utf8 [97].
Proof. apply (Utf8Thms.utf8_sound 1); [cbn; lia|reflexivity]. Qed.
Ltac digits := split; [reflexivity|]; split; [repeat constructor; lia|]; reflexivity.
Lemma line_small : encodes Debug small_line (VMsg [VStr [97]; VPayload [9]]) [1; 97; 9].
Proof.
  apply MsgFacts.enc_msg_eq. exists [1; 97], [9]. split; [reflexivity|]. split; [split; [exact utf8_a|]; exists [1]; split; [digits|reflexivity]|].
  exists [9], []. split; [reflexivity|]. split; [|reflexivity]. split; [repeat constructor; lia|reflexivity].
Qed.
Lemma line_large : encodes Debug large_line (VMsg [VStr [97]; VPayload [9]]) [1; 0; 97; 9].
Proof.
  apply MsgFacts.enc_msg_eq. exists [1; 0; 97], [9]. split; [reflexivity|]. split; [split; [exact utf8_a|]; exists [1; 0]; split; [digits|reflexivity]|].
  exists [9], []. split; [reflexivity|]. split; [|reflexivity]. split; [repeat constructor; lia|reflexivity].
Qed.
Lemma page_small : encodes Debug small_page page_v [1; 2; 5; 6; 7; 8; 1; 97; 9].
Proof.
  apply MsgFacts.enc_msg_eq. exists [1; 2; 5; 6; 7; 8], [1; 97; 9]. split; [reflexivity|]. split.
  { exists 1, [2; 5; 6; 7; 8]. split; [lia|]. split; [reflexivity|]. split; [reflexivity|]. split; [reflexivity|]. split; [repeat constructor; lia|]. exists [2]. split; [digits|reflexivity]. }
  exists [1; 97; 9], []. split; [reflexivity|]. split; [exact line_small|reflexivity].
Qed.
Lemma page_large : encodes Debug large_page page_v [1; 2; 5; 6; 7; 8; 1; 0; 97; 9].
Proof.
  apply MsgFacts.enc_msg_eq. exists [1; 2; 5; 6; 7; 8], [1; 0; 97; 9]. split; [reflexivity|]. split.
  { exists 1, [2; 5; 6; 7; 8]. split; [lia|]. split; [reflexivity|]. split; [reflexivity|]. split; [reflexivity|]. split; [repeat constructor; lia|]. exists [2]. split; [digits|reflexivity]. }
  exists [1; 0; 97; 9], []. split; [reflexivity|]. split; [exact line_large|reflexivity].
Qed.
(** The program with the larger limit misreads what the one with the smaller limit has written. *)
Theorem misread : encodes Debug small_line (VMsg [VStr [0]; VPayload [97]]) [1; 0; 97] /\
  read_msg Debug (marked (snd small_book)) small_line [1; 0; 97] = Ok (3, VMsg [VStr [0]; VPayload [97]]) /\
  read_msg Debug (marked (snd large_book)) large_line [1; 0; 97] = Ok (3, VMsg [VStr [97]; VPayload []]).
Proof.
  split; [|split; vm_compute; reflexivity]. apply MsgFacts.enc_msg_eq. exists [1; 0], [97]. split; [reflexivity|].
  split; [split; [apply (Utf8Thms.utf8_sound 1); [cbn; lia|reflexivity]|]; exists [1]; split; [digits|reflexivity]|].
  exists [97], []. split; [reflexivity|]. split; [|reflexivity]. split; [repeat constructor; lia|reflexivity].
Qed.
(** Nothing checks the limit itself: here it is 1 and the text has two bytes. *)
Definition tiny_book := Eval vm_compute in compiled_book 1 1.
Definition tiny_line : message := Eval vm_compute in nth 0 (p_messages (nth 0 (fst tiny_book) (protocol_empty ""))) dummy_x.
Theorem not_enforced : loader_compile Debug (loader_after (book_calls 1 1)) (solver_new "::") = Ok tiny_book /\
  option_map p_messages (nth_error (fst tiny_book) 0) = Some [tiny_line; nth 1 (p_messages (nth 0 (fst tiny_book) (protocol_empty ""))) dummy_x] /\
  read_msg Debug (marked (snd tiny_book)) tiny_line [2; 97; 98] = Ok (3, VMsg [VStr [97; 98]; VPayload []]) /\
  write_msg Debug vec_sink tiny_line (VMsg [VStr [97; 98]; VPayload []]) [] = ([2; 97; 98], Ok tt).
Proof. vm_compute. auto. Qed.
