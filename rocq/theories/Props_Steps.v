(** Property theorems C89: the work of reading is bounded by the input. *)

From Coq Require Import Arith NArith String List Bool Lia.
From Verif Require Import Base Schema Compiler Access Runtime Gen Loader SpecWire SpecRun SpecApart SpecSteps StepsThms ApartRefute SamplesGrow SamplesSteps.
Import ListNotations.
Local Open Scope N_scope.
Local Open Scope string_scope.

(** The reader that counts is the reader. *)
Theorem C89_reader : forall m emb x b, fst (count_msg m emb x b) = read_msg m emb x b.
Proof. exact counts_reader. Qed.
Print Assumptions C89_reader.

(** If no item of a list is empty, no more items are tried than the input has bytes, whatever the input
    says and however reading ends. *)
Theorem C89_bounded_partial : forall m emb x b, items_take_bytes emb x -> len b < 2 ^ 64 -> items_tried m emb x b <= len b.
Proof. exact reading_bounded. Qed.
Print Assumptions C89_bounded_partial.

Example C89_bounded_nonvacuous : run_gives Debug "::" [] tree_p (fst tree_pw) (snd tree_pw) /\ In branch_x (p_messages (fst tree_pw)) /\
  items_take_bytes (marked (snd tree_pw)) branch_x /\ items_tried Debug (marked (snd tree_pw)) branch_x branch_b = 5 /\ len branch_b = 9.
Proof. split; [exact tree_run|]. split; [right; right; left; reflexivity|]. split; [exact branch_items|exact branch_tried]. Qed.

(** A message that takes up bytes is never read from nothing. *)
Theorem C89_items : forall m emb x, takes_bytes x -> forall b n v, len b < 2 ^ 64 -> read_msg m emb x b = Ok (n, v) -> 0 < n.
Proof. exact takes_reads. Qed.
Print Assumptions C89_items.

Example C89_items_nonvacuous : takes_bytes branch_x /\ read_msg Debug (marked (snd tree_pw)) branch_x branch_b = Ok (9, VMsg [VListing [2; 97; 0; 0; 1; 98; 99; 0] 2]).
Proof. split; [eapply takes_member; [left; reflexivity|]; right; cbn; constructor|vm_compute; reflexivity]. Qed.

(** With items that can be read from nothing, the number in front of the list decides. *)
Theorem C89_empty_items : forall m emb x f r ty y v n p, m_fields x = f :: r -> mf_optional f = false -> mf_ty f = TList ty y -> emb (m_id x) = true ->
  read_msg m emb y [] = Ok (0, v) -> number (mf_endi f) (get_byte_size ty) n p -> n <= items_tried m emb x p.
Proof. exact empty_items. Qed.
Print Assumptions C89_empty_items.

(** In an accepted protocol, four bytes have the reader try 2^32 - 1 items. *)
Theorem C89_bounded_refuted : run_gives Debug "::" [] void_p (fst void_pw) (snd void_pw) /\ In many_x (p_messages (fst void_pw)) /\
  2 ^ 32 - 1 <= items_tried Debug (marked (snd void_pw)) many_x [255; 255; 255; 255].
Proof. exact many_tried. Qed.
Print Assumptions C89_bounded_refuted.
