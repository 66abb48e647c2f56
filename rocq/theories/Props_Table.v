(** C98: the type that is generated for a list of structures is a table of
    rows. The vocabulary is in SpecTable.v. *)

From Coq Require Import Arith NArith List.
From Verif Require Import Base Schema Compiler Access Codec Runtime Gen SpecWire SpecOffsets ArrayWrapper SpecTable TableThms SamplesTable.
Import ListNotations.
Local Open Scope N_scope.

(** Any history of calls on an object that holds rows gives the answers of the
    table and leaves an object that holds the rows of the table. Missing: empty
    structures, and indices whose offset exceeds a usize in release builds. *)
Theorem C98_history_partial : forall m size, 0 < size -> forall cs a rows, holds_rows size a rows -> Forall (sane m size) cs ->
  len rows * size + total size cs < 2 ^ 64 ->
  fst (history (called m size) cs a) = fst (history (on_table size) cs rows) /\
  match snd (history (called m size) cs a), snd (history (on_table size) cs rows) with
  | Some a', Some rows' => holds_rows size a' rows'
  | None, None => True
  | _, _ => False
  end.
Proof. exact table_history. Qed.
Print Assumptions C98_history_partial.

(** A new object holds no rows. *)
Theorem C98_new : forall size, holds_rows size (aw_new []) [].
Proof. exact table_new. Qed.
Print Assumptions C98_new.

(** Bytes are taken as a table of n rows if and only if they are n rows. *)
Theorem C98_from_parts : forall m size, 0 < size -> forall data n, n * size < 2 ^ 64 ->
  (exists a rows, aw_from_parts m size data n = Ok (Some a) /\ holds_rows size a rows /\ data = concat rows /\ n = len rows) \/
  (aw_from_parts m size data n = Ok None /\
   ~ exists rows, Forall (fun row => len row = size) rows /\ data = concat rows /\ n = len rows).
Proof. exact table_parts. Qed.
Print Assumptions C98_from_parts.

(** Put into a message, the table is its count and its rows, and what the
    receiver reads holds the same rows. *)
Theorem C98_sent : forall m size a rows e ty r, holds_rows size a rows ->
  len rows < 2 ^ (8 * N.of_nat (get_byte_size ty)) -> N.of_nat (get_byte_size ty) + len rows * size + len r < 2 ^ 64 ->
  exists prefix, number e (get_byte_size ty) (len rows) prefix /\
  let sent := (prefix ++ concat rows)%list in
  (forall s, listing_write vec_sink (order_of e) (get_byte_size ty) (li_data (aw_to_ref a)) (li_len (aw_to_ref a)) s =
     ((s ++ sent)%list, Ok tt)) /\
  exists data n, array_from_slice m (value_reader e ty) size (sent ++ r) = Ok (len sent, (data, n)) /\
    holds_rows size (aw_from_array (li_from_raw_parts data n)) rows.
Proof. exact table_is_sent. Qed.
Print Assumptions C98_sent.

Example C98_nonvacuous : 0 < 2 /\ (forall m, Forall (sane m 2) table_calls) /\ total 2 table_calls < 2 ^ 64 /\
  history (on_table 2) table_calls [] =
    ([ADone; ADone; ANumber 3; ADone; ARow [4; 3]; ADone; ARows [[7; 7]; [4; 3]; [5; 6]]], None) /\
  history (on_table 2) (firstn 7 table_calls) [] =
    ([ADone; ADone; ANumber 3; ADone; ARow [4; 3]; ADone; ARows [[7; 7]; [4; 3]; [5; 6]]],
     Some [[7; 7]; [4; 3]; [5; 6]]) /\
  (forall m, fst (history (called m 2) table_calls (aw_new [])) = fst (history (on_table 2) table_calls [])) /\
  aw_from_parts Debug 2 [1; 2; 3; 4] 2 = Ok (Some (aw_from_raw_parts [1; 2; 3; 4] 2)) /\
  aw_from_parts Debug 2 [1; 2; 3] 1 = Ok None.
Proof. exact table_nonvacuous. Qed.

(** In a release build an index far beyond the rows gives a row. *)
Theorem C98_index_refuted : exists a rows i, holds_rows 4 a rows /\ len rows < i /\
  aw_get Release 4 i a = Ok [1; 2; 3; 4] /\ aw_get Debug 4 i a = Panic.
Proof. exact far_index. Qed.
Print Assumptions C98_index_refuted.

(** In a release build the offset wraps, and whatever lies there is returned:
    part of a row or of two rows, if the size is not a power of two. *)
Theorem C98_index_exact : forall size a rows i, size < 2 ^ 64 -> holds_rows size a rows -> len rows * size < 2 ^ 64 ->
  aw_get Release size i a =
  let offset := (i * size) mod 2 ^ 64 in
  if offset + size <=? len rows * size then Ok (window (concat rows) offset (offset + size)) else Panic.
Proof. exact index_exact. Qed.
Print Assumptions C98_index_exact.

(** A table of empty structures has an item at every index, even without rows,
    and cannot be iterated. *)
Theorem C98_empty_refuted : forall m i, i < 2 ^ 64 ->
  holds_rows 0 (aw_new []) [] /\ aw_get m 0 i (aw_new []) = Ok [] /\ aw_iter 0 (aw_new []) = Panic.
Proof. exact empty_rows. Qed.
Print Assumptions C98_empty_refuted.
