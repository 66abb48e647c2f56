(** Property theorems C82: the project's own descriptions (testprog/src/*.json5), compiled as
    its build script does. [mc] is the build profile of the build script and [m] the one of
    the program. The readers of a protocol are generated in the run that loads it; nothing is
    assumed about how the ones of imported messages were generated. *)

From Coq Require Import Arith NArith String List Bool.
From Verif Require Import Base Schema Compiler Access Bits Runtime Gen SpecStruct SpecWire SpecRun
  TestProgram TestThms.
Import ListNotations.
Local Open Scope N_scope.
Local Open Scope string_scope.

(** All three calls of the build script compile, in both profiles. *)
Theorem C82_builds : forall mc run, In run runs -> exists ps w, build_in mc run = Ok (ps, w).
Proof. exact builds. Qed.
Print Assumptions C82_builds.

(** What is encoded as one of the messages decodes to the value that was encoded. *)
Theorem C82_round_trip : forall mc m run ps w p emb x v b, In run runs -> build_in mc run = Ok (ps, w) ->
  In p ps -> generated_in w p emb -> In x (p_messages p) -> encodes_lax m x v b -> len b < 2 ^ 64 ->
  read_msg m emb x b = Ok (len b, v).
Proof. exact test_round_trip. Qed.
Print Assumptions C82_round_trip.

(** With anything behind it, except for the list of lists Dataset. *)
Theorem C82_stream : forall mc m run ps w p emb x v b s, In run runs -> build_in mc run = Ok (ps, w) ->
  In p ps -> generated_in w p emb -> In x (p_messages p) -> m_name x <> "Dataset" -> encodes_lax m x v b -> len (b ++ s)%list < 2 ^ 64 ->
  read_msg m emb x (b ++ s)%list = Ok (len b, v).
Proof. exact test_stream. Qed.
Print Assumptions C82_stream.

Theorem C82_dataset_refuted : forall mc m, exists ps w p x v b s,
  build_in mc third_run = Ok (ps, w) /\ In p ps /\ In x (p_messages p) /\
  m_name x = "Dataset" /\ encodes m x v b /\
  forall emb, generated_in w p emb -> read_msg m emb x (b ++ s)%list <> Ok (len b, v).
Proof. exact dataset_runs_on. Qed.
Print Assumptions C82_dataset_refuted.

(** An encoding that is cut short is reported as truncated. *)
Theorem C82_truncated : forall mc m run ps w p emb x v b c, In run runs -> build_in mc run = Ok (ps, w) ->
  In p ps -> generated_in w p emb -> In x (p_messages p) -> m_name x <> "Dataset" -> m_name x <> "Test" ->
  encodes_lax m x v (b ++ c)%list -> c <> [] -> len (b ++ c)%list < 2 ^ 64 ->
  read_msg m emb x b = Err Truncated.
Proof. exact test_truncated. Qed.
Print Assumptions C82_truncated.

(** No input makes the reader of any of the messages panic, except the one that contains a
    length-prefixed string. *)
Theorem C82_no_panic : forall mc m run ps w p emb x, In run runs -> build_in mc run = Ok (ps, w) ->
  In p ps -> generated_in w p emb -> In x (p_messages p) -> m_name x <> "Test" ->
  forall b, len b < 2 ^ 64 -> bytes_ok b -> read_msg m emb x b <> Panic.
Proof. exact test_no_panic. Qed.
Print Assumptions C82_no_panic.

Theorem C82_string_refuted : forall mc m, exists ps w p x,
  build_in mc first_run = Ok (ps, w) /\ In p ps /\ In x (p_messages p) /\ m_name x = "Test" /\
  forall emb, read_msg m emb x [0; 5] = Panic.
Proof. exact test_panics. Qed.
Print Assumptions C82_string_refuted.

(** What the reader accepts is an encoding of what it returns. *)
Theorem C82_sound : forall mc m run ps w p emb x b n v, In run runs -> build_in mc run = Ok (ps, w) ->
  In p ps -> generated_in w p emb -> In x (p_messages p) -> m_name x <> "Dataset" -> len b < 2 ^ 64 -> bytes_ok b ->
  read_msg m emb x b = Ok (n, v) ->
  n <= len b /\ encodes_lax m x v (firstn (N.to_nat n) b).
Proof. exact test_sound. Qed.
Print Assumptions C82_sound.

(** Every scalar of every structure, at any depth of nesting, is read from and written to
    exactly its declared bits. *)
Theorem C82_structs : forall E mc mr run ps w p s path o n, In run runs -> build_in mc run = Ok (ps, w) ->
  In p ps -> In s (p_structs p) -> path_at s path o n -> 0 < n <= 64 /\
  forall buf, s_byte_size s <= len buf -> bytes_ok buf ->
    (exists v, path_get (E:=E) mr s path buf = Ok v /\ is_field_value buf o n v) /\
    (forall v, exists buf', path_set (E:=E) mr s path buf v = Ok buf' /\ is_field_update buf o n v buf').
Proof. exact test_structs. Qed.
Print Assumptions C82_structs.

(** The messages and structures these theorems are about. *)
Example C82_nonvacuous :
  map (fun run => match build_in Release run with
                  | Ok (ps, _) => (flat_map (fun p => map m_name (p_messages p)) ps, flat_map (fun p => map s_name (p_structs p)) ps)
                  | _ => ([], []) end) runs =
  [(["Test1"; "Test"; "ValueString"; "Msg"; "Msg1"],
    ["IntContainer"; "Numbers"; "Flags"; "Floats"; "Master"; "Numbers"; "Numbers"; "Floats"; "Basic"; "Header";
     "ValueInt8"; "ValueInt16"; "ValueInt32"; "ValueInt64"; "ValueUInt8"; "ValueUInt16"; "ValueUInt32"; "ValueUInt64";
     "ValueFloat"; "ValueDouble"; "Header"; "Header2"; "Item"]);
   (["Item"], []); (["SpanRun"; "Dataset"], ["Times"])].
Proof. vm_compute. reflexivity. Qed.
