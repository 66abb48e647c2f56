(** Property theorems C73 and C74: the names in the generated Rust code, and the
    parameters of the generated types. The vocabulary ([methods], [types],
    [no_clash], [no_hiding], [run_from_slice], [used_with]) is defined in SpecNames;
    [accepted_and_generated] in NamesRefute says that the compiler accepts a
    description and the generator gives files for it. *)

From Coq Require Import Arith NArith Ascii String List Bool Lia.
From Verif Require Import Base Schema Codec Compiler Access Runtime Gen Template Templates SpecTemplate Driver SpecComp
  Samples SamplesComp SamplesMsg GenText SpecGen SpecCode SpecNames SamplesNames RunThms HygieneThms NamesThms NamesMore NamesRefute.
Import ListNotations.
Local Open Scope string_scope.

(** ** C73: names do not clash and are not hidden *)

(** A generated structure has exactly these methods, and no two of one name if and
    only if the fields do not clash. *)
Theorem C73_structures_partial : forall m fm emb p files s, compiled m p -> rust_files fm emb p = Ok files ->
  In s (p_structs p) -> plain_structure s ->
  let path := type_path_get (p_type_path_by_name p) in
  methods (structure_lines path (fm_f64 fm) (to_upper (fm_casing fm)) s) = method_names s /\
  (NoDup (methods (structure_lines path (fm_f64 fm) (to_upper (fm_casing fm)) s)) <-> no_clash (s_fields s)).
Proof. exact structures_distinct. Qed.
Print Assumptions C73_structures_partial.

Theorem C73_structures_refuted : exists v p s, accepted_and_generated v p /\ In s (p_structs p) /\ plain_structure s /\
  forall path show upper, ~ NoDup (methods (structure_lines path show upper s)).
Proof. exact structure_clash. Qed.
Print Assumptions C73_structures_refuted.

Theorem C73_unions_partial : forall path u, Forall (fun c => plain (uc_name c)) (u_cases u) ->
  (NoDup (methods (union_lines path u)) <-> cases_differ (u_cases u)).
Proof. exact union_methods_distinct. Qed.
Print Assumptions C73_unions_partial.

Theorem C73_unions_refuted : exists v p u, accepted_and_generated v p /\ In u (p_unions p) /\ plain_union u /\
  NoDup (map uc_name (u_cases u)) /\ forall path, ~ NoDup (methods (union_lines path u)).
Proof. exact union_clash. Qed.
Print Assumptions C73_unions_refuted.

(** The types that the module of a protocol declares, in order. *)
Theorem C73_types : forall fm emb p, plain_names p -> types (module_lines fm emb p) = type_names p.
Proof. exact module_types. Qed.
Print Assumptions C73_types.

Theorem C73_types_refuted : exists v p, accepted_and_generated v p /\ plain_names p /\
  NoDup (map m_name (p_messages p) ++ map s_name (p_structs p) ++ map e_name (p_enums p) ++ map u_name (p_unions p)) /\
  forall fm emb, ~ NoDup (types (module_lines fm emb p)).
Proof. exact types_clash. Qed.
Print Assumptions C73_types_refuted.

Theorem C73_constants_partial : forall path show upper l, Forall (fun s => plain (upper (s_name s))) l ->
  constants (flat_map (structure_lines path show upper) l) = map (fun s => "SIZE_" ++ upper (s_name s)) l /\
  (NoDup (constants (flat_map (structure_lines path show upper) l)) <-> NoDup (map (fun s => upper (s_name s)) l)).
Proof. exact structures_constants. Qed.
Print Assumptions C73_constants_partial.

Theorem C73_members_partial : forall m fm emb p files x, compiled m p -> rust_files fm emb p = Ok files ->
  In x (p_messages p) -> plain_message x -> no_hiding_offsets x ->
  let path := type_path_get (p_type_path_by_name p) in
  NoDup (public_members (message_struct_lines path x)) /\ NoDup (public_members (offsets_lines path emb x)).
Proof. exact compiled_messages. Qed.
Print Assumptions C73_members_partial.

(** A member named by a word that Rust reserves. *)
Theorem C73_keywords_refuted : exists v p x, accepted_and_generated v p /\ In x (p_messages p) /\ plain_message x /\ no_hiding_offsets x /\
  forall path, exists k, In k keywords /\ In k (public_members (message_struct_lines path x)).
Proof. exact member_keyword. Qed.
Print Assumptions C73_keywords_refuted.

(** The lines of the reading functions are the text of the instructions. *)
Theorem C73_text : forall s, read_lines s = map instr_text (read_code s) /\ offset_lines s = map instr_text (offset_code s).
Proof. intro s. exact (conj (read_text_code s) (offset_text_code s)). Qed.
Print Assumptions C73_text.

(** Run with one scope of local variables, they never use a hidden or moved one, and
    read what the model reads. *)
Theorem C73_reading_partial : forall m mr p x emb b path, compiled m p -> In x (p_messages p) -> no_hiding x ->
  run_from_slice mr emb b (program path emb x) = Some (read_msg mr emb x b).
Proof. intros m mr p x emb b path Hc Hx Hn. exact (run_from_slice_read mr emb path x b Hn (compiled_named m p x Hc Hx)). Qed.
Print Assumptions C73_reading_partial.

Theorem C73_offsets_partial : forall m mr p x emb b path, compiled m p -> In x (p_messages p) -> no_hiding_offsets x ->
  run_from_slice_with_offsets mr emb b (program path emb x) = Some (read_msg_offsets mr emb x b).
Proof. intros m mr p x emb b path Hc Hx Hn. exact (run_offsets_read mr emb path x b Hn (compiled_named m p x Hc Hx)). Qed.
Print Assumptions C73_offsets_partial.

(** A member [byte_offset] hides the offset of the next member. *)
Theorem C73_reading_refuted : exists v p x b, accepted_and_generated v p /\ In x (p_messages p) /\ plain_message x /\
  NoDup (map mf_name (m_fields x)) /\
  forall path emb, read_msg Debug emb x b = Ok (8%N, VMsg [VScalar 1; VScalar 2]) /\
    run_from_slice Debug emb b (program path emb x) = None.
Proof. exact reading_hidden. Qed.
Print Assumptions C73_reading_refuted.

(** A member [a_msg] followed by a member [a]. *)
Theorem C73_temporary_refuted : exists v p x b, accepted_and_generated v p /\ In x (p_messages p) /\ plain_message x /\
  NoDup (map mf_name (m_fields x)) /\ ~ In "slice" (map mf_name (m_fields x)) /\ ~ In "byte_offset" (map mf_name (m_fields x)) /\
  forall path emb, read_msg Debug emb x b = Ok (8%N, VMsg [VScalar 1; VScalar 2]) /\
    run_from_slice Debug emb b (program path emb x) = None.
Proof. exact temporary_hidden. Qed.
Print Assumptions C73_temporary_refuted.

(** A member [offsets]. *)
Theorem C73_offsets_refuted : exists v p x b, accepted_and_generated v p /\ In x (p_messages p) /\ plain_message x /\ no_hiding x /\
  forall path emb, read_msg Debug emb x b = Ok (8%N, VMsg [VScalar 1; VScalar 2]) /\
    run_from_slice_with_offsets Debug emb b (program path emb x) = None.
Proof. exact offsets_hidden. Qed.
Print Assumptions C73_offsets_refuted.

Example C73_nonvacuous : compiled Debug main_p /\ (forall fm emb, exists files, rust_files fm emb main_p = Ok files) /\
  plain_names main_p /\ NoDup (type_names main_p) /\ (forall s, In s (p_structs main_p) -> no_clash (s_fields s)) /\
  In packet_x (p_messages main_p) /\ no_hiding_offsets packet_x /\
  type_names main_p = ["Packet"; "PacketLines"; "PacketPings"; "Raw"; "PacketOffsets"; "RawOffsets"; "Pos"; "Line"; "Body"] /\
  (forall u, In u (p_unions main_p) -> cases_differ (u_cases u)) /\
  run_from_slice Debug main_emb packet_b (program (fun n => n) main_emb packet_x) = Some (Ok (len packet_b, packet_v)).
Proof.
  split; [exact main_compiled|]. split; [exact main_files|]. split; [exact main_plain|]. split; [exact main_types|].
  split; [exact main_structs|]. split; [left; reflexivity|]. split; [exact packet_hiding|].
  split; [reflexivity|]. split; [|vm_compute; reflexivity].
  intros u [<- | []]. apply (union_methods_distinct (fun n => n)); [repeat constructor|].
  vm_compute. repeat constructor; cbn; intuition discriminate.
Qed.

(** ** C74: parameters of the generated types *)

(** A message is declared with a lifetime if and only if it has a member that is not a
    scalar, and every use as a member, as the items of a list and in a union gives it one. *)
Theorem C74_messages_partial : forall path y,
  (forall ps, nth_error (message_lines path y) 1 = Some ("pub struct " ++ m_name y ++ ps ++ " {") ->
     (ps = "<'a>" <-> exists f, In f (m_fields y) /\ ~ scalar_member f) /\ (ps = "" \/ ps = "<'a>")) /\
  (forall x f, In f (m_fields x) -> mentions_message f y ->
     exists line, In line (message_lines path x) /\ used_with line (path (m_name y)) "<'a>") /\
  (forall u c, In c (u_cases u) -> uc_item c = Some (RMessage y) ->
     exists line, In line (union_lines path u) /\ used_with line (path (m_name y)) "<'a>").
Proof. exact message_uses. Qed.
Print Assumptions C74_messages_partial.

Theorem C74_messages_refuted : exists v p x y, accepted_and_generated v p /\ In x (p_messages p) /\ In y (p_messages p) /\
  forall path, nth_error (message_lines path y) 1 = Some ("pub struct " ++ m_name y ++ " {") /\
    exists line, In line (message_lines path x) /\ used_with line (path (m_name y)) "<'a>".
Proof. exact message_parameters. Qed.
Print Assumptions C74_messages_refuted.

Theorem C74_unions_partial : forall path u,
  (forall ps, nth_error (union_lines path u) 1 = Some ("pub enum " ++ u_name u ++ ps ++ " {") ->
     (ps = "<'a>" <-> exists c, In c (u_cases u) /\ has_item c) /\ (ps = "" \/ ps = "<'a>")) /\
  (forall x f, In f (m_fields x) -> mentions_union f u ->
     exists line, In line (message_lines path x) /\ used_with line (path (u_name u)) "<'a>").
Proof. exact union_uses. Qed.
Print Assumptions C74_unions_partial.

Theorem C74_unions_refuted : exists v p x u, accepted_and_generated v p /\ In x (p_messages p) /\ In u (p_unions p) /\
  forall path, nth_error (union_lines path u) 1 = Some ("pub enum " ++ u_name u ++ " {") /\
    exists line, In line (message_lines path x) /\ used_with line (path (u_name u)) "<'a>".
Proof. exact union_parameters. Qed.
Print Assumptions C74_unions_refuted.

Example C74_nonvacuous : 
  nth_error (message_lines (fun n => n) packet_x) 1 = Some "pub struct Packet<'a> {" /\
  (exists f y, In f (m_fields packet_x) /\ mentions_message f y /\ m_name y = "Ping") /\
  (exists f u, In f (m_fields packet_x) /\ mentions_union f u /\
     nth_error (union_lines (fun n => n) u) 1 = Some "pub enum Body<'a> {").
Proof.
  split; [reflexivity|]. split.
  - eexists _, _. split; [do 4 right; left; reflexivity|]. split; [right; eexists; reflexivity|reflexivity].
  - eexists _, _. split; [do 2 right; left; reflexivity|]. split; [eexists _, _; reflexivity|reflexivity].
Qed.
