(** Property theorems C46 and C49 to C51: the generated Rust code. *)

From Coq Require Import Arith NArith Ascii String List Bool Lia.
From Verif Require Import Base Schema Codec Compiler Access Runtime Gen Template Templates SpecTemplate Driver SpecComp SpecStruct
  Samples SamplesComp SamplesMsg GenText SpecCase SpecGen SpecCode GenAllThms ShowThms RunThms GenRefute.
Import ListNotations.
Local Open Scope string_scope.

(** ** C46: code generation of an accepted protocol *)

(** It succeeds for exactly the protocols whose declarations have no array without
    items, no scalar wider than 64 bits or without bits, and no list name that cannot
    be capitalised; for all others it panics. On success these are the seven files. *)
Theorem C46_generation_partial : forall m fm emb solver w v p w',
  (forall name q, r_protocol solver name = Some q -> compiled m q) -> widths_usize v ->
  protocol_from_model m solver w v = Ok (p, w') ->
  (declaration_generates v /\ rust_files fm emb p = Ok (map as_file (expected_files fm emb p))) \/
  (~ declaration_generates v /\ rust_files fm emb p = Panic).
Proof. exact generation. Qed.
Print Assumptions C46_generation_partial.

(** The property as stated is false: an array without items, a boolean of 65 bits, and
    a list whose name starts with an accented letter are accepted and not generated. *)
Theorem C46_no_items_refuted : exists p w,
  protocol_from_model Debug no_imports world0 no_items = Ok (p, w) /\ forall fm emb, rust_files fm emb p = Panic.
Proof. exact no_items_refuted. Qed.
Print Assumptions C46_no_items_refuted.
Theorem C46_wide_bool_refuted : exists p w,
  protocol_from_model Debug no_imports world0 wide_bool = Ok (p, w) /\ forall fm emb, rust_files fm emb p = Panic.
Proof. exact wide_bool_refuted. Qed.
Print Assumptions C46_wide_bool_refuted.
Theorem C46_accented_refuted : exists p w,
  protocol_from_model Debug no_imports world0 accented = Ok (p, w) /\ forall fm emb, rust_files fm emb p = Panic.
Proof. exact accented_refuted. Qed.
Print Assumptions C46_accented_refuted.

Example C46_nonvacuous : widths_usize main_v /\ declaration_generates main_v /\
  (forall n q, r_protocol main_solver n = Some q -> compiled Debug q) /\
  protocol_from_model Debug main_solver (snd lib_pw) main_v = Ok main_pw.
Proof.
  split; [exact main_widths|]. split; [exact main_generates|]. split; [exact main_imports|exact main_ok].
Qed.

(** ** C49: the generated structures and enumerations *)

(** The files of a successful generation hold, for every structure and enumeration of
    the protocol in order, the specified lines. *)
Theorem C49_structures : forall m fm emb p files, compiled m p -> rust_files fm emb p = Ok files ->
  In {| fi_ty := StructureFile; fi_name := "structures.rs";
        fi_data := joined (map (structure_lines (type_path_get (p_type_path_by_name p)) (fm_f64 fm)
                                  (to_upper (fm_casing fm))) (p_structs p)) |} files.
Proof. exact structures_file. Qed.
Print Assumptions C49_structures.
Theorem C49_enums : forall m fm emb p files, compiled m p -> rust_files fm emb p = Ok files ->
  In {| fi_ty := EnumFile; fi_name := "enums.rs";
        fi_data := joined (map (fun e => enum_lines (e_name e) (e_variants e)) (p_enums p)) |} files.
Proof. exact enums_file. Qed.
Print Assumptions C49_enums.

(** The accessors of a scalar declared at bits [o .. o+w) are those of [placed o w], and
    the model's raw accessors run the same parameters. *)
Theorem C49_accessors : forall m enums structs id d s i f o w path show,
  structure_from_model m Little enums structs id d = Ok s ->
  no_overflow m structs d ->
  nth_error (s_fields s) i = Some (FFixed f) -> declared_at structs d i o w ->
  (0 < w <= 64)%N ->
  let a := placed o w in
  getter_lines path show (FFixed f) = (raw_getter_lines (ff_name f) a ++ view_getter_lines path show f a)%list /\
  setter_lines path show (FFixed f) = (raw_setter_lines (ff_name f) a ++ view_setter_lines path show f a)%list /\
  (forall E mr data, get_raw (E := E) mr f data = ac_get mr a data) /\
  (forall E mr data v, set_raw (E := E) mr f data v = ac_set mr a data v).
Proof. exact accessor_text. Qed.
Print Assumptions C49_accessors.

(** Numbers are printed as decimals. *)
Theorem C49_numbers : forall n, decimal (show_usize n) n.
Proof. exact show_usize_decimal. Qed.
Print Assumptions C49_numbers.

(** Types are printed under their Rust names: i8 to i64, u8 to u64, f32, f64 and bool. *)
Theorem C49_type_names : forall t, rust_type t = type_text t.
Proof. exact type_names. Qed.
Print Assumptions C49_type_names.

Example C49_nonvacuous :
  nth_error (s_fields demo_s) 1 = Some (FFixed (demo_fixed 1)) /\ declared_at [] demo 1 3 5 /\
  raw_getter_lines "b" (placed 3 5) =
    ["    pub fn get_raw_b(&self) -> u8 {";
     "        unsafe { <bp3d_proto::codec::BitCodecLE as bp3d_proto::codec::BitCodec>::read_aligned::<u8, 3, 5>(&self.data.as_ref()[0..1]) }";
     "";
     "    }"] /\
  view_getter_lines (fun x => x) (fun _ => "") (demo_fixed 1) (placed 3 5) =
    ["    pub fn get_b(&self) -> i8 {";
     "        let raw_value = self.get_raw_b();";
     "        if raw_value > 15 {";
     "            -((((!raw_value) & 15) + 1) as i8)";
     "        } else {";
     "            (raw_value & 15) as i8";
     "        }";
     "    }"].
Proof.
  split; [reflexivity|]. split; [split; [reflexivity|eexists; split; reflexivity]|]. split; vm_compute; reflexivity.
Qed.

(** ** C50: the generated messages *)

Theorem C50_files : forall m fm emb p files, compiled m p -> rust_files fm emb p = Ok files ->
  let path := type_path_get (p_type_path_by_name p) in
  In {| fi_ty := Message; fi_name := "messages.rs"; fi_data := joined (map (message_lines path) (p_messages p)) |} files /\
  In {| fi_ty := MessageReading; fi_name := "messages_from_slice.rs";
        fi_data := joined (map (from_slice_lines path emb) (p_messages p)) |} files /\
  In {| fi_ty := MessageWriting; fi_name := "messages_write.rs";
        fi_data := joined (map (write_to_lines path emb) (p_messages p)) |} files /\
  In {| fi_ty := MessageReading; fi_name := "messages_offsets.rs";
        fi_data := joined (map (offsets_lines path emb) (p_messages p)) |} files.
Proof. exact messages_files. Qed.
Print Assumptions C50_files.

(** The statements in these lines, run with variables by their names, do what the
    message model does, for messages without two members of one name. *)
Theorem C50_reading : forall m mr p x path emb b, compiled m p -> In x (p_messages p) -> distinct_members x ->
  run_program mr emb b (program path emb x) = read_msg mr emb x b.
Proof. exact (fun m mr p x path emb b Hc Hx Hd => run_program_read mr emb path x b Hd (compiled_named m p x Hc Hx)). Qed.
Print Assumptions C50_reading.
Theorem C50_writing : forall m mr p x path emb St (w : sink St) vs, compiled m p -> In x (p_messages p) ->
  distinct_members x -> length vs = length (m_fields x) ->
  run_writes mr w (input_of (program path emb x) vs) (program path emb x) = write_msg mr w x (VMsg vs).
Proof.
  exact (fun m mr p x path emb St w vs Hc Hx Hd Hl => run_program_write mr w emb path x vs Hd (compiled_named m p x Hc Hx) Hl).
Qed.
Print Assumptions C50_writing.
Theorem C50_offsets : forall m mr p x path emb b, compiled m p -> In x (p_messages p) -> distinct_members x ->
  run_offsets_program mr emb b (program path emb x) = read_msg_offsets mr emb x b.
Proof. exact (fun m mr p x path emb b Hc Hx Hd => run_program_offsets mr emb path x b Hd (compiled_named m p x Hc Hx)). Qed.
Print Assumptions C50_offsets.

Example C50_nonvacuous : compiled Debug main_p /\ In packet_x (p_messages main_p) /\ distinct_members packet_x /\
  write_to_lines (type_path_get (p_type_path_by_name main_p)) main_emb packet_x =
    ["impl<'a> bp3d_proto::message::WriteTo for Packet<'a> {";
     "    type Input = Self;";
     "    fn write_to<W: std::io::Write>(input: &Self, mut out: W) -> bp3d_proto::message::Result<()> {";
     "        crate::lib::Header::write_to(&input.hdr, &mut out)?;";
     "        bp3d_proto::message::util::Optional::<bp3d_proto::message::util::VarcharString::<bp3d_proto::message::util::ValueLE<u16>>" ++ lf ++
     ">::write_to(&input.note, &mut out)?;";
     "        Body::write_to(&input.body, &input.hdr, &mut out)?;";
     "        bp3d_proto::message::util::Array::<&'a [u8], bp3d_proto::message::util::ValueLE<u8>, Line<&'a [u8]>>" ++ lf ++
     "::write_to(&input.lines, &mut out)?;";
     "        bp3d_proto::message::util::List::<&'a [u8], bp3d_proto::message::util::ValueLE<u8>, crate::lib::Ping>" ++ lf ++
     "::write_to(&input.pings, &mut out)?;";
     "";
     "        Ok(())";
     "    }";
     "}"] /\
  run_program Debug main_emb packet_b (program (fun n => n) main_emb packet_x) = Ok (len packet_b, packet_v).
Proof.
  split; [exact main_compiled|]. split; [left; reflexivity|].
  split.
  { unfold distinct_members. cbn. repeat constructor; cbn; intuition discriminate. }
  split; vm_compute; reflexivity.
Qed.

(** ** C51: the generated unions *)

Theorem C51_unions : forall m fm emb p files, compiled m p -> rust_files fm emb p = Ok files ->
  In {| fi_ty := UnionFile; fi_name := "unions.rs";
        fi_data := joined (map (union_lines (type_path_get (p_type_path_by_name p))) (p_unions p)) |} files.
Proof. exact unions_file. Qed.
Print Assumptions C51_unions.

(** The names of the methods [as_] and [is_] are those of the cases in lower case. *)
Theorem C51_lower_names : forall s, Forall2 lowered (list_ascii_of_string s) (list_ascii_of_string (to_ascii_lowercase s)).
Proof. exact lower_names. Qed.
Print Assumptions C51_lower_names.

(** The discriminant paths in these lines, run with methods by their names, are the
    reads and writes of the model. *)
Theorem C51_discriminants : forall m p u, compiled m p -> In u (p_unions p) ->
  distinct_methods (d_root (u_disc u)) -> forall mr data,
  run_get mr (d_root (u_disc u)) (union_chain u) data = path_get mr (d_root (u_disc u)) (d_index_list (u_disc u)) data /\
  forall v, run_set mr (d_root (u_disc u)) (union_chain u) data v =
            path_set mr (d_root (u_disc u)) (d_index_list (u_disc u)) data v.
Proof. exact union_discriminant. Qed.
Print Assumptions C51_discriminants.

Example C51_nonvacuous : compiled Debug main_p /\
  (forall u, In u (p_unions main_p) -> distinct_methods (d_root (u_disc u)) /\ get_path (union_chain u) = "get_raw_kind()") /\
  flat_map (from_slice_arm (type_path_get (p_type_path_by_name main_p))) (flat_map u_cases (p_unions main_p)) =
    ["            0 => crate::lib::Ping::from_slice(slice).map(|v| v.map(Self::Ping)),";
     "            1 => Line::from_slice(slice).map(|v| v.map(Self::Line)),";
     "            2 => Ok(bp3d_proto::message::Message::new(0, Self::Nothing)),"].
Proof.
  split; [exact main_compiled|]. split; [|vm_compute; reflexivity].
  intros u [<- | []]. split; [|vm_compute; reflexivity]. constructor; [repeat constructor; cbn; intuition discriminate|].
  intros n r l [H|[H|[]]]; discriminate.
Qed.
