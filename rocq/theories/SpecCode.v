(** Specification of the generated message and union code (C50): the statements as
    a small program, its text, and its meaning when run.

    - [ity]: the type whose [from_slice] / [write_to] handles a field.
    - [stmt]: what is emitted for one field.
    - Running the statements uses variables by their name, as the text does. *)

From Coq Require Import Arith NArith Ascii String List Bool.
From Verif Require Import Base Schema Codec Compiler Access Runtime Gen Template SpecTemplate Driver GenText SpecGen.
Import ListNotations.
Local Open Scope string_scope.

Inductive ity :=
| IValue (o : order) (t : fixed_type)
| IStruct (path : string) (s : structure)
| IMessage (path : string) (x : message)
| IUnion (path : string) (u : union_)
| INullTerminated
| IVarchar (o : order) (t : fixed_type)
| IArray (o : order) (t : fixed_type) (path : string) (s : structure)
| IList (o : order) (t : fixed_type) (path : string) (x : message)
| IUnsized (o : order) (t : fixed_type) (path : string) (x : message)
| IBuffer
| IOptional (t : ity).

(** ** Text *)

Definition util_text (s : string) : string := "bp3d_proto::message::util::" ++ s.
Definition value_text (o : order) (t : fixed_type) : string :=
  util_text ("Value" ++ order_text o ++ "<" ++ rust_type t ++ ">").
(** [unsized] is the type used for a list that is not checked. Types that come from
    a template end with a line feed. *)
Fixpoint ity_text (unsized : string -> string -> string) (t : ity) : string :=
  match t with
  | IValue o t => util_text ("Value" ++ order_text o ++ "::<" ++ rust_type t ++ ">")
  | IStruct path _ | IMessage path _ | IUnion path _ => path
  | INullTerminated => util_text "NullTerminatedString"
  | IVarchar o t => util_text ("VarcharString::<" ++ value_text o t ++ ">") ++ lf
  | IArray o t path _ => util_text ("Array::<&'a [u8], " ++ value_text o t ++ ", " ++ path ++ "<&'a [u8]>>") ++ lf
  | IList o t path _ => util_text ("List::<&'a [u8], " ++ value_text o t ++ ", " ++ path ++ ">") ++ lf
  | IUnsized o t path _ => unsized (value_text o t) path ++ lf
  | IBuffer => util_text "Buffer"
  | IOptional t => util_text ("Optional::<" ++ ity_text unsized t ++ ">")
  end.
(** The types of message.from_slice.template and message.offsets.template, and those of
    message.write.template, differ for unchecked lists. *)
Definition read_text := ity_text (fun codec path => util_text ("list::Unsized::<" ++ codec ++ ", " ++ path ++ ">")).
Definition write_text := ity_text (fun codec path => util_text ("List::<&'a [u8], " ++ codec ++ ", " ++ path ++ ">")).

(** Statement for one field: its name, its type, the variable of the discriminant of
    a union. *)
Record stmt := { st_name : string; st_type : ity; st_on : option string }.

Definition on_text (prefix : string) (on : option string) : string :=
  match on with Some n => ", &" ++ prefix ++ n | None => "" end.
Definition read_lines (s : stmt) : list string :=
  ["        let " ++ st_name s ++ "_msg = " ++ read_text (st_type s) ++ "::from_slice(&slice[byte_offset..]" ++
     on_text "" (st_on s) ++ ")?;";
   "        byte_offset += " ++ st_name s ++ "_msg.size();";
   "        let " ++ st_name s ++ " = " ++ st_name s ++ "_msg.into_inner();"].
Definition write_lines (s : stmt) : list string :=
  ["        " ++ write_text (st_type s) ++ "::write_to(&input." ++ st_name s ++ on_text "input." (st_on s) ++ ", &mut out)?;"].
(** Messages are also read with the offsets inside them. *)
Fixpoint has_offsets (t : ity) : bool :=
  match t with IMessage _ _ => true | IOptional t => has_offsets t | _ => false end.
Definition offset_lines (s : stmt) : list string :=
  let n := st_name s in
  ["        let " ++ n ++ "_msg = " ++ read_text (st_type s) ++
     (if has_offsets (st_type s) then "::from_slice_with_offsets(" else "::from_slice(") ++
     "&slice[byte_offset..]" ++ on_text "" (st_on s) ++ ")?;";
   "        offsets." ++ n ++ ".start = byte_offset;";
   "        byte_offset += " ++ n ++ "_msg.size();";
   "        offsets." ++ n ++ ".end = byte_offset;"] ++
  (if has_offsets (st_type s) then
     ["        let (" ++ n ++ ", " ++ n ++ "_offsets) = " ++ n ++ "_msg.into_inner();";
      "        offsets." ++ n ++ "_offsets = " ++ n ++ "_offsets;"]
   else ["        let " ++ n ++ " = " ++ n ++ "_msg.into_inner();"]).

(** The statement emitted for a field. *)
Definition field_type (path : string -> string) (emb : bool) (f : mfield) : ity :=
  let o := order_of (mf_endi f) in
  match mf_ty f with
  | TFixed t => IValue o t
  | TRef (RStruct s) => IStruct (path (s_name s)) s
  | TRef (RMessage x) => IMessage (path (m_name x)) x
  | TNullTerminatedString => INullTerminated
  | TVarcharString t => IVarchar o t
  | TArray t s => IArray o t (path (s_name s)) s
  | TUnion u _ _ => IUnion (path (u_name u)) u
  | TList t x => if emb then IList o t (path (m_name x)) x else IUnsized o t (path (m_name x)) x
  | TPayload => IBuffer
  end.
Definition field_stmt (path : string -> string) (emb : bool) (f : mfield) : stmt :=
  {| st_name := mf_name f;
     st_type := if mf_optional f then IOptional (field_type path emb f) else field_type path emb f;
     st_on := match mf_ty f with TUnion _ on _ => Some on | _ => None end |}.
Definition program (path : string -> string) (embedded : N -> bool) (x : message) : list stmt :=
  map (field_stmt path (embedded (m_id x))) (m_fields x).

Definition lifetime (x : message) : string :=
  if forallb (fun f => match mf_ty f with TFixed _ => true | _ => false end) (m_fields x) then "" else "<'a>".

Definition from_slice_lines (path : string -> string) (embedded : N -> bool) (x : message) : list string :=
  ["impl<'a> bp3d_proto::message::FromSlice<'a> for " ++ m_name x ++ lifetime x ++ " {";
   "    type Output = Self;";
   "    fn from_slice(slice: &'a [u8]) -> bp3d_proto::message::Result<bp3d_proto::message::Message<Self>> {";
   "        let mut byte_offset: usize = 0;"] ++
  flat_map read_lines (program path embedded x) ++
  ["";
   "        let data = " ++ m_name x ++ " {"] ++
  map (fun f => "            " ++ mf_name f ++ ",") (m_fields x) ++
  ["";
   "        };";
   "        Ok(bp3d_proto::message::Message::new(byte_offset, data))";
   "    }";
   "}"].
Definition write_to_lines (path : string -> string) (embedded : N -> bool) (x : message) : list string :=
  ["impl" ++ lifetime x ++ " bp3d_proto::message::WriteTo for " ++ m_name x ++ lifetime x ++ " {";
   "    type Input = Self;";
   "    fn write_to<W: std::io::Write>(input: &Self, mut out: W) -> bp3d_proto::message::Result<()> {"] ++
  flat_map write_lines (program path embedded x) ++
  ["";
   "        Ok(())";
   "    }";
   "}"].
Definition offset_field_lines (path : string -> string) (f : mfield) : list string :=
  ["    pub " ++ mf_name f ++ ": bp3d_proto::message::FieldOffset,"] ++
  match mf_ty f with
  | TRef (RMessage y) =>
      if mf_optional f then ["    pub " ++ mf_name f ++ "_offsets: Option<" ++ path (m_name y) ++ "Offsets>,"]
      else ["    pub " ++ mf_name f ++ "_offsets: " ++ path (m_name y) ++ "Offsets,"]
  | _ => []
  end.
Definition offsets_lines (path : string -> string) (embedded : N -> bool) (x : message) : list string :=
  ["#[derive(Copy, Clone, Debug, Default)]";
   "pub struct " ++ m_name x ++ "Offsets {"] ++
  flat_map (offset_field_lines path) (m_fields x) ++
  ["";
   "}";
   "";
   "impl<'a> bp3d_proto::message::FromSliceWithOffsets<'a> for " ++ m_name x ++ lifetime x ++ " {";
   "    type Offsets = " ++ m_name x ++ "Offsets;";
   "    fn from_slice_with_offsets(slice: &'a [u8]) -> bp3d_proto::message::Result<bp3d_proto::message::Message<(Self, Self::Offsets)>> {";
   "        use bp3d_proto::message::FromSlice;";
   "        let mut offsets = Self::Offsets::default();";
   "        let mut byte_offset: usize = 0;"] ++
  flat_map offset_lines (program path embedded x) ++
  ["";
   "        let data = " ++ m_name x ++ " {"] ++
  map (fun f => "            " ++ mf_name f ++ ",") (m_fields x) ++
  ["";
   "        };";
   "        Ok(bp3d_proto::message::Message::new(byte_offset, (data, offsets)))";
   "    }";
   "}"].

(** The declaration. Types that come from a template end with a line feed. *)
Definition decl_type (path : string -> string) (f : mfield) : string :=
  let o := order_of (mf_endi f) in
  let ty := match mf_ty f with
            | TFixed t => rust_type t
            | TRef (RStruct s) => path (s_name s) ++ "<&'a [u8]>"
            | TRef (RMessage x) => path (m_name x) ++ "<'a>"
            | TNullTerminatedString | TVarcharString _ => "&'a str"
            | TArray t s => util_text ("Array::<&'a [u8], " ++ value_text o t ++ ", " ++ path (s_name s) ++ "<&'a [u8]>>") ++ lf
            | TUnion u _ _ => path (u_name u) ++ "<'a>"
            | TList t x => util_text ("List::<&'a [u8], " ++ value_text o t ++ ", " ++ path (m_name x) ++ "<'a>>") ++ lf
            | TPayload => "&'a [u8]"
            end in
  if mf_optional f then "Option<" ++ ty ++ ">" else ty.
(** The name of the type of a list is its name with a capital. *)
Definition capital (s : string) : string :=
  match s with EmptyString => EmptyString | String c r => String (upper_letter c) r end.
Definition wrapper_lines (path : string -> string) (msg_name : string) (f : mfield) : list string :=
  let o := order_of (mf_endi f) in
  match mf_ty f with
  | TArray t s =>
      ["bp3d_proto::generate_array_wrapper!(" ++ msg_name ++ capital (mf_name f) ++ ", " ++
         path (s_name s) ++ ", " ++ value_text o t ++ ");"]
  | TList t x =>
      ["pub type " ++ msg_name ++ capital (mf_name f) ++ "<'a, T> = " ++
         util_text ("List<T, " ++ value_text o t ++ ", " ++ path (m_name x) ++ "<'a>>;")]
  | _ => []
  end.
Definition message_struct_lines (path : string -> string) (x : message) : list string :=
  ["#[derive(Copy, Clone, Debug)]";
   "pub struct " ++ m_name x ++ lifetime x ++ " {"] ++
  map (fun f => "    pub " ++ mf_name f ++ ": " ++ decl_type path f ++ ",") (m_fields x) ++
  ["";
   "}"].
Definition message_lines (path : string -> string) (x : message) : list string :=
  message_struct_lines path x ++
  ["";
   ""] ++
  flat_map (wrapper_lines path (m_name x)) (m_fields x) ++
  [""].

(** A name can be capitalised if it is empty, or its first byte is a capital letter,
    or its second byte does not continue a character. *)
Definition capitalizable (s : string) : Prop :=
  match s with
  | EmptyString => True
  | String c r =>
      (65 <= N_of_ascii c <= 90)%N \/
      match r with EmptyString => True | String d _ => ~ (128 <= N_of_ascii d < 192)%N end
  end.
Definition mfield_generates (f : mfield) : Prop :=
  match mf_ty f with TArray _ _ | TList _ _ => capitalizable (mf_name f) | _ => True end.

(** ** Unions *)

(** The fields on the way to the discriminant; [true] marks a scalar, which ends
    the way. *)
Fixpoint disc_chain (s : structure) (index : list nat) : option (list (string * bool)) :=
  match index with
  | [] => Some []
  | i :: rest =>
      match nth_error (s_fields s) i with
      | Some (FFixed f) => match rest with [] => Some [(ff_name f, true)] | _ => None end
      | Some (FStruct name r _) => option_map (cons (name, false)) (disc_chain r rest)
      | _ => None
      end
  end.
Definition union_chain (u : union_) : list (string * bool) :=
  match disc_chain (d_root (u_disc u)) (d_index_list (u_disc u)) with Some l => l | None => [] end.
Definition get_path (chain : list (string * bool)) : string :=
  String.concat "." (map (fun p : string * bool => (if snd p then "get_raw_" else "get_") ++ fst p ++ "()") chain).
Definition set_path (chain : list (string * bool)) : string :=
  String.concat "." (map (fun p : string * bool =>
    if snd p then "set_raw_" ++ fst p else "get_" ++ fst p ++ "_mut()") chain).

Definition any_item (u : union_) : bool :=
  existsb (fun c => match uc_item c with Some _ => true | None => false end) (u_cases u).
Definition union_lifetime (u : union_) : string := if any_item u then "<'a>" else "".

Definition variant_lines (path : string -> string) (c : ucase) : list string :=
  match uc_item c with
  | Some (RStruct s) => ["    " ++ uc_name c ++ "(" ++ path (s_name s) ++ "<&'a [u8]>),"]
  | Some (RMessage x) => ["    " ++ uc_name c ++ "(" ++ path (m_name x) ++ "<'a>),"]
  | None => ["    " ++ uc_name c ++ ","]
  end.
Definition from_slice_arm (path : string -> string) (c : ucase) : list string :=
  match uc_item c with
  | Some r => ["            " ++ show_usize (uc_case c) ++ " => " ++ path (ref_name r) ++
                 "::from_slice(slice).map(|v| v.map(Self::" ++ uc_name c ++ ")),"]
  | None => ["            " ++ show_usize (uc_case c) ++ " => Ok(bp3d_proto::message::Message::new(0, Self::" ++ uc_name c ++ ")),"]
  end.
Definition write_to_arm (path : string -> string) (c : ucase) : list string :=
  match uc_item c with
  | Some r => ["            Self::" ++ uc_name c ++ "(v) => if discriminant == " ++ show_usize (uc_case c) ++ " {";
               "                " ++ path (ref_name r) ++ "::write_to(v, &mut out)?";
               "            } else {";
               "                return Err(bp3d_proto::message::Error::InvalidUnionDiscriminant(discriminant as _))";
               "            },"]
  | None => []
  end.
Definition set_arm (c : ucase) : list string :=
  match uc_item c with
  | Some _ => ["            Self::" ++ uc_name c ++ "(_) => " ++ show_usize (uc_case c) ++ ","]
  | None => ["            Self::" ++ uc_name c ++ " => " ++ show_usize (uc_case c) ++ ","]
  end.
Definition union_getter_lines (path : string -> string) (c : ucase) : list string :=
  let lower := to_ascii_lowercase (uc_name c) in
  match uc_item c with
  | Some r =>
      let ty := match r with RStruct s => path (s_name s) ++ "<&'a [u8]>" | RMessage x => path (m_name x) ++ "<'a>" end in
      ["    pub fn as_" ++ lower ++ "(&self) -> Option<&" ++ ty ++ "> {";
       "        match self {";
       "            Self::" ++ uc_name c ++ "(v) => Some(v),";
       "            _ => None";
       "        }";
       "    }"]
  | None =>
      ["    pub fn is_" ++ lower ++ "(&self) -> bool {";
       "        match self {";
       "            Self::" ++ uc_name c ++ " => true,";
       "            _ => false";
       "        }";
       "    }"]
  end.
Definition union_lines (path : string -> string) (u : union_) : list string :=
  let chain := union_chain u in
  let ty := path (s_name (d_root (u_disc u))) in
  let l := union_lifetime u in
  let not_found := "            _ => Err(bp3d_proto::message::Error::InvalidUnionDiscriminant(discriminant as _))" in
  ["#[derive(Copy, Clone, Debug)]";
   "pub enum " ++ u_name u ++ l ++ " {"] ++
  flat_map (variant_lines path) (u_cases u) ++
  ["";
   "}"] ++
  ["impl<'a> " ++ u_name u ++ l ++ " {"] ++
  (if any_item u then
     ["    pub fn from_slice(slice: &'a [u8], discriminant: &" ++ ty ++ "<&'a [u8]>) -> bp3d_proto::message::Result<bp3d_proto::message::Message<Self>> {";
      "        use bp3d_proto::message::FromSlice;"]
   else
     ["    pub fn from_slice(_: &'a [u8], discriminant: &" ++ ty ++ "<&'a [u8]>) -> bp3d_proto::message::Result<bp3d_proto::message::Message<Self>> {"]) ++
  ["        let discriminant = discriminant." ++ get_path chain ++ ";";
   "        match discriminant {"] ++
  flat_map (from_slice_arm path) (u_cases u) ++
  ["";
   not_found;
   "        }";
   "    }";
   "";
   "}"] ++
  ["impl<'a> " ++ u_name u ++ l ++ " {"] ++
  (if any_item u then
     ["    pub fn write_to<W: std::io::Write>(input: &Self, discriminant: &" ++ ty ++ "<&'a [u8]>, mut out: W) -> bp3d_proto::message::Result<()> {";
      "        use bp3d_proto::message::WriteTo;";
      "        let discriminant = discriminant." ++ get_path chain ++ ";";
      "        match input {"] ++
     flat_map (write_to_arm path) (u_cases u) ++
     ["";
      "            _ => ()";
      "        };";
      "        Ok(())";
      "    }"]
   else
     ["    pub fn write_to<W: std::io::Write>(_: &Self, _: &" ++ ty ++ "<&'a [u8]>, _: W) -> bp3d_proto::message::Result<()> {";
      "        Ok(())";
      "    }"]) ++
  ["";
   "}"] ++
  ["impl" ++ l ++ " " ++ u_name u ++ l ++ " {";
   "    pub fn set_discriminant<T: AsMut<[u8]>>(&self, discriminant: &mut " ++ ty ++ "<T>) {";
   "        let discriminant_value = match self {"] ++
  flat_map set_arm (u_cases u) ++
  ["";
   "        };";
   "        discriminant." ++ set_path chain ++ "(discriminant_value);";
   "    }";
   "}"] ++
  ["impl" ++ l ++ " " ++ u_name u ++ l ++ " {"] ++
  flat_map (union_getter_lines path) (u_cases u) ++
  ["";
   "}"].

(** ** Files *)

Definition joined (l : list (list string)) : string := String.concat lf (map lines l).
Definition expected_files (fm : formats) (embedded : N -> bool) (p : protocol) : list (file_type * string * string) :=
  let path := type_path_get (p_type_path_by_name p) in
  [(Message, "messages.rs", joined (map (message_lines path) (p_messages p)));
   (MessageReading, "messages_from_slice.rs", joined (map (from_slice_lines path embedded) (p_messages p)));
   (MessageWriting, "messages_write.rs", joined (map (write_to_lines path embedded) (p_messages p)));
   (MessageReading, "messages_offsets.rs", joined (map (offsets_lines path embedded) (p_messages p)));
   (StructureFile, "structures.rs", joined (map (structure_lines path (fm_f64 fm) (to_upper (fm_casing fm))) (p_structs p)));
   (EnumFile, "enums.rs", joined (map (fun e => enum_lines (e_name e) (e_variants e)) (p_enums p)));
   (UnionFile, "unions.rs", joined (map (union_lines path) (p_unions p)))].

(** When a compiled protocol can be generated. *)
Definition generates (p : protocol) : Prop :=
  Forall (fun s => Forall field_generates (s_fields s)) (p_structs p) /\
  Forall (fun x => Forall mfield_generates (m_fields x)) (p_messages p).

(** The same for declarations: no array without items, no scalar that is not an array
    and has a width outside 1..64, and names of lists that can be capitalised. *)
Definition sfield_generates (d : sfield) : Prop :=
  match get_bit_size (sf_info d) with
  | None => True
  | Some bits =>
      match sf_array_len d with
      | Some 0%N => False
      | Some 1%N | None => (1 <= bits <= 64)%N
      | Some _ => True
      end
  end.
Definition smfield_generates (d : smfield) : Prop :=
  match smf_info d with MTList _ _ => capitalizable (smf_name d) | _ => True end.
(** Declared widths are 64-bit numbers, as the parser delivers them. *)
Definition widths_usize (v : sprotocol) : Prop :=
  Forall (fun d => Forall (fun f => forall b, get_bit_size (sf_info f) = Some b -> (b < usize_mod)%N) (ss_fields d))
    (sp_structs v).
Definition declaration_generates (v : sprotocol) : Prop :=
  Forall (fun d => Forall sfield_generates (ss_fields d)) (sp_structs v) /\
  Forall (fun d => Forall smfield_generates (sm_fields d)) (sp_messages v).

(** ** Running the statements *)

(** The discriminant variable of a union names an earlier field. *)
Definition unions_named (x : message) : Prop :=
  forall k f u on i, nth_error (m_fields x) k = Some f -> mf_ty f = TUnion u on i ->
    (i < k)%nat /\ exists g, nth_error (m_fields x) i = Some g /\ mf_name g = on.
(** rustc rejects a structure with two members of one name. *)
Definition distinct_members (x : message) : Prop := NoDup (map mf_name (m_fields x)).

(** Variables by name; the last binding is seen. *)
Definition env := list (string * value).

Section Run.
Variables (m : mode) (embedded : N -> bool).

(** [T::from_slice(slice)], and [T::from_slice(slice, &on)] for a union. *)
Fixpoint run_type (vars : env) (on : option string) (t : ity) : reader value :=
  match t with
  | IValue o t => rmap VScalar (value_from_slice o (get_byte_size t))
  | IStruct _ s => rmap VStruct (struct_from_slice (s_byte_size s))
  | IMessage _ x => read_msg m embedded x
  | IUnion _ u =>
      read_union m embedded u (match on with Some n => sget n vars | None => None end)
  | INullTerminated => rmap VStr (nts_from_slice m)
  | IVarchar o t => rmap VStr (varchar_from_slice m (value_from_slice o (get_byte_size t)))
  | IArray o t _ s =>
      rmap (fun p => VListing (fst p) (snd p))
        (array_from_slice m (value_from_slice o (get_byte_size t)) (s_byte_size s))
  | IList o t _ x =>
      rmap (fun p => VListing (fst p) (snd p))
        (list_from_slice m (value_from_slice o (get_byte_size t)) (read_msg m embedded x))
  | IUnsized o t _ _ =>
      rmap (fun p => VListing (fst p) (snd p)) (unsized_from_slice (value_from_slice o (get_byte_size t)))
  | IBuffer => rmap VPayload buffer_from_slice
  | IOptional t => rmap VOpt (optional_from_slice m (run_type vars on t))
  end.

(** The three lines of [read_lines]. *)
Definition run_read (b : bytes) (st : env * N) (s : stmt) : rres (env * N) :=
  let '(vars, byte_offset) := st in
  d <- slice_from b byte_offset ;;
  '(size, v) <- run_type vars (st_on s) (st_type s) d ;;
  byte_offset <- uadd m byte_offset size ;;
  Ok ((st_name s, v) :: vars, byte_offset).
Fixpoint run_reads (b : bytes) (st : env * N) (l : list stmt) : rres (env * N) :=
  match l with
  | [] => Ok st
  | s :: r => st <- run_read b st s ;; run_reads b st r
  end.
(** The structure literal takes each member from the variable of its name. *)
Fixpoint members {A} (vars : list (string * A)) (names : list string) : rres (list A) :=
  match names with
  | [] => Ok []
  | n :: r => v <- unwrap (sget n vars) ;; vs <- members vars r ;; Ok (v :: vs)
  end.
Definition run_program (b : bytes) (l : list stmt) : rres (N * value) :=
  '(vars, byte_offset) <- run_reads b ([], 0%N) l ;;
  vs <- members vars (map st_name l) ;;
  Ok (byte_offset, VMsg vs).

(** [T::from_slice_with_offsets(slice)] where the statement uses it. *)
Definition run_type_offsets (vars : env) (on : option string) (t : ity) : reader (value * option offsets) :=
  match t with
  | IMessage _ x => rmap (fun p => (fst p, Some (snd p))) (read_msg_offsets m embedded x)
  | IOptional (IMessage _ x) =>
      rmap (fun p => (VOpt (fst p), snd p)) (optional_from_slice_with_offsets m (read_msg_offsets m embedded x))
  | _ => rmap (fun v => (v, None)) (run_type vars on t)
  end.
(** The lines of [offset_lines]: the variables, the members of [offsets] by name,
    and [byte_offset]. *)
Definition run_offset (b : bytes) (st : env * list (string * (N * N * option offsets)) * N) (s : stmt)
  : rres (env * list (string * (N * N * option offsets)) * N) :=
  let '(vars, offs, start) := st in
  d <- slice_from b start ;;
  '(size, (v, nested)) <- run_type_offsets vars (st_on s) (st_type s) d ;;
  end_ <- uadd m start size ;;
  Ok ((st_name s, v) :: vars, (st_name s, (start, end_, nested)) :: offs, end_).
Fixpoint run_offsets (b : bytes) (st : env * list (string * (N * N * option offsets)) * N) (l : list stmt)
  : rres (env * list (string * (N * N * option offsets)) * N) :=
  match l with
  | [] => Ok st
  | s :: r => st <- run_offset b st s ;; run_offsets b st r
  end.
(** The structure literal of the message, and the members of its offsets in order. *)
Definition run_offsets_program (b : bytes) (l : list stmt) : rres (N * (value * offsets)) :=
  '(vars, offs, byte_offset) <- run_offsets b ([], [], 0%N) l ;;
  vs <- members vars (map st_name l) ;;
  os <- members offs (map st_name l) ;;
  Ok (byte_offset, (VMsg vs, MkOffsets os)).
End Run.

(** Writing: [T::write_to(&input.name, ..)] takes the members by name. *)
Section RunWrite.
Variable m : mode.
Context {St : Type} (w : sink St).

Fixpoint run_write_type (input : env) (on : option string) (t : ity) (v : value) : wr St :=
  match t, v with
  | IValue o t, VScalar n => value_write w o (get_byte_size t) n
  | IStruct _ s, VStruct data => struct_write w (s_byte_size s) data
  | IMessage _ x, _ => write_msg m w x v
  | IUnion _ u, _ => write_union m w u (match on with Some n => sget n input | None => None end) v
  | INullTerminated, VStr s => nts_write w s
  | IVarchar o t, VStr s => varchar_write w o (get_byte_size t) s
  | IArray o t _ _, VListing data n => listing_write w o (get_byte_size t) data n
  | IList o t _ _, VListing data n => listing_write w o (get_byte_size t) data n
  | IUnsized o t _ _, VListing data n => listing_write w o (get_byte_size t) data n
  | IBuffer, VPayload b => buffer_write w b
  | IOptional t, VOpt o => optional_write w (run_write_type input on t) o
  | _, _ => wpanic
  end.
Fixpoint run_writes (input : env) (l : list stmt) : wr St :=
  match l with
  | [] => wdone
  | s :: r =>
      wseq (match sget (st_name s) input with
            | Some v => run_write_type input (st_on s) (st_type s) v
            | None => wpanic
            end) (run_writes input r)
  end.
(** The members of a message by name. *)
Definition input_of (l : list stmt) (vs : list value) : env := combine (map st_name l) vs.
End RunWrite.

(** Running [discriminant.get_a().get_raw_b()] and [discriminant.get_a_mut().set_raw_b(v)]:
    methods by the name of the field. *)
Section RunPath.
Variable m : mode.
Definition method (s : structure) (name : string) : option field :=
  find (fun f => String.eqb (field_name f) name) (s_fields s).
Fixpoint run_get (s : structure) (chain : list (string * bool)) (data : bytes) : rres N :=
  match chain with
  | [] => Panic
  | (name, raw) :: rest =>
      match method s name, raw, rest with
      | Some (FFixed f), true, [] => get_raw m f data
      | Some (FStruct _ r loc), false, _ =>
          w <- slice data (l_byte_offset loc) (l_byte_offset loc + l_byte_size loc) ;; run_get r rest w
      | _, _, _ => Panic
      end
  end.
Fixpoint run_set (s : structure) (chain : list (string * bool)) (data : bytes) (v : N) : rres bytes :=
  match chain with
  | [] => Panic
  | (name, raw) :: rest =>
      match method s name, raw, rest with
      | Some (FFixed f), true, [] => set_raw m f data v
      | Some (FStruct _ r loc), false, _ =>
          update_slice data (l_byte_offset loc) (l_byte_offset loc + l_byte_size loc) (fun w => run_set r rest w v)
      | _, _, _ => Panic
      end
  end.
End RunPath.
(** rustc rejects a type with two methods of one name. *)
Inductive distinct_methods : structure -> Prop :=
| distinct_methods_intro : forall s, NoDup (map field_name (s_fields s)) ->
    (forall name r loc, In (FStruct name r loc) (s_fields s) -> distinct_methods r) -> distinct_methods s.
