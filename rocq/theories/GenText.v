(** Model of the text generators: compiler/src/gen/base/*.rs, gen/rust/*.rs and
    gen/swift/*.rs, run on their templates by the engine of Template.v.

    Every template result is unwrapped by the generator: an [Err] of the engine is
    a panic here. The casing functions and the [{:?}] formatting of an [f64] belong
    to the standard library and are parameters. Iterators are run in order; a
    panic anywhere is a panic of the whole. *)

From Coq Require Import Arith NArith Ascii String List Bool Decimal DecimalString.
From Verif Require Import Base Schema Compiler Template Templates Driver.
Import ListNotations.
Local Open Scope string_scope.

(** gen/rust/mod.rs:51-55: the error type of both generators; no code constructs
    it. *)
Inductive gerror := GUnknown.
Definition gres := outcome gerror.

(** Formatting by the standard library. *)
Record formats := { fm_casing : casing; fm_f64 : f64 -> string }.

(** [Display] of a usize ([var_d], template.rs:255-258, 310-313). *)
Definition show_usize (n : N) : string := NilZero.string_of_uint (N.to_uint n).

(** [iter().map(..).join(sep)] (itertools) where [..] may panic. *)
Fixpoint mapM {A B} (f : A -> gres B) (l : list A) : gres (list B) :=
  match l with
  | [] => Ok []
  | x :: r => y <- f x ;; ys <- mapM f r ;; Ok (y :: ys)
  end.
Definition map_join {A} (sep : string) (f : A -> gres string) (l : list A) : gres string :=
  l <- mapM f l ;; Ok (String.concat sep l).

(** ** gen/base/structure.rs *)

(** gen/base/structure.rs:35-42. [get_function_name] may panic. *)
Record utilities := {
  ut_field_type : fixed_type -> string;
  ut_function_name : fixed_field -> gres string;
  ut_function_name_mut : fixed_field -> gres string;
  ut_bit_codec_inline : endianness -> string;
  ut_byte_codec_inline : endianness -> string;
  ut_byte_codec : endianness -> string }.

Section Structure.
Variables (fm : formats) (U : utilities).

(** gen/base/structure.rs:108-130 *)
Definition gen_field_view_getter (field : fixed_field) (scope : scope) (tp : smap string) : gres string :=
  match ff_view field with
  | VFloat a b _ _ =>
      let scope := s_var scope "view_type" (ut_field_type U (ff_ty field)) in
      let scope := s_var scope "a" (fm_f64 fm a) in
      let scope := s_var scope "b" (fm_f64 fm b) in
      unwrap_res (s_render scope "getters" ["view_float"])
  | VEnum e =>
      let scope := s_var scope "view_type" (type_path_get tp (e_name e)) in
      let scope := s_var scope "enum_largest" (show_usize (e_largest e)) in
      unwrap_res (s_render scope "getters" ["view_enum"])
  | VTransmute =>
      let scope := s_var scope "view_type" (ut_field_type U (ff_ty field)) in
      scope <- match ff_ty field with
               | FBool => unwrap_res (s_render_to_var scope "getters.view_transmute" ["bool"] "fragment")
               | _ => unwrap_res (s_render_to_var scope "getters.view_transmute" ["other"] "fragment")
               end ;;
      unwrap_res (s_render scope "getters" ["view_transmute"])
  | VSignedCast max_positive =>
      let scope := s_var scope "view_type" (ut_field_type U (ff_ty field)) in
      let scope := s_var scope "max_positive" (show_usize max_positive) in
      unwrap_res (s_render scope "getters" ["view_signed"])
  | VNone =>
      let scope := s_var scope "view_type" (ut_field_type U (ff_ty field)) in
      unwrap_res (s_render scope "getters" ["view_none"])
  end.

(** gen/base/structure.rs:132-152 *)
Definition gen_field_view_setter (field : fixed_field) (scope : scope) (tp : smap string) : gres string :=
  match ff_view field with
  | VFloat _ _ a_inv b_inv =>
      let scope := s_var scope "view_type" (ut_field_type U (ff_ty field)) in
      let scope := s_var scope "a_inv" (fm_f64 fm a_inv) in
      let scope := s_var scope "b_inv" (fm_f64 fm b_inv) in
      unwrap_res (s_render scope "setters" ["view_float"])
  | VEnum e =>
      let scope := s_var scope "view_type" (type_path_get tp (e_name e)) in
      let scope := s_var scope "enum_largest" (show_usize (e_largest e)) in
      unwrap_res (s_render scope "setters" ["view_enum"])
  | VTransmute | VSignedCast _ =>
      let scope := s_var scope "view_type" (ut_field_type U (ff_ty field)) in
      scope <- match ff_ty field with
               | FBool => unwrap_res (s_render_to_var scope "setters.view_transmute" ["bool"] "fragment")
               | _ => unwrap_res (s_render_to_var scope "setters.view_transmute" ["other"] "fragment")
               end ;;
      unwrap_res (s_render scope "setters" ["view_transmute"])
  | VNone =>
      let scope := s_var scope "view_type" (ut_field_type U (ff_ty field)) in
      unwrap_res (s_render scope "setters" ["view_none"])
  end.

(** gen/base/structure.rs:45-48, 77-80: the variables every field has. The sum of
    offset and size of a compiled field is below 2^64. *)
Definition field_scope (field : field) (template : template) : scope :=
  let loc := field_loc field in
  let scope := t_scope template in
  let scope := s_var scope "start" (show_usize (l_byte_offset loc)) in
  let scope := s_var scope "end" (show_usize (l_byte_offset loc + l_byte_size loc)) in
  s_var scope "name" (field_name field).

(** gen/base/structure.rs:44-74 *)
Definition gen_field_getter (template : template) (tp : smap string) (field : field) : gres string :=
  let scope := field_scope field template in
  match field with
  | FFixed v =>
      raw_field_type <- get_unsigned_integer_type (ff_loc v) ;;
      function_name <- ut_function_name U v ;;
      let scope := s_var scope "raw_type" (ut_field_type U raw_field_type) in
      let scope := s_var scope "function_name" function_name in
      scope <-
        (if negb (N.eqb (l_bit_size (ff_loc v) mod 8) 0) then
           let scope := s_var scope "codec" (ut_bit_codec_inline U (ff_endianness v)) in
           let scope := s_var scope "bit_offset" (show_usize (l_bit_offset (ff_loc v))) in
           let scope := s_var scope "bit_size" (show_usize (l_bit_size (ff_loc v))) in
           unwrap_res (s_render_to_var scope "getters.fixed" ["bit"] "fragment")
         else
           let scope := s_var scope "codec" (ut_byte_codec_inline U (ff_endianness v)) in
           unwrap_res (s_render_to_var scope "getters.fixed" ["byte"] "fragment")) ;;
      code <- unwrap_res (s_render scope "getters" ["fixed"]) ;;
      view <- gen_field_view_getter v scope tp ;;
      Ok (code ++ view)
  | FArray v =>
      let scope := s_var scope "raw_type" (ut_field_type U (fa_ty v)) in
      let scope := s_var scope "codec" (ut_byte_codec U (fa_endianness v)) in
      size <- item_bit_size v ;;
      let scope := s_var scope "bit_size" (show_usize size) in
      unwrap_res (s_render scope "getters" ["array"])
  | FStruct _ r _ =>
      let scope := s_var scope "type_name" (type_path_get tp (s_name r)) in
      unwrap_res (s_render scope "getters" ["struct"])
  end.

(** gen/base/structure.rs:76-106 *)
Definition gen_field_setter (template : template) (tp : smap string) (field : field) : gres string :=
  let scope := field_scope field template in
  match field with
  | FFixed v =>
      raw_field_type <- get_unsigned_integer_type (ff_loc v) ;;
      function_name <- ut_function_name_mut U v ;;
      let scope := s_var scope "raw_type" (ut_field_type U raw_field_type) in
      let scope := s_var scope "function_name" function_name in
      scope <-
        (if negb (N.eqb (l_bit_size (ff_loc v) mod 8) 0) then
           let scope := s_var scope "codec" (ut_bit_codec_inline U (ff_endianness v)) in
           let scope := s_var scope "bit_offset" (show_usize (l_bit_offset (ff_loc v))) in
           let scope := s_var scope "bit_size" (show_usize (l_bit_size (ff_loc v))) in
           unwrap_res (s_render_to_var scope "setters.fixed" ["bit"] "fragment")
         else
           let scope := s_var scope "codec" (ut_byte_codec_inline U (ff_endianness v)) in
           unwrap_res (s_render_to_var scope "setters.fixed" ["byte"] "fragment")) ;;
      code <- unwrap_res (s_render scope "setters" ["fixed"]) ;;
      view <- gen_field_view_setter v scope tp ;;
      Ok (code ++ view)
  | FArray v =>
      let scope := s_var scope "raw_type" (ut_field_type U (fa_ty v)) in
      let scope := s_var scope "codec" (ut_byte_codec U (fa_endianness v)) in
      size <- item_bit_size v ;;
      let scope := s_var scope "bit_size" (show_usize size) in
      unwrap_res (s_render scope "setters" ["array"])
  | FStruct _ r _ =>
      let scope := s_var scope "type_name" (type_path_get tp (s_name r)) in
      unwrap_res (s_render scope "setters" ["struct"])
  end.

(** gen/base/structure.rs:154-158, 160-164 *)
Definition gen_structure_getters (s : structure) (template : template) (tp : smap string) : gres string :=
  fields <- map_join "" (gen_field_getter template tp) (s_fields s) ;;
  unwrap_res (s_render (s_var (t_scope template) "fields" fields) "" ["getters"]).
Definition gen_structure_setters (s : structure) (template : template) (tp : smap string) : gres string :=
  fields <- map_join "" (gen_field_setter template tp) (s_fields s) ;;
  unwrap_res (s_render (s_var (t_scope template) "fields" fields) "" ["setters"]).

(** gen/base/structure.rs:166-180 *)
Definition gen_structure (template field_template : string) (s : structure) (tp : smap string) : gres string :=
  template <- unwrap_res (compile (fm_casing fm) template) ;;
  field_template <- unwrap_res (compile (fm_casing fm) field_template) ;;
  let field_template := t_var field_template "struct_name" (s_name s) in
  let template := t_var (t_var template "name" (s_name s)) "byte_size" (show_usize (s_byte_size s)) in
  code <- unwrap_res (t_render template "" ["decl"; "new"; "fixed_size"; "write_to"; "from_slice"]) ;;
  getters <- gen_structure_getters s field_template tp ;;
  setters <- gen_structure_setters s field_template tp ;;
  Ok (code ++ getters ++ setters).
End Structure.

(** ** gen/rust/util.rs *)

(** gen/rust/util.rs:73-89: the type between prefix and suffix. *)
Definition rust_type (t : fixed_type) : string :=
  match t with
  | I8 => "i8" | I16 => "i16" | I32 => "i32" | I64 => "i64"
  | U8 => "u8" | U16 => "u16" | U32 => "u32" | U64 => "u64"
  | F32 => "f32" | F64 => "f64" | FBool => "bool"
  end.
(** gen/rust/util.rs:98-114 *)
Definition function_name (unaligned aligned : string) (field : fixed_field) : gres string :=
  raw_field_type <- get_unsigned_integer_type (ff_loc field) ;;
  Ok (if negb (N.eqb (N.of_nat (get_byte_size raw_field_type)) (l_byte_size (ff_loc field)))
      then unaligned else aligned).
(** gen/rust/util.rs:93-136 *)
Definition rust_utils : utilities := {|
  ut_field_type := rust_type;
  ut_function_name := function_name "read_unaligned" "read_aligned";
  ut_function_name_mut := function_name "write_unaligned" "write_aligned";
  ut_bit_codec_inline e := match e with
    | Little => "<bp3d_proto::codec::BitCodecLE as bp3d_proto::codec::BitCodec>"
    | Big => "<bp3d_proto::codec::BitCodecBE as bp3d_proto::codec::BitCodec>" end;
  ut_byte_codec_inline e := match e with
    | Little => "<bp3d_proto::codec::ByteCodecLE as bp3d_proto::codec::ByteCodec>"
    | Big => "<bp3d_proto::codec::ByteCodecBE as bp3d_proto::codec::ByteCodec>" end;
  ut_byte_codec e := match e with
    | Little => "bp3d_proto::codec::ByteCodecLE"
    | Big => "bp3d_proto::codec::ByteCodecBE" end |}.

(** gen/rust/util.rs:38-71: the lifetime parameter, if any. *)
Definition generics (msg : message) : string :=
  if existsb (fun f => match mf_ty f with TFixed _ => false | _ => true end) (m_fields msg)
  then "<'a>" else "".
(** gen/rust/util.rs:143-155 *)
Definition value_type (e : endianness) (t : fixed_type) : string :=
  match e with
  | Little => "bp3d_proto::message::util::ValueLE<" ++ rust_type t ++ ">"
  | Big => "bp3d_proto::message::util::ValueBE<" ++ rust_type t ++ ">"
  end.
Definition value_type_inline (e : endianness) (t : fixed_type) : string :=
  match e with
  | Little => "bp3d_proto::message::util::ValueLE::<" ++ rust_type t ++ ">"
  | Big => "bp3d_proto::message::util::ValueBE::<" ++ rust_type t ++ ">"
  end.
(** gen/rust/util.rs:157-163 *)
Definition option_type (ty : string) : string := "Option<" ++ ty ++ ">".
Definition option_type_inline (ty : string) : string := "bp3d_proto::message::util::Optional::<" ++ ty ++ ">".
(** gen/rust/util.rs:165-167, 169-174 (only used for [NullTerminated]), 176-182 *)
Definition string_type : string := "&'a str".
Definition string_type_inline : string := "bp3d_proto::message::util::NullTerminatedString".
Definition payload_type : string := "&'a [u8]".
Definition payload_type_inline : string := "bp3d_proto::message::util::Buffer".
(** gen/rust/util.rs:184-194 *)
Definition struct_ref_type (n : string) : string := n ++ "<&'a [u8]>".
Definition message_ref_type (n : string) : string := n ++ "<'a>".
Definition union_ref_type (n : string) : string := n ++ "<'a>".

(** ** gen/rust/structure.rs:37-43, gen/rust/enum.rs:35-42 *)
Definition gen_structure_decl (fm : formats) (tp : smap string) (s : structure) : gres string :=
  gen_structure fm rust_utils structure_template structure_field_template s tp.

Definition gen_enum_decl (fm : formats) (e : enum_) : gres string :=
  template <- unwrap_res (compile (fm_casing fm) enum_template) ;;
  let template := t_var template "name" (e_name e) in
  code <- map_join "" (fun kv =>
            let scope := s_var (s_var (t_scope template) "key" (fst kv)) "value" (show_usize (snd kv)) in
            unwrap_res (s_render scope "enum" ["variant"])) (e_variants e) ;;
  unwrap_res (t_render (t_var template "variants" code) "" ["enum"]).

(** ** Messages, with RustUtils *)
Section Messages.
Variables (fm : formats) (tp : smap string).
(** [Message::is_embedded] when the code is generated. *)
Variable embedded : N -> bool.

Definition ref_name (r : referenced) : string :=
  match r with RStruct s => s_name s | RMessage x => m_name x end.

(** gen/base/message.rs:56-82 *)
Definition gen_field_decl (template : template) (field : mfield) : gres string :=
  let endi := mf_endi field in
  let wrapped (name : string) (ty : fixed_type) (item : string) : gres string :=
    let scope := s_var (t_scope template) "codec" (value_type endi ty) in
    let scope := s_var scope "type_name" (type_path_get tp item) in
    unwrap_res (s_render scope "" [name]) in
  msg_type <- match mf_ty field with
              | TFixed ty => Ok (rust_type ty)
              | TRef (RStruct v) => Ok (struct_ref_type (type_path_get tp (s_name v)))
              | TRef (RMessage v) => Ok (message_ref_type (type_path_get tp (m_name v)))
              | TNullTerminatedString => Ok string_type
              | TVarcharString _ => Ok string_type
              | TArray ty item => wrapped "array" ty (s_name item)
              | TUnion r _ _ => Ok (union_ref_type (type_path_get tp (u_name r)))
              | TList ty item => wrapped "list" ty (m_name item)
              | TPayload => Ok payload_type
              end ;;
  let msg_type := if mf_optional field then option_type msg_type else msg_type in
  let scope := s_var (s_var (t_scope template) "name" (mf_name field)) "type" msg_type in
  unwrap_res (s_render scope "decl" ["field"]).

(** gen/base/message.rs:84-91 *)
Definition gen_message_struct (msg : message) : gres string :=
  template <- unwrap_res (compile (fm_casing fm) message_template) ;;
  let template := t_var (t_var template "msg_name" (m_name msg)) "generics" (generics msg) in
  fields <- map_join "" (gen_field_decl template) (m_fields msg) ;;
  unwrap_res (s_render (s_var (t_scope template) "fields" fields) "" ["decl"]).

(** gen/rust/message.rs:42-53: the loop over the fields; the variables set on the
    template stay. *)
Fixpoint array_type_decls (template : template) (fields : list mfield) : gres string :=
  match fields with
  | [] => Ok ""
  | field :: r =>
      let template := t_var template "name" (mf_name field) in
      let item (name : string) (ty : fixed_type) (item_type : string) :=
        let template := t_var template "item_type" (type_path_get tp item_type) in
        let template := t_var template "codec" (value_type (mf_endi field) ty) in
        code <- unwrap_res (t_render template "" [name]) ;;
        rest <- array_type_decls template r ;;
        Ok (code ++ rest) in
      match mf_ty field with
      | TArray ty v => item "decl_array" ty (s_name v)
      | TList ty v => item "decl_list" ty (m_name v)
      | _ => array_type_decls template r
      end
  end.
(** gen/rust/message.rs:39-54 *)
Definition gen_message_array_type_decls (msg : message) : gres string :=
  template <- unwrap_res (compile (fm_casing fm) message_ext_template) ;;
  array_type_decls (t_var template "msg_name" (m_name msg)) (m_fields msg).
(** gen/rust/message.rs:56-62 *)
Definition gen_message_decl (msg : message) : gres string :=
  code <- gen_message_struct msg ;;
  decls <- gen_message_array_type_decls msg ;;
  Ok (code ++ (String newline (String newline EmptyString)) ++ decls ++ String newline EmptyString).

(** gen/base/message_from_slice.rs:36-42 *)
Definition gen_optional (optional : bool) (type_name : string) : string :=
  if optional then option_type_inline type_name else type_name.

(** gen/base/message_from_slice.rs:44-78; the second component is [union]. *)
Definition generate_field_type_inline (emb : bool) (template : template) (field : mfield)
  : gres (string * option string) :=
  let endi := mf_endi field in
  let opt := gen_optional (mf_optional field) in
  let wrapped (name : string) (ty : fixed_type) (item : string) : gres string :=
    let scope := s_var (t_scope template) "codec" (value_type endi ty) in
    let scope := s_var scope "type_name" (type_path_get tp item) in
    unwrap_res (s_render scope "" [name]) in
  match mf_ty field with
  | TFixed ty => Ok (opt (value_type_inline endi ty), None)
  | TRef v => Ok (opt (type_path_get tp (ref_name v)), None)
  | TNullTerminatedString => Ok (opt string_type_inline, None)
  | TVarcharString ty =>
      s <- unwrap_res (s_render (s_var (t_scope template) "codec" (value_type endi ty)) "" ["varchar"]) ;;
      Ok (opt s, None)
  | TArray ty item => s <- wrapped "array" ty (s_name item) ;; Ok (opt s, None)
  | TUnion r on_name _ => Ok (opt (type_path_get tp (u_name r)), Some on_name)
  | TList ty item =>
      s <- wrapped (if emb then "list" else "unsized") ty (m_name item) ;; Ok (opt s, None)
  | TPayload => Ok (opt payload_type_inline, None)
  end.

(** compiler/message.rs:100-110 *)
Definition is_message_reference (t : mfield_type) : bool :=
  match t with TRef (RMessage _) => true | _ => false end.

(** gen/base/message_from_slice.rs:80-95 *)
Definition gen_field_from_slice_impl (emb : bool) (template : template) (field : mfield) : gres string :=
  let scope := s_var (t_scope template) "name" (mf_name field) in
  '(msg_type, union) <- generate_field_type_inline emb template field ;;
  let scope := match union with Some on_name => s_var scope "on_name" on_name | None => scope end in
  let scope := s_var scope "type" msg_type in
  match union with
  | Some _ => unwrap_res (s_render scope "impl" ["field_union"])
  | None =>
      if is_message_reference (mf_ty field)
      then unwrap_res (s_render scope "impl" ["field_msg"])
      else unwrap_res (s_render scope "impl" ["field"])
  end.

(** gen/base/message_from_slice.rs:97-104 *)
Definition generate_from_slice_impl (template : template) (msg : message) : gres string :=
  fields <- map_join "" (gen_field_from_slice_impl (embedded (m_id msg)) template) (m_fields msg) ;;
  field_names <- map_join "" (fun field =>
    unwrap_res (s_render (s_var (t_scope template) "name" (mf_name field)) "impl" ["field_name"])) (m_fields msg) ;;
  let scope := s_var (s_var (t_scope template) "fields" fields) "field_names" field_names in
  unwrap_res (s_render scope "" ["impl"]).

(** gen/base/message_from_slice.rs:106-110, gen/rust/message_from_slice.rs:36-38 *)
Definition gen_message_from_slice_impl (msg : message) : gres string :=
  template <- unwrap_res (compile (fm_casing fm) message_from_slice_template) ;;
  let template := t_var (t_var template "msg_name" (m_name msg)) "generics" (generics msg) in
  generate_from_slice_impl template msg.

(** gen/base/message_write.rs:36-49 *)
Definition gen_field_write_impl (emb : bool) (template : template) (field : mfield) : gres string :=
  let scope := s_var (t_scope template) "name" (mf_name field) in
  '(msg_type, union) <- generate_field_type_inline emb template field ;;
  let scope := match union with Some on_name => s_var scope "on_name" on_name | None => scope end in
  let scope := s_var scope "type" msg_type in
  match union with
  | Some _ => unwrap_res (s_render scope "impl" ["field_union"])
  | None => unwrap_res (s_render scope "impl" ["field"])
  end.
(** gen/base/message_write.rs:51-56, gen/rust/message_write.rs:36-38 *)
Definition gen_message_write_impl (msg : message) : gres string :=
  template <- unwrap_res (compile (fm_casing fm) message_write_template) ;;
  let template := t_var (t_var template "msg_name" (m_name msg)) "generics" (generics msg) in
  fields <- map_join "" (gen_field_write_impl (embedded (m_id msg)) template) (m_fields msg) ;;
  unwrap_res (t_render (t_var template "fields" fields) "" ["impl"]).

(** gen/rust/message_offsets.rs:38-51 *)
Definition gen_message_offset_field (template : template) (field : mfield) : gres string :=
  let scope := s_var (t_scope template) "name" (mf_name field) in
  match mf_ty field with
  | TRef (RMessage v) =>
      let scope := s_var scope "type_name" (type_path_get tp (m_name v)) in
      if mf_optional field
      then unwrap_res (s_render scope "decl" ["field"; "msg_optional"])
      else unwrap_res (s_render scope "decl" ["field"; "msg"])
  | _ => unwrap_res (s_render scope "decl" ["field"])
  end.
(** gen/rust/message_offsets.rs:53-63 *)
Definition gen_message_offsets_decl (msg : message) : gres string :=
  template <- unwrap_res (compile (fm_casing fm) message_offsets_template) ;;
  let template := t_var (t_var template "msg_name" (m_name msg)) "generics" (generics msg) in
  fields <- map_join "" (gen_message_offset_field template) (m_fields msg) ;;
  let template := t_var template "fields" fields in
  code <- unwrap_res (t_render template "" ["decl"]) ;;
  impl <- generate_from_slice_impl template msg ;;
  Ok (code ++ String newline EmptyString ++ impl).
End Messages.

(** ** gen/rust/union.rs *)

(** union.rs:37-43 *)
Definition union_generics (u : union_) : string :=
  if existsb (fun c => match uc_item c with Some _ => true | None => false end) (u_cases u)
  then "<'a>" else "".

(** compiler/union.rs:70-91: the fields on the way to the discriminant. An index out of
    bounds and an array panic. *)
Fixpoint disc_iter (cur : structure) (index : list nat) : gres (list (field * bool)) :=
  match index with
  | [] => Ok []
  | i :: r =>
      field <- unwrap (nth_error (s_fields cur) i) ;;
      match field with
      | FFixed _ => l <- disc_iter cur r ;; Ok ((field, true) :: l)
      | FArray _ => Panic
      | FStruct _ s _ => l <- disc_iter s r ;; Ok ((field, false) :: l)
      end
  end.
(** union.rs:45-51, 53-59 *)
Definition discriminant_path (u : union_) : gres string :=
  l <- disc_iter (d_root (u_disc u)) (d_index_list (u_disc u)) ;;
  Ok (String.concat "." (map (fun p : field * bool =>
    if snd p then "get_raw_" ++ field_name (fst p) ++ "()" else "get_" ++ field_name (fst p) ++ "()") l)).
Definition discriminant_path_mut (u : union_) : gres string :=
  l <- disc_iter (d_root (u_disc u)) (d_index_list (u_disc u)) ;;
  Ok (String.concat "." (map (fun p : field * bool =>
    if snd p then "set_raw_" ++ field_name (fst p) else "get_" ++ field_name (fst p) ++ "_mut()") l)).

(** [str::to_ascii_lowercase] *)
Definition ascii_lower (c : ascii) : ascii :=
  let n := N_of_ascii c in if Utf8.in_range 65 90 n then ascii_of_N (n + 32) else c.
Fixpoint to_ascii_lowercase (s : string) : string :=
  match s with EmptyString => EmptyString | String c r => String (ascii_lower c) (to_ascii_lowercase r) end.

Section Unions.
Variables (fm : formats) (tp : smap string).

Definition case_scope (template : template) (case : ucase) : scope :=
  s_var (s_var (t_scope template) "name" (uc_name case)) "case" (show_usize (uc_case case)).

(** union.rs:61-80 *)
Definition gen_union_from_slice_impl (u : union_) (template : template) : gres string :=
  cases <- map_join "" (fun case =>
    let scope := case_scope template case in
    match uc_item case with
    | None => unwrap_res (s_render scope "from_slice.none" ["case"])
    | Some item_type =>
        unwrap_res (s_render (s_var scope "type_name" (type_path_get tp (ref_name item_type)))
                      "from_slice.generics" ["case"])
    end) (u_cases u) ;;
  let scope := s_var (t_scope template) "cases" cases in
  scope <- (if negb (String.eqb (union_generics u) "")
            then unwrap_res (s_render_to_var scope "from_slice" ["generics"] "fragment")
            else unwrap_res (s_render_to_var scope "from_slice" ["none"] "fragment")) ;;
  unwrap_res (s_render scope "" ["from_slice"]).

(** union.rs:82-100 *)
Definition gen_union_write_to_impl (u : union_) (template : template) : gres string :=
  let scope := t_scope template in
  scope <- (if negb (String.eqb (union_generics u) "") then
              cases <- map_join "" (fun case =>
                let scope := case_scope template case in
                match uc_item case with
                | None => Ok ""
                | Some item_type =>
                    unwrap_res (s_render (s_var scope "type_name" (type_path_get tp (ref_name item_type)))
                                  "write_to.generics" ["case"])
                end) (u_cases u) ;;
              unwrap_res (s_render_to_var (s_var scope "cases" cases) "write_to" ["generics"] "fragment")
            else unwrap_res (s_render_to_var scope "write_to" ["none"] "fragment")) ;;
  unwrap_res (s_render scope "" ["write_to"]).

(** union.rs:102-112 *)
Definition gen_union_set_discriminant (u : union_) (template : template) : gres string :=
  cases <- map_join "" (fun case =>
    let scope := case_scope template case in
    match uc_item case with
    | Some _ => unwrap_res (s_render scope "setter" ["ref"])
    | None => unwrap_res (s_render scope "setter" ["none"])
    end) (u_cases u) ;;
  unwrap_res (s_render (s_var (t_scope template) "cases" cases) "" ["setter"]).

(** union.rs:114-127 *)
Definition gen_union_as_getters (u : union_) (template : template) : gres string :=
  cases <- map_join "" (fun case =>
    let scope := s_var (s_var (t_scope template) "name_lower" (to_ascii_lowercase (uc_name case)))
                   "name" (uc_name case) in
    match uc_item case with
    | Some (RStruct v) =>
        unwrap_res (s_render (s_var scope "type_name" (type_path_get tp (s_name v))) "getters" ["struct"])
    | Some (RMessage v) =>
        unwrap_res (s_render (s_var scope "type_name" (type_path_get tp (m_name v))) "getters" ["message"])
    | None => unwrap_res (s_render scope "getters" ["none"])
    end) (u_cases u) ;;
  unwrap_res (s_render (s_var (t_scope template) "cases" cases) "" ["getters"]).

(** union.rs:129-151 *)
Definition gen_union_decl (u : union_) : gres string :=
  template <- unwrap_res (compile (fm_casing fm) union_template) ;;
  path_mut <- discriminant_path_mut u ;;
  path <- discriminant_path u ;;
  let template := t_var template "union_name" (u_name u) in
  let template := t_var template "generics" (union_generics u) in
  let template := t_var template "discriminant_path_mut" path_mut in
  let template := t_var template "discriminant_path" path in
  let template := t_var template "discriminant_type" (type_path_get tp (s_name (d_root (u_disc u)))) in
  cases <- map_join "" (fun case =>
    let scope := s_var (t_scope template) "name" (uc_name case) in
    match uc_item case with
    | None => unwrap_res (s_render scope "decl" ["none"])
    | Some (RStruct v) =>
        unwrap_res (s_render (s_var scope "type_name" (type_path_get tp (s_name v))) "decl" ["struct"])
    | Some (RMessage v) =>
        unwrap_res (s_render (s_var scope "type_name" (type_path_get tp (m_name v))) "decl" ["message"])
    end) (u_cases u) ;;
  code <- unwrap_res (s_render (s_var (t_scope template) "cases" cases) "" ["decl"]) ;;
  from_slice <- gen_union_from_slice_impl u template ;;
  write_to <- gen_union_write_to_impl u template ;;
  set_discriminant <- gen_union_set_discriminant u template ;;
  getters <- gen_union_as_getters u template ;;
  Ok (code ++ from_slice ++ write_to ++ set_discriminant ++ getters).
End Unions.

(** ** gen/rust/mod.rs:62-79 *)
Definition rust_files (fm : formats) (embedded : N -> bool) (proto : protocol) : gres (list file) :=
  let tp := p_type_path_by_name proto in
  let nl := String newline EmptyString in
  decl_messages <- map_join nl (gen_message_decl fm tp) (p_messages proto) ;;
  from_slice <- map_join nl (gen_message_from_slice_impl fm tp embedded) (p_messages proto) ;;
  write <- map_join nl (gen_message_write_impl fm tp embedded) (p_messages proto) ;;
  decl_structures <- map_join nl (gen_structure_decl fm tp) (p_structs proto) ;;
  decl_enums <- map_join nl (gen_enum_decl fm) (p_enums proto) ;;
  decl_unions <- map_join nl (gen_union_decl fm tp) (p_unions proto) ;;
  offsets <- map_join nl (gen_message_offsets_decl fm tp embedded) (p_messages proto) ;;
  Ok [{| fi_ty := Message; fi_name := "messages.rs"; fi_data := decl_messages |};
      {| fi_ty := MessageReading; fi_name := "messages_from_slice.rs"; fi_data := from_slice |};
      {| fi_ty := MessageWriting; fi_name := "messages_write.rs"; fi_data := write |};
      {| fi_ty := MessageReading; fi_name := "messages_offsets.rs"; fi_data := offsets |};
      {| fi_ty := StructureFile; fi_name := "structures.rs"; fi_data := decl_structures |};
      {| fi_ty := EnumFile; fi_name := "enums.rs"; fi_data := decl_enums |};
      {| fi_ty := UnionFile; fi_name := "unions.rs"; fi_data := decl_unions |}].

(** The generator as the driver sees it; [show] is the [Debug] formatting of a path. *)
Definition generator_rust (fm : formats) (show : string -> string) (embedded : N -> bool) : generator protocol := {|
  g_generate p := match rust_files fm embedded p with Ok l => Ok l | Err GUnknown => Err "unknown" | Panic => Panic end;
  g_umbrella name files := Ok (umbrella_rust show name files) |}.

(** ** gen/swift (not exported by the crate) *)

(** gen/swift/util.rs:32-48 *)
Definition swift_type (t : fixed_type) : string :=
  match t with
  | I8 => "Int8" | I16 => "Int16" | I32 => "Int32" | I64 => "Int64"
  | U8 => "UInt8" | U16 => "UInt16" | U32 => "UInt32" | U64 => "UInt64"
  | F32 => "Float32" | F64 => "Float64" | FBool => "Bool"
  end.
(** gen/swift/util.rs:52-95 *)
Definition swift_utils : utilities := {|
  ut_field_type := swift_type;
  ut_function_name := function_name "readUnaligned" "readAligned";
  ut_function_name_mut := function_name "writeUnaligned" "writeAligned";
  ut_bit_codec_inline e := match e with Little => "BP3DProto.BitCodecLE" | Big => "BP3DProto.BitCodecBE" end;
  ut_byte_codec_inline e := match e with Little => "BP3DProto.ByteCodecLE" | Big => "BP3DProto.ByteCodecBE" end;
  ut_byte_codec e := match e with Little => "BP3DProto.ByteCodecLE" | Big => "BP3DProto.ByteCodecBE" end |}.
(** gen/swift/structure.rs:37-43 *)
Definition gen_swift_structure_decl (fm : formats) (tp : smap string) (s : structure) : gres string :=
  gen_structure fm swift_utils swift_structure_template swift_structure_field_template s tp.
(** gen/swift/mod.rs:49-54 *)
Definition swift_files (fm : formats) (proto : protocol) : gres (list file) :=
  decl_structures <- map_join (String newline EmptyString)
    (gen_swift_structure_decl fm (p_type_path_by_name proto)) (p_structs proto) ;;
  Ok [{| fi_ty := StructureFile; fi_name := "structures.rs"; fi_data := decl_structures |}].
