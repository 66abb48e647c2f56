(** Specification of the text of the Swift generator (C64), line by line, as
    SpecGen.v does for Rust. The setters are those of the template, which holds
    Rust code. *)

From Coq Require Import Arith NArith ZArith Ascii String List Bool.
From Verif Require Import Base Schema Codec Compiler Access SpecStruct Template SpecTemplate GenText SpecGen Swift.
Import ListNotations.
Local Open Scope string_scope.

Definition swift_unsigned (size : nat) : string :=
  match size with 1 => "UInt8" | 2 => "UInt16" | 4 => "UInt32" | _ => "UInt64" end.
Definition swift_type_text (t : fixed_type) : string :=
  match t with
  | I8 => "Int8" | I16 => "Int16" | I32 => "Int32" | I64 => "Int64"
  | U8 => swift_unsigned 1 | U16 => swift_unsigned 2 | U32 => swift_unsigned 4 | U64 => swift_unsigned 8
  | F32 => "Float32" | F64 => "Float64" | FBool => "Bool"
  end.
Definition swift_codec (bits : bool) (o : order) : string :=
  "BP3DProto." ++ (if bits then "BitCodec" else "ByteCodec") ++ order_text o.
(** A window of the buffer; the closed range names its end, not its last byte. *)
Definition swift_window (start end_ : N) : string :=
  "self.data[" ++ show_usize start ++ "..." ++ show_usize end_ ++ "]".

Definition swift_read_call (a : accessor) : string :=
  "BP3DProto." ++ swift_codec (has_bits a) (ac_order a) ++ "." ++
  (if ac_aligned a then "readAligned" else "readUnaligned") ++
  "(" ++ swift_unsigned (ac_raw a) ++ ".self, " ++ swift_window (ac_start a) (ac_end a) ++
  match ac_bit a with
  | Some (bit_offset, bit_size) => ", bitOffset: " ++ show_usize bit_offset ++ ", bitSize: " ++ show_usize bit_size
  | None => ""
  end ++ ")".
Definition swift_write_call (a : accessor) : string :=
  swift_codec (has_bits a) (ac_order a) ++ "::" ++
  (if ac_aligned a then "writeAligned" else "writeUnaligned") ++ "::<" ++ swift_unsigned (ac_raw a) ++
  match ac_bit a with
  | Some (bit_offset, bit_size) => ", " ++ show_usize bit_offset ++ ", " ++ show_usize bit_size
  | None => ""
  end ++ ">(&mut self.data.as_mut()" ++ window_text (ac_start a) (ac_end a) ++ ", value)".

Definition swift_raw_getter (name : string) (a : accessor) : list string :=
  ["    public raw_" ++ name ++ ": " ++ swift_unsigned (ac_raw a) ++ " {";
   "        " ++ swift_read_call a;
   "";
   "    }"].
Definition swift_raw_setter (name : string) (a : accessor) : list string :=
  ["    pub fn set_raw_" ++ name ++ "(&mut self, value: " ++ swift_unsigned (ac_raw a) ++ ") {";
   "        unsafe { " ++ swift_write_call a ++ " }";
   "";
   "    }"].

Definition swift_view_getter (path : string -> string) (show : f64 -> string) (f : fixed_field) : list string :=
  let name := ff_name f in
  let ty := swift_type_text (ff_ty f) in
  match ff_view f with
  | VFloat scale offset _ _ =>
      ["    public " ++ name ++ ": " ++ ty ++ " {";
       "        let raw_value = self.raw_" ++ name ++ " as " ++ ty ++ ";";
       "        return raw_value * " ++ show scale ++ " + " ++ show offset ++ ";";
       "    }"]
  | VEnum e =>
      ["    public " ++ name ++ ": " ++ path (e_name e) ++ "? {";
       "        let raw_value = self.raw_" ++ name ++ ";";
       "        return " ++ path (e_name e) ++ "(raw: raw_value);";
       "    }"]
  | VTransmute =>
      ["    public " ++ name ++ ": " ++ ty ++ " {"] ++
      match ff_ty f with
      | FBool => ["        if self.raw_" ++ name ++ " != 0 {";
                  "            return true;";
                  "        } else {";
                  "            return false;";
                  "        }"]
      | _ => ["        " ++ ty ++ "(bitPattern: self.raw_" ++ name ++ ")"]
      end ++
      ["";
       "    }"]
  | VSignedCast max_positive =>
      ["    public " ++ name ++ ": " ++ ty ++ " {";
       "        let raw_value = self.raw_" ++ name ++ ";";
       "        if raw_value > " ++ show_usize max_positive ++ " {";
       "            return -((((~raw_value) & " ++ show_usize max_positive ++ ") + 1) as " ++ ty ++ ");";
       "        } else {";
       "            return (raw_value & " ++ show_usize max_positive ++ ") as " ++ ty ++ ";";
       "        }";
       "    }"]
  | VNone =>
      ["    public " ++ name ++ ": " ++ ty ++ " {";
       "        self.raw_" ++ name;
       "    }"]
  end.
Definition swift_view_setter (path : string -> string) (show : f64 -> string) (f : fixed_field) (a : accessor)
  : list string :=
  let name := ff_name f in
  let raw := swift_unsigned (ac_raw a) in
  let ty := swift_type_text (ff_ty f) in
  match ff_view f with
  | VFloat _ _ scale_inv offset_inv =>
      ["    pub fn set_" ++ name ++ "(&mut self, value: " ++ ty ++ ") -> &mut Self {";
       "        let raw_value = value * " ++ show scale_inv ++ " + " ++ show offset_inv ++ ";";
       "        self.set_raw_" ++ name ++ "(raw_value as " ++ raw ++ ");";
       "        self";
       "    }"]
  | VEnum e =>
      ["    pub fn set_" ++ name ++ "(&mut self, value: " ++ path (e_name e) ++ ") -> &mut Self {";
       "        self.set_raw_" ++ name ++ "(value as " ++ raw ++ ");";
       "        self";
       "    }"]
  | VTransmute | VSignedCast _ =>
      ["    pub fn set_" ++ name ++ "(&mut self, value: " ++ ty ++ ") -> &mut Self {"] ++
      match ff_ty f with
      | FBool => ["        if value {";
                  "            self.set_raw_" ++ name ++ "(1);";
                  "        } else {";
                  "            self.set_raw_" ++ name ++ "(0);";
                  "        }"]
      | _ => ["        self.set_raw_" ++ name ++ "(unsafe { std::mem::transmute::<" ++ ty ++ ", " ++ raw ++ ">(value) });"]
      end ++
      ["";
       "        self";
       "    }"]
  | VNone =>
      ["    pub fn set_" ++ name ++ "(&mut self, value: " ++ ty ++ ") -> &mut Self {";
       "        self.set_raw_" ++ name ++ "(value);";
       "        self";
       "    }"]
  end.

Definition swift_getter_lines (path : string -> string) (show : f64 -> string) (f : field) : list string :=
  match f with
  | FFixed v =>
      match gen_fixed (E := Empty_set) v with
      | Ok a => swift_raw_getter (ff_name v) a ++ swift_view_getter path show v
      | _ => []
      end
  | FArray v =>
      ["    public " ++ fa_name v ++ ": BP3DProto.ArrayCodec<T, " ++ swift_codec false (order_of (fa_endianness v)) ++
         ", " ++ swift_type_text (fa_ty v) ++ "> {";
       "        BP3DProto.ArrayCodec(buffer: " ++
         swift_window (l_byte_offset (fa_loc v)) (l_byte_offset (fa_loc v) + l_byte_size (fa_loc v)) ++
         ", itemBitSize: " ++ show_usize (item_bits v) ++ ")";
       "    }"]
  | FStruct name r loc =>
      ["    public " ++ name ++ ": " ++ path (s_name r) ++ "<T> {";
       "        " ++ path (s_name r) ++ "(" ++ swift_window (l_byte_offset loc) (l_byte_offset loc + l_byte_size loc) ++ ")";
       "    }"]
  end.
(** Arrays and structures have no setter. *)
Definition swift_setter_lines (path : string -> string) (show : f64 -> string) (f : field) : list string :=
  match f with
  | FFixed v =>
      match gen_fixed (E := Empty_set) v with
      | Ok a => swift_raw_setter (ff_name v) a ++ swift_view_setter path show v a
      | _ => []
      end
  | FArray _ | FStruct _ _ _ => []
  end.

Definition swift_head_lines (name size : string) : list string :=
  ["#[derive(Copy, Clone, Default, Debug)]";
   "public struct " ++ name ++ "<T>: BP3DProto.FixedSize {";
   "    data: T";
   "    public static var size: Int { " ++ size ++ " }";
   "    public init(_ data: T) {";
   "        self.data = data;";
   "    }";
   "}";
   "extension " ++ name ++ ": BP3DProto.WriteTo where T: BP3DProto.Buffer {";
   "    public associatedtype Input = " ++ name ++ ";";
   "    public static func write<B: BP3DProto.WritableBuffer>(input: Input, to out: inout B) throws {";
   "        out.write(bytes: input.data.toData());";
   "    }";
   "}";
   "extension " ++ name ++ ": BP3DProto.FromSlice where T: BP3DProto.Buffer {";
   "    public associatedtype Output = " ++ name ++ ";";
   "    public static func from<B: BP3DProto.Buffer>(slice: B) throws -> BP3DProto.Message<Output> {";
   "        if slice.size < " ++ size ++ " {";
   "            throw BP3DProto.Error.truncated;";
   "        }";
   "        return BP3DProto.Message(size: " ++ size ++ ", data: " ++ name ++ "(slice[..." ++ size ++ "]));";
   "    }";
   "}"].
Definition swift_structure_lines (path : string -> string) (show : f64 -> string) (s : structure) : list string :=
  swift_head_lines (s_name s) (show_usize (s_byte_size s)) ++
  ["extension " ++ s_name s ++ " where T: BP3DProto.Buffer {"] ++
  flat_map (swift_getter_lines path show) (s_fields s) ++
  ["";
   "}";
   "impl<T: AsMut<[u8]>> " ++ s_name s ++ "<T> {"] ++
  flat_map (swift_setter_lines path show) (s_fields s) ++
  ["";
   "}"].

(** ** What the getters compute

    The statement of [raw_x] by the Swift runtime: the window of the buffer, then
    the codec function that [swift_read_call] names. *)
Definition swift_get (m : mode) (a : accessor) (b : dbuf) : sres N :=
  w <- db_closed m b (Z.of_N (ac_start a)) (Z.of_N (ac_end a)) ;;
  match ac_bit a with
  | Some (bit_offset, bit_size) =>
      if ac_aligned a then s_bit_read_aligned m (ac_order a) (ac_raw a) bit_offset bit_size w
      else s_bit_read_unaligned m (ac_order a) (ac_raw a) bit_offset bit_size w
  | None =>
      if ac_aligned a then s_byte_read_aligned m (ac_order a) (ac_raw a) w
      else s_byte_read_unaligned m (ac_order a) (ac_raw a) w
  end.

(** [from(slice:)] and [write(input:, to:)] of a structure of [size] bytes; the
    structure is the window it was created from. *)
Definition swift_structure_from (m : mode) (size : N) (b : dbuf) : sres (N * dbuf) :=
  if (db_size b <? Z.of_N size)%Z then Err STruncated
  else w <- db_through m b (Z.of_N size) ;; Ok (size, w).
Definition swift_structure_write (s : dbuf) (b : dbuf) : sres dbuf :=
  d <- db_to_data s ;; db_write b d.
(** The window that the accessor of an array or of a structure field takes. *)
Definition swift_part (m : mode) (loc : location) (b : dbuf) : sres dbuf :=
  db_closed m b (Z.of_N (l_byte_offset loc)) (Z.of_N (l_byte_offset loc + l_byte_size loc)).
