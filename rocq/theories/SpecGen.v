(** Specification of the generated Rust text (C46, C49, C50): the text of every
    item as lines, a function of what the item is. The parameters of an accessor
    are those of [Access.accessor]; the type that reads or writes a field of a
    message is an [ity], printed by [ity_text] and run by [SpecCode]. *)

From Coq Require Import Arith NArith Ascii String List Bool.
From Verif Require Import Base Schema Codec Compiler Access SpecStruct Template SpecTemplate GenText.
Import ListNotations.
Local Open Scope string_scope.

(** Lines, each ended by a line feed. *)
Definition lines (l : list string) : string := String.concat "" (map (fun s => s ++ lf) l).

(** ** Enumerations *)
Definition enum_lines (name : string) (variants : list (string * N)) : list string :=
  ["#[derive(Copy, Clone, Debug, Eq, PartialEq)]";
   "pub enum " ++ name ++ " {"] ++
  map (fun kv => "    " ++ fst kv ++ " = " ++ show_usize (snd kv) ++ ",") variants ++
  ["";
   "}"].

(** ** Structures *)

Definition unsigned_text (size : nat) : string :=
  match size with 1 => "u8" | 2 => "u16" | 4 => "u32" | _ => "u64" end.
Definition order_text (o : order) : string := match o with LE => "LE" | BE => "BE" end.
Definition codec_text (bits : bool) (o : order) : string :=
  if bits then "<bp3d_proto::codec::BitCodec" ++ order_text o ++ " as bp3d_proto::codec::BitCodec>"
  else "<bp3d_proto::codec::ByteCodec" ++ order_text o ++ " as bp3d_proto::codec::ByteCodec>".
Definition window_text (start end_ : N) : string :=
  "[" ++ show_usize start ++ ".." ++ show_usize end_ ++ "]".
(** Generic arguments of the codec function. *)
Definition codec_args (a : accessor) : string :=
  match ac_bit a with
  | Some (bit_offset, bit_size) =>
      "<" ++ unsigned_text (ac_raw a) ++ ", " ++ show_usize bit_offset ++ ", " ++ show_usize bit_size ++ ">"
  | None => "<" ++ unsigned_text (ac_raw a) ++ ">"
  end.
Definition has_bits (a : accessor) : bool := match ac_bit a with Some _ => true | None => false end.
(** The call of the codec by [get_raw_x] and by [set_raw_x]. *)
Definition read_call (a : accessor) : string :=
  codec_text (has_bits a) (ac_order a) ++ "::" ++
  (if ac_aligned a then "read_aligned" else "read_unaligned") ++ "::" ++ codec_args a ++
  "(&self.data.as_ref()" ++ window_text (ac_start a) (ac_end a) ++ ")".
Definition write_call (a : accessor) : string :=
  codec_text (has_bits a) (ac_order a) ++ "::" ++
  (if ac_aligned a then "write_aligned" else "write_unaligned") ++ "::" ++ codec_args a ++
  "(&mut self.data.as_mut()" ++ window_text (ac_start a) (ac_end a) ++ ", value)".

Definition raw_getter_lines (name : string) (a : accessor) : list string :=
  ["    pub fn get_raw_" ++ name ++ "(&self) -> " ++ unsigned_text (ac_raw a) ++ " {";
   "        unsafe { " ++ read_call a ++ " }";
   "";
   "    }"].
Definition raw_setter_lines (name : string) (a : accessor) : list string :=
  ["    pub fn set_raw_" ++ name ++ "(&mut self, value: " ++ unsigned_text (ac_raw a) ++ ") {";
   "        unsafe { " ++ write_call a ++ " }";
   "";
   "    }"].

(** [path] is the path of a type, [show] the text of an f64. *)
Definition view_getter_lines (path : string -> string) (show : f64 -> string) (f : fixed_field) (a : accessor)
  : list string :=
  let name := ff_name f in
  let raw := unsigned_text (ac_raw a) in
  let ty := rust_type (ff_ty f) in
  match ff_view f with
  | VFloat scale offset _ _ =>
      ["    pub fn get_" ++ name ++ "(&self) -> " ++ ty ++ " {";
       "        let raw_value = self.get_raw_" ++ name ++ "() as " ++ ty ++ ";";
       "        raw_value * " ++ show scale ++ " + " ++ show offset;
       "    }"]
  | VEnum e =>
      ["    pub fn get_" ++ name ++ "(&self) -> Option<" ++ path (e_name e) ++ "> {";
       "        let raw_value = self.get_raw_" ++ name ++ "();";
       "        if raw_value > " ++ show_usize (e_largest e) ++ " {";
       "            None";
       "        } else {";
       "            Some(unsafe { std::mem::transmute::<" ++ raw ++ ", " ++ path (e_name e) ++ ">(raw_value) })";
       "        }";
       "    }"]
  | VTransmute =>
      ["    pub fn get_" ++ name ++ "(&self) -> " ++ ty ++ " {"] ++
      match ff_ty f with
      | FBool => ["        if self.get_raw_" ++ name ++ "() != 0 {";
                  "            true";
                  "        } else {";
                  "            false";
                  "        }"]
      | _ => ["        unsafe { std::mem::transmute::<" ++ raw ++ ", " ++ ty ++ ">(self.get_raw_" ++ name ++ "()) }"]
      end ++
      ["";
       "    }"]
  | VSignedCast max_positive =>
      ["    pub fn get_" ++ name ++ "(&self) -> " ++ ty ++ " {";
       "        let raw_value = self.get_raw_" ++ name ++ "();";
       "        if raw_value > " ++ show_usize max_positive ++ " {";
       "            -((((!raw_value) & " ++ show_usize max_positive ++ ") + 1) as " ++ ty ++ ")";
       "        } else {";
       "            (raw_value & " ++ show_usize max_positive ++ ") as " ++ ty;
       "        }";
       "    }"]
  | VNone =>
      ["    pub fn get_" ++ name ++ "(&self) -> " ++ ty ++ " {";
       "        self.get_raw_" ++ name ++ "()";
       "    }"]
  end.
Definition view_setter_lines (path : string -> string) (show : f64 -> string) (f : fixed_field) (a : accessor)
  : list string :=
  let name := ff_name f in
  let raw := unsigned_text (ac_raw a) in
  let ty := rust_type (ff_ty f) in
  match ff_view f with
  | VFloat _ _ scale_inv offset_inv =>
      ["    pub fn set_" ++ name ++ "(&mut self, value: " ++ ty ++ ") -> &mut Self {";
       "        let raw_value = value * " ++ show scale_inv ++ " + " ++ show offset_inv ++ ";";
       "        self.set_raw_" ++ name ++ "(raw_value as " ++ raw ++ ");";
       "        self";
       "    }"]
  | VEnum e =>
      ["    pub fn set_" ++ name ++ "(&mut self, value: " ++ path (e_name e) ++ ") -> &mut Self {";
       "        self.set_raw_" ++ name ++ "(value as " ++ raw ++ ");";
       "        self";
       "    }"]
  | VTransmute | VSignedCast _ =>
      ["    pub fn set_" ++ name ++ "(&mut self, value: " ++ ty ++ ") -> &mut Self {"] ++
      match ff_ty f with
      | FBool => ["        if value {";
                  "            self.set_raw_" ++ name ++ "(1);";
                  "        } else {";
                  "            self.set_raw_" ++ name ++ "(0);";
                  "        }"]
      | _ => ["        self.set_raw_" ++ name ++ "(unsafe { std::mem::transmute::<" ++ ty ++ ", " ++ raw ++ ">(value) });"]
      end ++
      ["";
       "        self";
       "    }"]
  | VNone =>
      ["    pub fn set_" ++ name ++ "(&mut self, value: " ++ ty ++ ") -> &mut Self {";
       "        self.set_raw_" ++ name ++ "(value);";
       "        self";
       "    }"]
  end.

Definition array_type_text (mut : string) (f : array_field) (item_bits : N) : string :=
  "bp3d_proto::codec::ArrayCodec<" ++ mut ++ ", " ++ rust_type (fa_ty f) ++
  ", bp3d_proto::codec::ByteCodec" ++ order_text (order_of (fa_endianness f)) ++
  ", " ++ show_usize item_bits ++ ">".
Definition loc_window (l : location) : string :=
  window_text (l_byte_offset l) (l_byte_offset l + l_byte_size l).
(** Bits of an item: the width of the field divided by the number of items. *)
Definition item_bits (f : array_field) : N := l_bit_size (fa_loc f) / fa_array_len f.

Definition getter_lines (path : string -> string) (show : f64 -> string) (f : field) : list string :=
  match f with
  | FFixed v =>
      match gen_fixed (E := Empty_set) v with
      | Ok a => raw_getter_lines (ff_name v) a ++ view_getter_lines path show v a
      | _ => []
      end
  | FArray v =>
      ["    pub fn get_" ++ fa_name v ++ "(&self) -> " ++ array_type_text "&[u8]" v (item_bits v) ++ " {";
       "        bp3d_proto::codec::ArrayCodec::new(&self.data.as_ref()" ++ loc_window (fa_loc v) ++ ")";
       "    }"]
  | FStruct name r loc =>
      ["    pub fn get_" ++ name ++ "(&self) -> " ++ path (s_name r) ++ "<&[u8]> {";
       "        " ++ path (s_name r) ++ "::new(&self.data.as_ref()" ++ loc_window loc ++ ")";
       "    }"]
  end.
Definition setter_lines (path : string -> string) (show : f64 -> string) (f : field) : list string :=
  match f with
  | FFixed v =>
      match gen_fixed (E := Empty_set) v with
      | Ok a => raw_setter_lines (ff_name v) a ++ view_setter_lines path show v a
      | _ => []
      end
  | FArray v =>
      ["    pub fn get_" ++ fa_name v ++ "_mut(&mut self) -> " ++ array_type_text "&mut [u8]" v (item_bits v) ++ " {";
       "        bp3d_proto::codec::ArrayCodec::new(&mut self.data.as_mut()" ++ loc_window (fa_loc v) ++ ")";
       "    }"]
  | FStruct name r loc =>
      ["    pub fn get_" ++ name ++ "_mut(&mut self) -> " ++ path (s_name r) ++ "<&mut [u8]> {";
       "        " ++ path (s_name r) ++ "::new(&mut self.data.as_mut()" ++ loc_window loc ++ ")";
       "    }"]
  end.

(** The parts that only depend on the name and the size. [upper] is the name in
    upper case. *)
Definition structure_head_lines (name upper size : string) : list string :=
  ["#[derive(Copy, Clone, Default, Debug)]";
   "pub struct " ++ name ++ "<T> {";
   "    data: T";
   "}";
   "impl<T> " ++ name ++ "<T> {";
   "    pub fn new(data: T) -> Self {";
   "        Self { data }";
   "    }";
   "}";
   "impl " ++ name ++ "<[u8; " ++ size ++ "]> {";
   "    pub fn new_on_stack() -> Self {";
   "        Self { data: [0; " ++ size ++ "] }";
   "    }";
   "}";
   "impl<T> From<T> for " ++ name ++ "<T> {";
   "    fn from(data: T) -> Self {";
   "        Self { data }";
   "    }";
   "}";
   "impl<'a, T: AsRef<[u8]>> " ++ name ++ "<T> {";
   "    pub fn to_ref(&'a self) -> " ++ name ++ "<&'a [u8]> {";
   "        " ++ name ++ " { data: self.data.as_ref() }";
   "    }";
   "}";
   "impl<'a, T: AsMut<[u8]>> " ++ name ++ "<T> {";
   "    pub fn to_mut(&'a mut self) -> " ++ name ++ "<&'a mut [u8]> {";
   "        " ++ name ++ " { data: self.data.as_mut() }";
   "    }";
   "}";
   "pub const SIZE_" ++ upper ++ ": usize = " ++ size ++ ";";
   "impl<T> bp3d_proto::util::FixedSize for " ++ name ++ "<T> {";
   "    const SIZE: usize = " ++ size ++ ";";
   "}";
   "impl<'a> bp3d_proto::message::WriteTo for " ++ name ++ "<&'a [u8]> {";
   "    type Input = Self;";
   "    fn write_to<W: std::io::Write>(input: &Self, mut out: W) -> bp3d_proto::message::Result<()> {";
   "        out.write_all(&input.data[..<Self as bp3d_proto::util::FixedSize>::SIZE])?;";
   "        Ok(())";
   "    }";
   "}";
   "impl<'a> bp3d_proto::message::FromSlice<'a> for " ++ name ++ "<&'a [u8]> {";
   "    type Output = Self;";
   "    fn from_slice(slice: &'a [u8]) -> bp3d_proto::message::Result<bp3d_proto::message::Message<Self>> {";
   "        if slice.len() < <Self as bp3d_proto::util::FixedSize>::SIZE {";
   "            Err(bp3d_proto::message::Error::Truncated)";
   "        } else {";
   "            Ok(bp3d_proto::message::Message::new(<Self as bp3d_proto::util::FixedSize>::SIZE, Self::new(&slice[..<Self as bp3d_proto::util::FixedSize>::SIZE])))";
   "        }";
   "    }";
   "}"].
Definition structure_lines (path : string -> string) (show : f64 -> string) (upper : string -> string)
  (s : structure) : list string :=
  structure_head_lines (s_name s) (upper (s_name s)) (show_usize (s_byte_size s)) ++
  ["impl<T: AsRef<[u8]>> " ++ s_name s ++ "<T> {"] ++
  flat_map (getter_lines path show) (s_fields s) ++
  ["";
   "}";
   "impl<T: AsMut<[u8]>> " ++ s_name s ++ "<T> {"] ++
  flat_map (setter_lines path show) (s_fields s) ++
  ["";
   "}"].

(** The accessor of the [w] bits from bit [o] of a structure: the [ceil8 w] bytes from
    byte [o / 8], read as the smallest of the four unsigned types that has [w]
    bits; a width that is not a multiple of 8 uses the bit codec. *)
Definition storage_bytes (w : N) : nat :=
  if (w <=? 8)%N then 1 else if (w <=? 16)%N then 2 else if (w <=? 32)%N then 4 else 8.
Definition placed (o w : N) : accessor :=
  {| ac_start := o / 8; ac_end := o / 8 + ceil8 w; ac_raw := storage_bytes w;
     ac_bit := if (w mod 8 =? 0)%N then None else Some ((o mod 8)%N, w);
     ac_aligned := (N.of_nat (storage_bytes w) =? ceil8 w)%N; ac_order := LE |}.

(** A structure can be generated if each scalar field has a width between 1 and 64
    bits (and each array at least one item). *)
Definition field_generates (f : field) : Prop :=
  match f with
  | FFixed v => (1 <= l_bit_size (ff_loc v) <= 64)%N
  | FArray v => fa_array_len v <> 0%N
  | FStruct _ _ _ => True
  end.

(** ** Names of types *)

(** Rust's name of a type: its kind and its width in bits. *)
Definition type_kind (t : fixed_type) : string :=
  match t with
  | I8 | I16 | I32 | I64 => "i"
  | U8 | U16 | U32 | U64 => "u"
  | F32 | F64 => "f"
  | FBool => "bool"
  end.
Definition type_width (t : fixed_type) : option N :=
  match t with
  | I8 | U8 => Some 8%N
  | I16 | U16 => Some 16%N
  | I32 | U32 | F32 => Some 32%N
  | I64 | U64 | F64 => Some 64%N
  | FBool => None
  end.
Definition type_text (t : fixed_type) : string :=
  type_kind t ++ match type_width t with Some n => show_usize n | None => "" end.

(** A letter in lower case: A to Z become a to z, nothing else changes. *)
Definition lowered (c d : ascii) : Prop :=
  let n := nat_of_ascii c in
  nat_of_ascii d = if (Nat.leb 65 n && Nat.leb n 90)%bool then n + 32 else n.
