(** Concrete descriptions used as witnesses: by the examples beside the
    property theorems and by the refutations. *)

From Coq Require Import Arith NArith ZArith String List Bool Floats.SpecFloat.
From Verif Require Import Base Schema Bits Codec Compiler Access SpecStruct.
Import ListNotations.
Local Open Scope N_scope.
Local Open Scope string_scope.

Definition scalar (name : string) (t : sftype) : sfield :=
  {| sf_name := name; sf_info := t; sf_view := None; sf_array_len := None |}.

(** An enum with variants 0, 1, 2 and one with a hole. *)
Definition color : senum :=
  {| se_name := "Color"; se_variants := [("Red", 0); ("Blue", 2); ("Green", 1)] |}.
Definition holes : senum := {| se_name := "Holes"; se_variants := [("A", 0); ("B", 5)] |}.
Definition unit_enum := {| e_name := ""; e_largest := 0; e_variants := []; e_map := [] |}.
Definition the_enum (d : senum) : enum_ :=
  match enum_from_model d with Ok e => e | _ => unit_enum end.
Definition sample_enums : smap enum_ := [("Color", the_enum color); ("Holes", the_enum holes)].

Definition unit_structure : structure := MkStructure 0 "" [] 0 0.
Definition compile_one (m : mode) (enums : smap enum_) (structs : smap structure) (d : sstruct) : structure :=
  match structure_from_model m Little enums structs 0 d with Ok s => s | _ => unit_structure end.

(** A structure with one field of each kind:
    bits 0-2 a, 3-7 b, 8-31 c, 32-39 color, 40-71 f, 72 flag, 73-79 rest,
    80-127 items. *)
Definition demo : sstruct :=
  {| ss_name := "Demo";
     ss_fields :=
       [ scalar "a" (STUnsigned 3);
         scalar "b" (STSigned 5);
         scalar "c" (STUnsigned 24);
         {| sf_name := "color"; sf_info := STUnsigned 8; sf_view := Some (SVEnum "Color"); sf_array_len := None |};
         scalar "f" (STFloat 32);
         scalar "flag" (STBoolean 1);
         scalar "rest" (STUnsigned 7);
         {| sf_name := "items"; sf_info := STUnsigned 16; sf_view := None; sf_array_len := Some 3 |} ] |}.
Definition demo_s : structure := compile_one Debug sample_enums [] demo.
Definition demo_fixed (i : nat) : fixed_field :=
  match nth_error (s_fields demo_s) i with
  | Some (FFixed f) => f
  | _ => {| ff_name := ""; ff_ty := U8; ff_loc := location_from_model 0 0; ff_view := VNone;
            ff_endianness := Little |}
  end.
Definition demo_array : array_field :=
  match nth_error (s_fields demo_s) 7 with
  | Some (FArray f) => f
  | _ => {| fa_name := ""; fa_ty := U8; fa_array_len := 0; fa_loc := location_from_model 0 0;
            fa_endianness := Little |}
  end.
Definition demo_buf : bytes := [165; 1; 2; 255; 1; 0; 0; 128; 63; 171; 1; 0; 2; 0; 3; 0].

(** Field "y" starts in the middle of a byte. *)
Definition straddle : sstruct :=
  {| ss_name := "Straddle";
     ss_fields := [scalar "x" (STUnsigned 4); scalar "y" (STUnsigned 8); scalar "z" (STUnsigned 4)] |}.
Definition straddle_s : structure := compile_one Debug [] [] straddle.
Definition straddle_fixed (i : nat) : fixed_field :=
  match nth_error (s_fields straddle_s) i with
  | Some (FFixed f) => f
  | _ => demo_fixed 0
  end.

(** A total width of 2^64 bits. *)
Definition huge : sstruct :=
  {| ss_name := "Huge";
     ss_fields := [ {| sf_name := "x"; sf_info := STUnsigned 8; sf_view := None; sf_array_len := Some (2 ^ 61) |} ] |}.

(** Two levels of nesting: the inner structure starts at bit 8. *)
Definition inner : sstruct :=
  {| ss_name := "Inner"; ss_fields := [scalar "p" (STUnsigned 4); scalar "q" (STUnsigned 12)] |}.
Definition inner_s : structure := compile_one Debug [] [] inner.
Definition outer : sstruct :=
  {| ss_name := "Outer";
     ss_fields := [scalar "h" (STUnsigned 8); scalar "in" (STStruct "Inner"); scalar "t" (STUnsigned 8)] |}.
Definition outer_s : structure := compile_one Debug [] [("Inner", inner_s)] outer.
Definition outer_structs : smap structure := [("Outer", outer_s); ("Inner", inner_s)].
(** The inner structure starts at bit 4. *)
Definition shifted : sstruct :=
  {| ss_name := "Shifted";
     ss_fields := [scalar "h" (STUnsigned 4); scalar "in" (STStruct "Inner")] |}.
Definition shifted_s : structure := compile_one Debug [] [("Inner", inner_s)] shifted.
Definition shifted_structs : smap structure := [("Shifted", shifted_s); ("Inner", inner_s)].

(** Arrays of items that are not whole bytes but whose total is. *)
Definition nibbles : sstruct :=
  {| ss_name := "Nibbles";
     ss_fields := [ {| sf_name := "x"; sf_info := STUnsigned 4; sf_view := None; sf_array_len := Some 2 |} ] |}.
Definition nibbles_s : structure := compile_one Debug [] [] nibbles.
Definition odd12 : sstruct :=
  {| ss_name := "Odd";
     ss_fields := [ {| sf_name := "x"; sf_info := STUnsigned 12; sf_view := None; sf_array_len := Some 2 |} ] |}.
Definition odd12_s : structure := compile_one Debug [] [] odd12.
Definition first_array (s : structure) : array_field :=
  match s_fields s with
  | FArray f :: _ => f
  | _ => demo_array
  end.
(** Array that starts in the middle of a byte. *)
Definition shifted_array : sstruct :=
  {| ss_name := "ShiftedArray";
     ss_fields := [ scalar "h" (STUnsigned 4);
                    {| sf_name := "x"; sf_info := STUnsigned 8; sf_view := None; sf_array_len := Some 2 |} ] |}.
Definition shifted_array_s : structure := compile_one Debug [] [] shifted_array.
Definition second_array (s : structure) : array_field :=
  match s_fields s with
  | _ :: FArray f :: _ => f
  | _ => demo_array
  end.

(** Enum fields: one whose enum has a hole, one too narrow for its enum. *)
Definition enum_fields : sstruct :=
  {| ss_name := "EnumFields";
     ss_fields :=
       [ {| sf_name := "h"; sf_info := STUnsigned 8; sf_view := Some (SVEnum "Holes"); sf_array_len := None |};
         {| sf_name := "n"; sf_info := STUnsigned 2; sf_view := Some (SVEnum "Holes"); sf_array_len := None |} ] |}.
Definition enum_fields_s : structure := compile_one Debug sample_enums [] enum_fields.
Definition enum_fixed (i : nat) : fixed_field :=
  match nth_error (s_fields enum_fields_s) i with
  | Some (FFixed f) => f
  | _ => demo_fixed 0
  end.

(** Float views over 8 bits: range [-1, 1] and range [0, 1]. *)
Definition f_one : f64 := S754_finite false 4503599627370496 (-52).
Definition f_minus_one : f64 := S754_finite true 4503599627370496 (-52).
Definition f_half : f64 := S754_finite false 4503599627370496 (-53).
Definition float_range (lo hi : f64) : sstruct :=
  {| ss_name := "FloatRange";
     ss_fields := [ {| sf_name := "v"; sf_info := STFloat 8; sf_view := Some (SVFloatRange lo hi);
                       sf_array_len := None |} ] |}.
Definition float_range_s (lo hi : f64) : structure := compile_one Debug [] [] (float_range lo hi).
Definition first_fixed (s : structure) : fixed_field :=
  match s_fields s with
  | FFixed f :: _ => f
  | _ => demo_fixed 0
  end.

Definition second_fixed (s : structure) : fixed_field :=
  match s_fields s with
  | _ :: FFixed f :: _ => f
  | _ => demo_fixed 0
  end.
