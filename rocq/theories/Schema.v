(** Model of compiler/src/model/*.rs: a protocol description after JSON
    deserialisation. The JSON parser (serde) is not modelled; any value of
    these types is an input of the compiler.

    Simplifications: [Option<Vec<_>>] attributes of a protocol are lists
    (absent = empty, which the compiler treats alike); an enum's
    [HashMap<String, usize>] is the list of its entries in the order the
    map's iterator yields them. Names are byte strings. *)

From Coq Require Import NArith List String Floats.SpecFloat.

(** f64 values: IEEE binary64 data of the standard library. *)
Definition f64 := spec_float.

(** model/structure.rs:33-44 *)
Inductive sview :=
| SVEnum (name : string)
| SVFloatRange (min max : f64)
| SVFloatMultiplier (multiplier : f64).

(** model/structure.rs:49-65 *)
Inductive sftype :=
| STSigned (bits : N)
| STUnsigned (bits : N)
| STFloat (bits : N)
| STBoolean (bits : N)
| STStruct (item_type : string).

(** model/structure.rs:68-74 *)
Inductive simple_type := Signed | Unsigned | Float | Boolean | Struct.

(** model/structure.rs:77-85 *)
Definition get_simple_type (t : sftype) : simple_type :=
  match t with
  | STSigned _ => Signed
  | STUnsigned _ => Unsigned
  | STFloat _ => Float
  | STBoolean _ => Boolean
  | STStruct _ => Struct
  end.

(** model/structure.rs:87-95 *)
Definition get_bit_size (t : sftype) : option N :=
  match t with
  | STSigned b | STUnsigned b | STFloat b | STBoolean b => Some b
  | STStruct _ => None
  end.

(** model/structure.rs:99-104 *)
Record sfield := { sf_name : string; sf_info : sftype; sf_view : option sview; sf_array_len : option N }.
(** model/structure.rs:107-110 *)
Record sstruct := { ss_name : string; ss_fields : list sfield }.

(** model/message.rs:34-49 *)
Inductive mftype :=
| MTItem (item_type : string)
| MTList (max_len : N) (item_type : string)
| MTString (max_len : option N)
| MTPayload
| MTUnion (on item_type : string).

(** model/message.rs:52-56 *)
Record smfield := { smf_name : string; smf_info : mftype; smf_optional : option bool }.
(** model/message.rs:59-62 *)
Record smessage := { sm_name : string; sm_fields : list smfield }.

(** model/union.rs:32-36, 39-43 *)
Record sucase := { su_name : string; su_case : string; su_item_type : option string }.
Record sunion := { sun_name : string; sun_discriminant : string; sun_cases : list sucase }.

(** model/protocol.rs:37-40 *)
Inductive endianness := Little | Big.
(** model/protocol.rs:43-47 *)
Record simport := { si_protocol : string; si_type : string }.
(** model/protocol.rs:50-53 *)
Record senum := { se_name : string; se_variants : list (string * N) }.
(** model/protocol.rs:56-64 *)
Record sprotocol := {
  sp_name : string;
  sp_endianness : option endianness;
  sp_imports : list simport;
  sp_structs : list sstruct;
  sp_messages : list smessage;
  sp_enums : list senum;
  sp_unions : list sunion }.
