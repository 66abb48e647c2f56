(** The texts of the errors: what [Display] prints for the errors declared with [simple_error!].
    The macro is in another crate (bp3d_util) and its code is not here; as its name and its uses say, it
    declares the enumeration and prints a variant with [write!] and the given format. [{}] of a number is
    its decimal digits, [{}] of a string is the string, [{:?}] is the text of the derived [Debug]. The
    text of an error of the system or of the JSON5 reader is left open: it is any string. *)

From Coq Require Import Arith NArith Ascii String List Bool.
From Verif Require Import Base Schema Compiler Template Runtime GenText.
Local Open Scope string_scope.

(** [derive(Debug)] of model/structure.rs:68-75: the name of the variant. *)
Definition simple_debug (t : simple_type) : string :=
  match t with
  | Signed => "Signed" | Unsigned => "Unsigned" | Float => "Float" | Boolean => "Boolean" | Struct => "Struct"
  end.

Section Quoted.
(** [{:?}] of a string: between double quotes, with escapes. Left open. *)
Context (quoted : string -> string).

(** [derive(Debug)] of model/structure.rs:47-66: the name of the variant and its only member. *)
Definition type_debug (t : sftype) : string :=
  match t with
  | STSigned n => "Signed { bits: " ++ show_usize n ++ " }"
  | STUnsigned n => "Unsigned { bits: " ++ show_usize n ++ " }"
  | STFloat n => "Float { bits: " ++ show_usize n ++ " }"
  | STBoolean n => "Boolean { bits: " ++ show_usize n ++ " }"
  | STStruct s => "Struct { item_type: " ++ quoted s ++ " }"
  end.

(** compiler/error.rs:32-49 *)
Definition cerror_text (e : cerror) : string :=
  match e with
  | EMultiPayload => "message has more than 1 payload"
  | EVarsizeAfterPayload => "message has 1 or more variable sized fields after the payload"
  | EUnsupportedBitSize n => "unsupported bit size for fixed field (" ++ show_usize n ++ "), maximum is 64"
  | EUnsupportedType t => "unsupported field type in struct: " ++ type_debug t
  | EUnsupportedViewType t => "unsupported view for type: " ++ simple_debug t
  | EMissingBitSize => "missing bits specifier on a structure field"
  | EUndefinedReference s => "undefined reference to '" ++ s ++ "'"
  | EUnalignedArrayCodec => "unaligned array in structure"
  | ESolverError => "failed to resolve imported type"
  | EZeroEnum => "enums must have at least 1 variant"
  | EInvalidUnionDiscriminant => "invalid union discriminant path"
  | EFloatInUnionDiscriminant => "floats are not allowed as union discriminants"
  | EInvalidUnionCase s => "invalid union case " ++ s
  | EUnionTypeMismatch => "mismatch with union discriminant types"
  end.

(** gen/template.rs:34-43 *)
Definition terror_text (e : terror) : string :=
  match e with
  | TInvalidUTF8 => "invalid UTF-8 string in template"
  | TInvalidPop => "invalid when no fragment is on the stack"
  | TNoFragment => "cannot push code: no fragment is on the stack"
  | TFragmentNotFound s => "fragment not found: " ++ s
  | TVariableNotFound s => "variable not found: " ++ s
  | TFunctionNotFound s => "function not found: " ++ s
  end.

(** error.rs:30-37, with the texts of the wrapped errors that are not modelled. A generator's error is
    wrapped as its text (interface.rs:139, 163). *)
Inductive tool_error :=
| ToolIo (text : string)
| ToolModel (text : string)
| ToolCompiler (e : cerror)
| ToolGenerator (e : terror).
Definition tool_error_text (e : tool_error) : string :=
  match e with
  | ToolIo t => "io error: " ++ t
  | ToolModel t => "model parse error: " ++ t
  | ToolCompiler e => "compiler error: " ++ cerror_text e
  | ToolGenerator e => "generator error: " ++ terror_text e
  end.
End Quoted.

(** runtime message/interface.rs:31-38; [io] is the text of the system's error, which the model of the
    error does not keep. *)
Definition rerror_text (io : string) (e : rerror) : string :=
  match e with
  | InvalidUtf8 => "invalid UTF-8 string"
  | Truncated => "truncated input"
  | InvalidUnionDiscriminant n => "invalid union discriminant (" ++ show_usize n ++ ")"
  | Io => "io error: " ++ io
  end.
