(** Specification vocabulary for C66 to C70: a description that is changed after
    programs were built from it, and input that arrives in pieces. *)

From Coq Require Import NArith String List.
From Verif Require Import Base Schema Compiler Runtime.
Import ListNotations.

(** Fields are added at the end. *)
Definition struct_extended (d d' : sstruct) : Prop :=
  ss_name d' = ss_name d /\ exists more, ss_fields d' = ss_fields d ++ more.
Definition message_extended (d d' : smessage) : Prop :=
  sm_name d' = sm_name d /\ exists more, sm_fields d' = sm_fields d ++ more.

(** Variants are added, anywhere; those there were keep their numbers. *)
Definition enum_extended (d d' : senum) : Prop :=
  se_name d' = se_name d /\ incl (se_variants d) (se_variants d').

(** Messages are added at the end of a protocol. *)
Definition messages_added (d d' : sprotocol) : Prop :=
  sp_name d' = sp_name d /\ sp_endianness d' = sp_endianness d /\ sp_imports d' = sp_imports d /\ sp_enums d' = sp_enums d /\
  sp_structs d' = sp_structs d /\ sp_unions d' = sp_unions d /\ exists more, sp_messages d' = sp_messages d ++ more.

(** What an accessor that writes makes of [old] followed by [rest], given what
    it makes of [old] alone: the same, with [rest] behind. *)
Definition leaves_rest {E} (on_old on_both : outcome E bytes) (rest : bytes) : Prop :=
  match on_old with
  | Ok b => on_both = Ok (b ++ rest)
  | Err e => on_both = Err e
  | Panic => on_both = Panic
  end.

(** The result [r] of reading some input is final, if it is not that the input
    is too short: with more input the result is [r'], the same. *)
Definition final_result {A} (r r' : rres A) : Prop :=
  match r with
  | Ok a => r' = Ok a
  | Err Truncated => True
  | Err e => r' = Err e
  | Panic => True
  end.

(** A field that cannot be read from an empty input: it is optional, has a
    length or a number, ends with a zero byte, is a structure that is not empty
    or a message that starts with such a field. *)
Inductive needs_input (f : mfield) : Prop :=
| needs_presence : mf_optional f = true -> needs_input f
| needs_bytes :
    match mf_ty f with
    | TFixed _ | TNullTerminatedString | TVarcharString _ | TArray _ _ | TList _ _ => True
    | TRef (RStruct s) => (0 < s_byte_size s)%N
    | _ => False
    end -> needs_input f
| needs_inside : forall y g r, mf_ty f = TRef (RMessage y) -> m_fields y = g :: r -> needs_input g -> needs_input f.

(** The enums known by name before and after some of them were extended. *)
Definition enums_extended (before after : smap enum_) : Prop := forall name,
  match sget name before, sget name after with
  | Some e, Some e' => exists d d', enum_extended d d' /\ enum_from_model d = Ok e /\ enum_from_model d' = Ok e'
  | None, None => True
  | _, _ => False
  end.

(** The same field, but for variants added to the enum it is viewed as. *)
Definition field_extended (f f' : field) : Prop :=
  match f, f' with
  | FFixed x, FFixed x' =>
      ff_name x' = ff_name x /\ ff_ty x' = ff_ty x /\ ff_loc x' = ff_loc x /\ ff_endianness x' = ff_endianness x /\
      match ff_view x with
      | VEnum e => exists e' d d', ff_view x' = VEnum e' /\ enum_extended d d' /\
                     enum_from_model d = Ok e /\ enum_from_model d' = Ok e'
      | _ => ff_view x' = ff_view x
      end
  | _, _ => f' = f
  end.
