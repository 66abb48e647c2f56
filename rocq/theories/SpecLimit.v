(** Specification vocabulary for C88: other limits for the length of strings and lists. *)

From Coq Require Import Arith NArith String List Bool.
From Verif Require Import Base Schema Compiler Runtime Gen Loader SpecLoader SpecWire SpecExact.
Import ListNotations.
Local Open Scope N_scope.

(** The bytes that the length of a member takes up, for the limit the description gives. *)
Definition prefix_bytes (limit : N) : N :=
  if limit <? 2 ^ 8 then 1 else if limit <? 2 ^ 16 then 2 else if limit <? 2 ^ 32 then 4 else 8.
Definition kept (a b : N) : Prop := prefix_bytes a = prefix_bytes b.
Definition raised (a b : N) : Prop := a <= b.

(** The same protocol with other limits; [R] says which limits may take the place of which. *)
Section Limits.
Variable R : N -> N -> Prop.
Inductive other_limit : mftype -> mftype -> Prop :=
| limit_same : forall t, other_limit t t
| limit_list : forall a b t, R a b -> other_limit (MTList a t) (MTList b t)
| limit_string : forall a b, R a b -> other_limit (MTString (Some a)) (MTString (Some b)).
Definition other_member (f f' : smfield) : Prop :=
  smf_name f' = smf_name f /\ smf_optional f' = smf_optional f /\ other_limit (smf_info f) (smf_info f').
Definition other_message (x x' : smessage) : Prop :=
  sm_name x' = sm_name x /\ Forall2 other_member (sm_fields x) (sm_fields x').
Definition other_limits (d d' : sprotocol) : Prop :=
  sp_name d' = sp_name d /\ sp_endianness d' = sp_endianness d /\ sp_imports d' = sp_imports d /\ sp_enums d' = sp_enums d /\
  sp_structs d' = sp_structs d /\ sp_unions d' = sp_unions d /\ Forall2 other_message (sp_messages d) (sp_messages d').
(** The same of the descriptions given to the compiler. *)
Definition other_call (c c' : call) : Prop :=
  match c, c' with
  | LLoad d, LLoad d' => other_limits d d'
  | LImport path d, LImport path' d' => path' = path /\ other_limits d d'
  | _, _ => False
  end.
End Limits.

(** Messages that are the same but for the types of the lengths. *)
Section Resized.
Variable R : fixed_type -> fixed_type -> Prop.
Inductive resized : message -> message -> Prop :=
| resized_message : forall id name fs fs' size, Forall2 resized_field fs fs' ->
    resized (MkMessage id name fs size) (MkMessage id name fs' size)
with resized_field : mfield -> mfield -> Prop :=
| resized_member : forall name t t' opt size endi, resized_type t t' ->
    resized_field (MkMField name t opt size endi) (MkMField name t' opt size endi)
with resized_type : mfield_type -> mfield_type -> Prop :=
| resized_fixed : forall ty, resized_type (TFixed ty) (TFixed ty)
| resized_reference : forall t t', resized_ref t t' -> resized_type (TRef t) (TRef t')
| resized_text : resized_type TNullTerminatedString TNullTerminatedString
| resized_string : forall ty ty', R ty ty' -> resized_type (TVarcharString ty) (TVarcharString ty')
| resized_array : forall ty ty' s, R ty ty' -> resized_type (TArray ty s) (TArray ty' s)
| resized_list : forall ty ty' y y', R ty ty' -> resized y y' -> resized_type (TList ty y) (TList ty' y')
| resized_cases : forall u u' on i, resized_union u u' -> resized_type (TUnion u on i) (TUnion u' on i)
| resized_payload : resized_type TPayload TPayload
with resized_ref : referenced -> referenced -> Prop :=
| resized_structure : forall s, resized_ref (RStruct s) (RStruct s)
| resized_inside : forall y y', resized y y' -> resized_ref (RMessage y) (RMessage y')
with resized_union : union_ -> union_ -> Prop :=
| resized_choice : forall name d cs cs' size, Forall2 resized_case cs cs' ->
    resized_union (MkUnion name d cs size) (MkUnion name d cs' size)
with resized_case : ucase -> ucase -> Prop :=
| resized_empty : forall name n, resized_case (MkUCase name n None) (MkUCase name n None)
| resized_item : forall name n t t', resized_ref t t' -> resized_case (MkUCase name n (Some t)) (MkUCase name n (Some t')).

Definition entries_alike {A} (P : A -> A -> Prop) : smap A -> smap A -> Prop := Forall2 (fun a a' => fst a = fst a' /\ P (snd a) (snd a')).
Definition resized_protocol (p p' : protocol) : Prop :=
  p_name p' = p_name p /\ p_endianness p' = p_endianness p /\ p_type_path_by_name p' = p_type_path_by_name p /\
  p_structs_by_name p' = p_structs_by_name p /\ entries_alike resized (p_messages_by_name p) (p_messages_by_name p') /\
  p_enums_by_name p' = p_enums_by_name p /\ entries_alike resized_union (p_unions_by_name p) (p_unions_by_name p') /\
  p_structs p' = p_structs p /\ Forall2 resized (p_messages p) (p_messages p') /\ p_enums p' = p_enums p /\
  Forall2 resized_union (p_unions p) (p_unions p').
End Resized.

(** Compiling comes to the same end: the same error, a panic, or results that [P] relates. *)
Definition ends_alike {A} (P : A -> A -> Prop) (r r' : cres A) : Prop :=
  match r, r' with
  | Ok a, Ok a' => P a a'
  | Err e, Err e' => e = e'
  | Panic, Panic => True
  | _, _ => False
  end.

(** The value [v] of [x] has a string or list whose length takes up another number of bytes in [x'],
    in a member that is present, at any depth outside lists. *)
Inductive affected : message -> message -> value -> Prop :=
| affected_length : forall x x' vs i f f' w u, nth_error (m_fields x) i = Some f -> nth_error (m_fields x') i = Some f' ->
    nth_error vs i = Some w -> held f w u -> other_length (mf_ty f) (mf_ty f') -> affected x x' (VMsg vs)
| affected_inside : forall x x' vs i f f' w y y' z, nth_error (m_fields x) i = Some f -> nth_error (m_fields x') i = Some f' ->
    nth_error vs i = Some w -> holds f w y z -> holds f' w y' z -> affected y y' z -> affected x x' (VMsg vs)
with other_length : mfield_type -> mfield_type -> Prop :=
| other_string : forall ty ty', get_byte_size ty <> get_byte_size ty' -> other_length (TVarcharString ty) (TVarcharString ty')
| other_array : forall ty ty' s s', get_byte_size ty <> get_byte_size ty' -> other_length (TArray ty s) (TArray ty' s')
| other_list : forall ty ty' y y', get_byte_size ty <> get_byte_size ty' -> other_length (TList ty y) (TList ty' y').

(** No list of messages in [x] or in messages inside it. *)
Definition without_lists (x : message) : Prop := forall y f ty z, within x y -> In f (m_fields y) -> mf_ty f <> TList ty z.
