(** Specification vocabulary for C87: the order in which things are defined, and definitions that
    nothing refers to. *)

From Coq Require Import Arith NArith String List Bool Permutation.
From Verif Require Import Base Schema Compiler Access Runtime Gen SpecGrow.
Import ListNotations.
Local Open Scope N_scope.

(** [d'] has the definitions of [d], each as it is in [d], in any order, and may have further
    imports, enums, structures and unions. Both give every name once. *)
Definition rearranged (d d' : sprotocol) : Prop :=
  sp_name d' = sp_name d /\ incl (sp_imports d) (sp_imports d') /\ incl (sp_enums d) (sp_enums d') /\
  incl (sp_structs d) (sp_structs d') /\ incl (sp_unions d) (sp_unions d') /\ Permutation (sp_messages d) (sp_messages d') /\
  NoDup (names_in_use d) /\ NoDup (names_in_use d').
(** The same of protocols that are compiled one after the other, under the same import paths. *)
Definition rearranged_all : list (string * sprotocol) -> list (string * sprotocol) -> Prop :=
  Forall2 (fun a a' => fst a' = fst a /\ rearranged (snd a) (snd a')).

(** The same structure, whatever its number. *)
Definition renumbered : structure -> structure -> Prop := twin (fun _ _ => True).
Definition renumbered_discriminant : disc_field -> disc_field -> Prop := twin_discriminant (fun _ _ => True).

(** The same message, with the same messages and structures inside it. Messages may be numbered
    otherwise: [same i i'] says that the one numbered [i'] stands for the one numbered [i]. *)
Section Moved.
Variable same : N -> N -> Prop.
Inductive moved : message -> message -> Prop :=
| moved_message : forall id id' name fs fs' size, same id id' -> Forall2 moved_field fs fs' ->
    moved (MkMessage id name fs size) (MkMessage id' name fs' size)
with moved_field : mfield -> mfield -> Prop :=
| moved_member : forall name t t' opt size endi, moved_type t t' ->
    moved_field (MkMField name t opt size endi) (MkMField name t' opt size endi)
with moved_type : mfield_type -> mfield_type -> Prop :=
| moved_fixed : forall ty, moved_type (TFixed ty) (TFixed ty)
| moved_reference : forall t t', moved_ref t t' -> moved_type (TRef t) (TRef t')
| moved_text : moved_type TNullTerminatedString TNullTerminatedString
| moved_string : forall ty, moved_type (TVarcharString ty) (TVarcharString ty)
| moved_array : forall ty s s', renumbered s s' -> moved_type (TArray ty s) (TArray ty s')
| moved_list : forall ty y y', moved y y' -> moved_type (TList ty y) (TList ty y')
| moved_cases : forall u u' on i, moved_union u u' -> moved_type (TUnion u on i) (TUnion u' on i)
| moved_payload : moved_type TPayload TPayload
with moved_ref : referenced -> referenced -> Prop :=
| moved_structure : forall s s', renumbered s s' -> moved_ref (RStruct s) (RStruct s')
| moved_inside : forall y y', moved y y' -> moved_ref (RMessage y) (RMessage y')
with moved_union : union_ -> union_ -> Prop :=
| moved_choice : forall name d d' cs cs' size, renumbered_discriminant d d' -> Forall2 moved_case cs cs' ->
    moved_union (MkUnion name d cs size) (MkUnion name d' cs' size)
with moved_case : ucase -> ucase -> Prop :=
| moved_empty : forall name n, moved_case (MkUCase name n None) (MkUCase name n None)
| moved_item : forall name n t t', moved_ref t t' -> moved_case (MkUCase name n (Some t)) (MkUCase name n (Some t')).

(** What a name stands for in [p], it stands for in [p'] too, and for nothing else. *)
Definition known {A} (R : A -> A -> Prop) (a a' : smap A) : Prop := forall n x, sget n a = Some x ->
  exists x', sget n a' = Some x' /\ R x x'.
Definition there {A} (n : string) (a : smap A) : nat := match sget n a with Some _ => 1 | None => 0 end.
Definition one_meaning (p : protocol) : Prop := forall n,
  (there n (p_structs_by_name p) + there n (p_enums_by_name p) + there n (p_unions_by_name p) + there n (p_messages_by_name p) <= 1)%nat.
Definition moved_protocol (p p' : protocol) : Prop :=
  p_name p' = p_name p /\ known renumbered (p_structs_by_name p) (p_structs_by_name p') /\
  known eq (p_enums_by_name p) (p_enums_by_name p') /\ known moved_union (p_unions_by_name p) (p_unions_by_name p') /\
  known moved (p_messages_by_name p) (p_messages_by_name p') /\ one_meaning p'.
End Moved.

(** Two messages that are read and written alike, whatever is read or written. *)
Definition works_alike (m : mode) (emb emb' : N -> bool) (x x' : message) : Prop :=
  (forall b, read_msg m emb' x' b = read_msg m emb x b) /\
  (forall b, read_msg_offsets m emb' x' b = read_msg_offsets m emb x b) /\
  (forall St (w : sink St) v s, write_msg m w x' v s = write_msg m w x v s) /\
  (forall v, size_of_msg m x' v = size_of_msg m x v).
