(** Specification vocabulary for C86: unions that get further cases after programs were built from
    them. *)

From Coq Require Import Arith NArith String List Bool.
From Verif Require Import Base Schema Compiler Runtime Gen SpecExact SpecDecode.
Import ListNotations.
Local Open Scope N_scope.

(** Cases are added at the end of unions and structures at the end of the structures, under names
    that are not in use, and nothing else is changed. *)
Definition union_extended (d d' : sunion) : Prop :=
  sun_name d' = sun_name d /\ sun_discriminant d' = sun_discriminant d /\ exists more, sun_cases d' = sun_cases d ++ more.
Definition names_in_use (d : sprotocol) : list string :=
  map si_type (sp_imports d) ++ map se_name (sp_enums d) ++ map ss_name (sp_structs d) ++ map sun_name (sp_unions d) ++
  map sm_name (sp_messages d).
Definition cases_added (d d' : sprotocol) : Prop :=
  sp_name d' = sp_name d /\ sp_endianness d' = sp_endianness d /\ sp_imports d' = sp_imports d /\ sp_enums d' = sp_enums d /\
  (exists more, sp_structs d' = sp_structs d ++ more /\ forall s, In s more -> ~ In (ss_name s) (names_in_use d)) /\
  Forall2 union_extended (sp_unions d) (sp_unions d') /\ sp_messages d' = sp_messages d.

(** The message [x'] is [x] but for further cases at the end of unions, in it or in messages inside it.
    What the compiler notes about the sizes may differ, and structures and messages may be numbered
    otherwise: [same i i'] says that the one numbered [i'] stands for the one numbered [i]. *)
Section Grown.
Variable same : N -> N -> Prop.
Inductive twin : structure -> structure -> Prop :=
| twin_structure : forall id id' name fs fs' bytes bits, same id id' -> Forall2 twin_field fs fs' ->
    twin (MkStructure id name fs bytes bits) (MkStructure id' name fs' bytes bits)
with twin_field : field -> field -> Prop :=
| twin_fixed : forall f, twin_field (FFixed f) (FFixed f)
| twin_array : forall f, twin_field (FArray f) (FArray f)
| twin_inner : forall name s s' loc, twin s s' -> twin_field (FStruct name s loc) (FStruct name s' loc).
Definition twin_discriminant (d d' : disc_field) : Prop :=
  twin (d_root d) (d_root d') /\ twin (d_leaf d) (d_leaf d') /\
  d_leaf_index d' = d_leaf_index d /\ d_index_list d' = d_index_list d.
Inductive grown : message -> message -> Prop :=
| grown_message : forall id id' name fs fs' size size', same id id' -> Forall2 grown_field fs fs' ->
    grown (MkMessage id name fs size) (MkMessage id' name fs' size')
with grown_field : mfield -> mfield -> Prop :=
| grown_member : forall name t t' opt size size' endi, grown_type t t' ->
    grown_field (MkMField name t opt size endi) (MkMField name t' opt size' endi)
with grown_type : mfield_type -> mfield_type -> Prop :=
| grown_fixed : forall ty, grown_type (TFixed ty) (TFixed ty)
| grown_reference : forall t t', grown_ref t t' -> grown_type (TRef t) (TRef t')
| grown_text : grown_type TNullTerminatedString TNullTerminatedString
| grown_string : forall ty, grown_type (TVarcharString ty) (TVarcharString ty)
| grown_array : forall ty s s', twin s s' -> grown_type (TArray ty s) (TArray ty s')
| grown_list : forall ty y y', grown y y' -> grown_type (TList ty y) (TList ty y')
| grown_cases : forall u u' on i, grown_union u u' -> grown_type (TUnion u on i) (TUnion u' on i)
| grown_payload : grown_type TPayload TPayload
with grown_ref : referenced -> referenced -> Prop :=
| grown_structure : forall s s', twin s s' -> grown_ref (RStruct s) (RStruct s')
| grown_inside : forall y y', grown y y' -> grown_ref (RMessage y) (RMessage y')
with grown_union : union_ -> union_ -> Prop :=
| grown_more : forall name d d' cs cs' more size size', twin_discriminant d d' -> Forall2 grown_case cs cs' ->
    grown_union (MkUnion name d cs size) (MkUnion name d' (cs' ++ more) size')
with grown_case : ucase -> ucase -> Prop :=
| grown_empty : forall name n, grown_case (MkUCase name n None) (MkUCase name n None)
| grown_item : forall name n t t', grown_ref t t' -> grown_case (MkUCase name n (Some t)) (MkUCase name n (Some t')).

(** The same names are known, for related things. *)
Definition known_alike {A} (R : A -> A -> Prop) (a a' : smap A) : Prop := forall name,
  match sget name a, sget name a' with
  | Some x, Some x' => R x x'
  | None, None => True
  | _, _ => False
  end.
(** A protocol with such messages and unions. It may have further structures, under names that
    stand for nothing in the other. *)
Definition structs_alike (p p' : protocol) : Prop := forall name,
  match sget name (p_structs_by_name p), sget name (p_structs_by_name p') with
  | Some s, Some s' => twin s s'
  | None, None => True
  | None, Some _ => sget name (p_enums_by_name p) = None /\ sget name (p_unions_by_name p) = None /\ sget name (p_messages_by_name p) = None
  | Some _, None => False
  end.
Definition grown_protocol (p p' : protocol) : Prop :=
  p_name p' = p_name p /\ p_endianness p' = p_endianness p /\ p_type_path_by_name p' = p_type_path_by_name p /\
  p_enums_by_name p' = p_enums_by_name p /\ p_enums p' = p_enums p /\
  structs_alike p p' /\ (exists ss more, p_structs p' = ss ++ more /\ Forall2 twin (p_structs p) ss) /\
  known_alike grown (p_messages_by_name p) (p_messages_by_name p') /\
  known_alike grown_union (p_unions_by_name p) (p_unions_by_name p') /\
  Forall2 grown (p_messages p) (p_messages p') /\ Forall2 grown_union (p_unions p) (p_unions p').
Definition grown_imports (r r' : resolver) : Prop := forall name,
  (forall t, r_path r' name t = r_path r name t) /\
  match r_protocol r name, r_protocol r' name with
  | Some p, Some p' => grown_protocol p p'
  | None, None => True
  | _, _ => False
  end.
(** Numbers that were given out stand for each other one to one, and those that stand for each
    other have the same marks. Only numbers that were given out have marks. *)
Definition numbers_alike (w w' : world) : Prop :=
  (forall i, In i (w_embedded w) -> i < w_next w) /\ (forall i, In i (w_embedded w') -> i < w_next w') /\
  (forall i i' j j', same i i' -> same j j' -> (i = j <-> i' = j')) /\
  forall i i', same i i' -> i < w_next w /\ i' < w_next w' /\ (In i (w_embedded w) <-> In i' (w_embedded w')).
End Grown.

(** A value of [x'] in which a union has one of the cases that [x] does not have; in the lists that the
    reader walks, also an item. *)
Section New.
Variables (m : mode) (emb : N -> bool).
Inductive uses_new : message -> message -> value -> Prop :=
| new_member : forall x x' vs i f f' w, nth_error (m_fields x) i = Some f -> nth_error (m_fields x') i = Some f' ->
    nth_error vs i = Some w -> member_uses_new (emb (m_id x')) f f' w -> uses_new x x' (VMsg vs)
with member_uses_new : bool -> mfield -> mfield -> value -> Prop :=
| new_case : forall e f f' w u on i k item, mf_ty f = TUnion u on i -> held f w (VUnion k item) ->
    (length (u_cases u) <= k)%nat -> member_uses_new e f f' w
| new_inside : forall e f f' w y y' z, holds f w y z -> holds f' w y' z -> uses_new y y' z -> member_uses_new e f f' w
| new_item : forall f f' w ty y y' data n k used rest item z left, mf_ty f = TList ty y -> mf_ty f' = TList ty y' ->
    held f w (VListing data n) -> (k < N.to_nat n)%nat -> items m emb y' k data (Found used tt rest) ->
    decodes m emb y' rest (Found item z left) -> uses_new y y' z -> member_uses_new true f f' w.
End New.

(** The same of protocols that are compiled one after the other, under the same import paths. *)
Definition later_models : list (string * sprotocol) -> list (string * sprotocol) -> Prop :=
  Forall2 (fun a a' => fst a' = fst a /\ cases_added (snd a) (snd a')).
