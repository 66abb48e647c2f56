(** What writing gives for every value of a message type, for C79: also for values that have no encoding.
    Written from the format, with the places where the writer departs from it spelled out. *)

From Coq Require Import Arith NArith List Bool.
From Verif Require Import Base Schema Codec Compiler Access Runtime Gen SpecWire SpecUnion.
Import ListNotations.
Local Open Scope N_scope.

(** ** The values of a type *)

(** What the declarations of the generated types admit: numbers that fit, structures over any buffer,
    strings of any length with or without NUL, any data and length of a list or array, any case of a
    union with its item, whatever the discriminant is. *)
Inductive has_type : message -> value -> Prop :=
| message_typed : forall x vs, Forall2 member_typed (m_fields x) vs -> has_type x (VMsg vs)
with member_typed : mfield -> value -> Prop :=
| mandatory_typed : forall f v, mf_optional f = false -> content_typed (mf_ty f) v -> member_typed f v
| absent_typed : forall f, mf_optional f = true -> member_typed f (VOpt None)
| present_typed : forall f v, mf_optional f = true -> content_typed (mf_ty f) v -> member_typed f (VOpt (Some v))
with content_typed : mfield_type -> value -> Prop :=
| number_typed : forall ty n, n < 256 ^ N.of_nat (get_byte_size ty) -> content_typed (TFixed ty) (VScalar n)
| target_typed : forall t v, item_typed t v -> content_typed (TRef t) v
| text_typed : forall s, content_typed TNullTerminatedString (VStr s)
| string_typed : forall ty s, content_typed (TVarcharString ty) (VStr s)
| array_typed : forall ty s data n, content_typed (TArray ty s) (VListing data n)
| case_typed : forall u on i k c v, nth_error (u_cases u) k = Some c -> uc_item c = None -> v = VUnion k None ->
    content_typed (TUnion u on i) v
| case_item_typed : forall u on i k c t v, nth_error (u_cases u) k = Some c -> uc_item c = Some t -> item_typed t v ->
    content_typed (TUnion u on i) (VUnion k (Some v))
| list_typed : forall ty y data n, content_typed (TList ty y) (VListing data n)
| payload_typed : forall b, content_typed TPayload (VPayload b)
with item_typed : referenced -> value -> Prop :=
| structure_typed : forall s data, item_typed (RStruct s) (VStruct data)
| inner_typed : forall y v, has_type y v -> item_typed (RMessage y) v.

(** ** What is sent *)

(** How writing ends. *)
Definition ending := rres unit.
Notation finished := (Ok tt : ending).

Section Encode.
Variable m : mode.

(** [sends_content endi all t v p r]: for the member [v] of a message with the members [all], the bytes [p]
    are sent, then writing ends with [r]. *)
Inductive sends_content : endianness -> list value -> mfield_type -> value -> bytes -> ending -> Prop :=
| number_sent : forall endi all ty n p, number endi (get_byte_size ty) n p ->
    sends_content endi all (TFixed ty) (VScalar n) p finished
| target_sent : forall endi all t v p r, sends_item t v p r -> sends_content endi all (TRef t) v p r
| text_sent : forall endi all s, sends_content endi all TNullTerminatedString (VStr s) (s ++ [0]) finished
| string_sent : forall endi all ty s p, number endi (get_byte_size ty) (len s mod 256 ^ N.of_nat (get_byte_size ty)) p ->
    sends_content endi all (TVarcharString ty) (VStr s) (p ++ s) finished
| array_sent : forall endi all ty s data n p, number endi (get_byte_size ty) (n mod 256 ^ N.of_nat (get_byte_size ty)) p ->
    sends_content endi all (TArray ty s) (VListing data n) (p ++ data) finished
| list_sent : forall endi all ty y data n p, number endi (get_byte_size ty) (n mod 256 ^ N.of_nat (get_byte_size ty)) p ->
    sends_content endi all (TList ty y) (VListing data n) (p ++ data) finished
| payload_sent : forall endi all b, sends_content endi all TPayload (VPayload b) b finished
(** A union in which no case has content. *)
| nothing_sent : forall endi all u on i k, (forall c, In c (u_cases u) -> uc_item c = None) ->
    sends_content endi all (TUnion u on i) (VUnion k None) [] finished
(** A case without content, if any other has some: the discriminant must be readable, not right. *)
| case_sent : forall endi all u on i k c c' data d, In c' (u_cases u) -> uc_item c' <> None ->
    nth_error all i = Some (VStruct data) -> discriminant m u data d ->
    nth_error (u_cases u) k = Some c -> uc_item c = None ->
    sends_content endi all (TUnion u on i) (VUnion k None) [] finished
| case_item_sent : forall endi all u on i k c t v data p r, nth_error all i = Some (VStruct data) ->
    discriminant m u data (uc_case c) -> nth_error (u_cases u) k = Some c -> uc_item c = Some t ->
    sends_item t v p r -> sends_content endi all (TUnion u on i) (VUnion k (Some v)) p r
| case_mismatch : forall endi all u on i k c t v data d, nth_error all i = Some (VStruct data) ->
    discriminant m u data d -> d <> uc_case c -> nth_error (u_cases u) k = Some c -> uc_item c = Some t ->
    sends_content endi all (TUnion u on i) (VUnion k (Some v)) [] (Err (InvalidUnionDiscriminant d))
| case_stuck : forall endi all u on i k v c, In c (u_cases u) -> uc_item c <> None ->
    (forall data d, nth_error all i = Some (VStruct data) -> ~ discriminant m u data d) ->
    sends_content endi all (TUnion u on i) (VUnion k v) [] Panic
with sends_item : referenced -> value -> bytes -> ending -> Prop :=
(** A structure sends its size, even if its buffer is longer. *)
| structure_sent : forall s data rest, len data = s_byte_size s ->
    sends_item (RStruct s) (VStruct (data ++ rest)) data finished
| structure_short : forall s data, len data < s_byte_size s -> sends_item (RStruct s) (VStruct data) [] Panic
| inner_sent : forall y v p r, sends y v p r -> sends_item (RMessage y) v p r
with sends_member : list value -> mfield -> value -> bytes -> ending -> Prop :=
| mandatory_sent : forall all f v p r, mf_optional f = false -> sends_content (mf_endi f) all (mf_ty f) v p r ->
    sends_member all f v p r
| absent_sent : forall all f, mf_optional f = true -> sends_member all f (VOpt None) [0] finished
| present_sent : forall all f v p r, mf_optional f = true -> sends_content (mf_endi f) all (mf_ty f) v p r ->
    sends_member all f (VOpt (Some v)) (1 :: p) r
with sends_members : list value -> list mfield -> list value -> bytes -> ending -> Prop :=
| members_sent : forall all, sends_members all [] [] [] finished
| member_sent : forall all f fs v vs p q r, sends_member all f v p finished -> sends_members all fs vs q r ->
    sends_members all (f :: fs) (v :: vs) (p ++ q) r
| member_ends : forall all f fs v vs p r, sends_member all f v p r -> r <> finished ->
    sends_members all (f :: fs) (v :: vs) p r
with sends : message -> value -> bytes -> ending -> Prop :=
| message_sent : forall x vs p r, sends_members vs (m_fields x) vs p r -> sends x (VMsg vs) p r.

End Encode.
