(** What decoding gives for every input, for C78. Written from the format, with the places where the
    reader departs from it spelled out: lists that are not walked, lengths of arrays modulo 2^64 in
    builds without overflow checks, and the inputs that make the reader panic. *)

From Coq Require Import Arith NArith List Bool.
From Verif Require Import Base Schema Codec Compiler Access SpecUtf8 Runtime Gen SpecWire SpecUnion.
Import ListNotations.
Local Open Scope N_scope.

(** Why decoding stops: an error is returned, or the program panics. *)
Inductive stop := Reports (e : rerror) | Crashes.
(** The bytes used, the value, the bytes left. *)
Inductive found (A : Type) := Found (used : bytes) (v : A) (left : bytes) | Stops (s : stop).
Arguments Found {A}. Arguments Stops {A}.

Section Decode.
Variables (m : mode) (emb : N -> bool).

(** The bytes that [n] items of [size] bytes are taken to have. *)
Definition extent (n size : N) : option N :=
  match m with
  | Debug => if n * size <? 2 ^ 64 then Some (n * size) else None
  | Release => Some ((n * size) mod 2 ^ 64)
  end.

(** [content e endi prev t b o]: the content of a member of type [t], of a message with mark [e] and with
    the members [prev] before it. *)
Inductive content : bool -> endianness -> list value -> mfield_type -> bytes -> found value -> Prop :=
| number_there : forall e endi prev ty n p r, number endi (get_byte_size ty) n p ->
    content e endi prev (TFixed ty) (p ++ r) (Found p (VScalar n) r)
| number_cut : forall e endi prev ty b, (length b < get_byte_size ty)%nat ->
    content e endi prev (TFixed ty) b (Stops (Reports Truncated))
| ref_content : forall e endi prev t b o, target t b o -> content e endi prev (TRef t) b o
| text_there : forall e endi prev s r, no_nul s -> is_utf8 s ->
    content e endi prev TNullTerminatedString (s ++ [0] ++ r) (Found (s ++ [0]) (VStr s) r)
| text_invalid : forall e endi prev s r, no_nul s -> ~ is_utf8 s ->
    content e endi prev TNullTerminatedString (s ++ [0] ++ r) (Stops (Reports InvalidUtf8))
| text_cut : forall e endi prev b, no_nul b ->
    content e endi prev TNullTerminatedString b (Stops (Reports Truncated))
| string_there : forall e endi prev ty p s r, number endi (get_byte_size ty) (len s) p -> is_utf8 s ->
    content e endi prev (TVarcharString ty) (p ++ s ++ r) (Found (p ++ s) (VStr s) r)
| string_invalid : forall e endi prev ty p s r, number endi (get_byte_size ty) (len s) p -> ~ is_utf8 s ->
    content e endi prev (TVarcharString ty) (p ++ s ++ r) (Stops (Reports InvalidUtf8))
| string_no_length : forall e endi prev ty b, (length b < get_byte_size ty)%nat ->
    content e endi prev (TVarcharString ty) b (Stops (Reports Truncated))
| string_cut : forall e endi prev ty n p r, number endi (get_byte_size ty) n p -> len r < n ->
    content e endi prev (TVarcharString ty) (p ++ r) (Stops Crashes)
| array_there : forall e endi prev ty s n p data r, number endi (get_byte_size ty) n p ->
    extent n (s_byte_size s) = Some (len data) ->
    content e endi prev (TArray ty s) (p ++ data ++ r) (Found (p ++ data) (VListing data n) r)
| array_no_length : forall e endi prev ty s b, (length b < get_byte_size ty)%nat ->
    content e endi prev (TArray ty s) b (Stops (Reports Truncated))
| array_cut : forall e endi prev ty s n p r k, number endi (get_byte_size ty) n p ->
    extent n (s_byte_size s) = Some k -> len r < k -> len p + k < 2 ^ 64 ->
    content e endi prev (TArray ty s) (p ++ r) (Stops (Reports Truncated))
| array_large : forall e endi prev ty s n p r, number endi (get_byte_size ty) n p ->
    (forall k, extent n (s_byte_size s) = Some k -> 2 ^ 64 <= len p + k) ->
    content e endi prev (TArray ty s) (p ++ r) (Stops Crashes)
| union_empty : forall e endi prev u on i data d k c b, nth_error prev i = Some (VStruct data) ->
    discriminant m u data d -> first_case u d k c -> uc_item c = None ->
    content e endi prev (TUnion u on i) b (Found [] (VUnion k None) b)
| union_case : forall e endi prev u on i data d k c t b p v r, nth_error prev i = Some (VStruct data) ->
    discriminant m u data d -> first_case u d k c -> uc_item c = Some t -> target t b (Found p v r) ->
    content e endi prev (TUnion u on i) b (Found p (VUnion k (Some v)) r)
| union_case_stops : forall e endi prev u on i data d k c t b s, nth_error prev i = Some (VStruct data) ->
    discriminant m u data d -> first_case u d k c -> uc_item c = Some t -> target t b (Stops s) ->
    content e endi prev (TUnion u on i) b (Stops s)
| union_unknown : forall e endi prev u on i data d b, nth_error prev i = Some (VStruct data) ->
    discriminant m u data d -> (forall c, In c (u_cases u) -> uc_case c <> d) ->
    content e endi prev (TUnion u on i) b (Stops (Reports (InvalidUnionDiscriminant d)))
| union_stuck : forall e endi prev u on i b,
    (forall data d, nth_error prev i = Some (VStruct data) -> ~ discriminant m u data d) ->
    content e endi prev (TUnion u on i) b (Stops Crashes)
| list_walked : forall endi prev ty y n p data r, number endi (get_byte_size ty) n p ->
    items y (N.to_nat n) (data ++ r) (Found data tt r) ->
    content true endi prev (TList ty y) (p ++ data ++ r) (Found (p ++ data) (VListing data n) r)
| list_stops : forall endi prev ty y n p r s, number endi (get_byte_size ty) n p ->
    items y (N.to_nat n) r (Stops s) -> content true endi prev (TList ty y) (p ++ r) (Stops s)
| list_unwalked : forall endi prev ty y n p data, number endi (get_byte_size ty) n p ->
    content false endi prev (TList ty y) (p ++ data) (Found (p ++ data) (VListing data n) [])
| list_no_length : forall e endi prev ty y b, (length b < get_byte_size ty)%nat ->
    content e endi prev (TList ty y) b (Stops (Reports Truncated))
| payload_all : forall e endi prev b, content e endi prev TPayload b (Found b (VPayload b) [])
(** A structure or a message. *)
with target : referenced -> bytes -> found value -> Prop :=
| structure_there : forall s data r, len data = s_byte_size s ->
    target (RStruct s) (data ++ r) (Found data (VStruct data) r)
| structure_cut : forall s b, len b < s_byte_size s -> target (RStruct s) b (Stops (Reports Truncated))
| message_there : forall y b o, decodes y b o -> target (RMessage y) b o
(** [items y n]: [n] messages [y] one after another. *)
with items : message -> nat -> bytes -> found unit -> Prop :=
| items_none : forall y b, items y 0 b (Found [] tt b)
| items_next : forall y n b p v r q s, decodes y b (Found p v r) -> items y n r (Found q tt s) ->
    items y (S n) b (Found (p ++ q) tt s)
| items_stop : forall y n b s, decodes y b (Stops s) -> items y (S n) b (Stops s)
| items_stop_later : forall y n b p v r s, decodes y b (Found p v r) -> items y n r (Stops s) ->
    items y (S n) b (Stops s)
(** A member: the content, behind a presence byte if it is optional. *)
with member : bool -> list value -> mfield -> bytes -> found value -> Prop :=
| member_plain : forall e prev f b o, mf_optional f = false ->
    content e (mf_endi f) prev (mf_ty f) b o -> member e prev f b o
| member_absent : forall e prev f r, mf_optional f = true -> member e prev f (0 :: r) (Found [0] (VOpt None) r)
| member_present : forall e prev f a b p v r, mf_optional f = true -> 0 < a ->
    content e (mf_endi f) prev (mf_ty f) b (Found p v r) -> member e prev f (a :: b) (Found (a :: p) (VOpt (Some v)) r)
| member_present_stops : forall e prev f a b s, mf_optional f = true -> 0 < a ->
    content e (mf_endi f) prev (mf_ty f) b (Stops s) -> member e prev f (a :: b) (Stops s)
| member_cut : forall e prev f, mf_optional f = true -> member e prev f [] (Stops (Reports Truncated))
(** The members from some place on. *)
with members : bool -> list value -> list mfield -> bytes -> found (list value) -> Prop :=
| members_none : forall e prev b, members e prev [] b (Found [] [] b)
| members_next : forall e prev f fs b p v r q vs s, member e prev f b (Found p v r) ->
    members e (prev ++ [v]) fs r (Found q vs s) -> members e prev (f :: fs) b (Found (p ++ q) (v :: vs) s)
| members_stop : forall e prev f fs b s, member e prev f b (Stops s) -> members e prev (f :: fs) b (Stops s)
| members_stop_later : forall e prev f fs b p v r s, member e prev f b (Found p v r) ->
    members e (prev ++ [v]) fs r (Stops s) -> members e prev (f :: fs) b (Stops s)
with decodes : message -> bytes -> found value -> Prop :=
| message_found : forall x b p vs r, members (emb (m_id x)) [] (m_fields x) b (Found p vs r) ->
    decodes x b (Found p (VMsg vs) r)
| message_stops : forall x b s, members (emb (m_id x)) [] (m_fields x) b (Stops s) -> decodes x b (Stops s).

End Decode.
