(** Specification of the offsets of a decoded message. *)

From Coq Require Import NArith List Bool.
From Verif Require Import Base Schema Compiler Runtime Gen.
Import ListNotations.
Local Open Scope N_scope.

(** The bytes from [lo] to [hi]. *)
Definition window (b : bytes) (lo hi : N) : bytes := firstn (N.to_nat (hi - lo)) (skipn (N.to_nat lo) b).

Section Offsets.
Variables (m : mode) (emb : N -> bool).

(** [describes x b v o]: [o] are correct offsets of the value [v] of message
    type [x] in [b], the bytes of the message. Every field has an entry: the
    first starts at 0, each starts where the one before ends, the last ends at
    the end of [b], and the bytes between start and end, alone, decode to the
    field. Entries of message fields carry the offsets of that message, relative
    to its first byte (which follows the presence byte if it is optional). *)
Inductive describes : message -> bytes -> value -> offsets -> Prop :=
| describes_msg : forall x b vs l,
    describes_fields (emb (m_id x)) b (m_fields x) 0 [] vs l -> describes x b (VMsg vs) (MkOffsets l)
with describes_fields : bool -> bytes -> list mfield -> N -> list value -> list value ->
    list (N * N * option offsets) -> Prop :=
| describes_nil : forall e b prev, describes_fields e b [] (len b) prev [] []
| describes_cons : forall e b f fs start end_ prev v vs nested l,
    start <= end_ -> end_ <= len b ->
    read_optional m (mf_optional f) (read_ty m emb e (mf_endi f) prev (mf_ty f)) (window b start end_)
      = Ok (end_ - start, v) ->
    describes_nested (mf_ty f) (mf_optional f) (window b start end_) v nested ->
    describes_fields e b fs end_ (prev ++ [v]) vs l ->
    describes_fields e b (f :: fs) start prev (v :: vs) ((start, end_, nested) :: l)
with describes_nested : mfield_type -> bool -> bytes -> value -> option offsets -> Prop :=
| nested_none : forall t opt b v, (forall y, t <> TRef (RMessage y)) -> describes_nested t opt b v None
| nested_absent : forall y b, describes_nested (TRef (RMessage y)) true b (VOpt None) None
| nested_optional : forall y p b v o, describes y b v o ->
    describes_nested (TRef (RMessage y)) true (p :: b) (VOpt (Some v)) (Some o)
| nested_message : forall y b v o, describes y b v o ->
    describes_nested (TRef (RMessage y)) false b v (Some o).
End Offsets.

(** The results of iterating a list without and with offsets: the same errors, the same values,
    and with every value the offsets in its own bytes. An item that fails leaves the iterator
    where it is. *)
Inductive with_offsets (m : mode) (emb : N -> bool) (y : message) :
  bytes -> list (rres value) -> list (rres (value * offsets)) -> Prop :=
| wo_end : forall data, with_offsets m emb y data [] []
| wo_item : forall b rest v o rs ros, describes m emb y b v o -> with_offsets m emb y rest rs ros ->
    with_offsets m emb y (b ++ rest) (Ok v :: rs) (Ok (v, o) :: ros)
| wo_error : forall data e rs ros, with_offsets m emb y data rs ros ->
    with_offsets m emb y data (Err e :: rs) (Err e :: ros).
