(** Conditions on message types for C38 and C39, in terms of the types alone. *)

From Coq Require Import Arith NArith List Bool.
From Verif Require Import Base Schema Compiler SpecComp SpecWire.
Import ListNotations.
Local Open Scope N_scope.

(** In [x] and in every message inside it, a field that contains a payload or a
    list is the last one, and the items of lists contain neither. *)
Definition tidy (x : message) : Prop :=
  (forall y l f r, within x y -> m_fields y = l ++ f :: r -> r <> [] -> ~ open_ended (mf_ty f)) /\
  (forall y f ty z g, within x y -> In f (m_fields y) -> mf_ty f = TList ty z ->
     In g (m_fields z) -> ~ open_ended (mf_ty g)).

(** A structure that is not a single scalar, or whose scalar has exactly the
    width of its storage type. *)
Definition regular (s : structure) : Prop :=
  forall g, s_fields s = [FFixed g] ->
    (ff_ty g = FBool /\ s_bit_size s = 8) \/
    (ff_ty g <> FBool /\ (s_bit_size s = 8 \/ s_bit_size s = 16 \/ s_bit_size s = 32 \/ s_bit_size s = 64)).

(** A description with a single field, a scalar without a view, whose width is
    a whole number of bytes but not that of a storage type. An array of length
    zero is accepted as a scalar of no bits. *)
Definition misfit (d : sstruct) : Prop :=
  exists f, ss_fields d = [f] /\ sf_view f = None /\
    match sf_info f, sf_array_len f with
    | STUnsigned b, None | STUnsigned b, Some 1 => In b [24; 40; 48; 56]
    | STBoolean b, None | STBoolean b, Some 1 => b mod 8 = 0 /\ b <> 8
    | STUnsigned _, Some 0 | STBoolean _, Some 0 => True
    | STSigned b, Some 0 => In b [8; 16; 32; 64]
    | STFloat b, Some 0 => In b [32; 64]
    | _, _ => False
    end.
