(** Values that have an encoding, for C24: the data of every list are encodings of items, as many as its
    length says, and the data of every array have the length of its items. *)

From Coq Require Import Arith NArith List Bool.
From Verif Require Import Base Schema Compiler Access Runtime Gen SpecWire SpecExact.
Import ListNotations.
Local Open Scope N_scope.

Section Genuine.
Variable m : mode.

Inductive genuine : message -> value -> Prop :=
| genuine_members : forall x vs,
    (forall i f w, nth_error (m_fields x) i = Some f -> nth_error vs i = Some w -> genuine_member f w) ->
    genuine x (VMsg vs)
with genuine_member : mfield -> value -> Prop :=
| genuine_content : forall f w,
    (forall ty y data n, mf_ty f = TList ty y -> held f w (VListing data n) ->
       exists items chunks, n = len items /\ Forall2 (encodes_lax m y) items chunks /\ data = concat chunks) ->
    (forall ty s data n, mf_ty f = TArray ty s -> held f w (VListing data n) -> len data = n * s_byte_size s) ->
    (forall y z, holds f w y z -> genuine y z) ->
    genuine_member f w.
End Genuine.
