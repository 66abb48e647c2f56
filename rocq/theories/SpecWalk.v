(** Lists that a reader can walk, for C70 and C83: programs that read the same message with different
    marks. *)

From Coq Require Import Arith NArith List Bool.
From Verif Require Import Base Schema Compiler Access Runtime Gen SpecWire SpecExact SpecDecode.
Import ListNotations.
Local Open Scope N_scope.

Section Walk.
Variables (m : mode) (emb : N -> bool).

(** The data of every list that is walked are the items it counts and nothing else, as this reader
    finds them. *)
Inductive walkable : message -> value -> Prop :=
| walkable_members : forall x vs,
    (forall i f w, nth_error (m_fields x) i = Some f -> nth_error vs i = Some w -> walkable_member (emb (m_id x)) f w) ->
    walkable x (VMsg vs)
with walkable_member : bool -> mfield -> value -> Prop :=
| walkable_content : forall e f w,
    (forall ty y data n, e = true -> mf_ty f = TList ty y -> held f w (VListing data n) ->
       items m emb y (N.to_nat n) data (Found data tt [])) ->
    (forall y z, holds f w y z -> walkable y z) ->
    walkable_member e f w.
End Walk.
