(** Specification vocabulary for C72: when the bytes of a member cannot be told
    from what stands around them. *)

From Coq Require Import Arith NArith List Bool.
From Verif Require Import Base Schema Compiler Access Runtime Gen SpecWire SpecExact SpecDecode SpecSwallow.
Import ListNotations.
Local Open Scope N_scope.

Section Replace.
Variables (m : mode) (emb : N -> bool).

(** One of the first [i] members of the message holds a value that takes all the bytes behind it. *)
Definition swallowed_before (x : message) (vs : list value) (i : nat) : Prop :=
  exists j f v, (j < i)%nat /\ nth_error (m_fields x) j = Some f /\ nth_error vs j = Some v /\
    swallows_member m emb (emb (m_id x)) f v.

(** The encoding [w] of the value [v] of member [f] cannot be read even by itself: a message in it
    cannot (see [unreadable]), or it is a list that the reader walks, with data that are not its
    items for the reader. *)
Inductive unreadable_member (x : message) (f : mfield) (v : value) (w : bytes) : Prop :=
| unreadable_content : forall y z p c, holds f v y z -> w = p ++ c -> length p = (if mf_optional f then 1 else 0)%nat ->
    unreadable m emb y z c -> unreadable_member x f v w
| unreadable_items : forall ty y data n, emb (m_id x) = true -> mf_ty f = TList ty y -> held f v (VListing data n) ->
    ~ items m emb y (N.to_nat n) data (Found data tt []) -> unreadable_member x f v w.
End Replace.
