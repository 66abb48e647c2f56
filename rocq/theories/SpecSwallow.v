(** Values whose end the reader cannot see, for C23, C38, C68 and C71, with the lists whose items
    the reader walks: an item of such a list may be such a value too. *)

From Coq Require Import Arith NArith List Bool.
From Verif Require Import Base Schema Compiler Access Runtime Gen SpecWire SpecExact SpecDecode.
Import ListNotations.
Local Open Scope N_scope.

Section Swallow.
Variables (m : mode) (emb : N -> bool).

(** The value contains a payload, a list that the reader does not walk, or a list with an item,
    as the reader finds it in the data of the list, that does. *)
Inductive swallows : message -> value -> Prop :=
| swallows_some : forall x vs i f w, nth_error (m_fields x) i = Some f -> nth_error vs i = Some w ->
    swallows_member (emb (m_id x)) f w -> swallows x (VMsg vs)
with swallows_member : bool -> mfield -> value -> Prop :=
| swallows_payload : forall e f w u, mf_ty f = TPayload -> held f w u -> swallows_member e f w
| swallows_list : forall f w u ty y, mf_ty f = TList ty y -> held f w u -> swallows_member false f w
| swallows_item : forall f w ty y data n k used rest item z left, mf_ty f = TList ty y -> held f w (VListing data n) ->
    (k < N.to_nat n)%nat -> items m emb y k data (Found used tt rest) -> decodes m emb y rest (Found item z left) ->
    swallows y z -> swallows_member true f w
| swallows_inside : forall e f w y z, holds f w y z -> swallows y z -> swallows_member e f w.

(** In the encoding [b] of the value, such a member has bytes behind it that belong to the same
    message, or a list that is walked has data that are not its items for the reader; here or in a
    message inside, at any depth. *)
Inductive unreadable : message -> value -> bytes -> Prop :=
| unreadable_here : forall x l f r vl w vr b1 b2 b3, m_fields x = l ++ f :: r ->
    enc_fields m any l [] vl b1 -> enc_member m vl f w b2 -> enc_fields m any r (vl ++ [w]) vr b3 ->
    swallows_member (emb (m_id x)) f w -> b3 <> [] ->
    unreadable x (VMsg (vl ++ w :: vr)) (b1 ++ b2 ++ b3)
| unreadable_list : forall x l f r vl w vr b1 b2 b3 ty y data n, m_fields x = l ++ f :: r ->
    enc_fields m any l [] vl b1 -> enc_member m vl f w b2 -> enc_fields m any r (vl ++ [w]) vr b3 ->
    emb (m_id x) = true -> mf_ty f = TList ty y -> held f w (VListing data n) ->
    ~ items m emb y (N.to_nat n) data (Found data tt []) ->
    unreadable x (VMsg (vl ++ w :: vr)) (b1 ++ b2 ++ b3)
| unreadable_inside : forall x l f r vl w vr b1 b2 b3 y z p c, m_fields x = l ++ f :: r ->
    enc_fields m any l [] vl b1 -> enc_member m vl f w b2 -> enc_fields m any r (vl ++ [w]) vr b3 ->
    holds f w y z -> b2 = p ++ c -> length p = (if mf_optional f then 1 else 0)%nat -> unreadable y z c ->
    unreadable x (VMsg (vl ++ w :: vr)) (b1 ++ b2 ++ b3).
End Swallow.
