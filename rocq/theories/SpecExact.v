(** Which values can be read back, for C23 and C38: values whose end the reader
    cannot see, in front of other bytes. *)

From Coq Require Import Arith NArith List Bool.
From Verif Require Import Base Schema Compiler Access Runtime Gen SpecWire.
Import ListNotations.
Local Open Scope N_scope.

(** The member [f] of value [w] holds [u]: an optional member may be absent. *)
Definition held (f : mfield) (w u : value) : Prop :=
  if mf_optional f then w = VOpt (Some u) else w = u.
(** It holds the value [z] of message [y], directly or as the case of a union. *)
Inductive holds (f : mfield) (w : value) (y : message) (z : value) : Prop :=
| holds_message : mf_ty f = TRef (RMessage y) -> held f w z -> holds f w y z
| holds_case : forall u on i k c, mf_ty f = TUnion u on i -> held f w (VUnion k (Some z)) ->
    nth_error (u_cases u) k = Some c -> uc_item c = Some (RMessage y) -> holds f w y z.

(** The value contains a payload, or a list that the reader does not walk: nothing in
    the input tells where it ends. *)
Inductive open_value (emb : N -> bool) : message -> value -> Prop :=
| open_some : forall x vs i f w, nth_error (m_fields x) i = Some f -> nth_error vs i = Some w ->
    open_member emb (emb (m_id x)) f w -> open_value emb x (VMsg vs)
with open_member (emb : N -> bool) : bool -> mfield -> value -> Prop :=
| open_payload : forall e f w u, mf_ty f = TPayload -> held f w u -> open_member emb e f w
| open_list : forall f w u ty y, mf_ty f = TList ty y -> held f w u -> open_member emb false f w
| open_inside : forall e f w y z, holds f w y z -> open_value emb y z -> open_member emb e f w.

(** Any byte but 0 announces an optional value. *)
Definition any (_ : N) : Prop := True.
Definition enc_member (m : mode) (prev : list value) (f : mfield) : value -> bytes -> Prop :=
  enc_optional any (mf_optional f) (enc_ty m any (mf_endi f) prev (mf_ty f)).

(** In the encoding [b] of the value, such a member has bytes behind it that belong to
    the same message, or to the message it is in, at any depth. *)
Inductive followed (m : mode) (emb : N -> bool) : message -> value -> bytes -> Prop :=
| followed_here : forall x l f r vl w vr b1 b2 b3, m_fields x = l ++ f :: r ->
    enc_fields m any l [] vl b1 -> enc_member m vl f w b2 -> enc_fields m any r (vl ++ [w]) vr b3 ->
    open_member emb (emb (m_id x)) f w -> b3 <> [] ->
    followed m emb x (VMsg (vl ++ w :: vr)) (b1 ++ b2 ++ b3)
| followed_inside : forall x l f r vl w vr b1 b2 b3 y z p c, m_fields x = l ++ f :: r ->
    enc_fields m any l [] vl b1 -> enc_member m vl f w b2 -> enc_fields m any r (vl ++ [w]) vr b3 ->
    holds f w y z -> b2 = p ++ c -> length p = (if mf_optional f then 1 else 0)%nat -> followed m emb y z c ->
    followed m emb x (VMsg (vl ++ w :: vr)) (b1 ++ b2 ++ b3).

(** The items of the lists that the reader walks are self-delimiting. *)
Definition items_delimited (emb : N -> bool) (x : message) : Prop :=
  forall f ty y, part emb x true f -> mf_ty f = TList ty y -> self_delimiting emb y.

(** [reaches m emb x c e prev f]: having read the bytes [c], the reader of [x] is about
    to read the content of the member [f], of [x] or of a message inside it with mark
    [e]; [prev] are the members of that message before it. *)
Definition closed_fields (emb : N -> bool) (e : bool) (fs : list mfield) (vs : list value) : Prop :=
  forall i f w, nth_error fs i = Some f -> nth_error vs i = Some w -> ~ open_member emb e f w.
(** The presence byte of an optional member. *)
Definition announces (f : mfield) (b : bytes) : Prop :=
  if mf_optional f then exists p, 0 < p < 256 /\ b = [p] else b = [].
Inductive reaches (m : mode) (emb : N -> bool) : message -> bytes -> bool -> list value -> mfield -> Prop :=
| reaches_member : forall x l f r vl b a, m_fields x = l ++ f :: r -> enc_fields m any l [] vl b ->
    closed_fields emb (emb (m_id x)) l vl -> announces f a ->
    reaches m emb x (b ++ a) (emb (m_id x)) vl f
| reaches_message : forall x l g r vl b a y c e prev f, m_fields x = l ++ g :: r -> enc_fields m any l [] vl b ->
    closed_fields emb (emb (m_id x)) l vl -> announces g a -> mf_ty g = TRef (RMessage y) ->
    reaches m emb y c e prev f -> reaches m emb x (b ++ a ++ c) e prev f
| reaches_case : forall x l g r vl b a y c e prev f u on i data k ca, m_fields x = l ++ g :: r -> enc_fields m any l [] vl b ->
    closed_fields emb (emb (m_id x)) l vl -> announces g a -> mf_ty g = TUnion u on i ->
    nth_error vl i = Some (VStruct data) ->
    path_get (E:=rerror) m (d_root (u_disc u)) (d_index_list (u_disc u)) data = Ok (uc_case ca) ->
    nth_error (u_cases u) k = Some ca ->
    (forall j cb, (j < k)%nat -> nth_error (u_cases u) j = Some cb -> uc_case cb <> uc_case ca) ->
    uc_item ca = Some (RMessage y) ->
    reaches m emb y c e prev f -> reaches m emb x (b ++ a ++ c) e prev f.
