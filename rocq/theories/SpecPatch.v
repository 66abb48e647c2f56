(** Specification vocabulary for C85: where the offsets of a message say that a structure inside of it is. *)

From Coq Require Import Arith NArith List Bool.
From Verif Require Import Base Schema Codec Compiler Access Runtime Gen SpecOffsets SpecStream SpecDecode.
Import ListNotations.
Local Open Scope N_scope.

(** The value of a member that holds [u]. *)
Definition hold (f : mfield) (u : value) : value := if mf_optional f then VOpt (Some u) else u.
(** The bytes of the presence byte, if there is one. *)
Definition presence (f : mfield) : N := if mf_optional f then 1 else 0.
(** [b] with the bytes from [pos] on replaced by [d]. *)
Definition overwrite (b : bytes) (pos : N) (d : bytes) : bytes :=
  firstn (N.to_nat pos) b ++ d ++ skipn (N.to_nat (pos + len d)) b.

Section Patch.
Variables (m : mode) (emb : N -> bool).

(** [structure_at x v o pos s data again free]: in the bytes of a message [x] of value [v] and offsets
    [o], the bytes [data] from [pos] on are a structure [s]. With other bytes [d] there the value is
    [again d], if [free d]: unions that take their discriminant from the structure find the same one. *)
Inductive structure_at : message -> value -> offsets -> N -> structure -> bytes -> (bytes -> value) -> (bytes -> Prop) -> Prop :=
(** A member that is a structure: it ends where the member ends. *)
| at_member : forall x vs l i f s data lo hi nested,
    nth_error (m_fields x) i = Some f -> nth_error vs i = Some (hold f (VStruct data)) -> nth_error l i = Some (lo, hi, nested) ->
    mf_ty f = TRef (RStruct s) ->
    structure_at x (VMsg vs) (MkOffsets l) (hi - s_byte_size s) s data
      (fun d => VMsg (with_member i (hold f (VStruct d)) vs)) (fun d => same_discriminants m x i vs (hold f (VStruct d)))
(** The case of a union. *)
| at_case : forall x vs l i f u on j k c s data lo hi nested,
    nth_error (m_fields x) i = Some f -> nth_error vs i = Some (hold f (VUnion k (Some (VStruct data)))) ->
    nth_error l i = Some (lo, hi, nested) ->
    mf_ty f = TUnion u on j -> nth_error (u_cases u) k = Some c -> uc_item c = Some (RStruct s) ->
    structure_at x (VMsg vs) (MkOffsets l) (hi - s_byte_size s) s data
      (fun d => VMsg (with_member i (hold f (VUnion k (Some (VStruct d)))) vs)) (fun _ => True)
(** Item [k] of an array: the items end where the member ends. *)
| at_item : forall x vs l i f ty s all n k lo hi nested,
    nth_error (m_fields x) i = Some f -> nth_error vs i = Some (hold f (VListing all n)) -> nth_error l i = Some (lo, hi, nested) ->
    mf_ty f = TArray ty s -> (k + 1) * s_byte_size s <= len all ->
    structure_at x (VMsg vs) (MkOffsets l) (hi - len all + k * s_byte_size s) s
      (window all (k * s_byte_size s) ((k + 1) * s_byte_size s))
      (fun d => VMsg (with_member i (hold f (VListing (overwrite all (k * s_byte_size s) d) n)) vs)) (fun _ => True)
(** A structure in a member that is a message, at the place that the nested offsets give. *)
| at_inside : forall x vs l i f y z o pos s data again free lo hi,
    nth_error (m_fields x) i = Some f -> nth_error vs i = Some (hold f z) -> nth_error l i = Some (lo, hi, Some o) ->
    mf_ty f = TRef (RMessage y) -> structure_at y z o pos s data again free ->
    structure_at x (VMsg vs) (MkOffsets l) (lo + presence f + pos) s data
      (fun d => VMsg (with_member i (hold f (again d)) vs)) free
(** A structure in item [k] of a list, behind the [k] messages [used], at the place that the offsets
    that come with the item give. *)
| at_element : forall x vs l i f ty y all n k used rest c z o pos s data again free lo hi nested,
    nth_error (m_fields x) i = Some f -> nth_error vs i = Some (hold f (VListing all n)) -> nth_error l i = Some (lo, hi, nested) ->
    mf_ty f = TList ty y -> (k < N.to_nat n)%nat -> items m emb y k all (Found used tt rest) ->
    read_msg_offsets m emb y rest = Ok (c, (z, o)) -> structure_at y z o pos s data again free ->
    structure_at x (VMsg vs) (MkOffsets l) (hi - len all + len used + pos) s data
      (fun d => VMsg (with_member i (hold f (VListing (overwrite all (len used + pos) d) n)) vs)) free.

End Patch.
