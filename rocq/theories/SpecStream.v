(** Specification vocabulary for C71 and C72: several messages one after
    another, and one member of a message replaced in place. *)

From Coq Require Import Arith NArith List.
From Verif Require Import Base Schema Compiler Runtime Gen SpecWire.
Import ListNotations.
Local Open Scope N_scope.

(** Messages written one after another to the same vector. *)
Fixpoint write_in_turn (m : mode) (l : list (message * value)) (s : bytes) : bytes * rres unit :=
  match l with
  | [] => (s, Ok tt)
  | (x, v) :: l =>
      match write_vec m x v s with
      | (s, Ok _) => write_in_turn m l s
      | failed => failed
      end
  end.

(** Messages read one after another, each where the one before ended; [rest] is
    what is left. *)
Inductive reads_in_turn (m : mode) (emb : N -> bool) : list message -> bytes -> list value -> bytes -> Prop :=
| reads_none : forall b, reads_in_turn m emb [] b [] b
| reads_next : forall x xs b n v vs rest, read_msg m emb x b = Ok (n, v) -> n <= len b ->
    reads_in_turn m emb xs (skipn (N.to_nat n) b) vs rest -> reads_in_turn m emb (x :: xs) b (v :: vs) rest.

(** The list with another element [i]. *)
Definition with_member {A} (i : nat) (a : A) (l : list A) : list A := firstn i l ++ a :: skipn (S i) l.

(** [w] is an encoding of [v] as member [i], [f], of a message with members
    [vs]. *)
Definition encodes_member (m : mode) (f : mfield) (i : nat) (vs : list value) (v : value) (w : bytes) : Prop :=
  enc_optional (fun _ => True) (mf_optional f) (enc_ty m (fun _ => True) (mf_endi f) (firstn i vs) (mf_ty f)) v w.

(** Unions that follow member [i] get the same discriminant from [v] as from the
    member there was. *)
Definition same_discriminants (m : mode) (x : message) (i : nat) (vs : list value) (v : value) : Prop :=
  forall j f u on, (i < j)%nat -> nth_error (m_fields x) j = Some f -> mf_ty f = TUnion u on i ->
    read_discriminant m (u_disc u) (Some v) = read_discriminant m (u_disc u) (nth_error vs i).
