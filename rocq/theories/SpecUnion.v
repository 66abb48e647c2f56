(** Specification vocabulary for unions (C32). *)

From Coq Require Import Arith NArith List Bool.
From Verif Require Import Base Schema Compiler Access SpecStruct Runtime Gen SpecWire.
Import ListNotations.
Local Open Scope N_scope.

(** Case [k] of [u] is [c], its number is [d], and no earlier case has it. *)
Definition first_case (u : union_) (d : N) (k : nat) (c : ucase) : Prop :=
  nth_error (u_cases u) k = Some c /\ uc_case c = d /\
  forall j c', (j < k)%nat -> nth_error (u_cases u) j = Some c' -> uc_case c' <> d.

(** The number stored in the referenced structure, by the generated accessors. *)
Definition discriminant (m : mode) (u : union_) (data : bytes) (d : N) : Prop :=
  path_get (E:=rerror) m (d_root (u_disc u)) (d_index_list (u_disc u)) data = Ok d.

(** [b] encodes the content of case [c]. *)
Definition encodes_case (m : mode) (c : ucase) (item : option value) (b : bytes) : Prop :=
  match uc_item c, item with
  | None, None => b = []
  | Some (RStruct s), Some (VStruct data) => len data = s_byte_size s /\ bytes_ok data /\ b = data
  | Some (RMessage x), Some v => encodes m x v b
  | _, _ => False
  end.

Definition case_delimited (emb : N -> bool) (c : ucase) : Prop :=
  forall x, uc_item c = Some (RMessage x) -> self_delimiting emb x.
