(** What iterating a list gives for any data and length (C33, C34). *)

From Coq Require Import Arith NArith List Bool.
From Verif Require Import Base Schema Compiler Runtime Gen SpecDecode.
Import ListNotations.
Local Open Scope N_scope.

Section Iterate.
Variables (m : mode) (emb : N -> bool) (y : message).

(** [iterates data n k o]: [k] calls of [next] on a list of [n] items over [data] return the given results
    (fewer than [k] if the list ends before) and leave the given data and length; or one of them panics. *)
Inductive iterates : bytes -> N -> nat -> option (list (rres value) * (bytes * N)) -> Prop :=
| no_call : forall data n, iterates data n 0 (Some ([], (data, n)))
| at_end : forall data k, iterates data 0 (S k) (Some ([], (data, 0)))
| an_item : forall data n k c v r rs s, decodes m emb y data (Found c v r) -> iterates r n k (Some (rs, s)) ->
    iterates data (n + 1) (S k) (Some (Ok v :: rs, s))
| later_panic : forall data n k c v r, decodes m emb y data (Found c v r) -> iterates r n k None ->
    iterates data (n + 1) (S k) None
(** The iterator does not move: every further call fails alike. *)
| same_error : forall data n k e, 0 < n -> decodes m emb y data (Stops (Reports e)) ->
    iterates data n (S k) (Some (repeat (Err e) (S k), (data, n)))
| now_panic : forall data n k, 0 < n -> decodes m emb y data (Stops Crashes) -> iterates data n (S k) None.

End Iterate.
