(** Specification vocabulary for C80. *)

From Coq Require Import NArith List.
From Verif Require Import Base.
Import ListNotations.
Local Open Scope N_scope.

(** The same bytes, except that some bytes above 1 have become 1. *)
Definition tidied : bytes -> bytes -> Prop := Forall2 (fun a a' => a' = a \/ (a' = 1 /\ 1 < a)).
