(** Specification vocabulary for C93: an array field as separate fields. *)

From Coq Require Import Arith NArith String List Bool.
From Verif Require Import Base Schema.
Import ListNotations.
Local Open Scope N_scope.

(** [unrolled before df items after d d']: [d] has the array field [df] between [before] and [after]; [d'] has
    in place of it as many fields of the same type and with the same view as the array has items. *)
Definition unrolled (before : list sfield) (df : sfield) (items after : list sfield) (d d' : sstruct) : Prop :=
  ss_fields d = (before ++ df :: after)%list /\ ss_fields d' = (before ++ items ++ after)%list /\ ss_name d' = ss_name d /\
  sf_array_len df = Some (N.of_nat (length items)) /\ 1 < N.of_nat (length items) /\
  (forall n, sf_info df <> STStruct n) /\
  forall f, In f items -> sf_info f = sf_info df /\ sf_view f = sf_view df /\ sf_array_len f = None.
