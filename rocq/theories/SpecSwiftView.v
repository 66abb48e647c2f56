(** Specification of C101: what a view of a number shows. *)

From Coq Require Import NArith ZArith List.
From Verif Require Import Base Compiler Access Runtime Swift.
Import ListNotations.
Local Open Scope N_scope.

(** Both languages read a value, and it is the same. *)
Definition same_view (s : sres vval) (r : outcome rerror vval) : Prop := exists x, s = Ok x /\ r = Ok x.

(** [n] is the number of a case of the enumeration, or above all of them; a field
    that is no enumeration can hold every number. *)
Definition without_gap (f : fixed_field) (n : N) : Prop :=
  match ff_view f with
  | VEnum e => In n (map snd (e_variants e)) \/ e_largest e < n
  | _ => True
  end.

(** The enumeration of the field, if it is one, was compiled from a description. *)
Definition from_description (f : fixed_field) : Prop :=
  forall e, ff_view f = VEnum e -> exists de, enum_from_model de = Ok e.

(** The fields [path] lead from the structure [s] to the structure [r]. *)
Inductive leads_to : structure -> list nat -> structure -> Prop :=
| leads_here : forall s, leads_to s [] s
| leads_on : forall s i n x loc rest r, nth_error (s_fields s) i = Some (FStruct n x loc) ->
    leads_to x rest r -> leads_to s (i :: rest) r.
