(** Specification vocabulary for C92: fields of a structure that are put into a structure of their own. *)

From Coq Require Import Arith NArith String List Bool.
From Verif Require Import Base Schema.
Import ListNotations.

(** [nested before members after grp outer flat]: [flat] has the fields [before], [members] and [after];
    in [outer] there is one field of type [grp] in place of [members], and [grp] consists of these. No
    other field of [outer] is of that type. *)
Definition nested (before members after : list sfield) (grp outer flat : sstruct) : Prop :=
  ss_fields flat = before ++ members ++ after /\ ss_fields grp = members /\
  (exists f, ss_fields outer = before ++ f :: after /\ sf_info f = STStruct (ss_name grp)) /\
  ss_name flat = ss_name outer /\
  (forall f, In f before \/ In f after -> sf_info f <> STStruct (ss_name grp)).

(** A chain of accessors of [outer], given by field numbers, as one of [flat]; there are [nb] fields before
    the group and [ng] in it. *)
Definition flat_path (nb ng : nat) (path : list nat) : list nat :=
  match path with
  | [] => []
  | i :: rest =>
      if (i <? nb)%nat then i :: rest
      else if (i =? nb)%nat then match rest with [] => [] | j :: r => (nb + j)%nat :: r end
      else (i + ng - 1)%nat :: rest
  end.
