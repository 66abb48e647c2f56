(** Specification vocabulary for C90: definitions that are moved to a protocol of their own. *)

From Coq Require Import Arith NArith String List Bool Permutation.
From Verif Require Import Base Schema SpecGrow SpecOrder.
Import ListNotations.

(** [part_of a d]: the definitions of [a] are among those of [d]. *)
Definition part_of (a d : sprotocol) : Prop :=
  incl (sp_enums a) (sp_enums d) /\ incl (sp_structs a) (sp_structs d) /\ incl (sp_unions a) (sp_unions d) /\
  incl (sp_messages a) (sp_messages d) /\ NoDup (names_in_use a).

(** [split_off d q d']: definitions of [d] are moved to [q], and [d'] is what is left. [d'] may import
    what [d] imports and anything of [q]. Every message is in one of the two. Every name is given once.
    No protocol that [d] imports from has the name of [q]. *)
Definition split_off (d q d' : sprotocol) : Prop :=
  part_of q d /\ part_of d' d /\ Permutation (sp_messages d) (sp_messages q ++ sp_messages d') /\ NoDup (names_in_use d) /\
  incl (sp_imports q) (sp_imports d) /\ (forall i, In i (sp_imports d') -> In i (sp_imports d) \/ si_protocol i = sp_name q) /\
  forall i, In i (sp_imports d) -> si_protocol i <> sp_name q.

(** Every name is given once in each of some protocols. *)
Definition names_once (l : list (string * sprotocol)) : Prop := Forall (fun b => NoDup (names_in_use (snd b))) l.
