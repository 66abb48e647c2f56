(** Specification vocabulary for C97: lists of messages that hold one structure, and arrays of the structure. *)

From Coq Require Import Arith NArith String List Bool.
From Verif Require Import Base Schema Compiler Runtime Gen SpecReadable SpecWire SpecKind.
Import ListNotations.
Local Open Scope N_scope.

(** The message [n] of [d] has one member, which is always there and is the structure [t] of [d]. The structure is
    not a single number of a width that the compiler has no type for. *)
Definition wraps (m : mode) (d : sprotocol) (n t : string) : Prop :=
  exists x f s, In x (sp_messages d) /\ sm_name x = n /\ sm_fields x = [f] /\ smf_info f = MTItem t /\
    (smf_optional f = None \/ smf_optional f = Some false) /\
    In s (sp_structs d) /\ ss_name s = t /\ ~ misfit s /\ (m = Debug \/ narrow s).

(** No two imports, structures or messages have the same name. *)
Definition names_differ (d : sprotocol) : Prop :=
  NoDup (map si_type (sp_imports d) ++ map ss_name (sp_structs d) ++ map sm_name (sp_messages d)).

(** [f] is a list of such messages and [f'] an array of the structure, of the same maximal length. *)
Definition unwrapped_member (m : mode) (d : sprotocol) (f f' : smfield) : Prop :=
  f' = f \/
  smf_name f' = smf_name f /\ smf_optional f' = smf_optional f /\
  exists k n t, smf_info f = MTList k n /\ smf_info f' = MTList k t /\ wraps m d n t.
(** In [d'] some lists of [d], any number of them, are arrays. *)
Definition unwrapped (m : mode) (d d' : sprotocol) : Prop :=
  sp_name d' = sp_name d /\ sp_imports d' = sp_imports d /\ sp_structs d' = sp_structs d /\ sp_enums d' = sp_enums d /\ sp_unions d' = sp_unions d /\
  Forall2 (fun x x' => sm_name x' = sm_name x /\ Forall2 (unwrapped_member m d) (sm_fields x) (sm_fields x')) (sp_messages d) (sp_messages d').

(** The same byte strings are encodings of the same values, and writing any value does the same to any writer. *)
Definition written_alike (x x' : message) : Prop :=
  (forall m v b, encodes m x' v b <-> encodes m x v b) /\
  (forall m v b, encodes_lax m x' v b <-> encodes_lax m x v b) /\
  (forall m St (o : sink St) v s, write_msg m o x' v s = write_msg m o x v s).
