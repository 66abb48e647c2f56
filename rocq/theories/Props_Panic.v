(** Property theorems for C16: exactly when the compiler panics. The causes
    ([overflows], [struct_panics], [union_panics]) are defined in SpecPanic. *)

From Coq Require Import Arith NArith ZArith Ascii String List Bool Lia.
From Verif Require Import Base Schema Compiler SpecStruct SpecComp SpecPanic PanicThms Samples SamplesComp CompRefute.
Import ListNotations.
Local Open Scope N_scope.
Local Open Scope string_scope.

(** A structure: with overflow checks, and for the first field that is not accepted. *)
Theorem C16_structure_exact : forall m endi enums structs id d,
  structure_from_model m endi enums structs id d = Panic <-> struct_panics m enums structs d.
Proof. exact structure_panic. Qed.
Print Assumptions C16_structure_exact.

(** A union: in both build profiles. *)
Theorem C16_union_exact : forall structs messages u,
  union_from_model structs messages u = Panic <-> union_panics structs u.
Proof. exact union_panic. Qed.
Print Assumptions C16_union_exact.

(** A protocol: everything before the structure or union that panics is accepted. *)
Theorem C16_protocol_exact : forall m solver w v, protocol_from_model m solver w v = Panic <->
  (exists k d p w', nth_error (sp_structs v) k = Some d /\
     protocol_from_model m solver w (only_structs k v) = Ok (p, w') /\
     struct_panics m (p_enums_by_name p) (p_structs_by_name p) d) \/
  (exists k u p w', nth_error (sp_unions v) k = Some u /\
     protocol_from_model m solver w (only_unions k v) = Ok (p, w') /\ union_panics (p_structs_by_name p) u).
Proof. exact protocol_panic. Qed.
Print Assumptions C16_protocol_exact.

Example C16_exact_nonvacuous :
  struct_panics Debug [] [] {| ss_name := "S"; ss_fields := [scalar "a" (STUnsigned 3); scalar "x" (STSigned 65)] |} /\
  ~ struct_panics Debug [] [] {| ss_name := "S"; ss_fields := [scalar "a" (STUnsigned 3); scalar "x" (STSigned 64)] |} /\
  ~ struct_panics Debug [] [] {| ss_name := "S"; ss_fields := [scalar "a" (STUnsigned 65); scalar "x" (STSigned 65)] |}.
Proof.
  split; [|split].
  - apply (structure_panic Debug Little [] [] 0). vm_compute. reflexivity.
  - intro H. apply (structure_panic Debug Little [] [] 0) in H. vm_compute in H. discriminate.
  - intro H. apply (structure_panic Debug Little [] [] 0) in H. vm_compute in H. discriminate.
Qed.
