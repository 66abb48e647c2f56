(** Property theorems for C76: exactly which error the compiler reports. The defects are defined in
    SpecError. *)

From Coq Require Import Arith NArith ZArith Ascii String List Bool Lia.
From Verif Require Import Base Schema Compiler SpecStruct SpecComp SpecCase SpecItems SpecPanic SpecAccept SpecError ErrorThms
  Samples SamplesComp Props_Accept.
Import ListNotations.
Local Open Scope N_scope.
Local Open Scope string_scope.

Theorem C76_enums : forall d e, enum_from_model d = Err e <-> se_variants d = [] /\ e = EZeroEnum.
Proof. exact enum_error. Qed.
Print Assumptions C76_enums.

Theorem C76_structures : forall m endi enums structs id d e,
  structure_from_model m endi enums structs id d = Err e <-> struct_error m enums structs d e.
Proof. exact structure_error. Qed.
Print Assumptions C76_structures.

Theorem C76_unions : forall structs messages u e,
  union_from_model structs messages u = Err e <-> union_error structs messages u e.
Proof. exact union_err. Qed.
Print Assumptions C76_unions.

Theorem C76_messages : forall env id d e, message_from_model env id d = Err e <-> message_error env d e.
Proof. exact message_err. Qed.
Print Assumptions C76_messages.

Theorem C76_imports : forall solver p v e, import_one solver p v = Err e <-> import_error solver v e.
Proof. exact import_err. Qed.
Print Assumptions C76_imports.

(** A protocol: the error is that of the first definition with a defect, in the order imports, enums,
    structures, unions, messages. *)
Theorem C76_protocols : forall m solver w v e, protocol_from_model m solver w v = Err e <->
  (exists k i, nth_error (sp_imports v) k = Some i /\ Forall (import_accepted solver) (firstn k (sp_imports v)) /\
     import_error solver i e) \/
  (Forall (import_accepted solver) (sp_imports v) /\ e = EZeroEnum /\ exists d, In d (sp_enums v) /\ se_variants d = []) \/
  (exists k d p w', nth_error (sp_structs v) k = Some d /\ protocol_from_model m solver w (only_structs k v) = Ok (p, w') /\
     struct_error m (p_enums_by_name p) (p_structs_by_name p) d e) \/
  (exists k u p w', nth_error (sp_unions v) k = Some u /\ protocol_from_model m solver w (only_unions k v) = Ok (p, w') /\
     union_error (p_structs_by_name p) (p_messages_by_name p) u e) \/
  (exists k d p w', nth_error (sp_messages v) k = Some d /\ protocol_from_model m solver w (only_messages k v) = Ok (p, w') /\
     message_error {| pe_endianness := p_endianness p; pe_structs := p_structs_by_name p;
        pe_messages := p_messages_by_name p; pe_unions := p_unions_by_name p |} d e).
Proof. exact protocol_err. Qed.
Print Assumptions C76_protocols.

(** Three kinds of errors are never reported, whatever the description: more than one payload, a missing
    width and an unsupported type. A bad width is reported as it is, and it is a bad one. *)
Theorem C76_never : forall m solver w v e, protocol_from_model m solver w v = Err e ->
  e <> EMultiPayload /\ e <> EMissingBitSize /\ (forall t, e <> EUnsupportedType t) /\
  (forall b, e = EUnsupportedBitSize b -> b = 0 \/ 64 < b).
Proof. exact never_reported. Qed.
Print Assumptions C76_never.

(** The errors of a width, a view, an array; of an unknown component of a path and of a label; of a
    union without its header, and of a second payload. *)
Example C76_structures_nonvacuous :
  struct_error Debug [] [] (of_fields [scalar "a" (STUnsigned 3); scalar "b" (STUnsigned 65)]) (EUnsupportedBitSize 65) /\
  struct_error Debug [] [] (of_fields [scalar "a" (STFloat 16)]) (EUnsupportedViewType Float) /\
  struct_error Release [] [] (of_fields [arr 8; arr 5]) EUnalignedArrayCodec.
Proof.
  split; [|split].
  - apply (structure_error Debug Little [] [] 0). vm_compute. reflexivity.
  - apply (structure_error Debug Little [] [] 0). vm_compute. reflexivity.
  - apply (structure_error Release Little [] [] 0). vm_compute. reflexivity.
Qed.
Example C76_unions_nonvacuous :
  union_error (pe_structs env_p) (pe_messages env_p) (body "Mauve") (EInvalidUnionCase "Mauve") /\
  union_error (pe_structs env_p) (pe_messages env_p)
    {| sun_name := "B"; sun_discriminant := "Line.a.z"; sun_cases := [] |} (EUndefinedReference "Line.z").
Proof. split; apply union_err; vm_compute; reflexivity. Qed.
Example C76_messages_nonvacuous :
  message_error env_p (of_members [fld "b" (MTUnion "hdr" "Body"); fld "hdr" (MTItem "Header")]) (EUndefinedReference "hdr") /\
  message_error env_p (of_members [fld "hdr" (MTItem "Pos"); fld "b" (MTUnion "hdr" "Body")]) EUnionTypeMismatch /\
  message_error env_p (of_members [fld "d" MTPayload; fld "e" MTPayload]) EVarsizeAfterPayload.
Proof. split; [|split]; apply (message_err env_p 0); vm_compute; reflexivity. Qed.
Example C76_imports_nonvacuous :
  import_error main_solver {| si_protocol := "Lib"; si_type := "Nope" |} (EUndefinedReference "Lib::Nope").
Proof. apply (import_err main_solver (protocol_empty "")). vm_compute. reflexivity. Qed.
