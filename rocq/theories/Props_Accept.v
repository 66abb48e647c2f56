(** Property theorems for C75: exactly which descriptions the compiler accepts. The conditions are
    defined in SpecAccept (and SpecPanic, SpecCase). *)

From Coq Require Import Arith NArith ZArith Ascii String List Bool Lia.
From Verif Require Import Base Schema Compiler SpecStruct SpecComp SpecCase SpecItems SpecPanic SpecAccept AcceptThms Samples
  SamplesComp.
Import ListNotations.
Local Open Scope N_scope.
Local Open Scope string_scope.

Theorem C75_enums : forall d, (exists e, enum_from_model d = Ok e) <-> se_variants d <> [].
Proof. exact enum_accepted. Qed.
Print Assumptions C75_enums.

Theorem C75_structures : forall m endi enums structs id d,
  (exists s, structure_from_model m endi enums structs id d = Ok s) <-> struct_accepted m enums structs d.
Proof. exact structure_accepted. Qed.
Print Assumptions C75_structures.

Theorem C75_unions : forall structs messages u,
  (exists x, union_from_model structs messages u = Ok x) <-> union_accepted structs messages u.
Proof. exact union_accept. Qed.
Print Assumptions C75_unions.

Theorem C75_messages : forall env id d,
  (exists x marks, message_from_model env id d = Ok (x, marks)) <-> message_accepted env d.
Proof. exact message_accept. Qed.
Print Assumptions C75_messages.

Theorem C75_imports : forall solver p v, (exists q, import_one solver p v = Ok q) <-> import_accepted solver v.
Proof. exact import_accept. Qed.
Print Assumptions C75_imports.

(** A protocol: each definition is accepted after those before it, in the order enums, structures, unions,
    messages. *)
Theorem C75_protocols : forall m solver w v, (exists p w', protocol_from_model m solver w v = Ok (p, w')) <->
  Forall (import_accepted solver) (sp_imports v) /\ Forall (fun d => se_variants d <> []) (sp_enums v) /\
  (forall k d p w', nth_error (sp_structs v) k = Some d -> protocol_from_model m solver w (only_structs k v) = Ok (p, w') ->
     struct_accepted m (p_enums_by_name p) (p_structs_by_name p) d) /\
  (forall k u p w', nth_error (sp_unions v) k = Some u -> protocol_from_model m solver w (only_unions k v) = Ok (p, w') ->
     union_accepted (p_structs_by_name p) (p_messages_by_name p) u) /\
  (forall k d p w', nth_error (sp_messages v) k = Some d -> protocol_from_model m solver w (only_messages k v) = Ok (p, w') ->
     message_accepted {| pe_endianness := p_endianness p; pe_structs := p_structs_by_name p;
        pe_messages := p_messages_by_name p; pe_unions := p_unions_by_name p |} d).
Proof. exact protocol_accept. Qed.
Print Assumptions C75_protocols.

(** Structures: an array of three 8 bit items behind 3 bits is accepted, one of three 5 bit items, a float
    range of 64 bits with overflow checks, and a view of an unknown enum are not. *)
Definition arr (n : N) : sfield :=
  {| sf_name := "l"; sf_info := STUnsigned n; sf_view := None; sf_array_len := Some 3 |}.
Definition range64 : sfield :=
  {| sf_name := "r"; sf_info := STFloat 64; sf_view := Some (SVFloatRange f64_zero f64_one); sf_array_len := None |}.
Definition of_fields (l : list sfield) : sstruct := {| ss_name := "S"; ss_fields := l |}.
Example C75_structures_nonvacuous :
  struct_accepted Debug [] [] (of_fields [scalar "a" (STUnsigned 3); arr 8]) /\
  ~ struct_accepted Release [] [] (of_fields [scalar "a" (STUnsigned 3); arr 5]) /\
  struct_accepted Release [] [] (of_fields [range64]) /\ ~ struct_accepted Debug [] [] (of_fields [range64]) /\
  ~ struct_accepted Debug [] [] (of_fields
     [{| sf_name := "e"; sf_info := STUnsigned 8; sf_view := Some (SVEnum "E"); sf_array_len := None |}]).
Proof.
  split; [|split; [|split; [|split]]].
  - apply (structure_accepted Debug Little [] [] 0). eexists. vm_compute. reflexivity.
  - intro H. apply (structure_accepted Release Little [] [] 0) in H. destruct H as (s & H). vm_compute in H. discriminate.
  - apply (structure_accepted Release Little [] [] 0). eexists. vm_compute. reflexivity.
  - intro H. apply (structure_accepted Debug Little [] [] 0) in H. destruct H as (s & H). vm_compute in H. discriminate.
  - intro H. apply (structure_accepted Debug Little [] [] 0) in H. destruct H as (s & H). vm_compute in H. discriminate.
Qed.

(** Unions and messages over the sample library: the ones of the sample protocol, and variants with an
    unknown label, a union behind no header, a string behind a payload. *)
Definition env_p : proto_env :=
  {| pe_endianness := Little; pe_structs := p_structs_by_name main_p; pe_messages := p_messages_by_name main_p;
     pe_unions := p_unions_by_name main_p |}.
Definition body (label : string) : sunion :=
  {| sun_name := "B"; sun_discriminant := "Header.kind"; sun_cases := [ ucase_d "A" label (Some "Ping") ] |}.
Definition of_members (l : list smfield) : smessage := {| sm_name := "M"; sm_fields := l |}.
Example C75_unions_nonvacuous :
  union_accepted (pe_structs env_p) (pe_messages env_p) (body "Red") /\
  ~ union_accepted (pe_structs env_p) (pe_messages env_p) (body "Mauve").
Proof.
  split.
  - apply union_accept. eexists. vm_compute. reflexivity.
  - intro H. apply union_accept in H. destruct H as (s & H). vm_compute in H. discriminate.
Qed.
Example C75_messages_nonvacuous :
  message_accepted env_p (of_members [fld "hdr" (MTItem "Header"); fld "b" (MTUnion "hdr" "Body"); fld "d" MTPayload]) /\
  message_accepted env_p (of_members [fld "d" MTPayload; fld "p" (MTItem "Pos")]) /\
  ~ message_accepted env_p (of_members [fld "b" (MTUnion "hdr" "Body"); fld "hdr" (MTItem "Header")]) /\
  ~ message_accepted env_p (of_members [fld "hdr" (MTItem "Pos"); fld "b" (MTUnion "hdr" "Body")]) /\
  ~ message_accepted env_p (of_members [fld "d" MTPayload; fld "s" (MTString None)]).
Proof.
  split; [|split; [|split; [|split]]].
  - apply (message_accept env_p 0). eexists. eexists. vm_compute. reflexivity.
  - apply (message_accept env_p 0). eexists. eexists. vm_compute. reflexivity.
  - intro H. apply (message_accept env_p 0) in H. destruct H as (x & mk & H). vm_compute in H. discriminate.
  - intro H. apply (message_accept env_p 0) in H. destruct H as (x & mk & H). vm_compute in H. discriminate.
  - intro H. apply (message_accept env_p 0) in H. destruct H as (x & mk & H). vm_compute in H. discriminate.
Qed.
Example C75_protocols_nonvacuous :
  (exists p w', protocol_from_model Debug main_solver (snd lib_pw) main_v = Ok (p, w')) /\
  Forall (import_accepted main_solver) (sp_imports main_v) /\
  ~ import_accepted main_solver {| si_protocol := "Lib"; si_type := "Nope" |}.
Proof.
  split; [|split].
  - exists (fst main_pw), (snd main_pw). vm_compute. reflexivity.
  - repeat (constructor; [apply (import_accept main_solver (protocol_empty "")); eexists; vm_compute; reflexivity|]). constructor.
  - intro H. apply (import_accept main_solver (protocol_empty "")) in H. destruct H as (q & H). vm_compute in H. discriminate.
Qed.
