(** Accepted and generated protocols whose generated code has clashing or hidden
    names, or types used with other parameters than they are declared with (C73, C74). *)

From Coq Require Import Arith NArith Ascii String List Bool Lia.
From Verif Require Import Base Schema Codec Compiler Access Runtime Gen Template Templates SpecTemplate Driver SpecComp
  Samples SamplesComp GenText SpecGen SpecCode GenThms GenMsgThms GenAllThms GenRefute SpecNames.
Import ListNotations.
Local Open Scope string_scope.

Definition protocol_of structs unions messages : sprotocol :=
  {| sp_name := "P"; sp_endianness := None; sp_imports := []; sp_enums := [];
     sp_structs := structs; sp_unions := unions; sp_messages := messages |}.
(** A scalar [x] and a scalar [raw_x]. *)
Definition raw_v := one_struct [ scalar "x" (STUnsigned 8); scalar "raw_x" (STUnsigned 8) ].
(** Two cases that differ in the case of their letters. *)
Definition tag_d : sstruct := {| ss_name := "Tag"; ss_fields := [ scalar "kind" (STUnsigned 8); scalar "more" (STUnsigned 8) ] |}.
Definition cases_v := protocol_of [tag_d]
  [ {| sun_name := "U"; sun_discriminant := "Tag.kind";
       sun_cases := [ ucase_d "On" "0" (Some "Tag"); ucase_d "ON" "1" (Some "Tag") ] |} ] [].
(** A structure named as the offsets of a message. *)
Definition types_v := protocol_of
  [ tag_d; {| ss_name := "AOffsets"; ss_fields := [ scalar "x" (STUnsigned 8) ] |} ] []
  [ {| sm_name := "A"; sm_fields := [ fld "tag" (MTItem "Tag") ] |} ].
(** Members that hide a variable of the reading functions. *)
Definition id_d : sstruct := {| ss_name := "Id"; ss_fields := [ scalar "id" (STUnsigned 32) ] |}.
Definition hide_v := protocol_of [ id_d ] []
  [ {| sm_name := "Hide"; sm_fields := [ fld "byte_offset" (MTItem "Id"); fld "next" (MTItem "Id") ] |};
    {| sm_name := "Temp"; sm_fields := [ fld "a_msg" (MTItem "Id"); fld "a" (MTItem "Id") ] |};
    {| sm_name := "Offs"; sm_fields := [ fld "offsets" (MTItem "Id"); fld "next" (MTItem "Id") ] |} ].
(** A member named by a word of the language. *)
Definition word_v := protocol_of [ id_d; tag_d ] []
  [ {| sm_name := "Item"; sm_fields := [ fld "type" (MTItem "Id"); fld "tag" (MTItem "Tag") ] |} ].
(** A message of scalars and a union without items, used in messages. *)
Definition params_v := protocol_of [ tag_d; id_d ]
  [ {| sun_name := "Mode"; sun_discriminant := "Tag.kind"; sun_cases := [ ucase_d "On" "0" None; ucase_d "Off" "1" None ] |} ]
  [ {| sm_name := "Tick"; sm_fields := [ fld "id" (MTItem "Id") ] |};
    {| sm_name := "Log"; sm_fields :=
         [ fld "tick" (MTItem "Tick"); fld "tag" (MTItem "Tag"); fld "mode" (MTUnion "tag" "Mode") ] |} ].

Definition raw_p := Eval vm_compute in get_ok dummy_p (protocol_from_model Debug no_imports world0 raw_v).
Definition cases_p := Eval vm_compute in get_ok dummy_p (protocol_from_model Debug no_imports world0 cases_v).
Definition types_p := Eval vm_compute in get_ok dummy_p (protocol_from_model Debug no_imports world0 types_v).
Definition hide_p := Eval vm_compute in get_ok dummy_p (protocol_from_model Debug no_imports world0 hide_v).
Definition params_p := Eval vm_compute in get_ok dummy_p (protocol_from_model Debug no_imports world0 params_v).
Definition word_p := Eval vm_compute in get_ok dummy_p (protocol_from_model Debug no_imports world0 word_v).
Lemma word_ok : protocol_from_model Debug no_imports world0 word_v = Ok word_p. Proof. vm_compute. reflexivity. Qed.
Lemma raw_ok : protocol_from_model Debug no_imports world0 raw_v = Ok raw_p. Proof. vm_compute. reflexivity. Qed.
Lemma cases_ok : protocol_from_model Debug no_imports world0 cases_v = Ok cases_p. Proof. vm_compute. reflexivity. Qed.
Lemma types_ok : protocol_from_model Debug no_imports world0 types_v = Ok types_p. Proof. vm_compute. reflexivity. Qed.
Lemma hide_ok : protocol_from_model Debug no_imports world0 hide_v = Ok hide_p. Proof. vm_compute. reflexivity. Qed.
Lemma params_ok : protocol_from_model Debug no_imports world0 params_v = Ok params_p. Proof. vm_compute. reflexivity. Qed.
