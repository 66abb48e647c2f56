(** Samples for C96: fields that get another kind of number or a view. *)

From Coq Require Import Arith NArith ZArith Ascii String List Bool Lia.
From Verif Require Import Base Schema Codec Compiler Access SpecStruct SpecComp Runtime Gen Loader SpecLoader SpecReadable SpecWire Samples SamplesComp ApartRefute SamplesGroup SpecKind.
Import ListNotations.
Local Open Scope N_scope.
Local Open Scope string_scope.

Definition viewed (n : string) (t : sftype) (v : sview) : sfield := {| sf_name := n; sf_info := t; sf_view := Some v; sf_array_len := None |}.
Definition shapes (enums : list senum) (structs : list sstruct) (one two : string) : sprotocol :=
  {| sp_name := "shapes"; sp_endianness := None; sp_imports := []; sp_structs := structs;
     sp_messages := [ {| sm_name := "Shape"; sm_fields := [ fld "head" (MTItem "Head"); fld "body" (MTUnion "head" "Body"); fld "id" (MTItem "Id"); fld "name" (MTString None) ] |} ];
     sp_enums := enums;
     sp_unions := [ {| sun_name := "Body"; sun_discriminant := "Head.kind";
       sun_cases := [ {| su_name := "Round"; su_case := one; su_item_type := Some "Id" |}; {| su_name := "Empty"; su_case := two; su_item_type := None |} ] |} ] |}.
(** Plain numbers. *)
Definition plain_d : sprotocol := shapes []
  [ {| ss_name := "Head"; ss_fields := [ scalar "kind" (STUnsigned 8); scalar "at" (STUnsigned 24) ] |};
    {| ss_name := "Id"; ss_fields := [ scalar "value" (STUnsigned 16) ] |} ] "1" "2".
(** The kind is shown as an enum, the place is signed, and so is the number. *)
Definition named_d : sprotocol := shapes [ {| se_name := "Kind"; se_variants := [("One", 1); ("Two", 2)] |} ]
  [ {| ss_name := "Head"; ss_fields := [ viewed "kind" (STUnsigned 8) (SVEnum "Kind"); scalar "at" (STSigned 24) ] |};
    {| ss_name := "Id"; ss_fields := [ scalar "value" (STSigned 16) ] |} ] "One" "Two".
Definition plain_pw := Eval vm_compute in of_run (protocol_from_model Release alone world_new plain_d).
Definition named_pw := Eval vm_compute in of_run (protocol_from_model Release alone world_new named_d).
Lemma named_retyped : retyped plain_d named_d.
Proof. repeat split; repeat constructor. Qed.
Lemma one_narrow : forall n t k, n < 2 ^ 64 -> get_bit_size t = Some n -> narrow {| ss_name := k; ss_fields := [ scalar "value" t ] |}.
Proof.
  intros n t k Hn Ht f b E Hb. cbn in E. injection E as <-. destruct t; cbn in Ht, Hb; try discriminate;
  injection Ht as ->; injection Hb as <-; lia.
Qed.
Lemma named_sound : Forall2 (sound Release) (sp_structs plain_d) (sp_structs named_d).
Proof.
  constructor; [right|constructor; [right|constructor]].
  - split; [right; intros f t E; discriminate|]. split; [right; intros f t E; discriminate|]. split; intros (f & E & _); discriminate.
  - split; [right; apply (one_narrow 16); [lia|reflexivity]|]. split; [right; apply (one_narrow 16); [lia|reflexivity]|].
    split; intros (f & E & _ & K); injection E as <-; cbn in K; intuition discriminate.
Qed.
Definition shape_x : message := Eval vm_compute in nth 0 (p_messages (fst plain_pw)) dummy_x.
Definition shape_b : bytes := [1; 5; 6; 7; 9; 10; 3; 4; 65; 0].
Definition shape_v : value := VMsg [VStruct [1; 5; 6; 7]; VUnion 0 (Some (VStruct [9; 10])); VScalar 1027; VStr [65]].

(** A single number of 24 bits, with and without a sign. *)
Definition wide (t : sftype) : sprotocol := proto "wide" [] [ {| ss_name := "Wide"; ss_fields := [ scalar "value" t ] |} ]
  [ {| sm_name := "Ping"; sm_fields := [ fld "value" (MTItem "Wide") ] |} ].
Definition wide_u := Eval vm_compute in of_run (protocol_from_model Release alone world_new (wide (STUnsigned 24))).
Definition wide_s := Eval vm_compute in of_run (protocol_from_model Release alone world_new (wide (STSigned 24))).
Definition ping_u : message := Eval vm_compute in nth 0 (p_messages (fst wide_u)) dummy_x.
Definition ping_s : message := Eval vm_compute in nth 0 (p_messages (fst wide_s)) dummy_x.
