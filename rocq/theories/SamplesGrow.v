(** Samples for C86: an imported union gets a case and a structure for it. *)

From Coq Require Import Arith NArith ZArith Ascii String List Bool Lia.
From Verif Require Import Base Schema Codec Compiler Access SpecStruct SpecComp Runtime Gen Loader SpecLoader SpecRun SpecApart SpecWire SpecExact SpecDecode
  DecodeThms Samples SamplesComp ApartRefute SpecGrow.
Import ListNotations.
Local Open Scope N_scope.
Local Open Scope string_scope.

Definition kind_s : sstruct := {| ss_name := "Kind"; ss_fields := [ scalar "kind" (STUnsigned 8); scalar "flags" (STUnsigned 8) ] |}.
Definition pair_s : sstruct := {| ss_name := "Pair"; ss_fields := [ scalar "a" (STUnsigned 8); scalar "b" (STUnsigned 8) ] |}.
Definition triple_s : sstruct := {| ss_name := "Triple"; ss_fields := [ scalar "a" (STUnsigned 8); scalar "b" (STUnsigned 8); scalar "c" (STUnsigned 8) ] |}.
Definition body_d (more : list sucase) : sunion := {| sun_name := "Body"; sun_discriminant := "Kind.kind"; sun_cases :=
  ([ {| su_name := "Empty"; su_case := "1"; su_item_type := None |}; {| su_name := "Pair"; su_case := "2"; su_item_type := Some "Pair" |} ] ++ more)%list |}.
Definition parts_d (more_s : list sstruct) (more : list sucase) : sprotocol :=
  {| sp_name := "parts"; sp_endianness := None; sp_imports := []; sp_enums := []; sp_structs := ([kind_s; pair_s] ++ more_s)%list;
     sp_unions := [body_d more]; sp_messages := [] |}.
Definition parts_old : sprotocol := parts_d [] [].
Definition parts_new : sprotocol := parts_d [triple_s] [ {| su_name := "Triple"; su_case := "3"; su_item_type := Some "Triple" |} ].
Definition net_d : sprotocol := proto "net" [ {| si_protocol := "parts"; si_type := "Kind" |}; {| si_protocol := "parts"; si_type := "Body" |} ] []
  [ {| sm_name := "Item"; sm_fields := [ fld "kind" (MTItem "Kind"); fld "body" (MTUnion "kind" "Body") ] |};
    {| sm_name := "Box"; sm_fields := [ fld "items" (MTList 100 "Item") ] |};
    {| sm_name := "Crate"; sm_fields := [ fld "boxes" (MTList 100 "Box") ] |} ].
Definition old_pw := Eval vm_compute in result Debug [("crate::parts", parts_old)] net_d.
Definition new_pw := Eval vm_compute in result Debug [("crate::parts", parts_new)] net_d.
Lemma old_run : run_gives Debug "::" [("crate::parts", parts_old)] net_d (fst old_pw) (snd old_pw).
Proof. vm_compute. reflexivity. Qed.
Lemma new_run : run_gives Debug "::" [("crate::parts", parts_new)] net_d (fst new_pw) (snd new_pw).
Proof. vm_compute. reflexivity. Qed.
Lemma parts_added : later_models [("crate::parts", parts_old)] [("crate::parts", parts_new)].
Proof.
  constructor; [|constructor]. split; [reflexivity|]. unfold cases_added. cbn. repeat (split; [reflexivity|]). split.
  - exists [triple_s]. split; [reflexivity|]. intros s [<- | []]. cbn. intuition discriminate.
  - split; [|reflexivity]. constructor; [|constructor]. split; [reflexivity|]. split; [reflexivity|]. eexists. reflexivity.
Qed.
Lemma net_same : cases_added net_d net_d.
Proof.
  unfold cases_added. repeat (split; [reflexivity|]). split.
  - exists []. split; [reflexivity|intros s []].
  - split; [constructor|reflexivity].
Qed.
Definition item_old : message := Eval vm_compute in nth 0 (p_messages (fst old_pw)) dummy_x.
Definition item_new : message := Eval vm_compute in nth 0 (p_messages (fst new_pw)) dummy_x.
Definition box_old : message := Eval vm_compute in nth 1 (p_messages (fst old_pw)) dummy_x.
Definition box_new : message := Eval vm_compute in nth 1 (p_messages (fst new_pw)) dummy_x.
(** A box with an item of the old case, and one with one of the new case. *)
Definition box_b2 : bytes := [1; 2; 0; 7; 8].
Definition box_v2 : value := VMsg [VListing [2; 0; 7; 8] 1].
Definition box_b3 : bytes := [1; 3; 0; 7; 8; 9].
Definition box_v3 : value := VMsg [VListing [3; 0; 7; 8; 9] 1].
Definition item_f (x : message) (i : nat) : mfield := nth i (m_fields x) (MkMField "" TPayload false size_open Little).
Lemma item_new_case : forall m emb, uses_new m emb item_old item_new (VMsg [VStruct [3; 0]; VUnion 2 (Some (VStruct [7; 8; 9]))]).
Proof.
  intros m emb. eapply (new_member m emb _ _ _ 1%nat (item_f item_old 1) (item_f item_new 1)); [reflexivity|reflexivity|reflexivity|].
  eapply new_case; [reflexivity|reflexivity|]. cbn. repeat constructor.
Qed.
Lemma box_new_case : forall m, uses_new m (marked (snd new_pw)) box_old box_new box_v3.
Proof.
  intro m. eapply (new_member m _ _ _ _ 0%nat (item_f box_old 0) (item_f box_new 0)); [reflexivity|reflexivity|reflexivity|].
  assert (D : read_msg m (marked (snd new_pw)) item_new [3; 0; 7; 8; 9] = Ok (5, VMsg [VStruct [3; 0]; VUnion 2 (Some (VStruct [7; 8; 9]))]))
    by (destruct m; vm_compute; reflexivity).
  apply decode_exact in D; [|vm_compute; reflexivity|repeat constructor; vm_compute; reflexivity].
  destruct D as (c & r & E & E5 & D). change (marked (snd new_pw) (m_id box_new)) with true.
  eapply (new_item m _ _ _ _ U8 item_old item_new [3; 0; 7; 8; 9] 1 0%nat [] [3; 0; 7; 8; 9]); try reflexivity; [vm_compute; constructor|constructor|exact D|].
  apply item_new_case.
Qed.
