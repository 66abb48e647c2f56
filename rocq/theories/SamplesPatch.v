(** Samples for C85: a message with structures in a nested message and in the items of a list. *)

From Coq Require Import Arith NArith ZArith Ascii String List Bool Lia.
From Verif Require Import Base Schema Codec Compiler Access SpecStruct Runtime Gen SpecRun SpecOffsets SpecStream SpecDecode SpecPatch
  DecodeThms Samples SamplesComp SamplesMsg.
Import ListNotations.
Local Open Scope N_scope.
Local Open Scope string_scope.

Definition pos_d : sstruct := {| ss_name := "Pos"; ss_fields := [ scalar "x" (STSigned 12); scalar "y" (STSigned 12) ] |}.
Definition fleet_d : sprotocol :=
  {| sp_name := "Fleet"; sp_endianness := None; sp_imports := []; sp_enums := []; sp_unions := []; sp_structs := [pos_d];
     sp_messages := [ {| sm_name := "Box"; sm_fields := [ fld "who" (MTString None); fld "pos" (MTItem "Pos") ] |};
                      {| sm_name := "Fleet"; sm_fields := [ optfld "first" (MTItem "Box"); fld "spots" (MTList 100 "Pos"); fld "boxes" (MTList 100 "Box") ] |} ] |}.
Definition fleet_pw : protocol * world := Eval vm_compute in get_ok dummy_p (protocol_from_model Debug no_imports world0 fleet_d).
Lemma fleet_ok : protocol_from_model Debug no_imports world0 fleet_d = Ok fleet_pw.
Proof. vm_compute. reflexivity. Qed.
Definition pos_s : structure := Eval vm_compute in get_ok (MkStructure 0 "" [] 0 0) (structure_from_model Debug Little [] [] 0 pos_d).
Definition pos_y : fixed_field := Eval vm_compute in match nth_error (s_fields pos_s) 1 with Some (FFixed f) => f | _ => demo_fixed 0 end.
Definition box_x : message := Eval vm_compute in msg_of (fst fleet_pw) 0.
Definition fleet_x : message := Eval vm_compute in msg_of (fst fleet_pw) 1.
Definition fleet_emb : N -> bool := SpecRun.marked (snd fleet_pw).
Definition box_b (who : bytes) (p : bytes) : bytes := (who ++ [0] ++ p)%list.
Definition fleet_b : bytes := Eval vm_compute in
  ([1] ++ box_b bob [1; 2; 3] ++ [2] ++ [10; 11; 12] ++ [13; 14; 15] ++ [2] ++ box_b eve [4; 5; 6] ++ box_b bob [7; 8; 9])%list.
Definition fleet_v : value :=
  VMsg [VOpt (Some (VMsg [VStr bob; VStruct [1; 2; 3]])); VListing [10; 11; 12; 13; 14; 15] 2;
        VListing (box_b eve [4; 5; 6] ++ box_b bob [7; 8; 9])%list 2].
Definition fleet_o : offsets :=
  MkOffsets [(0, 8, Some (MkOffsets [(0, 4, None); (4, 7, None)])); (8, 15, None); (15, 31, None)].
Lemma fleet_read : read_msg_offsets Debug fleet_emb fleet_x fleet_b = Ok (31, (fleet_v, fleet_o)).
Proof. vm_compute. reflexivity. Qed.

Definition fleet_f (i : nat) : mfield := nth i (m_fields fleet_x) (MkMField "" TPayload false size_open Little).
Definition box_f : mfield := nth 1 (m_fields box_x) (MkMField "" TPayload false size_open Little).

(** The position in the first box. *)
Lemma fleet_inside : exists again free, structure_at Debug fleet_emb fleet_x fleet_v fleet_o 5 pos_s [1; 2; 3] again free /\
  (forall d, free d) /\ again [7; 7; 7] = VMsg [VOpt (Some (VMsg [VStr bob; VStruct [7; 7; 7]])); VListing [10; 11; 12; 13; 14; 15] 2;
    VListing (box_b eve [4; 5; 6] ++ box_b bob [7; 8; 9])%list 2].
Proof.
  do 2 eexists. split; [|split].
  - refine (at_inside Debug fleet_emb fleet_x _ _ 0%nat (fleet_f 0) box_x (VMsg [VStr bob; VStruct [1; 2; 3]]) _ 4 pos_s [1; 2; 3] _ _ 0 8 _ _ _ _ _); try reflexivity.
    refine (at_member Debug fleet_emb box_x _ _ 1%nat box_f pos_s [1; 2; 3] 4 7 None _ _ _ _); reflexivity.
  - intros d j f u on Hj Hf Et. destruct j as [|[|j]]; try lia. destruct j; discriminate.
  - reflexivity.
Qed.
(** The second spot. *)
Lemma fleet_item : exists again free, structure_at Debug fleet_emb fleet_x fleet_v fleet_o 12 pos_s [13; 14; 15] again free /\
  (forall d, free d).
Proof.
  do 2 eexists. split; [|intro d; exact I].
  refine (at_item Debug fleet_emb fleet_x _ _ 1%nat (fleet_f 1) U8 pos_s [10; 11; 12; 13; 14; 15] 2 1 8 15 None _ _ _ _ _); try reflexivity.
Qed.
(** The position in the second box of the list. *)
Lemma fleet_element : exists again free, structure_at Debug fleet_emb fleet_x fleet_v fleet_o 28 pos_s [7; 8; 9] again free /\
  (forall d, free d).
Proof.
  do 2 eexists. split.
  - refine (at_element Debug fleet_emb fleet_x _ _ 2%nat (fleet_f 2) U8 box_x (box_b eve [4; 5; 6] ++ box_b bob [7; 8; 9])%list 2 1%nat (box_b eve [4; 5; 6]) (box_b bob [7; 8; 9]) 7
      (VMsg [VStr bob; VStruct [7; 8; 9]]) (MkOffsets [(0, 4, None); (4, 7, None)]) 4 pos_s [7; 8; 9] _ _ 15 31 None _ _ _ _ _ _ _ _);
      try reflexivity; [vm_compute; lia| |].
    + rewrite <- (app_nil_r (box_b eve [4; 5; 6])) at 2. eapply items_next; [|constructor].
      apply (tells_message Debug fleet_emb box_x); [reflexivity|repeat constructor|]. vm_compute. reflexivity.
    + refine (at_member Debug fleet_emb box_x _ _ 1%nat box_f pos_s [7; 8; 9] 4 7 None _ _ _ _); reflexivity.
  - intros d j f u on Hj Hf Et. destruct j as [|[|j]]; try lia. destruct j; discriminate.
Qed.
