(** Samples for C87: protocols with their definitions in another order. *)

From Coq Require Import Arith NArith ZArith Ascii String List Bool Lia Permutation.
From Verif Require Import Base Schema Codec Compiler Access SpecStruct SpecComp Runtime Gen Loader SpecLoader SpecRun SpecApart SpecWire
  Samples SamplesComp ApartRefute SpecGrow SamplesGrow SpecOrder.
Import ListNotations.
Local Open Scope N_scope.
Local Open Scope string_scope.

(** The structures in another order, with one that nothing refers to. *)
Definition parts_turned : sprotocol :=
  {| sp_name := "parts"; sp_endianness := None; sp_imports := []; sp_enums := []; sp_structs := [pair_s; triple_s; kind_s];
     sp_unions := [body_d []]; sp_messages := [] |}.
Definition kind_i : simport := {| si_protocol := "parts"; si_type := "Kind" |}.
Definition body_i : simport := {| si_protocol := "parts"; si_type := "Body" |}.
Definition item_d : smessage := {| sm_name := "Item"; sm_fields := [ fld "kind" (MTItem "Kind"); fld "body" (MTUnion "kind" "Body") ] |}.
Definition box_d : smessage := {| sm_name := "Box"; sm_fields := [ fld "items" (MTList 100 "Item") ] |}.
Definition crate_d : smessage := {| sm_name := "Crate"; sm_fields := [ fld "boxes" (MTList 100 "Box") ] |}.
Definition note_d : smessage := {| sm_name := "Note"; sm_fields := [ fld "text" (MTString None) ] |}.
Definition net_first : sprotocol := proto "net" [kind_i; body_i] [] [item_d; box_d; crate_d; note_d].
Definition net_turned : sprotocol := proto "net" [body_i; kind_i] [] [note_d; item_d; box_d; crate_d].
Definition first_pw := Eval vm_compute in result Debug [("crate::parts", parts_old)] net_first.
Definition turned_pw := Eval vm_compute in result Debug [("crate::parts", parts_turned)] net_turned.
Lemma first_run : run_gives Debug "::" [("crate::parts", parts_old)] net_first (fst first_pw) (snd first_pw).
Proof. vm_compute. reflexivity. Qed.
Lemma turned_run : run_gives Debug "::" [("crate::parts", parts_turned)] net_turned (fst turned_pw) (snd turned_pw).
Proof. vm_compute. reflexivity. Qed.
Ltac nodup := repeat (apply NoDup_cons; [cbn; intuition discriminate|]); apply NoDup_nil.
Lemma parts_rearranged : rearranged_all [("crate::parts", parts_old)] [("crate::parts", parts_turned)].
Proof.
  constructor; [|constructor]. split; [reflexivity|]. unfold rearranged. cbn [snd]. split; [reflexivity|]. split; [intros x []|]. split; [intros x []|].
  split; [intros x [<- | [<- | []]]; cbn; tauto|]. split; [intros x [<- | []]; left; reflexivity|]. split; [constructor|]. split; cbn; nodup.
Qed.
Lemma net_rearranged : rearranged net_first net_turned.
Proof.
  unfold rearranged. split; [reflexivity|]. split; [intros x [<- | [<- | []]]; cbn; tauto|]. split; [intros x []|]. split; [intros x []|]. split; [intros x []|].
  split; [|split; cbn; nodup]. cbn [sp_messages net_first net_turned proto]. apply (Permutation_app_comm [item_d; box_d; crate_d] [note_d]).
Qed.
Definition crate_first : message := Eval vm_compute in nth 2 (p_messages (fst first_pw)) dummy_x.
Definition crate_turned : message := Eval vm_compute in nth 3 (p_messages (fst turned_pw)) dummy_x.
(** A crate with one box of two items. *)
Definition crate_b : bytes := [1; 2; 2; 0; 7; 8; 1; 0].

(** A name that is given twice. *)
Definition point_s (n : N) : sstruct := {| ss_name := "Point"; ss_fields := [ scalar "x" (STUnsigned n); scalar "y" (STUnsigned n) ] |}.
Definition shape_d : smessage := {| sm_name := "Shape"; sm_fields := [ fld "at" (MTItem "Point"); fld "n" (MTItem "Point") ] |}.
Definition twice_one : sprotocol := proto "twice" [] [point_s 8; point_s 16] [shape_d].
Definition twice_two : sprotocol := proto "twice" [] [point_s 16; point_s 8] [shape_d].
Definition one_pw2 := Eval vm_compute in result Debug [] twice_one.
Definition two_pw2 := Eval vm_compute in result Debug [] twice_two.
Definition shape_one : message := Eval vm_compute in nth 0 (p_messages (fst one_pw2)) dummy_x.
Definition shape_two : message := Eval vm_compute in nth 0 (p_messages (fst two_pw2)) dummy_x.
Theorem twice_differs : Permutation (sp_structs twice_one) (sp_structs twice_two) /\ sp_messages twice_one = sp_messages twice_two /\
  run_gives Debug "::" [] twice_one (fst one_pw2) (snd one_pw2) /\ run_gives Debug "::" [] twice_two (fst two_pw2) (snd two_pw2) /\
  p_messages (fst one_pw2) = [shape_one] /\ p_messages (fst two_pw2) = [shape_two] /\
  ~ works_alike Debug (marked (snd one_pw2)) (marked (snd two_pw2)) shape_one shape_two.
Proof.
  split; [apply perm_swap|]. split; [reflexivity|]. split; [vm_compute; reflexivity|]. split; [vm_compute; reflexivity|]. split; [reflexivity|]. split; [reflexivity|].
  intros (H & _). specialize (H [1; 2; 3; 4]). vm_compute in H. discriminate.
Qed.
(** A message that is listed before one it refers to. *)
Definition net_early : sprotocol := proto "net" [kind_i; body_i] [] [note_d; box_d; item_d; crate_d].
Theorem early_refused : rearranged net_first net_early /\
  loader_compile Debug (loader_after (run_of [("crate::parts", parts_old)] net_early)) (solver_new "::") = Err (EUndefinedReference "Item").
Proof.
  split; [|vm_compute; reflexivity].
  unfold rearranged. split; [reflexivity|]. split; [intros x [<- | [<- | []]]; cbn; tauto|]. split; [intros x []|]. split; [intros x []|]. split; [intros x []|].
  split; [|split; cbn; nodup]. cbn [sp_messages net_first net_early proto].
  apply (Permutation_trans (l' := [note_d; item_d; box_d; crate_d])); [apply (Permutation_app_comm [item_d; box_d; crate_d] [note_d])|].
  apply perm_skip, perm_swap.
Qed.
