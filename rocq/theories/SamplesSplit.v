(** Samples for C90: protocols from which definitions are moved to another one. *)

From Coq Require Import Arith NArith ZArith Ascii String List Bool Lia Permutation.
From Verif Require Import Base Schema Codec Compiler Access SpecStruct SpecComp Runtime Gen Loader SpecLoader SpecRun SpecApart SpecWire
  Samples SamplesComp ApartRefute SpecGrow SamplesGrow SpecOrder SamplesOrder SpecSplit.
Import ListNotations.
Local Open Scope N_scope.
Local Open Scope string_scope.

(** Of [net_first], two messages go to [goods]; one of those left has a list of one of them. *)
Definition goods : sprotocol := proto "goods" [kind_i; body_i] [] [item_d; box_d].
Definition net_left : sprotocol := proto "net" [ {| si_protocol := "goods"; si_type := "Box" |} ] [] [crate_d; note_d].
Definition goods_pw := Eval vm_compute in result Debug [("crate::parts", parts_old)] goods.
Definition left_pw := Eval vm_compute in result Debug [("crate::parts", parts_old); ("crate::goods", goods)] net_left.
Lemma goods_run : run_gives Debug "::" [("crate::parts", parts_old)] goods (fst goods_pw) (snd goods_pw).
Proof. vm_compute. reflexivity. Qed.
Lemma left_run : run_gives Debug "::" ([("crate::parts", parts_old)] ++ [("crate::goods", goods)])%list net_left (fst left_pw) (snd left_pw).
Proof. vm_compute. reflexivity. Qed.
Lemma parts_once : names_once [("crate::parts", parts_old)].
Proof. constructor; [|constructor]. cbn. nodup. Qed.
Ltac imports_of := let i := fresh in let H := fresh in intros i H; cbn in H;
  repeat (destruct H as [<- | H]; [first [left; cbn; tauto | right; reflexivity | cbn; discriminate]|]); destruct H.
Ltac split_part := unfold part_of; cbn [sp_enums sp_structs sp_unions sp_messages];
  repeat (split; [let x := fresh in let H := fresh in intros x H; cbn in *; tauto|]); cbn; nodup.
Lemma net_split : split_off net_first goods net_left.
Proof.
  unfold split_off. split; [split_part|]. split; [split_part|]. split; [apply Permutation_refl|]. split; [cbn; nodup|].
  split; [apply incl_refl|]. split; imports_of.
Qed.
Definition crate_left : message := Eval vm_compute in nth 0 (p_messages (fst left_pw)) dummy_x.
Definition box_goods : message := Eval vm_compute in nth 1 (p_messages (fst goods_pw)) dummy_x.

(** A list of a message that is moved and has no list. *)
Definition boxes_one : sprotocol := proto "boxes" [] [byte_struct] (low ++ sp_messages boxes_v).
Definition boxes_one_pw := Eval vm_compute in result Debug [] boxes_one.
Lemma boxes_one_run : run_gives Debug "::" [] boxes_one (fst boxes_one_pw) (snd boxes_one_pw).
Proof. vm_compute. reflexivity. Qed.
Lemma boxes_split : split_off boxes_one base_v boxes_v.
Proof.
  unfold split_off. split; [split_part|]. split; [split_part|]. split; [apply Permutation_refl|]. split; [cbn; nodup|].
  split; [apply incl_refl|]. split; imports_of.
Qed.
Definition box_one : message := Eval vm_compute in nth 2 (p_messages (fst boxes_one_pw)) dummy_x.
Definition box_apart : message := Eval vm_compute in nth 0 (p_messages (fst boxes_pw)) dummy_x.

(** A list of a message that is moved and has a list. *)
Lemma one_split : split_off one_v base_v more_v.
Proof.
  unfold split_off. split; [split_part|]. split; [split_part|]. split; [apply Permutation_refl|]. split; [cbn; nodup|].
  split; [apply incl_refl|]. split; imports_of.
Qed.
Theorem split_read_differs : split_off one_v base_v more_v /\
  run_gives Debug "::" [] one_v (fst one_pw) (snd one_pw) /\ run_gives Debug "::" [("crate::base", base_v)] more_v (fst more_pw) (snd more_pw) /\
  In outer_m (p_messages (fst one_pw)) /\ In outer_m (p_messages (fst more_pw)) /\
  (forall m, read_msg m (marked (snd one_pw)) outer_m two_inners = Ok (len two_inners, two_v)) /\
  forall m emb path', program Debug "::" [("crate::base", base_v); (path', more_v)] emb -> read_msg m emb outer_m two_inners = Err Truncated.
Proof.
  split; [exact one_split|]. split; [apply one_run|]. split; [apply more_run|]. split; [do 2 right; left; reflexivity|]. split; [left; reflexivity|].
  split; [intros []; vm_compute; reflexivity|]. intros m emb path' H. apply read_apart.
  - rewrite (H [("crate::base", base_v)] path' more_v [] _ _ eq_refl (more_run Debug) outer_m); [reflexivity|]. left. reflexivity.
  - rewrite (H [] "crate::base" base_v [(path', more_v)] _ _ eq_refl (base_run Debug) inner_m); [reflexivity|]. right. left. reflexivity.
Qed.
