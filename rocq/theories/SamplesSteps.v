(** Samples for C89: lists in lists, and a list of empty messages. *)

From Coq Require Import Arith NArith ZArith Ascii String List Bool Lia.
From Verif Require Import Base Schema Codec Compiler Access SpecStruct SpecComp Runtime Gen Loader SpecLoader SpecRun SpecApart SpecWire
  Samples SamplesComp ApartRefute SpecGrow SamplesGrow SpecSteps StepsThms.
Import ListNotations.
Local Open Scope N_scope.
Local Open Scope string_scope.

Definition leaf_d : smessage := {| sm_name := "Leaf"; sm_fields := [ fld "text" (MTString None) ] |}.
Definition twig_d : smessage := {| sm_name := "Twig"; sm_fields := [ fld "leaves" (MTList 100 "Leaf") ] |}.
Definition branch_d : smessage := {| sm_name := "Branch"; sm_fields := [ fld "twigs" (MTList 100 "Twig") ] |}.
Definition tree_d : smessage := {| sm_name := "Tree"; sm_fields := [ fld "branches" (MTList 100 "Branch") ] |}.
Definition tree_p : sprotocol := proto "tree" [] [] [leaf_d; twig_d; branch_d; tree_d].
Definition tree_pw := Eval vm_compute in result Debug [] tree_p.
Lemma tree_run : run_gives Debug "::" [] tree_p (fst tree_pw) (snd tree_pw).
Proof. vm_compute. reflexivity. Qed.
Definition branch_x : message := Eval vm_compute in nth 2 (p_messages (fst tree_pw)) dummy_x.
(** A branch of two twigs with two leaves and one leaf. *)
Definition branch_b : bytes := [2; 2; 97; 0; 0; 1; 98; 99; 0].
Lemma branch_items : items_take_bytes (marked (snd tree_pw)) branch_x.
Proof.
  intros f ty y H E. inversion H as [Hi _|g z Hi Hin H1]; clear H; cbn in Hi; destruct Hi as [<- |[]]; cbn [mf_ty] in *.
  { injection E as <- <-. eapply takes_member; [left; reflexivity|]. right. cbn. constructor. }
  inversion Hin; subst; clear Hin. inversion H1 as [Hi _|g z Hi Hin H2]; clear H1; cbn in Hi; destruct Hi as [<- |[]]; cbn [mf_ty] in *.
  { injection E as <- <-. eapply takes_member; [left; reflexivity|]. right. cbn. constructor. }
  inversion Hin; subst; clear Hin. inversion H2 as [Hi _|g z Hi Hin H3]; clear H2; cbn in Hi; destruct Hi as [<- |[]]; cbn [mf_ty] in *.
  { discriminate E. }
  inversion Hin.
Qed.
Lemma branch_tried : items_tried Debug (marked (snd tree_pw)) branch_x branch_b = 5 /\ len branch_b = 9.
Proof. vm_compute. auto. Qed.

(** Four bytes that have the reader try 2^32 - 1 items. *)
Definition nothing_d : smessage := {| sm_name := "Nothing"; sm_fields := [] |}.
Definition many_d : smessage := {| sm_name := "Many"; sm_fields := [ fld "items" (MTList 70000 "Nothing") ] |}.
Definition all_d : smessage := {| sm_name := "All"; sm_fields := [ fld "many" (MTList 100 "Many") ] |}.
Definition void_p : sprotocol := proto "void" [] [] [nothing_d; many_d; all_d].
Definition void_pw := Eval vm_compute in result Debug [] void_p.
Definition many_x : message := Eval vm_compute in nth 1 (p_messages (fst void_pw)) dummy_x.
Theorem many_tried : run_gives Debug "::" [] void_p (fst void_pw) (snd void_pw) /\ In many_x (p_messages (fst void_pw)) /\
  2 ^ 32 - 1 <= items_tried Debug (marked (snd void_pw)) many_x [255; 255; 255; 255].
Proof.
  split; [vm_compute; reflexivity|]. split; [right; left; reflexivity|].
  eapply (empty_items Debug (marked (snd void_pw)) many_x); [reflexivity|reflexivity|reflexivity|vm_compute; reflexivity|reflexivity|].
  split; [reflexivity|]. split; [repeat constructor; lia|]. vm_compute. reflexivity.
Qed.
