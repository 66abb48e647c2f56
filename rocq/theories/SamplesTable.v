(** A table of three rows of two bytes. *)

From Coq Require Import Arith NArith List Lia.
From Verif Require Import Base Schema Codec Runtime ArrayWrapper SpecTable TableThms.
Import ListNotations.
Local Open Scope N_scope.

Definition table_calls : list call :=
  [CAdd [1; 2; 9]; CAddAll [[3; 4]; [5; 6]]; CLen; CPut 1 (@rev N); CGet 1;
   CPutAll (fun i w => match i with O => [7; 7] | _ => w end); CAll; CGet 3; CLen].
Lemma table_nonvacuous : 0 < 2 /\ (forall m, Forall (sane m 2) table_calls) /\ total 2 table_calls < 2 ^ 64 /\
  history (on_table 2) table_calls [] =
    ([ADone; ADone; ANumber 3; ADone; ARow [4; 3]; ADone; ARows [[7; 7]; [4; 3]; [5; 6]]], None) /\
  history (on_table 2) (firstn 7 table_calls) [] =
    ([ADone; ADone; ANumber 3; ADone; ARow [4; 3]; ADone; ARows [[7; 7]; [4; 3]; [5; 6]]],
     Some [[7; 7]; [4; 3]; [5; 6]]) /\
  (forall m, fst (history (called m 2) table_calls (aw_new [])) = fst (history (on_table 2) table_calls [])) /\
  aw_from_parts Debug 2 [1; 2; 3; 4] 2 = Ok (Some (aw_from_raw_parts [1; 2; 3; 4] 2)) /\
  aw_from_parts Debug 2 [1; 2; 3] 1 = Ok None.
Proof.
  split; [reflexivity|]. split.
  { intro m. unfold table_calls. repeat (apply Forall_cons; [|]); try apply Forall_nil; cbn [sane]; auto.
    - split; [right; reflexivity|]. intros w Hw. unfold len in *. rewrite rev_length. exact Hw.
    - right; reflexivity.
    - intros [|i] w Hw; [reflexivity|exact Hw].
    - right; reflexivity. }
  split; [vm_compute; reflexivity|]. split; [vm_compute; reflexivity|]. split; [vm_compute; reflexivity|].
  split; [intros []; vm_compute; reflexivity|]. split; vm_compute; reflexivity.
Qed.
