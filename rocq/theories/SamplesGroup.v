(** Samples for C91: members that are put into a message of their own. *)

From Coq Require Import Arith NArith ZArith Ascii String List Bool Lia.
From Verif Require Import Base Schema Codec Compiler Access SpecStruct SpecComp Runtime Gen Loader SpecLoader SpecRun SpecApart SpecWire
  MsgFacts Samples SamplesComp ApartRefute SpecGrow SamplesGrow SpecGroup.
Import ListNotations.
Local Open Scope N_scope.
Local Open Scope string_scope.

Definition alone : resolver := {| r_protocol := fun _ => None; r_path := fun _ _ => None |}.
Definition of_run (r : cres (protocol * world)) : protocol * world := match r with Ok pw => pw | _ => (protocol_empty "", world_new) end.

(** A packet with two unions. The first of them goes to the group, with its discriminant and a note; the
    other one stays behind. *)
Definition first_f : list smfield := [ fld "first" (MTItem "Kind") ].
Definition group_f : list smfield := [ fld "kind" (MTItem "Kind"); fld "body" (MTUnion "kind" "Body"); fld "note" (MTString None) ].
Definition last_f : list smfield := [ fld "last" (MTUnion "first" "Body") ].
Definition group_d : smessage := {| sm_name := "Group"; sm_fields := group_f |}.
Definition packet_d : smessage := {| sm_name := "Packet"; sm_fields := (first_f ++ fld "group" (MTItem "Group") :: last_f)%list |}.
Definition flat_d : smessage := {| sm_name := "Packet"; sm_fields := (first_f ++ group_f ++ last_f)%list |}.
Lemma packet_grouped : grouped first_f group_f last_f group_d packet_d flat_d.
Proof.
  split; [reflexivity|]. split; [reflexivity|]. split; [exists (fld "group" (MTItem "Group")); split; [reflexivity|]; split; [reflexivity|left; reflexivity]|].
  split; [reflexivity|]. split.
  - intros f [[<-|[]]|[<-|[]]]; cbn; congruence.
  - intros f g [<-|[<-|[<-|[]]]] [[<-|[]]|[<-|[]]]; cbn; congruence.
Qed.
Definition group_pw := Eval vm_compute in of_run (protocol_from_model Debug alone world_new (with_messages parts_old ([] ++ [group_d; packet_d])%list)).
Definition flat_pw := Eval vm_compute in of_run (protocol_from_model Debug alone world_new (with_messages parts_old ([] ++ [flat_d])%list)).
Lemma group_run : protocol_from_model Debug alone world_new (with_messages parts_old ([] ++ [group_d; packet_d])%list) = Ok group_pw.
Proof. vm_compute. reflexivity. Qed.
Definition packet_x : message := Eval vm_compute in nth 1 (p_messages (fst group_pw)) dummy_x.
Definition flat_x : message := Eval vm_compute in nth 0 (p_messages (fst flat_pw)) dummy_x.
Definition packet_b : bytes := [2; 0; 1; 0; 65; 0; 7; 8].

(** The members of the group are a list, and there are lists of the message with the group. *)
Definition leaves_f : list smfield := [ fld "leaves" (MTList 100 "Leaf") ].
Definition leaf_d : smessage := {| sm_name := "Leaf"; sm_fields := [ fld "value" (MTItem "Byte") ] |}.
Definition leaves_d : smessage := {| sm_name := "Leaves"; sm_fields := leaves_f |}.
Definition tree_d : smessage := {| sm_name := "Tree"; sm_fields := ([] ++ fld "leaves" (MTItem "Leaves") :: [])%list |}.
Definition bare_d : smessage := {| sm_name := "Tree"; sm_fields := ([] ++ leaves_f ++ [])%list |}.
Definition forest_d : smessage := {| sm_name := "Forest"; sm_fields := [ fld "trees" (MTList 100 "Tree") ] |}.
Definition wood_d : smessage := {| sm_name := "Wood"; sm_fields := [ fld "forests" (MTList 100 "Forest") ] |}.
Definition trees_v : sprotocol := proto "trees" [] [byte_struct] [].
Definition trees_pw := Eval vm_compute in of_run (protocol_from_model Debug alone world_new (with_messages trees_v [leaf_d; leaves_d; tree_d; forest_d; wood_d])).
Definition bare_pw := Eval vm_compute in of_run (protocol_from_model Debug alone world_new (with_messages trees_v [leaf_d; bare_d; forest_d; wood_d])).
Definition tree_x : message := Eval vm_compute in nth 2 (p_messages (fst trees_pw)) dummy_x.
Definition leaves_x : message := Eval vm_compute in nth 1 (p_messages (fst trees_pw)) dummy_x.
Definition forest_x : message := Eval vm_compute in nth 3 (p_messages (fst trees_pw)) dummy_x.
Definition bare_x : message := Eval vm_compute in nth 1 (p_messages (fst bare_pw)) dummy_x.
Definition forest_bare_x : message := Eval vm_compute in nth 2 (p_messages (fst bare_pw)) dummy_x.
Lemma tree_grouped : grouped [] leaves_f [] leaves_d tree_d bare_d.
Proof.
  split; [reflexivity|]. split; [reflexivity|]. split; [exists (fld "leaves" (MTItem "Leaves")); split; [reflexivity|]; split; [reflexivity|left; reflexivity]|].
  split; [reflexivity|]. split; [intros f [[]|[]]|]. intros f g _ [[]|[]].
Qed.
Lemma leaves_encode : forall m n, n < 256 -> encodes m leaves_x (VMsg [VListing [n] 1]) [1; n].
Proof.
  intros m n Hn. unfold encodes. cbn. exists [1; n], []. split; [reflexivity|]. split; [|reflexivity].
  exists [1], [VMsg [VScalar n]], [[n]]. split; [apply byte_num; lia|]. split; [reflexivity|]. split; [|split; reflexivity].
  constructor; [|constructor]. cbn. exists [n], []. split; [reflexivity|]. split; [apply byte_num; exact Hn|reflexivity].
Qed.
Lemma tree_encodes : forall m n, n < 256 -> encodes m tree_x (VMsg [VMsg [VListing [n] 1]]) [1; n].
Proof.
  intros m n Hn. apply enc_msg_eq. exists [1; n], []. split; [reflexivity|]. split; [|reflexivity]. exact (leaves_encode m n Hn).
Qed.
Lemma forest_encodes : forall m, encodes m forest_x two_v two_inners.
Proof.
  intro m. apply enc_msg_eq. cbn [m_fields forest_x enc_fields]. exists two_inners, [].
  split; [reflexivity|]. split; [|reflexivity].
  exists [2], [VMsg [VMsg [VListing [7] 1]]; VMsg [VMsg [VListing [8] 1]]], [[1; 7]; [1; 8]]. split; [apply byte_num; lia|]. split; [reflexivity|].
  split; [|split; reflexivity]. constructor; [apply (tree_encodes m 7); lia|]. constructor; [apply (tree_encodes m 8); lia|constructor].
Qed.
Theorem group_listed_refuted : exists grp outer flat before members after x x' v b p w p' w' pre post d,
  grouped before members after grp outer flat /\
  protocol_from_model Debug alone world_new (with_messages d (pre ++ [grp; outer] ++ post)) = Ok (p, w) /\
  protocol_from_model Debug alone world_new (with_messages d (pre ++ [flat] ++ post)) = Ok (p', w') /\
  sget (sm_name grp) (p_structs_by_name p) = None /\
  In x (p_messages p) /\ In x' (p_messages p') /\ m_name x' = m_name x /\ (forall m, encodes m x v b) /\
  (forall m, read_msg m (marked w') x' b = Ok (len b, v)) /\ forall m, read_msg m (marked w) x b = Err Truncated.
Proof.
  exists leaves_d, tree_d, bare_d, [], leaves_f, [], forest_x, forest_bare_x, two_v, two_inners, (fst trees_pw), (snd trees_pw), (fst bare_pw), (snd bare_pw), [leaf_d], [forest_d; wood_d], trees_v.
  split; [exact tree_grouped|]. split; [vm_compute; reflexivity|]. split; [vm_compute; reflexivity|]. split; [reflexivity|].
  split; [do 3 right; left; reflexivity|]. split; [do 2 right; left; reflexivity|]. split; [reflexivity|]. split; [exact forest_encodes|].
  split; intros []; vm_compute; reflexivity.
Qed.
