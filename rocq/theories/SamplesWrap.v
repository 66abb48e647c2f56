(** Samples for C97: lists of messages that hold one structure. *)

From Coq Require Import Arith NArith ZArith Ascii String List Bool Lia.
From Verif Require Import Base Schema Codec Compiler Access SpecStruct SpecComp Runtime Gen Loader SpecLoader SpecReadable SpecWire MsgFacts Samples SamplesComp ApartRefute SamplesGroup
  SpecKind SpecWrap WrapThms.
Import ListNotations.
Local Open Scope N_scope.
Local Open Scope string_scope.

(** A mesh has a name and a list of vertices, and there are lists of meshes; a vertex is a message that holds a point. *)
Definition point_s : sstruct := {| ss_name := "Point"; ss_fields := [ scalar "x" (STUnsigned 8); scalar "y" (STSigned 16) ] |}.
Definition vertex_d : smessage := {| sm_name := "Vertex"; sm_fields := [ fld "at" (MTItem "Point") ] |}.
Definition mesh_d (item : string) : smessage := {| sm_name := "Mesh"; sm_fields := [ fld "name" (MTString None); fld "vertices" (MTList 1000 item) ] |}.
Definition scene_d : smessage := {| sm_name := "Scene"; sm_fields := [ fld "meshes" (MTList 10 "Mesh") ] |}.
Definition scenes (item : string) : sprotocol := proto "scenes" [] [point_s] [vertex_d; mesh_d item; scene_d].
Lemma vertex_wraps : forall m, wraps m (scenes "Vertex") "Vertex" "Point".
Proof.
  intro m. exists vertex_d, (fld "at" (MTItem "Point")), point_s. split; [left; reflexivity|]. do 3 (split; [reflexivity|]). split; [left; reflexivity|].
  split; [left; reflexivity|]. split; [reflexivity|]. split; [intros (f & E & _); discriminate|]. right. intros f t E. discriminate.
Qed.
Lemma scenes_unwrapped : forall m, unwrapped m (scenes "Vertex") (scenes "Point").
Proof.
  intro m. do 5 (split; [reflexivity|]). constructor; [|constructor; [|constructor; [|constructor]]]; (split; [reflexivity|]).
  - constructor; [left; reflexivity|constructor].
  - constructor; [left; reflexivity|]. constructor; [|constructor]. right. split; [reflexivity|]. split; [reflexivity|].
    exists 1000, "Vertex", "Point". split; [reflexivity|]. split; [reflexivity|]. apply vertex_wraps.
  - constructor; [left; reflexivity|constructor].
Qed.
Lemma scenes_names : names_differ (scenes "Vertex").
Proof. unfold names_differ. cbn. repeat constructor; cbn; intuition discriminate. Qed.
Definition list_pw := Eval vm_compute in of_run (protocol_from_model Release alone world_new (scenes "Vertex")).
Definition array_pw := Eval vm_compute in of_run (protocol_from_model Release alone world_new (scenes "Point")).
Definition mesh_l : message := Eval vm_compute in nth 1 (p_messages (fst list_pw)) dummy_x.
Definition mesh_a : message := Eval vm_compute in nth 1 (p_messages (fst array_pw)) dummy_x.
Definition mesh_b : bytes := [65; 0; 2; 0; 1; 2; 3; 4; 5; 6].
Definition mesh_v : value := VMsg [VStr [65]; VListing [1; 2; 3; 4; 5; 6] 2].
Lemma mesh_tidy : tidy mesh_l.
Proof.
  apply tidy_make.
  - intros l f r E Hr Ho. destruct l as [|a [|b l]]; cbn in E; [injection E as <- <-|injection E as _ <- <-; congruence|]; [inversion Ho|].
    injection E as _ _ E. destruct l; discriminate.
  - intros f ty z g [<-|[<-|[]]] E Hg Ho; [discriminate|]. cbn in E. injection E as _ <-. destruct Hg as [<-|[]]. inversion Ho.
  - intros f y [<-|[<-|[]]] Hy; inversion Hy; subst. apply tidy_make.
    + intros l f r E Hr. destruct l as [|a l]; cbn in E; [injection E as _ <-; congruence|]. injection E as _ E. destruct l; discriminate.
    + intros f ty' z g [<-|[]] E; discriminate.
    + intros f z [<-|[]] Hz; inversion Hz.
Qed.
Lemma mesh_encodes : forall m, encodes m mesh_a mesh_v mesh_b.
Proof.
  intro m. apply enc_msg_eq. cbn [m_fields mesh_a enc_fields]. exists [65; 0], [2; 0; 1; 2; 3; 4; 5; 6]. split; [reflexivity|]. split.
  - cbn. split; [exists [65]; split; [constructor; [left; lia|constructor]|reflexivity]|]. split; [constructor; [lia|constructor]|reflexivity].
  - exists [2; 0; 1; 2; 3; 4; 5; 6], []. split; [reflexivity|]. split; [|reflexivity]. cbn. split; [reflexivity|]. split; [repeat constructor|].
    exists [2; 0]. split; [|reflexivity]. split; [reflexivity|]. split; [repeat constructor|reflexivity].
Qed.

(** The same without lists of meshes. *)
Definition meshes (item : string) : sprotocol := proto "meshes" [] [point_s] [vertex_d; mesh_d item].
Lemma meshes_unwrapped : unwrapped Release (meshes "Vertex") (meshes "Point").
Proof.
  do 5 (split; [reflexivity|]). constructor; [|constructor; [|constructor]]; (split; [reflexivity|]).
  - constructor; [left; reflexivity|constructor].
  - constructor; [left; reflexivity|]. constructor; [|constructor]. right. split; [reflexivity|]. split; [reflexivity|].
    exists 1000, "Vertex", "Point". split; [reflexivity|]. split; [reflexivity|].
    exists vertex_d, (fld "at" (MTItem "Point")), point_s. split; [left; reflexivity|]. do 3 (split; [reflexivity|]). split; [left; reflexivity|].
    split; [left; reflexivity|]. split; [reflexivity|]. split; [intros (f & E & _); discriminate|]. right. intros f t E. discriminate.
Qed.
Lemma meshes_names : names_differ (meshes "Vertex").
Proof. unfold names_differ. cbn. repeat constructor; cbn; intuition discriminate. Qed.
Definition meshes_l := Eval vm_compute in of_run (protocol_from_model Release alone world_new (meshes "Vertex")).
Definition meshes_a := Eval vm_compute in of_run (protocol_from_model Release alone world_new (meshes "Point")).

(** A message that holds a number of 24 bits. *)
Definition tri_s : sstruct := {| ss_name := "Tri"; ss_fields := [ scalar "value" (STUnsigned 24) ] |}.
Definition tris (item : string) : sprotocol := proto "tris" [] [tri_s]
  [ {| sm_name := "One"; sm_fields := [ fld "value" (MTItem "Tri") ] |}; {| sm_name := "All"; sm_fields := [ fld "values" (MTList 10 item) ] |} ].
Definition tri_l := Eval vm_compute in of_run (protocol_from_model Release alone world_new (tris "One")).
Definition tri_a := Eval vm_compute in of_run (protocol_from_model Release alone world_new (tris "Tri")).
Definition all_l : message := Eval vm_compute in nth 1 (p_messages (fst tri_l)) dummy_x.
Definition all_a : message := Eval vm_compute in nth 1 (p_messages (fst tri_a)) dummy_x.
Lemma all_list : forall m, encodes m all_l (VMsg [VListing [1; 2; 3; 4] 1]) [1; 1; 2; 3; 4].
Proof.
  intro m. apply enc_msg_eq. cbn [m_fields all_l enc_fields]. exists [1; 1; 2; 3; 4], []. split; [reflexivity|]. split; [|reflexivity].
  exists [1], [VMsg [VScalar 67305985]], [[1; 2; 3; 4]]. split; [split; [reflexivity|]; split; [repeat constructor|reflexivity]|]. split; [reflexivity|].
  split; [|split; reflexivity]. constructor; [|constructor]. exists [1; 2; 3; 4], []. split; [reflexivity|]. split; [|reflexivity].
  split; [reflexivity|]. split; [repeat constructor|reflexivity].
Qed.
Lemma all_array : forall m b, ~ encodes m all_a (VMsg [VListing [1; 2; 3; 4] 1]) b.
Proof.
  intros m b H. apply enc_msg_eq in H. cbn [m_fields all_a enc_fields] in H. destruct H as (b1 & b2 & _ & H & _). cbn in H. destruct H as [H _]. discriminate.
Qed.
