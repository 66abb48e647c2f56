(** Descriptions with defects, for C94. *)

From Coq Require Import Arith NArith Ascii String List Bool.
From Verif Require Import Base Schema Compiler Loader SpecErrorText Samples.
Import ListNotations.
Local Open Scope N_scope.
Local Open Scope string_scope.

(** A line between two points, and a union by a path into a point. *)
Definition line_v (path : string) (label : string) : sprotocol :=
  {| sp_name := "Draw"; sp_endianness := None; sp_imports := []; sp_messages := []; sp_enums := [];
     sp_structs := [ {| ss_name := "Point"; ss_fields := [scalar "x" (STUnsigned 8); scalar "y" (STUnsigned 8)] |};
                     {| ss_name := "Line"; ss_fields := [scalar "from" (STStruct "Point"); scalar "kind" (STUnsigned 8)] |} ];
     sp_unions := [ {| sun_name := "Shape"; sun_discriminant := path;
                       sun_cases := [ {| su_name := "A"; su_case := label; su_item_type := Some "Point" |} ] |} ] |}.
Definition none_known : resolver := {| r_protocol := fun _ => None; r_path := fun _ _ => None |}.

Lemma far_missing : protocol_from_model Debug none_known world_new (line_v "Line.from.z" "1") = Err (EUndefinedReference "Line.z").
Proof. vm_compute. reflexivity. Qed.
Lemma near_missing : protocol_from_model Debug none_known world_new (line_v "Line.z" "1") = Err (EUndefinedReference "Line.z").
Proof. vm_compute. reflexivity. Qed.
Lemma label_wrong : protocol_from_model Debug none_known world_new (line_v "Line.kind" "one") = Err (EInvalidUnionCase "one").
Proof. vm_compute. reflexivity. Qed.
Lemma far_not_written : ~ written (line_v "Line.from.z" "1") "Line.z".
Proof.
  intro H. remember "Line.z" as s eqn:E. destruct H as [i Hi|i Hi|d f n Hd Hf Hi|d f n Hd Hf Hi|u s rest Hu Hp Hr|u c n Hu Hc Hi|d f n Hd|d f on n Hd|d f on n Hd]; cbn in *;
    try contradiction.
  - subst n. destruct Hd as [<- | [<- | []]]; destruct Hf as [<- | [<- | []]]; discriminate Hi.
  - subst n. destruct Hd as [<- | [<- | []]]; destruct Hf as [<- | [<- | []]]; discriminate Hi.
  - subst s. destruct Hu as [<- | []]. cbn in Hp. discriminate Hp.
  - subst n. destruct Hu as [<- | []]. destruct Hc as [<- | []]. discriminate Hi.
Qed.
