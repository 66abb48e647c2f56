(** Samples for C72: an optional payload with a member behind it. *)

From Coq Require Import Arith NArith ZArith Ascii String List Bool Lia.
From Verif Require Import Base Schema Codec Compiler Access SpecStruct SpecComp Runtime Gen Loader SpecRun SpecWire SpecExact SpecOffsets SpecStream SpecDecode SpecSwallow
  SpecReplace Samples SamplesComp SamplesMsg.
Import ListNotations.
Local Open Scope N_scope.
Local Open Scope string_scope.

Definition tail_d : sprotocol :=
  {| sp_name := "Tail"; sp_endianness := None; sp_imports := []; sp_enums := []; sp_unions := [];
     sp_structs := [{| ss_name := "Mark"; ss_fields := [ scalar "a" (STSigned 8); scalar "b" (STSigned 8) ] |}];
     sp_messages := [ {| sm_name := "Tail"; sm_fields := [ optfld "data" MTPayload; fld "mark" (MTItem "Mark") ] |} ] |}.
Definition tail_pw : protocol * world := Eval vm_compute in get_ok dummy_p (protocol_from_model Debug no_imports world_new tail_d).
Lemma tail_ok : protocol_from_model Debug no_imports world_new tail_d = Ok tail_pw.
Proof. vm_compute. reflexivity. Qed.
Definition tail_x : message := Eval vm_compute in msg_of (fst tail_pw) 0.
Definition tail_emb : N -> bool := marked (snd tail_pw).
Lemma tail_session : session Debug (snd tail_pw) [fst tail_pw].
Proof.
  apply (session_step Debug world_new [] no_imports tail_d (fst tail_pw) (snd tail_pw)); [constructor|intros name q H; discriminate|].
  exact tail_ok.
Qed.
Lemma tail_in : In tail_x (p_messages (fst tail_pw)).
Proof. vm_compute. left. reflexivity. Qed.

(** No payload, and the mark. *)
Definition tail_b : bytes := [0; 7; 8].
Definition tail_v : list value := [VOpt None; VStruct [7; 8]].
Definition tail_o : list (N * N * option offsets) := [(0, 1, None); (1, 3, None)].
Lemma tail_read : read_msg_offsets Debug tail_emb tail_x tail_b = Ok (3, (VMsg tail_v, MkOffsets tail_o)).
Proof. vm_compute. reflexivity. Qed.
Definition tail_f (i : nat) : mfield := nth i (m_fields tail_x) (MkMField "" TPayload false size_open Little).
Lemma tail_unions : forall i v, same_discriminants Debug tail_x i tail_v v.
Proof.
  intros i v j f u on Hj Hf Et. destruct j as [|[|j]]; cbn in Hf; try (injection Hf as <-); try discriminate Et.
  destruct j; discriminate.
Qed.

Lemma replace_refuted : exists emb x b n vs l i f lo hi nested v w,
  (exists ws ps p, session Debug ws ps /\ In p ps /\ In x (p_messages p) /\ emb = marked ws) /\
  read_msg_offsets Debug emb x b = Ok (n, (VMsg vs, MkOffsets l)) /\
  nth_error (m_fields x) i = Some f /\ nth_error l i = Some (lo, hi, nested) /\
  encodes_member Debug f i vs v w /\ same_discriminants Debug x i vs v /\
  read_msg Debug emb x (firstn (N.to_nat lo) b ++ w ++ skipn (N.to_nat hi) b)%list = Err Truncated.
Proof.
  exists tail_emb, tail_x, tail_b, 3, tail_v, tail_o, 0%nat, (tail_f 0), 0, 1, None, (VOpt (Some (VPayload [5]))), [1; 5].
  split. { exists (snd tail_pw), [fst tail_pw], (fst tail_pw). split; [exact tail_session|]. split; [left; reflexivity|]. split; [exact tail_in|reflexivity]. }
  split; [exact tail_read|]. split; [reflexivity|]. split; [reflexivity|]. split; [|split; [apply tail_unions|vm_compute; reflexivity]].
  exists 1, [5]. split; [lia|]. split; [exact I|]. split; [reflexivity|]. split; [repeat constructor|reflexivity].
Qed.
