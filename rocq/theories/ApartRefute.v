(** A message that is read differently when a part of it is generated by another run (C83). *)

From Coq Require Import Arith NArith String List Bool Lia.
From Verif Require Import Base Schema Compiler Access Runtime Gen Loader SpecLoader SpecComp SpecStruct SpecWire SpecRun SpecApart
  StructFacts CompFacts CompThms MsgFacts LinkThms LoaderThms EvolveMore ApartThms Samples SamplesComp.
Import ListNotations.
Local Open Scope N_scope.
Local Open Scope string_scope.

Definition byte_struct : sstruct := {| ss_name := "Byte"; ss_fields := [ scalar "value" (STUnsigned 8) ] |}.
Definition low : list smessage :=
  [ {| sm_name := "Leaf"; sm_fields := [ fld "value" (MTItem "Byte") ] |};
    {| sm_name := "Inner"; sm_fields := [ fld "leaves" (MTList 100 "Leaf") ] |} ].
Definition high : list smessage :=
  [ {| sm_name := "Outer"; sm_fields := [ fld "inners" (MTList 100 "Inner") ] |};
    {| sm_name := "Top"; sm_fields := [ fld "outers" (MTList 100 "Outer") ] |} ].
Definition proto (name : string) imports structs messages : sprotocol :=
  {| sp_name := name; sp_endianness := None; sp_imports := imports; sp_enums := []; sp_structs := structs; sp_unions := [];
     sp_messages := messages |}.
Definition base_v : sprotocol := proto "base" [] [byte_struct] low.
Definition more_v : sprotocol := proto "more" [ {| si_protocol := "base"; si_type := "Inner" |} ] [] high.
Definition one_v : sprotocol := proto "one" [] [byte_struct] (low ++ high).

Definition result (m : mode) (earlier : list (string * sprotocol)) (v : sprotocol) : protocol * world :=
  match loader_compile m (loader_after (run_of earlier v)) (solver_new "::") with
  | Ok ([p], w) => (p, w)
  | _ => (protocol_empty "", world_new)
  end.
Definition base_pw := Eval vm_compute in result Debug [] base_v.
Definition more_pw := Eval vm_compute in result Debug [("crate::base", base_v)] more_v.
Definition one_pw := Eval vm_compute in result Debug [] one_v.
Lemma base_run : forall m, run_gives m "::" [] base_v (fst base_pw) (snd base_pw).
Proof. intros []; vm_compute; reflexivity. Qed.
Lemma more_run : forall m, run_gives m "::" [("crate::base", base_v)] more_v (fst more_pw) (snd more_pw).
Proof. intros []; vm_compute; reflexivity. Qed.
Lemma one_run : forall m, run_gives m "::" [] one_v (fst one_pw) (snd one_pw).
Proof. intros []; vm_compute; reflexivity. Qed.

Definition dummy_x : message := MkMessage 0 "" [] size_static.
Definition outer_m : message := Eval vm_compute in nth 0 (p_messages (fst more_pw)) dummy_x.
Definition inner_m : message := Eval vm_compute in nth 1 (p_messages (fst base_pw)) dummy_x.
Definition two_inners : bytes := [2; 1; 7; 1; 8].
Definition two_v : value := VMsg [VListing [1; 7; 1; 8] 2].

Lemma byte_num : forall n, n < 256 -> number Little 1 n [n].
Proof. intros n H. split; [reflexivity|]. split; [constructor; [exact H|constructor]|]. cbn. lia. Qed.
Lemma inner_encodes : forall m n, n < 256 -> encodes m inner_m (VMsg [VListing [n] 1]) [1; n].
Proof.
  intros m n Hn. unfold encodes. cbn. exists [1; n], []. split; [reflexivity|]. split; [|reflexivity].
  exists [1], [VMsg [VScalar n]], [[n]]. split; [apply byte_num; lia|]. split; [reflexivity|]. split; [|split; reflexivity].
  constructor; [|constructor]. cbn. exists [n], []. split; [reflexivity|]. split; [apply byte_num; exact Hn|reflexivity].
Qed.
Lemma two_encodes : forall m, encodes m outer_m two_v two_inners.
Proof.
  intro m. apply enc_msg_eq. cbn [m_fields outer_m enc_fields]. exists two_inners, [].
  split; [reflexivity|]. split; [|reflexivity].
  exists [2], [VMsg [VListing [7] 1]; VMsg [VListing [8] 1]], [[1; 7]; [1; 8]]. split; [apply byte_num; lia|]. split; [reflexivity|].
  split; [|split; reflexivity]. constructor; [apply (inner_encodes m 7); lia|]. constructor; [apply (inner_encodes m 8); lia|constructor].
Qed.

Lemma read_apart : forall m emb, emb (m_id outer_m) = true -> emb (m_id inner_m) = false -> read_msg m emb outer_m two_inners = Err Truncated.
Proof.
  intros m emb H1 H2. cbn in H1, H2. unfold outer_m. cbn. rewrite H1, H2. destruct m; vm_compute; reflexivity.
Qed.

Lemma read_together : forall m emb, emb (m_id outer_m) = true -> emb (m_id inner_m) = true -> read_msg m emb outer_m two_inners = Ok (len two_inners, two_v).
Proof.
  intros m emb H1 H2. cbn in H1, H2. unfold outer_m. cbn. rewrite H1, H2. destruct m; vm_compute; reflexivity.
Qed.

Theorem apart_refuted : exists path base more one p w q t x v b,
  run_gives Debug "::" [(path, base)] more p w /\ run_gives Debug "::" [] one q t /\
  In x (p_messages p) /\ In x (p_messages q) /\ (forall m, encodes m x v b) /\
  (forall m, read_msg m (marked w) x b = Ok (len b, v)) /\
  (forall m emb, generated_in t q emb -> read_msg m emb x b = Ok (len b, v)) /\
  forall m emb path', program Debug "::" [(path, base); (path', more)] emb -> read_msg m emb x b = Err Truncated.
Proof.
  exists "crate::base", base_v, more_v, one_v, (fst more_pw), (snd more_pw), (fst one_pw), (snd one_pw), outer_m, two_v, two_inners.
  split; [apply more_run|]. split; [apply one_run|]. split; [left; reflexivity|]. split; [do 2 right; left; reflexivity|].
  split; [exact two_encodes|]. split; [intros []; vm_compute; reflexivity|]. split.
  - intros m emb H. apply read_together.
    + rewrite (H outer_m); [reflexivity|]. do 2 right. left. reflexivity.
    + rewrite (H inner_m); [reflexivity|]. right. left. reflexivity.
  - intros m emb path' H. apply read_apart.
    + rewrite (H [("crate::base", base_v)] path' more_v [] _ _ eq_refl (more_run Debug) outer_m); [reflexivity|]. left. reflexivity.
    + rewrite (H [] "crate::base" base_v [(path', more_v)] _ _ eq_refl (base_run Debug) inner_m); [reflexivity|]. right. left. reflexivity.
Qed.

(** Another protocol with a list of an imported message, which has no list. *)
Definition boxes_v : sprotocol := proto "boxes" [ {| si_protocol := "base"; si_type := "Leaf" |} ] []
  [ {| sm_name := "Box"; sm_fields := [ fld "leaves" (MTList 100 "Leaf") ] |};
    {| sm_name := "Boxes"; sm_fields := [ fld "boxes" (MTList 100 "Box") ] |} ].
Definition boxes_pw := Eval vm_compute in result Debug [("crate::base", base_v)] boxes_v.
Lemma boxes_run : run_gives Debug "::" [("crate::base", base_v)] boxes_v (fst boxes_pw) (snd boxes_pw).
Proof. vm_compute. reflexivity. Qed.
Lemma run_one : forall m sep e v p w p' w', run_gives m sep e v p w -> run_gives m sep e v p' w' -> p = p' /\ w = w'.
Proof. intros m sep e v p w p' w' H H'. unfold run_gives in *. rewrite H in H'. injection H' as <- <-. auto. Qed.
Lemma boxes_guard : forall e b u e' q t, ([("crate::base", base_v); ("crate::boxes", boxes_v)] = e ++ (b, u) :: e')%list ->
  run_gives Debug "::" e u q t -> ~ lists_imported q.
Proof.
  intros e b u e' q t E R (x & y & Hx & (f & ty & Hf & Ht) & Hn & g & ty' & z & Hg & Hgt). destruct e as [|? [|? [|? ?]]]; try discriminate E.
  - injection E as <- <- _. destruct (run_one _ _ _ _ _ _ _ _ (base_run Debug) R) as [<- _].
    destruct Hx as [<- | [<- | []]]; destruct Hf as [<- | []]; try discriminate Ht. injection Ht as <- <-. apply Hn. left. reflexivity.
  - injection E as <- <- <- _. destruct (run_one _ _ _ _ _ _ _ _ boxes_run R) as [<- _].
    destruct Hx as [<- | [<- | []]]; destruct Hf as [<- | []]; injection Ht as <- <-.
    + destruct Hg as [<- | []]. discriminate Hgt.
    + apply Hn. left. reflexivity.
Qed.
Lemma boxes_program : exists emb, program Debug "::" [("crate::base", base_v); ("crate::boxes", boxes_v)] emb.
Proof.
  eapply (program_exists Debug "::" _ [("crate::base", fst base_pw); ("crate::boxes", fst boxes_pw)] (snd boxes_pw)).
  apply (ir_cons Debug "::" [] world_new "crate::base" base_v _ (fst base_pw) (snd base_pw)); [vm_compute; reflexivity|].
  apply (ir_cons Debug "::" _ _ "crate::boxes" boxes_v _ (fst boxes_pw) (snd boxes_pw)); [vm_compute; reflexivity|]. constructor.
Qed.

Lemma read_one : forall m emb, emb (m_id outer_m) = true -> emb (m_id inner_m) = false ->
  read_msg m emb outer_m [1; 1; 7] = Ok (3, VMsg [VListing [1; 7] 1]).
Proof.
  intros m emb H1 H2. cbn in H1, H2. unfold outer_m. cbn. rewrite H1, H2. destruct m; vm_compute; reflexivity.
Qed.
Lemma more_program : exists emb, program Debug "::" [("crate::base", base_v); ("crate::more", more_v)] emb.
Proof.
  eapply (program_exists Debug "::" _ [("crate::base", fst base_pw); ("crate::more", fst more_pw)] (snd more_pw)).
  apply (ir_cons Debug "::" [] world_new "crate::base" base_v _ (fst base_pw) (snd base_pw)); [vm_compute; reflexivity|].
  apply (ir_cons Debug "::" _ _ "crate::more" more_v _ (fst more_pw) (snd more_pw)); [vm_compute; reflexivity|]. constructor.
Qed.
