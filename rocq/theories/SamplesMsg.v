(** Sample messages: witnesses for the examples beside the message properties
    and for the refutations. *)

From Coq Require Import Arith NArith ZArith Ascii String List Bool Lia.
From Verif Require Import Base Schema Codec Compiler Access SpecComp SpecStruct SpecUtf8 Utf8Thms Runtime Gen Loader SpecRun SpecWire
  SpecReadable MsgFacts ReadableThms Samples SamplesComp.
Import ListNotations.
Local Open Scope N_scope.
Local Open Scope string_scope.

(** ** The protocols of SamplesComp as one run of the compiler *)

Lemma main_session : session Debug (snd main_pw) [lib_p; main_p].
Proof.
  change [lib_p; main_p] with (([] ++ [lib_p]) ++ [main_p])%list.
  apply (session_step Debug (snd lib_pw) ([] ++ [lib_p])%list main_solver main_v main_p (snd main_pw)).
  - apply (session_step Debug world_new [] no_imports lib_v lib_p (snd lib_pw)); [constructor| |exact lib_ok].
    intros n q H. discriminate.
  - intros n q H. unfold main_solver, solver_resolver in H.
    cbn [r_protocol is_map solver_register solver_new sget sinsert] in H.
    destruct (String.eqb n (p_name lib_p)); [|discriminate]. inversion H. left. reflexivity.
  - exact main_ok.
Qed.

Definition dummy_message : message := MkMessage 0 "" [] size_static.
Definition msg_of (p : protocol) (i : nat) : message := nth i (p_messages p) dummy_message.

Definition main_emb : N -> bool := marked (snd main_pw).
Definition ping_x : message := Eval vm_compute in msg_of lib_p 0.
Definition packet_x : message := Eval vm_compute in msg_of main_p 0.
Definition raw_x : message := Eval vm_compute in msg_of main_p 1.

Lemma messages_in : In ping_x (p_messages lib_p) /\ In packet_x (p_messages main_p) /\ In raw_x (p_messages main_p).
Proof. split; [left; reflexivity|]. split; [left; reflexivity|right; left; reflexivity]. Qed.

(** ** Values and their encodings *)

Definition ping_v (id : N) (who : bytes) : value := VMsg [VScalar id; VStr who].
Definition ping_b (id : N) (who : bytes) : bytes := (le_enc 4 id ++ who ++ [0])%list.
Definition bob : bytes := [98; 111; 98].
Definition eve : bytes := [195; 169; 118; 101].

Definition line_b : bytes := [1; 2; 3; 4; 5; 6].

Definition packet_v : value :=
  VMsg [VStruct [1; 7; 0]; VOpt (Some (VStr [104; 105])); VUnion 1 (Some (VStruct line_b));
        VListing (line_b ++ line_b)%list 2; VListing (ping_b 258 bob ++ ping_b 7 eve)%list 2].
Definition packet_b : bytes := Eval vm_compute in
  ([1; 7; 0] ++ [1; 2; 0; 104; 105] ++ line_b ++ [2] ++ line_b ++ line_b ++
   [2] ++ ping_b 258 bob ++ ping_b 7 eve)%list.

Definition raw_v : value := VMsg [VStruct [1; 2; 3]; VOpt (Some (ping_v 9 bob)); VPayload [7; 0; 255]].
Definition raw_b : bytes := Eval vm_compute in ([1; 2; 3] ++ [1] ++ ping_b 9 bob ++ [7; 0; 255])%list.

Ltac byt := repeat (constructor; [vm_compute; reflexivity|]); constructor.
Ltac utf := apply utf8_iff; vm_compute; reflexivity.
Ltac num := split; [reflexivity|split; [byt|vm_compute; reflexivity]].

Lemma ping_encodes : forall m id who, id < 2 ^ 32 -> is_utf8 who -> no_nul who ->
  encodes m ping_x (ping_v id who) (ping_b id who).
Proof.
  intros m id who Hi Hu Hn. apply enc_msg_eq. cbn [m_fields ping_x enc_fields].
  exists (le_enc 4 id), (who ++ [0])%list. split; [reflexivity|]. split.
  - apply (proj2 (number_iff Little 4 id (le_enc 4 id))). split; [exact Hi|reflexivity].
  - exists (who ++ [0])%list, []. split; [rewrite app_nil_r; reflexivity|]. split; [|reflexivity].
    split; [exact Hu|]. split; [exact Hn|reflexivity].
Qed.

Lemma bob_ok : is_utf8 bob /\ no_nul bob.
Proof. split; [utf|]. repeat (constructor; [discriminate|]). constructor. Qed.
Lemma eve_ok : is_utf8 eve /\ no_nul eve.
Proof. split; [utf|]. repeat (constructor; [discriminate|]). constructor. Qed.

Lemma packet_encodes : forall m, encodes m packet_x packet_v packet_b.
Proof.
  intro m. apply enc_msg_eq. cbn [m_fields packet_x enc_fields].
  exists [1; 7; 0], (skipn 3 packet_b). split; [reflexivity|]. split.
  { split; [reflexivity|]. split; [byt|reflexivity]. }
  exists [1; 2; 0; 104; 105], (skipn 8 packet_b). split; [reflexivity|]. split.
  { exists 1, [2; 0; 104; 105]. split; [lia|]. split; [reflexivity|]. split; [reflexivity|].
    split; [utf|]. exists [2; 0]. split; [num|reflexivity]. }
  exists line_b, (skipn 14 packet_b). split; [reflexivity|]. split.
  { exists [1; 7; 0], 1. split; [reflexivity|]. split; [destruct m; vm_compute; reflexivity|].
    split; [discriminate|]. split; [reflexivity|]. split; [reflexivity|]. split; [byt|reflexivity]. }
  exists (firstn 13 (skipn 14 packet_b)), (skipn 27 packet_b). split; [reflexivity|]. split.
  { split; [reflexivity|]. split; [byt|]. exists [2]. split; [num|reflexivity]. }
  exists (skipn 27 packet_b), []. split; [reflexivity|]. split; [|reflexivity].
  exists [2], [ping_v 258 bob; ping_v 7 eve], [ping_b 258 bob; ping_b 7 eve].
  split; [num|]. split; [reflexivity|]. split; [|split; reflexivity].
  constructor; [apply ping_encodes; [lia|apply bob_ok|apply bob_ok]|].
  constructor; [apply ping_encodes; [lia|apply eve_ok|apply eve_ok]|constructor].
Qed.

Lemma raw_encodes : forall m, encodes m raw_x raw_v raw_b.
Proof.
  intro m. apply enc_msg_eq. cbn [m_fields raw_x enc_fields].
  exists [1; 2; 3], (skipn 3 raw_b). split; [reflexivity|]. split.
  { split; [reflexivity|]. split; [byt|reflexivity]. }
  exists (1 :: ping_b 9 bob), (skipn 12 raw_b). split; [reflexivity|]. split.
  { exists 1, (ping_b 9 bob). split; [lia|]. split; [reflexivity|]. split; [reflexivity|].
    apply ping_encodes; [lia|apply bob_ok|apply bob_ok]. }
  exists [7; 0; 255], []. split; [reflexivity|]. split; [|reflexivity]. split; [byt|reflexivity].
Qed.

(** ** Shapes *)

Lemma ping_delimited : forall emb, self_delimiting emb ping_x.
Proof.
  intro emb. apply closed_self_delimiting. intros g Hg Ho.
  destruct Hg as [<- | [<- | []]]; inversion Ho.
Qed.

Lemma within_ping : forall z, within ping_x z -> z = ping_x.
Proof.
  intros z H. inversion H as [x Ex|x g y z' Hg Hy Hz]; subst; [reflexivity|].
  destruct Hg as [<- | [<- | []]]; inversion Hy.
Qed.

Lemma within_packet : forall z, within packet_x z -> z = packet_x \/ z = ping_x.
Proof.
  intros z H. inversion H as [x Ex|x g y z' Hg Hy Hz]; subst; [auto|]. right.
  destruct Hg as [<- | [<- | [<- | [<- | [<- | []]]]]]; inversion Hy; subst;
    try (match goal with Hc : In _ (u_cases _) |- _ =>
      destruct Hc as [<- | [<- | [<- | []]]]; cbn in *; try discriminate end);
    try (match goal with Hi : Some (RMessage _) = Some (RMessage _) |- _ => inversion Hi; subst end);
    apply within_ping; assumption.
Qed.

Lemma packet_tidy : tidy packet_x.
Proof.
  split.
  - intros y l f r Hw E Hr Ho. destruct (within_packet _ Hw) as [-> | ->]; cbn [m_fields packet_x ping_x] in E.
    + destruct l as [|l1 [|l2 [|l3 [|l4 [|l5 [|l6 l]]]]]]; cbn in E; inversion E; subst; try congruence;
        try solve [inversion Ho].
      inversion Ho as [| | |u on i c x f Hc Hi Hf Hof]; subst.
      destruct Hc as [<- | [<- | [<- | []]]]; cbn in Hi; inversion Hi; subst.
      destruct Hf as [<- | [<- | []]]; inversion Hof.
    + destruct l as [|l1 [|l2 [|l3 l]]]; cbn in E; inversion E; subst; try congruence; inversion Ho.
  - intros y f ty z g Hw Hf Et Hg Ho. destruct (within_packet _ Hw) as [-> | ->].
    + destruct Hf as [<- | [<- | [<- | [<- | [<- | []]]]]]; inversion Et; subst.
      destruct Hg as [<- | [<- | []]]; inversion Ho.
    + destruct Hf as [<- | [<- | []]]; inversion Et.
Qed.

(** ** A protocol whose messages show each decoding problem *)

Definition extra_v : sprotocol :=
  {| sp_name := "Extra"; sp_endianness := None;
     sp_imports := [ {| si_protocol := "Lib"; si_type := "Ping" |} ];
     sp_enums := [];
     sp_structs :=
       [ {| ss_name := "Header"; ss_fields := [ scalar "kind" (STUnsigned 4); scalar "flags" (STUnsigned 4); scalar "size" (STUnsigned 16) ] |};
         {| ss_name := "Id"; ss_fields := [ scalar "id" (STUnsigned 32) ] |};
         {| ss_name := "Medium"; ss_fields := [ scalar "v" (STUnsigned 24) ] |};
         {| ss_name := "Empty"; ss_fields := [] |} ];
     sp_unions :=
       [ {| sun_name := "Body"; sun_discriminant := "Header.kind";
            sun_cases := [ ucase_d "Ping" "1" (Some "Ping"); ucase_d "Id" "2" (Some "Id"); ucase_d "Nothing" "3" None ] |} ];
     sp_messages :=
       [ {| sm_name := "Frame"; sm_fields :=
             [ fld "hdr" (MTItem "Header"); fld "body" (MTUnion "hdr" "Body");
               optfld "ping" (MTItem "Ping"); fld "ids" (MTList 255 "Id") ] |};
         {| sm_name := "AfterPayload"; sm_fields := [ fld "data" MTPayload; fld "x" (MTItem "Id") ] |};
         {| sm_name := "Pay"; sm_fields := [ fld "data" MTPayload ] |};
         {| sm_name := "Pays"; sm_fields := [ fld "items" (MTList 100 "Pay") ] |};
         {| sm_name := "Inner"; sm_fields := [ fld "pings" (MTList 100 "Ping") ] |};
         {| sm_name := "Outer"; sm_fields := [ fld "inner" (MTItem "Inner") ] |};
         {| sm_name := "Outers"; sm_fields := [ fld "items" (MTList 100 "Outer") ] |};
         {| sm_name := "Var"; sm_fields := [ fld "s" (MTString (Some 100)) ] |};
         {| sm_name := "Big"; sm_fields := [ fld "ids" (MTList 18446744073709551615 "Id") ] |};
         {| sm_name := "Opt"; sm_fields := [ optfld "id" (MTItem "Id") ] |};
         {| sm_name := "Med"; sm_fields := [ fld "m" (MTItem "Medium") ] |} ] |}.

Definition extra_pw : protocol * world :=
  Eval vm_compute in get_ok dummy_p (protocol_from_model Debug main_solver (snd lib_pw) extra_v).
Definition extra_p := Eval vm_compute in fst extra_pw.
Lemma extra_ok : protocol_from_model Debug main_solver (snd lib_pw) extra_v = Ok (extra_p, snd extra_pw).
Proof. vm_compute. reflexivity. Qed.
Lemma extra_session : session Debug (snd extra_pw) [lib_p; extra_p].
Proof.
  change [lib_p; extra_p] with (([] ++ [lib_p]) ++ [extra_p])%list.
  apply (session_step Debug (snd lib_pw) ([] ++ [lib_p])%list main_solver extra_v extra_p (snd extra_pw)).
  - apply (session_step Debug world_new [] no_imports lib_v lib_p (snd lib_pw)); [constructor| |exact lib_ok].
    intros n q H. discriminate.
  - intros n q H. unfold main_solver, solver_resolver in H.
    cbn [r_protocol is_map solver_register solver_new sget sinsert] in H.
    destruct (String.eqb n (p_name lib_p)); [|discriminate]. inversion H. left. reflexivity.
  - exact extra_ok.
Qed.

Definition extra_emb : N -> bool := marked (snd extra_pw).
Definition frame_x : message := Eval vm_compute in msg_of extra_p 0.
Definition after_x : message := Eval vm_compute in msg_of extra_p 1.
Definition pay_x : message := Eval vm_compute in msg_of extra_p 2.
Definition pays_x : message := Eval vm_compute in msg_of extra_p 3.
Definition inner_x : message := Eval vm_compute in msg_of extra_p 4.
Definition outer_x : message := Eval vm_compute in msg_of extra_p 5.
Definition outers_x : message := Eval vm_compute in msg_of extra_p 6.
Definition var_x : message := Eval vm_compute in msg_of extra_p 7.
Definition big_x : message := Eval vm_compute in msg_of extra_p 8.
Definition opt_x : message := Eval vm_compute in msg_of extra_p 9.
Definition med_x : message := Eval vm_compute in msg_of extra_p 10.
Definition body_u : union_ := Eval vm_compute in
  nth 0 (p_unions extra_p) (MkUnion "" {| d_root := unit_structure; d_leaf := unit_structure; d_leaf_index := 0;
                                          d_index_list := [] |} [] size_static).

Lemma extra_in : forall x, In x [frame_x; after_x; pay_x; pays_x; inner_x; outer_x; outers_x; var_x; big_x; opt_x; med_x] ->
  In x (p_messages extra_p).
Proof. intros x H. exact H. Qed.

Lemma part_ping : forall emb e f, part emb ping_x e f -> In f (m_fields ping_x).
Proof.
  intros emb e f H. inversion H as [Hf He|g y Hg Hy Hp]; [exact Hf|].
  destruct Hg as [<- | [<- | []]]; inversion Hy.
Qed.

Lemma part_frame : forall emb e f, part emb frame_x e f -> In f (m_fields frame_x) \/ In f (m_fields ping_x).
Proof.
  intros emb e f H. inversion H as [Hf He|g y Hg Hy Hp]; [left; exact Hf|]. right.
  assert (y = ping_x) as ->; [|eapply part_ping; eassumption].
  destruct Hg as [<- | [<- | [<- | [<- | []]]]]; inversion Hy; subst; try reflexivity.
  match goal with Hc : In _ (u_cases _) |- _ =>
    destruct Hc as [<- | [<- | [<- | []]]]; cbn in *; try discriminate end.
  match goal with Hi : Some (RMessage _) = Some (RMessage _) |- _ => inversion Hi; subst; reflexivity end.
Qed.

Lemma within_frame : forall z, within frame_x z -> z = frame_x \/ z = ping_x.
Proof.
  intros z H. inversion H as [x Ex|x g y z' Hg Hy Hz]; subst; [auto|]. right.
  destruct Hg as [<- | [<- | [<- | [<- | []]]]]; inversion Hy; subst;
    try (match goal with Hc : In _ (u_cases _) |- _ =>
      destruct Hc as [<- | [<- | [<- | []]]]; cbn in *; try discriminate end);
    try (match goal with Hi : Some (RMessage _) = Some (RMessage _) |- _ => inversion Hi; subst end);
    apply within_ping; assumption.
Qed.

Lemma frame_guarded : forall emb, guarded_lengths emb frame_x.
Proof.
  intros emb e f H. apply part_frame in H.
  destruct H as [[<- | [<- | [<- | [<- | []]]]] | [<- | [<- | []]]]; cbn; try exact I; vm_compute; discriminate.
Qed.

Lemma frame_checked : forall m emb, checked_lengths m emb frame_x.
Proof.
  intros m emb e f H. apply part_frame in H.
  destruct H as [[<- | [<- | [<- | [<- | []]]]] | [<- | [<- | []]]]; cbn; try exact I; right; vm_compute; discriminate.
Qed.

Lemma frame_delimited : forall emb, self_delimiting emb frame_x.
Proof.
  intros emb e f H. apply part_frame in H.
  destruct H as [[<- | [<- | [<- | [<- | []]]]] | [<- | [<- | []]]]; exact I.
Qed.

Lemma frame_usable : union_fields_usable frame_x.
Proof.
  intros y f u on i Hw Hf Et. apply within_frame in Hw. destruct Hw as [-> | ->].
  - destruct Hf as [<- | [<- | [<- | [<- | []]]]]; inversion Et; subst. split.
    + intros g Hg. cbn in Hg. inversion Hg. reflexivity.
    + exists 0, 4. split; [|lia]. exact (path_scalar (d_root (u_disc body_u)) 0 _ eq_refl).
  - destruct Hf as [<- | [<- | []]]; inversion Et.
Qed.

Definition frame_v : value :=
  VMsg [VStruct [33; 9; 0]; VUnion 0 (Some (ping_v 258 bob)); VOpt None; VListing [1; 0; 0; 0; 2; 0; 0; 0] 2].
Definition frame_b : bytes := Eval vm_compute in
  ([33; 9; 0] ++ ping_b 258 bob ++ [0] ++ [2] ++ [1; 0; 0; 0; 2; 0; 0; 0])%list.

Lemma frame_encodes : forall m, encodes m frame_x frame_v frame_b.
Proof.
  intro m. apply enc_msg_eq. cbn [m_fields frame_x enc_fields].
  exists [33; 9; 0], (skipn 3 frame_b). split; [reflexivity|]. split.
  { split; [reflexivity|]. split; [byt|reflexivity]. }
  exists (ping_b 258 bob), (skipn 11 frame_b). split; [reflexivity|]. split.
  { exists [33; 9; 0], 1. split; [reflexivity|]. split; [destruct m; vm_compute; reflexivity|].
    split; [reflexivity|]. apply ping_encodes; [lia|apply bob_ok|apply bob_ok]. }
  exists [0], (skipn 12 frame_b). split; [reflexivity|]. split; [reflexivity|].
  exists (skipn 12 frame_b), []. split; [reflexivity|]. split; [|reflexivity].
  split; [reflexivity|]. split; [byt|]. exists [2]. split; [num|reflexivity].
Qed.
