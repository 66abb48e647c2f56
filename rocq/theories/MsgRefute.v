(** Refutations for generated messages. *)

From Coq Require Import Arith NArith ZArith Ascii String List Bool Lia.
From Verif Require Import Base Schema Codec Compiler Access SpecComp SpecStruct SpecUtf8 Utf8Thms Runtime Gen Loader SpecRun SpecWire
  SpecUnion SpecReadable MsgFacts WriteThms ReadThms ListThms UnionThms ReadableThms Samples SamplesComp SamplesMsg.
Import ListNotations.
Local Open Scope N_scope.

(** A message of the sample protocol "Extra", which the compiler accepts. *)
Definition accepted_msg (emb : N -> bool) (x : message) : Prop :=
  exists w ps p, session Debug w ps /\ In p ps /\ In x (p_messages p) /\ emb = marked w.

Lemma extra_accepted : forall x,
  In x [frame_x; after_x; pay_x; pays_x; inner_x; outer_x; outers_x; var_x; big_x; opt_x; med_x] ->
  accepted_msg extra_emb x.
Proof.
  intros x H. exists (snd extra_pw), [lib_p; extra_p], extra_p.
  split; [exact extra_session|]. split; [right; left; reflexivity|]. split; [exact (extra_in x H)|reflexivity].
Qed.
Ltac acc := apply extra_accepted; cbn [In]; tauto.

(** C24: a presence byte other than 1 is accepted, and rewritten as 1. *)
Lemma presence_refuted : exists emb x b v, accepted_msg emb x /\
  (forall m, read_msg m emb x b = Ok (len b, v)) /\
  (forall m, exists b', write_vec m x v [] = (b', Ok tt) /\ b' <> b).
Proof.
  exists extra_emb, opt_x, [2; 7; 0; 0; 0]. eexists. split; [acc|].
  split; [intros [|]; vm_compute; reflexivity|].
  intro m. exists [1; 7; 0; 0; 0]. split; [destruct m; vm_compute; reflexivity|discriminate].
Qed.

(** C24: the items of a list are not looked at. *)
Lemma unsized_none : forall m b', ~ encodes_lax m inner_x (VMsg [VListing [255] 5]) b'.
Proof.
  intros m b' H. apply enc_msg_eq in H. cbn [m_fields inner_x enc_fields] in H.
  destruct H as (b1 & b2 & _ & H & _). cbn [enc_optional mf_optional mf_ty mf_endi enc_ty] in H.
  destruct H as (p & items & chunks & _ & Hn & Hf & Hd & _).
  destruct Hf as [|i c items chunks Hi _]; [vm_compute in Hn; discriminate|].
  cbn [concat] in Hd. assert (Hr : read_msg m extra_emb ping_x (c ++ concat chunks) = Ok (len c, i)).
  { apply roundtrip_suffix; [apply ping_delimited|exact Hi|]. rewrite <- Hd. vm_compute. reflexivity. }
  rewrite <- Hd in Hr. destruct m; vm_compute in Hr; discriminate.
Qed.
Lemma unsized_refuted : exists emb x b v, accepted_msg emb x /\
  (forall m, read_msg m emb x b = Ok (len b, v)) /\ (forall m b', ~ encodes_lax m x v b').
Proof.
  exists extra_emb, inner_x, [5; 255], (VMsg [VListing [255] 5]). split; [acc|].
  split; [intros [|]; vm_compute; reflexivity|exact unsized_none].
Qed.

(** C26, C27: a length-prefixed string that is cut panics; so does an array
    length that overflows, with overflow checks. *)
Lemma varchar_panic_refuted : exists emb x v p q, accepted_msg emb x /\ (forall m, encodes m x v (p ++ q)) /\
  q <> [] /\ self_delimiting emb x /\ forall m, read_msg m emb x p = Panic.
Proof.
  exists extra_emb, var_x, (VMsg [VStr [104; 105]]), [2; 104], [105].
  split; [acc|]. split; [|split; [discriminate|split]].
  - intro m. apply enc_msg_eq. cbn [m_fields var_x enc_fields]. exists [2; 104; 105], [].
    split; [reflexivity|]. split; [|reflexivity]. split; [utf|]. exists [2]. split; [num|reflexivity].
  - apply closed_self_delimiting. intros g [<- | []] Ho. inversion Ho.
  - intros [|]; vm_compute; reflexivity.
Qed.

Lemma array_panic_refuted : exists emb x b, accepted_msg emb x /\ read_msg Debug emb x b = Panic.
Proof. exists extra_emb, big_x, (repeat 255 8). split; [acc|vm_compute; reflexivity]. Qed.

(** C36: without overflow checks such a length is accepted, with no data. *)
Lemma array_shape_refuted : exists emb x b n, accepted_msg emb x /\
  read_msg Release emb x b = Ok (len b, VMsg [VListing [] n]) /\ n = 2 ^ 62 /\
  forall m E, arr_item (E:=E) m 4 [] (2 ^ 61) = Panic.
Proof.
  exists extra_emb, big_x, [0; 0; 0; 0; 0; 0; 0; 64], (2 ^ 62). split; [acc|].
  split; [vm_compute; reflexivity|]. split; [reflexivity|]. intros [|] E; vm_compute; reflexivity.
Qed.

(** C36: iterating over an array of empty structures panics. *)
Lemma empty_items_refuted : forall E data, arr_items (E:=E) 0 data = Panic.
Proof. reflexivity. Qed.

(** C32: a case without content is written whatever the discriminant is, and
    another case is read back. *)
Lemma empty_case_refuted : exists emb x v b, accepted_msg emb x /\
  (forall m, write_vec m x v [] = (b, Ok tt)) /\
  (exists fields, v = VMsg fields /\ nth_error fields 1 = Some (VUnion 2 None)) /\
  forall m, read_msg m emb x b = Err Truncated.
Proof.
  exists extra_emb, frame_x, (VMsg [VStruct [1; 0; 0]; VUnion 2 None; VOpt None; VListing [] 0]), [1; 0; 0; 0; 0].
  split; [acc|]. split; [intros [|]; vm_compute; reflexivity|].
  split; [eexists; split; [reflexivity|reflexivity]|]. intros [|]; vm_compute; reflexivity.
Qed.

(** C34: after a malformed item the iterator returns the error again and again. *)
Lemma stuck_refuted : exists emb x b data n, accepted_msg emb x /\
  (forall m, read_msg m emb x b = Ok (len b, VMsg [VListing data n])) /\
  (exists y, In y [ping_x] /\ inside (mf_ty (hd (MkMField "" TPayload false size_open Little) (m_fields x))) y /\
   forall m k, iter_take m (read_msg m emb y) k (data, n) = Ok (repeat (Err Truncated) k, (data, n))).
Proof.
  exists extra_emb, inner_x, [5; 255], [255], 5. split; [acc|].
  split; [intros [|]; vm_compute; reflexivity|].
  exists ping_x. split; [left; reflexivity|]. split; [constructor|].
  intros m k. apply iterate_stuck; [reflexivity|]. destruct m; vm_compute; reflexivity.
Qed.

(** C35: the bytes written before the failure stay, and later items are not
    read back. *)
Lemma failed_item_refuted : exists emb x bad good l1 l2 items, accepted_msg emb x /\ self_delimiting emb x /\
  (forall m, write_item m (write_vec m x bad) (li_new []) = (l1, Err (InvalidUnionDiscriminant 2))) /\
  li_data l1 <> [] /\
  (forall m, exists b, encodes m x good b) /\
  (forall m, write_item m (write_vec m x good) l1 = (l2, Ok tt)) /\ li_len l2 = 1 /\
  (forall m, exists s, iter_take m (read_msg m emb x) 1 (li_iter l2) = Ok (items, s)) /\
  items <> [Ok good].
Proof.
  exists extra_emb, frame_x, (VMsg [VStruct [2; 0; 0]; VUnion 0 (Some (ping_v 1 bob)); VOpt None; VListing [] 0]), frame_v.
  do 3 eexists. split; [acc|]. split; [apply frame_delimited|].
  split; [intros [|]; vm_compute; reflexivity|]. split; [discriminate|].
  split; [intro m; eexists; apply frame_encodes|].
  split; [intros [|]; vm_compute; reflexivity|]. split; [reflexivity|].
  split; [intros [|]; eexists; vm_compute; reflexivity|]. discriminate.
Qed.

(** C37: 256 characters behind a one-byte length: the length 0 is written. *)
Definition long_s : bytes := repeat 97 256.
Lemma prefix_refuted : exists emb x s rest, accepted_msg emb x /\ is_utf8 s /\
  (forall m, write_vec m x (VMsg [VStr s]) [] = (0 :: rest, Ok tt)) /\
  (forall m, read_msg m emb x (0 :: rest) = Ok (1, VMsg [VStr []])) /\ s <> [].
Proof.
  exists extra_emb, var_x, long_s, long_s. split; [acc|]. split; [utf|].
  split; [intros [|]; vm_compute; reflexivity|]. split; [intros [|]; vm_compute; reflexivity|discriminate].
Qed.
Lemma list_prefix_refuted : exists s, s <> [] /\ forall data,
  listing_write vec_sink LE 1 data 256 [] = (s ++ data, Ok tt)%list /\ number Little 1 0 s.
Proof.
  exists [0]. split; [discriminate|]. intro data. split; [reflexivity|num].
Qed.

(** C38: a scalar after a payload can never be read. *)
Lemma after_payload_refuted : exists emb x, accepted_msg emb x /\
  (forall m, exists v b, encodes m x v b) /\
  forall m b, len b < 2 ^ 64 -> read_msg m emb x b = Err Truncated.
Proof.
  exists extra_emb, after_x. split; [acc|]. split.
  - intro m. exists (VMsg [VPayload [1]; VScalar 5]), [1; 5; 0; 0; 0]. apply enc_msg_eq. cbn [m_fields after_x enc_fields].
    exists [1], [5; 0; 0; 0]. split; [reflexivity|]. split; [split; [byt|reflexivity]|].
    exists [5; 0; 0; 0], []. split; [reflexivity|]. split; [num|reflexivity].
  - intros m b Hb. change (read_msg m extra_emb after_x b) with
      (d <- slice_from b 0 ;; '(n, v) <- Ok (len d, VPayload d) ;; off <- uadd m 0 n ;;
       d2 <- slice_from b off ;;
       '(n2, v2) <- rmap VScalar (value_reader Little U32) d2 ;;
       off2 <- uadd m off n2 ;; @Ok rerror _ (off2, VMsg ([] ++ [v] ++ [v2])%list)).
    assert (E0 : forall E, slice_from (E:=E) b 0 = Ok b) by (intro E; unfold slice_from; destruct (N.leb_spec 0 (len b)); [reflexivity|lia]).
    rewrite E0. cbn [bind]. assert (Eu : uadd (E:=rerror) m 0 (len b) = Ok (len b)) by (rewrite uadd_fit; rewrite N.add_0_l; [reflexivity|exact Hb]).
    rewrite Eu. cbn [bind]. unfold slice_from. rewrite N.leb_refl. cbn [bind].
    unfold len. rewrite Nat2N.id, skipn_all. reflexivity.
Qed.

(** C38: lists of messages that contain a payload: two items come back as one
    long and one empty item. *)
Lemma payload_items_refuted : exists emb x y b data, accepted_msg emb x /\
  inside (mf_ty (hd (MkMField "" TPayload false size_open Little) (m_fields x))) y /\
  (forall m, encodes m x (VMsg [VListing data 2]) b) /\
  data = [1; 2] /\ (forall m, encodes m y (VMsg [VPayload [1]]) [1] /\ encodes m y (VMsg [VPayload [2]]) [2]) /\
  (forall m, read_msg m emb x b = Ok (len b, VMsg [VListing data 2])) /\
  forall m, iter_take m (read_msg m emb y) 2 (data, 2) =
            Ok ([Ok (VMsg [VPayload [1; 2]]); Ok (VMsg [VPayload []])], ([], 0)).
Proof.
  assert (Hp : forall m c, c < 256 -> encodes m pay_x (VMsg [VPayload [c]]) [c]).
  { intros m c Hc. apply enc_msg_eq. cbn [m_fields pay_x enc_fields]. exists [c], []. split; [reflexivity|].
    split; [|reflexivity]. split; [|reflexivity]. constructor; [exact Hc|constructor]. }
  exists extra_emb, pays_x, pay_x, [2; 1; 2], [1; 2]. split; [acc|]. split; [constructor|]. split.
  { intro m. apply enc_msg_eq. cbn [m_fields pays_x enc_fields]. exists [2; 1; 2], []. split; [reflexivity|].
    split; [|reflexivity]. exists [2], [VMsg [VPayload [1]]; VMsg [VPayload [2]]], [[1]; [2]].
    split; [num|]. split; [reflexivity|]. split; [|split; reflexivity].
    constructor; [apply Hp; lia|]. constructor; [apply Hp; lia|constructor]. }
  split; [reflexivity|]. split; [intro m; split; apply Hp; lia|].
  split; intros [|]; vm_compute; reflexivity.
Qed.

(** C38: items that contain a message that contains a list. *)
Definition inner_b : bytes := 1 :: ping_b 1 bob.
Definition outer_v : value := VMsg [VMsg [VListing (ping_b 1 bob) 1]].
Lemma outer_encodes : forall m, encodes m outer_x outer_v inner_b.
Proof.
  intro m. apply enc_msg_eq. cbn [m_fields outer_x enc_fields]. exists inner_b, []. split; [reflexivity|].
  split; [|reflexivity]. cbn [enc_optional mf_optional mf_ty mf_endi enc_ty]. cbn [enc_ref].
  change (encodes m inner_x (VMsg [VListing (ping_b 1 bob) 1]) inner_b).
  apply enc_msg_eq. cbn [m_fields inner_x enc_fields]. exists inner_b, []. split; [reflexivity|]. split; [|reflexivity].
  exists [1], [ping_v 1 bob], [ping_b 1 bob]. split; [num|]. split; [reflexivity|].
  split; [|split; [reflexivity|reflexivity]]. constructor; [|constructor]. apply ping_encodes; [lia|apply bob_ok|apply bob_ok].
Qed.

Lemma nested_list_refuted : exists emb x y b data, accepted_msg emb x /\
  inside (mf_ty (hd (MkMField "" TPayload false size_open Little) (m_fields x))) y /\
  (forall m, encodes m x (VMsg [VListing data 2]) b) /\
  (forall m, encodes m y outer_v inner_b) /\ data = (inner_b ++ inner_b)%list /\
  exists first s, first <> outer_v /\
  forall m, iter_take m (read_msg m emb y) 2 (data, 2) = Ok ([Ok first; Err Truncated], s).
Proof.
  exists extra_emb, outers_x, outer_x, (2 :: inner_b ++ inner_b)%list, (inner_b ++ inner_b)%list.
  split; [acc|]. split; [constructor|]. split; [|split; [exact outer_encodes|split; [reflexivity|]]].
  - intro m. apply enc_msg_eq. cbn [m_fields outers_x enc_fields]. exists (2 :: inner_b ++ inner_b)%list, [].
    split; [rewrite app_nil_r; reflexivity|]. split; [|reflexivity].
    exists [2], [outer_v; outer_v], [inner_b; inner_b]. split; [num|]. split; [reflexivity|].
    split; [|split; [reflexivity|reflexivity]]. constructor; [apply outer_encodes|]. constructor; [apply outer_encodes|constructor].
  - do 2 eexists. split; [|intros [|]; vm_compute; reflexivity]. discriminate.
Qed.

(** C39: a structure of 24 bits (SIZE 3) takes 4 bytes as an item. *)
Lemma flattened_refuted : exists emb x s b, accepted_msg emb x /\
  In s (p_structs extra_p) /\ s_name s = "Medium"%string /\ s_byte_size s = 3 /\
  (exists d, In d (sp_structs extra_v) /\ ss_name d = "Medium"%string /\
     structure_from_model Debug Little [] [] (s_id s) d = Ok s) /\
  length (m_fields x) = 1%nat /\ (forall m, encodes m x (VMsg [VScalar 1]) b) /\ len b = 4.
Proof.
  exists extra_emb, med_x. do 2 eexists. split; [acc|]. split; [do 2 right; left; reflexivity|].
  split; [reflexivity|]. split; [reflexivity|].
  split; [eexists; split; [do 2 right; left; reflexivity|split; [reflexivity|vm_compute; reflexivity]]|].
  split; [reflexivity|]. split; [|instantiate (1 := [1; 0; 0; 0]); reflexivity].
  intro m. apply enc_msg_eq. cbn [m_fields med_x enc_fields]. exists [1; 0; 0; 0], []. split; [reflexivity|].
  split; [num|reflexivity].
Qed.

(** C40: a string containing NUL is cut. *)
Lemma nul_refuted : exists s b, is_utf8 s /\
  nts_write vec_sink s [] = (b, Ok tt) /\ (forall m, nts_from_slice m b = Ok (2, [97])) /\ s <> [97].
Proof.
  exists [97; 0; 98]. eexists. split; [utf|]. split; [reflexivity|]. split; [intros [|]; reflexivity|discriminate].
Qed.
