(** Property theorems C71 and C72: several messages one after another, and a
    member of a message replaced in place. The vocabulary ([write_in_turn],
    [reads_in_turn], [with_member], [encodes_member], [same_discriminants]) is
    defined in SpecStream. *)

From Coq Require Import Arith NArith ZArith Ascii String List Bool Lia.
From Verif Require Import Base Schema Codec Bits Compiler Access Runtime Gen SpecStruct SpecWire SpecExact SpecDecode SpecSwallow SpecStream
  ReadThms TotalThms StreamThms ExactThms OpenThms SwallowThms SpecReplace ReplaceThms ReplaceExact SpecRun Samples SamplesComp SamplesMsg SamplesReplace.
Import ListNotations.
Local Open Scope N_scope.

(** ** C71: messages one after another *)

Theorem C71_write : forall m l bs, Forall2 (fun xv b => encodes m (fst xv) (snd xv) b) l bs ->
  forall s, write_in_turn m l s = ((s ++ concat bs)%list, Ok tt).
Proof. exact write_stream. Qed.
Print Assumptions C71_write.

Theorem C71_read_partial : forall m emb l bs, Forall2 (fun xv b => encodes_lax m (fst xv) (snd xv) b) l bs ->
  (forall xv, In xv l -> self_delimiting emb (fst xv)) -> forall rest, len (concat bs ++ rest) < 2 ^ 64 ->
  reads_in_turn m emb (map fst l) (concat bs ++ rest) (map snd l) rest.
Proof. exact read_stream. Qed.
Print Assumptions C71_read_partial.

Theorem C71_cut_partial : forall m emb l bs, Forall2 (fun xv b => encodes_lax m (fst xv) (snd xv) b) l bs ->
  (forall xv, In xv l -> self_delimiting emb (fst xv)) ->
  (forall xv, In xv l -> forall e f ty, part emb (fst xv) e f -> mf_ty f <> TVarcharString ty) ->
  forall p q, (p ++ q)%list = concat bs -> q <> [] -> len (concat bs) < 2 ^ 64 ->
  exists done x v todo rest, l = (done ++ (x, v) :: todo)%list /\ reads_in_turn m emb (map fst done) p (map snd done) rest /\
    read_msg m emb x rest = Err Truncated.
Proof. exact cut_stream. Qed.
Print Assumptions C71_cut_partial.

Definition stream_l : list (message * value) := [(frame_x, frame_v); (ping_x, ping_v 7 bob); (frame_x, frame_v)].
Definition stream_bs : list bytes := [frame_b; ping_b 7 bob; frame_b].
Example C71_nonvacuous : (forall m, Forall2 (fun xv b => encodes m (fst xv) (snd xv) b) stream_l stream_bs) /\
  (forall emb xv, In xv stream_l -> self_delimiting emb (fst xv)) /\
  (forall emb xv, In xv stream_l -> forall e f ty, part emb (fst xv) e f -> mf_ty f <> TVarcharString ty) /\
  write_in_turn Debug stream_l [] = (concat stream_bs, Ok tt).
Proof.
  split; [|split; [|split]].
  - intro m. repeat constructor; cbn [fst snd]; [apply frame_encodes|apply ping_encodes; [lia|apply bob_ok|apply bob_ok]|apply frame_encodes].
  - intros emb xv [<- | [<- | [<- | []]]]; cbn [fst]; [apply frame_delimited|apply ping_delimited|apply frame_delimited].
  - intros emb xv Hx e f ty Hp. assert (H : In f (m_fields frame_x) \/ In f (m_fields ping_x)).
    { destruct Hx as [<- | [<- | [<- | []]]]; cbn [fst] in Hp; [apply part_frame in Hp; exact Hp| |apply part_frame in Hp; exact Hp].
      apply part_ping in Hp. right. exact Hp. }
    destruct H as [[<- | [<- | [<- | [<- | []]]]] | [<- | [<- | []]]]; discriminate.
  - vm_compute. reflexivity.
Qed.

(** Which messages can be read back from a stream: exactly those where no value with a payload, or
    with a list that the reader does not walk, has bytes behind it. *)
Theorem C71_read_exact_partial : forall m emb l bs rest, Forall2 (fun xv b => encodes_lax m (fst xv) (snd xv) b) l bs ->
  (forall xv, In xv l -> items_delimited emb (fst xv)) -> len (concat bs ++ rest) < 2 ^ 64 ->
  (reads_in_turn m emb (map fst l) (concat bs ++ rest) (map snd l) rest <->
   forall l1 x v l2 bs1 b bs2, l = (l1 ++ (x, v) :: l2)%list -> bs = (bs1 ++ b :: bs2)%list -> length bs1 = length l1 ->
     ~ followed m emb x v b /\ ((concat bs2 ++ rest)%list <> [] -> ~ open_value emb x v)).
Proof. exact stream_exact. Qed.
Print Assumptions C71_read_exact_partial.

(** The same for all messages, in terms of [unreadable] and [swallows] (SpecSwallow), which also see
    the items of the lists that are walked. *)
Theorem C71_read_exact : forall m emb l bs rest, Forall2 (fun xv b => encodes_lax m (fst xv) (snd xv) b) l bs ->
  len (concat bs ++ rest) < 2 ^ 64 -> bytes_ok (concat bs ++ rest) ->
  (reads_in_turn m emb (map fst l) (concat bs ++ rest) (map snd l) rest <->
   forall l1 x v l2 bs1 b bs2, l = (l1 ++ (x, v) :: l2)%list -> bs = (bs1 ++ b :: bs2)%list -> length bs1 = length l1 ->
     ~ unreadable m emb x v b /\ ((concat bs2 ++ rest)%list <> [] -> ~ swallows m emb x v)).
Proof. exact stream_all. Qed.
Print Assumptions C71_read_exact.

Example C71_exact_nonvacuous : (forall m, Forall2 (fun xv b => encodes_lax m (fst xv) (snd xv) b) stream_l stream_bs) /\
  (forall emb xv, In xv stream_l -> items_delimited emb (fst xv)) /\ bytes_ok (concat stream_bs).
Proof.
  destruct C71_nonvacuous as (H & D & _). split; [|split; [|repeat constructor]].
  - intro m. specialize (H m). clear D. induction H; [constructor|constructor; [apply encodes_is_lax; assumption|assumption]].
  - intros emb xv Hx. apply delimited_items, D, Hx.
Qed.

(** ** C72: a member replaced in place *)

Theorem C72_replace_partial : forall m emb x b n vs l i f lo hi nested v w,
  self_delimiting emb x -> len b < 2 ^ 64 ->
  read_msg_offsets m emb x b = Ok (n, (VMsg vs, MkOffsets l)) ->
  nth_error (m_fields x) i = Some f -> nth_error l i = Some (lo, hi, nested) ->
  encodes_member m f i vs v w -> same_discriminants m x i vs v ->
  len (firstn (N.to_nat lo) b ++ w ++ skipn (N.to_nat hi) b) < 2 ^ 64 ->
  lo <= hi /\ hi <= n /\
  read_msg m emb x (firstn (N.to_nat lo) b ++ w ++ skipn (N.to_nat hi) b) = Ok (n - (hi - lo) + len w, VMsg (with_member i v vs)).
Proof. exact replace_member. Qed.
Print Assumptions C72_replace_partial.

(** The flags of the header change, not the kind the union depends on; the
    optional message becomes present and the message longer. *)
Example C72_nonvacuous : self_delimiting extra_emb frame_x /\
  exists vs l f0 f2 n2, VMsg vs = frame_v /\ read_msg_offsets Debug extra_emb frame_x frame_b = Ok (len frame_b, (VMsg vs, MkOffsets l)) /\
  nth_error (m_fields frame_x) 0 = Some f0 /\ nth_error l 0 = Some (0, 3, None) /\
  encodes_member Debug f0 0 vs (VStruct [17; 9; 0]) [17; 9; 0] /\
  same_discriminants Debug frame_x 0 vs (VStruct [17; 9; 0]) /\
  nth_error (m_fields frame_x) 2 = Some f2 /\ nth_error l 2 = Some (11, 12, n2) /\
  encodes_member Debug f2 2 vs (VOpt (Some (ping_v 7 bob))) (1 :: ping_b 7 bob) /\
  same_discriminants Debug frame_x 2 vs (VOpt (Some (ping_v 7 bob))).
Proof.
  split; [apply frame_delimited|]. do 5 eexists. split; [reflexivity|]. split; [vm_compute; reflexivity|].
  split; [reflexivity|]. split; [reflexivity|]. split.
  { split; [reflexivity|]. split; [|reflexivity]. repeat constructor. }
  split.
  { intros j f u on Hj Hf Et. destruct j as [|[|[|[|j]]]]; cbn in Hf; try (injection Hf as <-); try (destruct j; discriminate);
      try discriminate Et; try lia. injection Et as <- <-. vm_compute. reflexivity. }
  split; [reflexivity|]. split; [reflexivity|]. split.
  { exists 1, (ping_b 7 bob). split; [lia|]. split; [exact I|]. split; [reflexivity|].
    apply (encodes_is_lax Debug ping_x (ping_v 7 bob)). apply ping_encodes; [lia|apply bob_ok|apply bob_ok]. }
  intros j f u on Hj Hf Et. destruct j as [|[|[|[|j]]]]; cbn in Hf; try (injection Hf as <-); try (destruct j; discriminate);
    try discriminate Et; lia.
Qed.

Theorem C72_replace_whole_partial : forall m emb x b vs l i f lo hi nested v w,
  readable emb x -> len b < 2 ^ 64 ->
  read_msg_offsets m emb x b = Ok (len b, (VMsg vs, MkOffsets l)) ->
  nth_error (m_fields x) i = Some f -> nth_error l i = Some (lo, hi, nested) ->
  encodes_member m f i vs v w -> same_discriminants m x i vs v ->
  len (firstn (N.to_nat lo) b ++ w ++ skipn (N.to_nat hi) b) < 2 ^ 64 ->
  lo <= hi /\ hi <= len b /\
  read_msg m emb x (firstn (N.to_nat lo) b ++ w ++ skipn (N.to_nat hi) b)
  = Ok (len (firstn (N.to_nat lo) b ++ w ++ skipn (N.to_nat hi) b), VMsg (with_member i v vs)).
Proof. exact replace_member_whole. Qed.
Print Assumptions C72_replace_whole_partial.

Example C72_whole_nonvacuous : readable main_emb raw_x /\
  exists vs l f n1, read_msg_offsets Debug main_emb raw_x raw_b = Ok (len raw_b, (VMsg vs, MkOffsets l)) /\
  nth_error (m_fields raw_x) 1 = Some f /\ nth_error l 1 = Some (3, 12, n1) /\
  encodes_member Debug f 1 vs (VOpt None) [0] /\ same_discriminants Debug raw_x 1 vs (VOpt None).
Proof.
  assert (R : readable main_emb raw_x).
  { constructor; cbn [m_fields raw_x].
    - intros r f ty y E Et. destruct r as [|r0 [|r1 [|r2 r]]]; try (destruct r; discriminate); try discriminate; injection E as _ _ <-; discriminate.
    - intros r f y E Hy. destruct r as [|r0 [|r1 [|r2 r]]]; try (destruct r; discriminate); try discriminate; injection E as _ _ <-; inversion Hy.
    - intros l f r E Hr. destruct l as [|l0 [|l1 [|l2 l]]]; try (destruct l; discriminate); injection E; intros; subst; try congruence;
        (split; [exact I|intros y Hy; inversion Hy; subst; apply ping_delimited]). }
  split; [exact R|]. do 4 eexists. split; [vm_compute; reflexivity|]. split; [reflexivity|]. split; [reflexivity|].
  split; [reflexivity|]. intros j f u on Hj Hf Et. destruct j as [|[|[|j]]]; cbn in Hf; try (injection Hf as <-);
    try (destruct j; discriminate); try discriminate Et; lia.
Qed.

(** Any message, and any bytes in the place of a member: what is read is the members before it as
    they were, and the rest as decoding gives it. This needs that the reader could tell where the
    members before end: there were bytes behind them, or there are none now, or they hold no payload
    and no list that is not walked. *)
Theorem C72_replace_exact_partial : forall m emb x b n vs l i f lo hi nested w, len b < 2 ^ 64 -> bytes_ok b -> bytes_ok w ->
  read_msg_offsets m emb x b = Ok (n, (VMsg vs, MkOffsets l)) ->
  nth_error (m_fields x) i = Some f -> nth_error l i = Some (lo, hi, nested) ->
  let e := emb (m_id x) in let s := (w ++ skipn (N.to_nat hi) b)%list in let b' := (firstn (N.to_nat lo) b ++ s)%list in
  len b' < 2 ^ 64 ->
  (lo < len b \/ s = [] \/ (items_delimited emb x /\ closed_fields emb e (firstn i (m_fields x)) (firstn i vs))) ->
  (forall n' v', read_msg m emb x b' = Ok (n', v') <->
     exists c ws r, s = (c ++ r)%list /\ n' = lo + len c /\ v' = VMsg (firstn i vs ++ ws) /\
       members m emb e (firstn i vs) (skipn i (m_fields x)) s (Found c ws r)) /\
  (forall er, read_msg m emb x b' = Err er <-> members m emb e (firstn i vs) (skipn i (m_fields x)) s (Stops (Reports er))) /\
  (read_msg m emb x b' = Panic <-> members m emb e (firstn i vs) (skipn i (m_fields x)) s (Stops Crashes)).
Proof. exact replace_exact. Qed.
Print Assumptions C72_replace_exact_partial.

(** If the new bytes decode to [v] there, the message is read with [v] as this member and
    everything else as it was. *)
Theorem C72_replace_any_partial : forall m emb x b n vs l i f lo hi nested v w, len b < 2 ^ 64 -> bytes_ok b -> bytes_ok w ->
  read_msg_offsets m emb x b = Ok (n, (VMsg vs, MkOffsets l)) ->
  nth_error (m_fields x) i = Some f -> nth_error l i = Some (lo, hi, nested) ->
  let e := emb (m_id x) in let q := skipn (N.to_nat hi) b in let b' := (firstn (N.to_nat lo) b ++ w ++ q)%list in
  len b' < 2 ^ 64 ->
  (lo < len b \/ (w ++ q)%list = [] \/ (items_delimited emb x /\ closed_fields emb e (firstn i (m_fields x)) (firstn i vs))) ->
  member m emb e (firstn i vs) f (w ++ q) (Found w v q) -> same_discriminants m x i vs v ->
  lo <= hi /\ hi <= n /\ read_msg m emb x b' = Ok (n - (hi - lo) + len w, VMsg (with_member i v vs)).
Proof. exact replace_any. Qed.
Print Assumptions C72_replace_any_partial.

(** In a message that ends with a payload the optional message goes. *)
Example C72_any_nonvacuous : bytes_ok raw_b /\ exists vs l f n1,
  read_msg_offsets Debug main_emb raw_x raw_b = Ok (len raw_b, (VMsg vs, MkOffsets l)) /\
  nth_error (m_fields raw_x) 1 = Some f /\ nth_error l 1 = Some (3, 12, n1) /\ 3 < len raw_b /\
  member Debug main_emb (main_emb (m_id raw_x)) (firstn 1 vs) f ([0] ++ skipn 12 raw_b) (Found [0] (VOpt None) (skipn 12 raw_b)) /\
  same_discriminants Debug raw_x 1 vs (VOpt None) /\ ~ self_delimiting main_emb raw_x.
Proof.
  split; [repeat constructor|]. do 4 eexists. split; [vm_compute; reflexivity|]. split; [reflexivity|]. split; [reflexivity|].
  split; [reflexivity|]. split; [apply member_absent; reflexivity|]. split.
  - intros j f u on Hj Hf Et. destruct j as [|[|[|j]]]; cbn in Hf; try (injection Hf as <-);
      try (destruct j; discriminate); try discriminate Et; lia.
  - intro D. apply (D (main_emb (m_id raw_x)) (nth 2 (m_fields raw_x) (MkMField "" TPayload false size_open Little))).
    apply part_here; [right; right; left; reflexivity|reflexivity].
Qed.

(** Exactly when an encoding of another value in the place of a member gives the message with this one
    member changed, for every message: unless a value before takes what is there now, or the new value
    takes what stands behind it, or the new bytes cannot be read even by themselves. *)
Theorem C72_replace_exact : forall m emb x b n vs l i f lo hi nested v w, len b < 2 ^ 64 -> bytes_ok b -> bytes_ok w ->
  read_msg_offsets m emb x b = Ok (n, (VMsg vs, MkOffsets l)) ->
  nth_error (m_fields x) i = Some f -> nth_error l i = Some (lo, hi, nested) ->
  encodes_member m f i vs v w -> same_discriminants m x i vs v ->
  let q := skipn (N.to_nat hi) b in let b' := (firstn (N.to_nat lo) b ++ w ++ q)%list in
  len b' < 2 ^ 64 ->
  let known := ((w ++ q)%list <> [] -> ~ swallowed_before m emb x vs i) /\ (q <> [] -> ~ swallows_member m emb (emb (m_id x)) f v) /\
    ~ unreadable_member m emb x f v w in
  (known -> read_msg m emb x b' = Ok (n - (hi - lo) + len w, VMsg (with_member i v vs))) /\
  (~ known -> forall n', read_msg m emb x b' <> Ok (n', VMsg (with_member i v vs))).
Proof. exact replace_iff. Qed.
Print Assumptions C72_replace_exact.

(** A message that is neither self-delimiting nor readable, with the payload left out: the mark behind it can
    be replaced, and a payload cannot be put in. *)
Example C72_exact_nonvacuous : bytes_ok tail_b /\
  read_msg_offsets Debug tail_emb tail_x tail_b = Ok (3, (VMsg tail_v, MkOffsets tail_o)) /\
  (encodes_member Debug (tail_f 1) 1 tail_v (VStruct [1; 2]) [1; 2] /\ same_discriminants Debug tail_x 1 tail_v (VStruct [1; 2]) /\
   ~ swallowed_before Debug tail_emb tail_x tail_v 1 /\ ~ unreadable_member Debug tail_emb tail_x (tail_f 1) (VStruct [1; 2]) [1; 2]) /\
  (encodes_member Debug (tail_f 0) 0 tail_v (VOpt (Some (VPayload [5]))) [1; 5] /\
   same_discriminants Debug tail_x 0 tail_v (VOpt (Some (VPayload [5]))) /\
   swallows_member Debug tail_emb (tail_emb (m_id tail_x)) (tail_f 0) (VOpt (Some (VPayload [5])))).
Proof.
  split; [repeat constructor|]. split; [exact tail_read|]. split; [split; [|split; [apply tail_unions|split]]|split; [|split; [apply tail_unions|]]].
  - repeat split; try reflexivity; repeat constructor.
  - intros (j & f & v & Hj & Hf & Hv & S). assert (j = 0%nat) by lia. subst j. inversion Hf; subst f. inversion Hv; subst v.
    inversion S; subst; try discriminate;
      match goal with X : held _ _ _ |- _ => discriminate X | X : holds _ _ _ _ |- _ => inversion X; subst; discriminate end.
  - intros [y z p c H _ _ _|ty y data k _ Et _ _]; [|discriminate]. inversion H; subst; discriminate.
  - exists 1, [5]. split; [lia|]. split; [exact I|]. split; [reflexivity|]. split; [repeat constructor|reflexivity].
  - apply (swallows_payload Debug tail_emb) with (u := VPayload [5]); reflexivity.
Qed.

(** So the claim is false of a message the compiler accepts. *)
Theorem C72_replace_refuted : exists emb x b n vs l i f lo hi nested v w,
  (exists ws ps p, session Debug ws ps /\ In p ps /\ In x (p_messages p) /\ emb = marked ws) /\
  read_msg_offsets Debug emb x b = Ok (n, (VMsg vs, MkOffsets l)) /\
  nth_error (m_fields x) i = Some f /\ nth_error l i = Some (lo, hi, nested) /\
  encodes_member Debug f i vs v w /\ same_discriminants Debug x i vs v /\
  read_msg Debug emb x (firstn (N.to_nat lo) b ++ w ++ skipn (N.to_nat hi) b)%list = Err Truncated.
Proof. exact replace_refuted. Qed.
Print Assumptions C72_replace_refuted.
