(** Proofs for C67, C69 and C70. *)

From Coq Require Import Arith NArith ZArith String List Bool Lia ZifyBool ZifyN ZifyNat.
From Verif Require Import Base Schema Codec Compiler Access Bits BitsFacts CodecFacts SpecComp SpecStruct StructFacts StructThms
  Utf8 Runtime Gen Loader SpecRun SpecWire MsgFacts WriteThms ReadThms SoundThms TotalThms SpecOffsets OffsetThms EnumThms LinkThms
  SpecEvolve EvolveThms Samples SamplesComp SamplesMsg MsgRefute.
Import ListNotations.
Local Open Scope N_scope.
Ltac Zify.zify_post_hook ::= idtac.

(** ** Messages *)

Lemma mfields_from_app : forall env l1 l2 fs n b mk,
  mfields_from_model env fs n b mk (l1 ++ l2) =
  ('(fs1, n1, b1, mk1) <- mfields_from_model env fs n b mk l1 ;; mfields_from_model env fs1 n1 b1 mk1 l2).
Proof.
  intros env l1 l2. induction l1 as [|v l1 IH]; intros fs n b mk; cbn [app mfields_from_model bind]; [reflexivity|].
  destruct (mfield_from_model env fs v) as [[f k]|e|]; [|reflexivity..]. cbn [bind].
  destruct (_ && _); [reflexivity|]. destruct (1 <? _); [reflexivity|]. apply IH.
Qed.
Lemma mfields_grow : forall env l fs n b mk fs' n' b' mk', mfields_from_model env fs n b mk l = Ok (fs', n', b', mk') ->
  (exists more, fs' = fs ++ more) /\ exists more, mk' = mk ++ more.
Proof.
  intros env. induction l as [|v l IH]; intros fs n b mk fs' n' b' mk' H; cbn [mfields_from_model] in H.
  - injection H as <- <- <- <-. split; exists []; rewrite app_nil_r; reflexivity.
  - destruct (mfield_from_model env fs v) as [[f k]|e|]; [|discriminate..]. cbn [bind] in H.
    destruct (_ && _); [discriminate|]. destruct (1 <? _); [discriminate|].
    apply IH in H. destruct H as ((m1 & ->) & m2 & ->). split; eexists; rewrite <- app_assoc; reflexivity.
Qed.

Theorem message_prefix : forall env id d d' x' mk', message_extended d d' -> message_from_model env id d' = Ok (x', mk') ->
  exists x mk, message_from_model env id d = Ok (x, mk) /\ m_id x' = m_id x /\ m_name x' = m_name x /\
    (exists more, m_fields x' = m_fields x ++ more) /\ exists more, mk' = mk ++ more.
Proof.
  intros env id d d' x' mk' (Hn & more & Hf) H. unfold message_from_model in *. rewrite Hf, mfields_from_app in H.
  destruct (mfields_from_model env [] 0 false [] (sm_fields d)) as [[[[fs1 n1] b1] mk1]|e|]; [|discriminate..]. cbn [bind] in *.
  destruct (mfields_from_model env fs1 n1 b1 mk1 more) as [[[[fs2 n2] b2] mk2]|e|] eqn:H2; [|discriminate..]. cbn [bind] in H.
  injection H as <- <-. apply mfields_grow in H2. destruct H2 as (H2 & H3).
  eexists. eexists. split; [reflexivity|]. cbn [m_id m_name m_fields]. auto.
Qed.

Lemma read_fields_app : forall m emb e b l1 l2 off prev,
  read_fields m emb e b (l1 ++ l2) off prev =
  ('(n, vs) <- read_fields m emb e b l1 off prev ;; read_fields m emb e b l2 n vs).
Proof.
  intros m emb e b l1 l2. induction l1 as [|[nm ty opt s endi] l1 IH]; intros off prev; cbn [app read_fields]; [reflexivity|].
  destruct (slice_from b off) as [d|?|]; [|reflexivity..]. cbn [bind].
  destruct (read_optional m opt (read_ty m emb e endi prev ty) d) as [[k v]|?|]; [|reflexivity..]. cbn [bind].
  destruct (uadd m off k) as [off'|?|]; [|reflexivity..]. apply IH.
Qed.
Lemma enc_fields_app : forall m pres l1 l2 prev rest b, enc_fields m pres (l1 ++ l2) prev rest b ->
  exists r1 r2 b1 b2, rest = r1 ++ r2 /\ b = b1 ++ b2 /\ enc_fields m pres l1 prev r1 b1 /\ enc_fields m pres l2 (prev ++ r1) r2 b2.
Proof.
  intros m pres l1 l2. induction l1 as [|f l1 IH]; intros prev rest b H; cbn [app] in H.
  - exists [], rest, [], b. rewrite app_nil_r. repeat split; auto.
  - destruct rest as [|y rest]; [contradiction|]. cbn [enc_fields] in H. destruct H as (b1 & b2 & -> & H1 & H2).
    apply IH in H2. destruct H2 as (r1 & r2 & c1 & c2 & -> & -> & H2 & H3).
    exists (y :: r1), r2, (b1 ++ c1), c2. split; [reflexivity|]. split; [rewrite app_assoc; reflexivity|].
    split; [cbn [enc_fields]; exists b1, c1; auto|]. rewrite <- app_assoc in H3. exact H3.
Qed.

Theorem old_reader : forall m emb x x' v' b more, m_fields x' = m_fields x ++ more -> self_delimiting emb x ->
  encodes_lax m x' v' b -> len b < 2 ^ 64 ->
  exists vs vs2 b1 b2, v' = VMsg (vs ++ vs2) /\ b = b1 ++ b2 /\ encodes_lax m x (VMsg vs) b1 /\
    read_msg m emb x b = Ok (len b1, VMsg vs).
Proof.
  intros m emb x x' v' b more Hf Hd He Hl. unfold encodes_lax in *. destruct v' as [?|?|?|? ?|? ?|vs|?|?]; try (destruct x'; contradiction).
  apply enc_msg_eq in He. rewrite Hf in He. apply enc_fields_app in He.
  destruct He as (r1 & r2 & b1 & b2 & -> & -> & H1 & _). exists r1, r2, b1, b2. split; [reflexivity|]. split; [reflexivity|].
  apply enc_msg_eq in H1. split; [exact H1|]. apply roundtrip_suffix; assumption.
Qed.

Lemma new_reader_rest : forall m emb x x' vs b more, m_fields x' = m_fields x ++ more -> m_id x' = m_id x -> self_delimiting emb x ->
  encodes_lax m x (VMsg vs) b -> len b < 2 ^ 64 ->
  read_msg m emb x' b = ('(n, us) <- read_fields m emb (emb (m_id x)) b more (len b) vs ;; Ok (n, VMsg us)).
Proof.
  intros m emb x x' vs b more Hf Hi Hd He Hl. pose proof (roundtrip_suffix m emb x (VMsg vs) b [] Hd He) as R.
  rewrite app_nil_r in R. specialize (R Hl). rewrite read_msg_eq in R. rewrite read_msg_eq, Hf, Hi, read_fields_app.
  destruct (read_fields m emb (emb (m_id x)) b (m_fields x) 0 []) as [[n us]|?|]; [|discriminate..]. cbn [bind] in *.
  injection R as -> ->. reflexivity.
Qed.
Lemma slice_from_end : forall E (b : bytes), slice_from (E:=E) b (len b) = Ok [].
Proof. intros E b. unfold slice_from. rewrite N.leb_refl. unfold len. rewrite Nat2N.id, skipn_all. reflexivity. Qed.
Lemma value_nil : forall e ty, value_reader e ty [] = Err Truncated.
Proof. intros [] []; reflexivity. Qed.

Lemma needs_truncated : forall m emb f, needs_input f -> forall e prev,
  read_optional m (mf_optional f) (read_ty m emb e (mf_endi f) prev (mf_ty f)) [] = Err Truncated.
Proof.
  intros m emb f H. induction H as [f H|f H|f y g r Ht Hy Hg IH]; intros e prev.
  - rewrite H. reflexivity.
  - destruct (mf_optional f); [reflexivity|]. cbn [read_optional].
    destruct (mf_ty f) as [ty|[st|y]| |ty|ty st|u on idx|ty y|]; try contradiction.
    + cbn [read_ty]. unfold rmap. rewrite value_nil. reflexivity.
    + rewrite read_ty_ref. cbn [read_ref]. unfold rmap, struct_from_slice. change (len (@nil N)) with 0.
      replace (0 <? s_byte_size st) with true by lia. reflexivity.
    + reflexivity.
    + cbn [read_ty]. unfold rmap, varchar_from_slice. rewrite value_nil. reflexivity.
    + cbn [read_ty]. unfold rmap, array_from_slice. rewrite value_nil. reflexivity.
    + rewrite read_ty_list. unfold rmap. destruct e; unfold list_from_slice, unsized_from_slice; rewrite value_nil; reflexivity.
  - destruct (mf_optional f); [reflexivity|]. cbn [read_optional]. rewrite Ht, read_ty_ref, read_ref_msg, read_msg_eq, Hy.
    specialize (IH (emb (m_id y)) []). destruct g as [nm ty opt s endi]. cbn [read_fields mf_ty mf_optional mf_endi] in *.
    change (slice_from (E:=rerror) (@nil N) 0) with (@Ok rerror bytes []). cbn [bind]. rewrite IH. reflexivity.
Qed.
Theorem new_reader_needs : forall m emb x x' vs b f more, m_fields x' = m_fields x ++ f :: more -> m_id x' = m_id x ->
  self_delimiting emb x -> encodes_lax m x (VMsg vs) b -> len b < 2 ^ 64 -> needs_input f -> read_msg m emb x' b = Err Truncated.
Proof.
  intros m emb x x' vs b f more Hf Hi Hd He Hl Hn. rewrite (new_reader_rest m emb x x' vs b _ Hf Hi Hd He Hl).
  pose proof (needs_truncated m emb f Hn (emb (m_id x)) vs) as R.
  destruct f as [nm ty opt s endi]. cbn [read_fields mf_ty mf_optional mf_endi] in *. rewrite slice_from_end. cbn [bind].
  rewrite R. reflexivity.
Qed.
Theorem new_reader_payload : forall m emb x x' vs b nm s endi,
  m_fields x' = m_fields x ++ [MkMField nm TPayload false s endi] -> m_id x' = m_id x ->
  self_delimiting emb x -> encodes_lax m x (VMsg vs) b -> len b < 2 ^ 64 ->
  read_msg m emb x' b = Ok (len b, VMsg (vs ++ [VPayload []])).
Proof.
  intros m emb x x' vs b nm s endi Hf Hi Hd He Hl. rewrite (new_reader_rest m emb x x' vs b _ Hf Hi Hd He Hl).
  cbn [read_fields]. rewrite slice_from_end. cbn [bind read_optional]. cbn [read_ty]. unfold rmap, buffer_from_slice. cbn [bind].
  change (len (@nil N)) with 0. rewrite uadd_fit by lia. rewrite N.add_0_r. reflexivity.
Qed.

(** ** Enums *)

Lemma enum_extension : forall d d' e, enum_extended d d' -> enum_from_model d = Ok e ->
  exists e', enum_from_model d' = Ok e' /\ e_name e' = e_name e /\ incl (e_variants e) (e_variants e') /\ e_largest e <= e_largest e'.
Proof.
  intros d d' e (Hn & Hi) H. destruct (enum_sorted d e H) as (H1 & H2 & _ & H3 & _).
  destruct (enum_result d') as [(C & _)|(_ & e' & H')].
  - rewrite C in Hi. apply in_map_iff in H3. destruct H3 as (y & _ & Hy). destruct (Hi y Hy).
  - exists e'. destruct (enum_sorted d' e' H') as (H1' & H2' & _ & _ & H4'). split; [exact H'|]. split; [congruence|]. split.
    + intros y Hy. eapply Permutation.Permutation_in; [symmetry; exact H2'|]. apply Hi. eapply Permutation.Permutation_in; [exact H2|exact Hy].
    + apply H4'. apply in_map_iff in H3. destruct H3 as (y & <- & Hy). apply in_map, Hi, Hy.
Qed.

Lemma view_extension : forall m enums enums' ty bs v r, enums_extended enums enums' ->
  view_from_model m enums ty bs v = Ok r -> exists r', view_from_model m enums' ty bs v = Ok r' /\
    match r with
    | VEnum e => exists e' d d', r' = VEnum e' /\ enum_extended d d' /\ enum_from_model d = Ok e /\ enum_from_model d' = Ok e'
    | _ => r' = r
    end.
Proof.
  intros m enums enums' ty bs v r Hx H.
  assert (Same : (forall e, r <> VEnum e) -> view_from_model m enums' ty bs v = Ok r -> exists r', view_from_model m enums' ty bs v = Ok r' /\
    match r with
    | VEnum e => exists e' d d', r' = VEnum e' /\ enum_extended d d' /\ enum_from_model d = Ok e /\ enum_from_model d' = Ok e'
    | _ => r' = r
    end).
  { intros Hne Hr. exists r. split; [exact Hr|]. destruct r; try reflexivity. destruct (Hne e eq_refl). }
  destruct v as [[name|lo hi|k]|].
  4:{ apply Same; [|exact H]. intros e ->. cbn [view_from_model] in H.
      repeat match type of H with context [if ?c then _ else _] => destruct c end; try discriminate H.
      repeat (apply bind_ok in H; destruct H as (? & _ & H)). discriminate. }
  - cbn [view_from_model] in *. destruct (negb _); [discriminate|]. specialize (Hx name).
    destruct (sget name enums) as [e|]; [|discriminate]. cbn [ok_or bind] in H. injection H as <-.
    destruct (sget name enums') as [e'|]; [|contradiction]. cbn [ok_or bind]. eexists. split; [reflexivity|].
    destruct Hx as (d & d' & Hx). exists e', d, d'. split; [reflexivity|exact Hx].
  - apply Same; [|exact H]. intros e ->. cbn [view_from_model] in H. destruct (negb _); [discriminate|].
    repeat (apply bind_ok in H; destruct H as (? & _ & H)). discriminate.
  - apply Same; [|exact H]. intros e ->. cbn [view_from_model] in H. destruct (negb _); discriminate.
Qed.

Lemma field_extension : forall m endi enums enums' structs off v f o, enums_extended enums enums' ->
  field_from_model m endi enums structs off v = Ok (f, o) ->
  exists f', field_from_model m endi enums' structs off v = Ok (f', o) /\ field_extended f f'.
Proof.
  intros m endi enums enums' structs off v f o Hx H. unfold field_from_model in *. cbv zeta in *.
  destruct (sf_info v) eqn:Hi.
  5:{ exists f. split; [exact H|]. apply bind_ok in H. destruct H as (? & _ & H). apply bind_ok in H. destruct H as (? & _ & H).
      injection H as <- _. reflexivity. }
  all: (apply bind_ok in H; destruct H as (bs0 & -> & H); cbn [bind];
    apply bind_ok in H; destruct H as (vw & Hv & H); apply (view_extension _ _ _ _ _ _ _ Hx) in Hv; destruct Hv as (vw' & -> & Hv); cbn [bind];
    apply bind_ok in H; destruct H as (nb & -> & H); cbn [bind];
    apply bind_ok in H; destruct H as (ty0 & -> & H); cbn [bind];
    (destruct (1 <? _);
     [ destruct (negb _); [discriminate|]; exists f; split; [exact H|]; apply bind_ok in H; destruct H as (? & _ & H); injection H as <- _; reflexivity
     | apply bind_ok in H; destruct H as (off' & -> & H); cbn [bind]; injection H as <- <-; eexists; split; [reflexivity|];
       cbn [field_extended ff_name ff_ty ff_loc ff_endianness ff_view]; repeat (split; [reflexivity|]); exact Hv ])).
Qed.
Lemma fields_extension : forall m endi enums enums' structs l off fs o, enums_extended enums enums' ->
  fields_from_model m endi enums structs off l = Ok (fs, o) ->
  exists fs', fields_from_model m endi enums' structs off l = Ok (fs', o) /\ Forall2 field_extended fs fs'.
Proof.
  intros m endi enums enums' structs l. induction l as [|v l IH]; intros off fs o Hx H; cbn [fields_from_model] in *.
  - injection H as <- <-. exists []. split; [reflexivity|constructor].
  - apply bind_ok in H. destruct H as ([f o1] & Hf & H). apply (field_extension _ _ _ _ _ _ _ _ _ Hx) in Hf.
    destruct Hf as (f' & -> & Hff). cbn [bind]. apply bind_ok in H. destruct H as ([fs1 o2] & Hfs & H). injection H as <- <-.
    apply (IH _ _ _ Hx) in Hfs. destruct Hfs as (fs' & -> & Hfs). cbn [bind]. eexists. split; [reflexivity|]. constructor; assumption.
Qed.

Theorem struct_enum_extension : forall m endi enums enums' structs id d s, enums_extended enums enums' ->
  structure_from_model m endi enums structs id d = Ok s ->
  exists s', structure_from_model m endi enums' structs id d = Ok s' /\ Forall2 field_extended (s_fields s) (s_fields s') /\
    s_name s' = s_name s /\ s_bit_size s' = s_bit_size s /\ s_byte_size s' = s_byte_size s.
Proof.
  intros m endi enums enums' structs id d s Hx H. unfold structure_from_model in *. apply bind_ok in H.
  destruct H as ([fs o] & Hf & H). injection H as <-. apply (fields_extension _ _ _ _ _ _ _ _ _ Hx) in Hf.
  destruct Hf as (fs' & -> & Hff). cbn [bind]. eexists. split; [reflexivity|]. cbn. auto.
Qed.

Lemma gen_fixed_ext : forall E f f', ff_loc f' = ff_loc f -> ff_endianness f' = ff_endianness f ->
  gen_fixed (E:=E) f' = gen_fixed f.
Proof. intros E f f' H1 H2. unfold gen_fixed. rewrite H1, H2. reflexivity. Qed.

Theorem enum_field_extension : forall E m f f' data, field_extended (FFixed f) (FFixed f') ->
  get_raw (E:=E) m f' data = get_raw m f data /\
  (forall v, set_raw (E:=E) m f' data v = set_raw m f data v) /\
  (forall x, set_view (E:=E) m f' data x = set_view m f data x) /\
  (forall x, get_view (E:=E) m f data = Ok x -> x <> XEnum None -> get_view (E:=E) m f' data = Ok x).
Proof.
  intros E m f f' data (_ & Ht & Hl & Hn & Hv). pose proof (gen_fixed_ext E f f' Hl Hn) as G.
  unfold get_raw, set_raw, set_view, get_view. rewrite G. split; [reflexivity|]. split; [reflexivity|].
  destruct (gen_fixed f) as [a|e|]; [|split; [reflexivity|discriminate]..]. cbn [bind]. split.
  - intro x. replace (view_set (E:=E) f' (ac_raw a) x) with (view_set (E:=E) f (ac_raw a) x); [reflexivity|].
    unfold view_set. rewrite Ht. destruct (ff_view f) eqn:V; try (rewrite Hv; reflexivity).
    destruct Hv as (e' & d & d' & -> & _). reflexivity.
  - intros x H Hne. apply bind_ok in H. destruct H as (raw & -> & H). cbn [bind]. unfold view_get in *. rewrite Ht.
    destruct (ff_view f) eqn:V; try (rewrite Hv; exact H). destruct Hv as (e' & d & d' & -> & Hx & He & He').
    destruct (enum_extension d d' e Hx He) as (e2 & He2 & _ & _ & Hle). rewrite He' in He2. injection He2 as <-.
    destruct (e_largest e <? raw) eqn:C; [injection H as <-; congruence|].
    replace (e_largest e' <? raw) with false by lia. exact H.
Qed.

(** ** Protocols *)

Lemma foldM_app : forall E A S (f : S -> A -> outcome E S) l1 l2 s,
  foldM f s (l1 ++ l2) = (s' <- foldM f s l1 ;; foldM f s' l2).
Proof.
  intros E A S f l1 l2. induction l1 as [|x l1 IH]; intro s; cbn [app foldM bind]; [reflexivity|].
  destruct (f s x) as [s'|e|]; [apply IH|reflexivity..].
Qed.
(** What is marked by an added message is the item type of one of its lists. *)
Definition lists_id (x : message) (id : N) : Prop := exists f ty y, In f (m_fields x) /\ mf_ty f = TList ty y /\ m_id y = id.
Lemma mfield_marks : forall env fs v f mk, mfield_from_model env fs v = Ok (f, mk) ->
  forall id, In id mk -> exists ty y, mf_ty f = TList ty y /\ m_id y = id.
Proof.
  intros env fs v f mk H id Hid. unfold mfield_from_model in H. cbv zeta in H.
  destruct (smf_info v) as [it|ml it|[ml|]| |on it].
  - apply bind_ok in H. destruct H as ([s|x] & _ & H); [destruct (flattened s)|]; injection H as <- <-; destruct Hid.
  - apply bind_ok in H. destruct H as ([s|x] & _ & H); apply bind_ok in H; destruct H as (ty & _ & H); injection H as <- <-; [destruct Hid|].
    destruct Hid as [<- | []]. exists ty, x. split; reflexivity.
  - apply bind_ok in H. destruct H as (ty & _ & H). injection H as <- <-. destruct Hid.
  - injection H as <- <-. destruct Hid.
  - injection H as <- <-. destruct Hid.
  - apply bind_ok in H. destruct H as ([oi g] & _ & H). apply bind_ok in H. destruct H as (u & _ & H).
    destruct (mf_ty g) as [|[s|x]| | | | | |]; try discriminate. destruct (_ =? _); [|discriminate]. injection H as <- <-. destruct Hid.
Qed.
Lemma mfields_marks : forall env l fs n b mk fs' n' b' mk', mfields_from_model env fs n b mk l = Ok (fs', n', b', mk') ->
  forall id, In id mk' -> In id mk \/ exists f ty y, In f fs' /\ mf_ty f = TList ty y /\ m_id y = id.
Proof.
  intros env. induction l as [|v l IH]; intros fs n b mk fs' n' b' mk' H id Hid; cbn [mfields_from_model] in H.
  - injection H as <- <- <- <-. left. exact Hid.
  - destruct (mfield_from_model env fs v) as [[f k]|e|] eqn:Hf; [|discriminate..]. cbn [bind] in H.
    destruct (_ && _); [discriminate|]. destruct (1 <? _); [discriminate|].
    destruct (mfields_grow _ _ _ _ _ _ _ _ _ _ H) as ((more & ->) & _).
    destruct (IH _ _ _ _ _ _ _ _ H id Hid) as [C|C]; [|right; exact C]. apply in_app_or in C. destruct C as [C|C]; [left; exact C|].
    right. destruct (mfield_marks _ _ _ _ _ Hf id C) as (ty & y & E1 & E2). exists f, ty, y. split; [|auto].
    apply in_or_app. left. apply in_or_app. right. left. reflexivity.
Qed.
Lemma message_marks : forall env id0 d x mk, message_from_model env id0 d = Ok (x, mk) -> forall id, In id mk -> lists_id x id.
Proof.
  intros env id0 d x mk H id Hid. unfold message_from_model in H. apply bind_ok in H. destruct H as ([[[fs n] b] mk'] & Hf & H).
  injection H as <- <-. destruct (mfields_marks _ _ _ _ _ _ _ _ _ _ Hf id Hid) as [[]|C]. exact C.
Qed.
Lemma messages_grow : forall l p w p' w', foldM define_message (p, w) l = Ok (p', w') ->
  p_enums p' = p_enums p /\ p_structs p' = p_structs p /\ p_unions p' = p_unions p /\
  exists more marks, p_messages p' = p_messages p ++ more /\ w_embedded w' = w_embedded w ++ marks /\
    forall id, In id marks -> exists x, In x more /\ lists_id x id.
Proof.
  induction l as [|v l IH]; intros p w p' w' H; cbn [foldM] in H.
  - injection H as <- <-. repeat (split; [reflexivity|]). exists [], []. rewrite !app_nil_r. repeat split. intros id [].
  - apply bind_ok in H. destruct H as ([p1 w1] & H1 & H). apply IH in H. unfold define_message in H1.
    apply bind_ok in H1. destruct H1 as ([x mk] & Hx & H1). injection H1 as <- <-.
    cbn [add_message p_enums p_structs p_unions p_messages w_embedded] in H.
    destruct H as (-> & -> & -> & more & marks & E1 & E2 & H). repeat (split; [reflexivity|]).
    exists (x :: more), (mk ++ marks)%list. rewrite E1, E2, <- !app_assoc. repeat (split; [reflexivity|]).
    intros id Hid. apply in_app_or in Hid. destruct Hid as [Hid|Hid].
    + exists x. split; [left; reflexivity|]. apply (message_marks _ _ _ _ _ Hx id Hid).
    + destruct (H id Hid) as (y & Hy & Hl). exists y. split; [right; exact Hy|exact Hl].
Qed.

Theorem protocol_prefix : forall m solver w d d' p' w', messages_added d d' -> protocol_from_model m solver w d' = Ok (p', w') ->
  exists p w1 more, protocol_from_model m solver w d = Ok (p, w1) /\ p_enums p' = p_enums p /\ p_structs p' = p_structs p /\
    p_unions p' = p_unions p /\ p_messages p' = p_messages p ++ more /\
    (forall id, marked w1 id = true -> marked w' id = true) /\
    (forall id, marked w' id = true -> marked w1 id = true \/ exists x, In x more /\ lists_id x id).
Proof.
  intros m solver w d d' p' w' (H1 & _ & H2 & H3 & H4 & H5 & added & H6) H. unfold protocol_from_model in *.
  rewrite H1, H2, H3, H4, H5, H6 in H.
  destruct (foldM (import_one solver) _ _) as [q|?|]; [|discriminate..]. cbn [bind] in *.
  destruct (foldM define_enum q _) as [q1|?|]; [|discriminate..]. cbn [bind] in *.
  destruct (foldM (define_struct m) (q1, w) _) as [[q2 w2]|?|]; [|discriminate..]. cbn [bind] in *.
  destruct (foldM define_union q2 _) as [q3|?|]; [|discriminate..]. cbn [bind] in *.
  rewrite foldM_app in H. apply bind_ok in H. destruct H as ([q4 w4] & Hq & H). rewrite Hq. apply messages_grow in H.
  destruct H as (E1 & E2 & E3 & more & marks & E4 & E5 & E6). exists q4, w4, more. repeat (split; [assumption || reflexivity|]).
  unfold marked. rewrite E5. split; intro id; rewrite existsb_app; [intros ->; reflexivity|].
  intro C. apply orb_prop in C. destruct C as [C|C]; [left; exact C|]. right. apply existsb_exists in C.
  destruct C as (k & Hk & C). apply N.eqb_eq in C. subst k. apply E6, Hk.
Qed.

(** Marks only matter for messages with lists. *)
Definition same_reader {A} (r r' : reader A) : Prop := forall b, r b = r' b.
Lemma same_optional : forall m opt r r', same_reader r r' -> same_reader (read_optional m opt r) (read_optional m opt r').
Proof.
  intros m [] r r' H b; cbn [read_optional]; [|apply H]. unfold rmap, optional_from_slice.
  destruct (len b <? 1); [reflexivity|]. destruct (unwrap (nth_error b 0)) as [fl|?|]; [|reflexivity..]. cbn [bind].
  destruct (0 <? fl); [|reflexivity]. destruct (slice_from b 1) as [d|?|]; [|reflexivity..]. cbn [bind]. rewrite H. reflexivity.
Qed.
Lemma same_loop : forall A m (r r' : reader A), same_reader r r' -> forall b n t, list_loop m r b n t = list_loop m r' b n t.
Proof.
  intros A m r r' H b. induction n as [|n IH]; intro t; cbn [list_loop]; [reflexivity|].
  destruct (slice_from b t) as [d|?|]; [|reflexivity..]. cbn [bind]. rewrite H. destruct (r' d) as [[k v]|?|]; [|reflexivity..].
  cbn [bind]. destruct (uadd m t k); [apply IH|reflexivity..].
Qed.
Lemma same_ref : forall m emb emb' r, (forall y, r = RMessage y -> same_reader (read_msg m emb y) (read_msg m emb' y)) ->
  same_reader (read_ref m emb r) (read_ref m emb' r).
Proof. intros m emb emb' [s|x] H; [intro b; reflexivity|apply (H x eq_refl)]. Qed.

Theorem marks_irrelevant : forall m emb emb' x, (forall id, emb id = true -> emb' id = true) -> self_delimiting emb x ->
  self_delimiting emb' x /\ forall b, read_msg m emb' x b = read_msg m emb x b.
Proof.
  intros m emb emb' x Hm Hd. split.
  - assert (G : forall y e f, part emb' y e f -> exists e0, part emb y e0 f /\ (e0 = true -> e = true)).
    { intros y e f Hp. induction Hp as [y e f Hin Ee|y e f g z Hin Hz Hp IH].
      - exists (emb (m_id y)). split; [apply part_here; auto|rewrite Ee; apply Hm].
      - destruct IH as (e0 & Hp0 & He0). exists e0. split; [eapply part_deep; eauto|exact He0]. }
    intros e f Hp. destruct (G x e f Hp) as (e0 & Hp0 & He0). specialize (Hd _ _ Hp0). destruct (mf_ty f); auto.
  - revert x Hd. apply (message_ind_inside (fun x => self_delimiting emb x -> forall b, read_msg m emb' x b = read_msg m emb x b)).
    intros x IH Hd b. rewrite !read_msg_eq.
    assert (G : forall fs off prev, incl fs (m_fields x) ->
      read_fields m emb' (emb' (m_id x)) b fs off prev = read_fields m emb (emb (m_id x)) b fs off prev).
    { induction fs as [|[nm ty opt s endi] fs IHfs]; intros off prev Hinc; cbn [read_fields]; [reflexivity|].
      assert (Hin : In (MkMField nm ty opt s endi) (m_fields x)) by (apply Hinc; left; reflexivity).
      destruct (self_delimiting_field emb x _ Hd Hin) as (D1 & D2 & D3). cbn [mf_ty] in D1, D2, D3.
      assert (Hy : forall y, inside ty y -> same_reader (read_msg m emb' y) (read_msg m emb y)).
      { intros y Hy. exact (IH _ y Hin Hy (D3 y Hy)). }
      assert (Ht : same_reader (read_ty m emb' (emb' (m_id x)) endi prev ty) (read_ty m emb (emb (m_id x)) endi prev ty)).
      { destruct ty as [ty|r| |ty|ty st|u on idx|ty z|]; try (intro; reflexivity).
        - rewrite !read_ty_ref. apply same_ref. intros y ->. apply Hy. constructor.
        - rewrite !read_ty_union. intro c. rewrite !read_union_eq.
          destruct (read_discriminant m (u_disc u) (nth_error prev idx)) as [disc|?|]; [|reflexivity..]. cbn [bind].
          destruct (find_case disc 0 (u_cases u)) as [[i uc]|] eqn:F; [|reflexivity]. apply find_case_in in F.
          destruct F as (Fin & _). destruct (uc_item uc) as [r|] eqn:Er; [|reflexivity]. assert (S : same_reader (read_ref m emb' r) (read_ref m emb r)) by (apply same_ref; intros y ->; apply Hy; econstructor; eauto).
          unfold same_reader in S. rewrite S. reflexivity.
        - rewrite !read_ty_list, (D2 _ _ eq_refl), (Hm _ (D2 _ _ eq_refl)). intro c. unfold rmap, list_from_slice.
          destruct (value_reader endi ty c) as [[k n]|?|]; [|reflexivity..]. cbn [bind].
          destruct (slice_from c k) as [d|?|]; [|reflexivity..]. cbn [bind]. rewrite (same_loop _ m _ (read_msg m emb z)); [reflexivity|].
          apply Hy. constructor. }
      destruct (slice_from b off) as [d|?|]; [|reflexivity..]. cbn [bind]. rewrite (same_optional m opt _ _ Ht d : _ = _).
      destruct (read_optional m opt _ d) as [[k v]|?|]; [|reflexivity..]. cbn [bind].
      destruct (uadd m off k); [|reflexivity..]. apply IHfs. intros g Hg. apply Hinc. right. exact Hg. }
    rewrite G by apply incl_refl. reflexivity.
Qed.

Theorem marks_agree_lists : forall m emb emb' x, (forall y, within x y -> has_list y -> emb' (m_id y) = emb (m_id y)) ->
  forall b, read_msg m emb' x b = read_msg m emb x b.
Proof.
  intros m emb emb'. apply (message_ind_inside (fun x => (forall y, within x y -> has_list y -> emb' (m_id y) = emb (m_id y)) ->
    forall b, read_msg m emb' x b = read_msg m emb x b)).
  intros x IH Hw b. rewrite !read_msg_eq.
  assert (G : forall fs off prev, incl fs (m_fields x) ->
    read_fields m emb' (emb' (m_id x)) b fs off prev = read_fields m emb (emb (m_id x)) b fs off prev).
  { induction fs as [|[nm ty opt s endi] fs IHfs]; intros off prev Hinc; cbn [read_fields]; [reflexivity|].
    assert (Hin : In (MkMField nm ty opt s endi) (m_fields x)) by (apply Hinc; left; reflexivity).
    assert (Hy : forall y, inside ty y -> same_reader (read_msg m emb' y) (read_msg m emb y)).
    { intros y Hy. exact (IH _ y Hin Hy (fun z Hz => Hw z (within_deep x _ y z Hin Hy Hz))). }
    assert (Ht : same_reader (read_ty m emb' (emb' (m_id x)) endi prev ty) (read_ty m emb (emb (m_id x)) endi prev ty)).
    { destruct ty as [ty|r| |ty|ty st|u on idx|ty z|]; try (intro; reflexivity).
      - rewrite !read_ty_ref. apply same_ref. intros y ->. apply Hy. constructor.
      - rewrite !read_ty_union. intro c. rewrite !read_union_eq.
        destruct (read_discriminant m (u_disc u) (nth_error prev idx)) as [disc|?|]; [|reflexivity..]. cbn [bind].
        destruct (find_case disc 0 (u_cases u)) as [[i uc]|] eqn:F; [|reflexivity]. apply find_case_in in F.
        destruct F as (Fin & _). destruct (uc_item uc) as [r|] eqn:Er; [|reflexivity].
        assert (S : same_reader (read_ref m emb' r) (read_ref m emb r)) by (apply same_ref; intros y ->; apply Hy; econstructor; eauto).
        unfold same_reader in S. rewrite S. reflexivity.
      - assert (Hx : emb' (m_id x) = emb (m_id x)).
        { apply Hw; [apply within_here|]. exists (MkMField nm (TList ty z) opt s endi), ty, z. split; [exact Hin|reflexivity]. }
        rewrite !read_ty_list, Hx. destruct (emb (m_id x)); [|intro c; reflexivity]. intro c. unfold rmap, list_from_slice.
        destruct (value_reader endi ty c) as [[k n]|?|]; [|reflexivity..]. cbn [bind].
        destruct (slice_from c k) as [d|?|]; [|reflexivity..]. cbn [bind]. rewrite (same_loop _ m _ (read_msg m emb z)); [reflexivity|].
        apply Hy. constructor. }
    destruct (slice_from b off) as [d|?|]; [|reflexivity..]. cbn [bind]. rewrite (same_optional m opt _ _ Ht d : _ = _).
    destruct (read_optional m opt _ d) as [[k v]|?|]; [|reflexivity..]. cbn [bind].
    destruct (uadd m off k); [|reflexivity..]. apply IHfs. intros g Hg. apply Hinc. right. exact Hg. }
  rewrite G by apply incl_refl. reflexivity.
Qed.
Theorem marks_agree : forall m emb emb' x, (forall y, within x y -> emb' (m_id y) = emb (m_id y)) ->
  forall b, read_msg m emb' x b = read_msg m emb x b.
Proof. intros m emb emb' x H. apply marks_agree_lists. intros y Hy _. exact (H y Hy). Qed.

Theorem added_unlisted : forall mc mr solver w d d' p w1 p' w2, messages_added d d' ->
  protocol_from_model mc solver w d = Ok (p, w1) -> protocol_from_model mc solver w d' = Ok (p', w2) ->
  exists more, p_messages p' = (p_messages p ++ more)%list /\
    forall x, (forall y z f ty u, within x y -> has_list y -> In z more -> In f (m_fields z) -> mf_ty f = TList ty u -> m_id u <> m_id y) ->
    forall b, read_msg mr (marked w2) x b = read_msg mr (marked w1) x b.
Proof.
  intros mc mr solver w d d' p w1 p' w2 Hx Hp Hp'. destruct (protocol_prefix _ _ _ _ _ _ _ Hx Hp') as (q & w3 & more & Hq & _ & _ & _ & Em & M1 & M2).
  rewrite Hp in Hq. injection Hq as <- <-. exists more. split; [exact Em|]. intros x Hn b. apply marks_agree_lists. intros y Hy Hyl.
  destruct (marked w1 (m_id y)) eqn:E1; [apply M1, E1|]. destruct (marked w2 (m_id y)) eqn:E2; [|reflexivity].
  destruct (M2 _ E2) as [C|(z & Hz & f & ty & u & Hf & Et & Eu)]; [congruence|]. destruct (Hn y z f ty u Hy Hyl Hz Hf Et Eu).
Qed.

(** ** A message that can no longer be read after another one was added *)

Definition grown_v : sprotocol :=
  {| sp_name := sp_name extra_v; sp_endianness := None; sp_imports := sp_imports extra_v; sp_enums := sp_enums extra_v;
     sp_structs := sp_structs extra_v; sp_unions := sp_unions extra_v;
     sp_messages := (sp_messages extra_v ++
       [ {| sm_name := "Groups"; sm_fields := [ fld "items" (MTList 100 "Outers") ] |} ])%list |}.
Definition grown_pw : protocol * world :=
  Eval vm_compute in get_ok dummy_p (protocol_from_model Debug main_solver (snd lib_pw) grown_v).
Lemma grown_ok : protocol_from_model Debug main_solver (snd lib_pw) grown_v = Ok grown_pw.
Proof. vm_compute. reflexivity. Qed.

Lemma outers_encodes : forall m, encodes m outers_x (VMsg [VListing (inner_b ++ inner_b) 2]) (2 :: inner_b ++ inner_b).
Proof.
  intro m. apply enc_msg_eq. cbn [m_fields outers_x enc_fields]. exists (2 :: inner_b ++ inner_b)%list, [].
  split; [rewrite app_nil_r; reflexivity|]. split; [|reflexivity].
  exists [2], [outer_v; outer_v], [inner_b; inner_b]. split; [num|]. split; [reflexivity|].
  split; [|split; [reflexivity|reflexivity]]. constructor; [apply outer_encodes|]. constructor; [apply outer_encodes|constructor].
Qed.
Theorem added_message_refuted : exists solver w d d' p w1 p' w2 x v b,
  messages_added d d' /\ protocol_from_model Debug solver w d = Ok (p, w1) /\ protocol_from_model Debug solver w d' = Ok (p', w2) /\
  In x (p_messages p) /\ In x (p_messages p') /\
  forall m, encodes m x v b /\ read_msg m (marked w1) x b = Ok (len b, v) /\ read_msg m (marked w2) x b = Err Truncated.
Proof.
  exists main_solver, (snd lib_pw), extra_v, grown_v, extra_p, (snd extra_pw), (fst grown_pw), (snd grown_pw), outers_x,
    (VMsg [VListing (inner_b ++ inner_b) 2]), (2 :: inner_b ++ inner_b)%list.
  split; [repeat (split; [reflexivity|]); eexists; reflexivity|]. split; [exact extra_ok|]. split; [exact grown_ok|].
  split; [do 6 right; left; reflexivity|]. split; [do 6 right; left; reflexivity|].
  intro m. split; [apply outers_encodes|]. split; destruct m; vm_compute; reflexivity.
Qed.

(** ** Structures, enums and input in pieces: the statements used in Props_Evolve *)

Theorem struct_evolution : forall m endi enums structs id d d' s', struct_extended d d' ->
  structure_from_model m endi enums structs id d' = Ok s' -> no_overflow m structs d' ->
  exists s, structure_from_model m endi enums structs id d = Ok s /\ no_overflow m structs d /\ s_name s' = s_name s /\
    (exists more, s_fields s' = (s_fields s ++ more)%list) /\ s_bit_size s <= s_bit_size s' /\ s_byte_size s <= s_byte_size s'.
Proof.
  intros m endi enums structs id d d' s' Hx H Ho. destruct (struct_prefix _ _ _ _ _ _ _ _ Hx H) as (s & Hs & Hn & Hm).
  destruct (struct_prefix_size _ _ _ _ _ _ _ _ _ Hx H Hs Ho) as (H1 & H2 & H3). exists s. auto 10.
Qed.

Theorem struct_old_reader : forall m emb s s' b n' v', s_byte_size s <= s_byte_size s' ->
  read_ref m emb (RStruct s') b = Ok (n', v') ->
  exists old rest, v' = VStruct (old ++ rest) /\ read_ref m emb (RStruct s) b = Ok (s_byte_size s, VStruct old) /\
    len old = s_byte_size s.
Proof.
  intros m emb s s' b n' v' Hle H. cbn [read_ref] in *. unfold rmap, struct_from_slice in *.
  destruct (N.ltb_spec (len b) (s_byte_size s')); [discriminate|]. destruct (N.ltb_spec (len b) (s_byte_size s)); [lia|].
  unfold slice in *. replace ((0 <=? s_byte_size s') && (s_byte_size s' <=? len b)) with true in H by lia.
  replace ((0 <=? s_byte_size s) && (s_byte_size s <=? len b)) with true by lia. cbn [bind] in *. injection H as <- <-.
  rewrite !N.sub_0_r. cbn [N.to_nat skipn].
  exists (firstn (N.to_nat (s_byte_size s)) b), (skipn (N.to_nat (s_byte_size s)) (firstn (N.to_nat (s_byte_size s')) b)).
  split; [|split; [reflexivity|apply len_firstn'; lia]]. f_equal.
  rewrite <- (firstn_skipn (N.to_nat (s_byte_size s)) (firstn (N.to_nat (s_byte_size s')) b)) at 1. f_equal.
  rewrite firstn_firstn, Nat.min_l by lia. reflexivity.
Qed.

Definition holes_more : senum := {| se_name := "Holes"; se_variants := [("A", 0); ("B", 5); ("C", 3)]%string |}.
Theorem enum_evolution_refuted : exists d d' e e' f n data,
  enum_extended d d' /\ enum_from_model d = Ok e /\ enum_from_model d' = Ok e' /\ ff_view f = VEnum e /\
  In f (map (fun x => match x with FFixed g => g | _ => f end) (s_fields enum_fields_s)) /\
  In n (map snd (se_variants d')) /\ ~ In n (map snd (se_variants d)) /\
  forall m, get_view (E:=rerror) m f data = Ok (XEnum (Some n)).
Proof.
  exists holes, holes_more, (the_enum holes), (the_enum holes_more), (enum_fixed 0), 3, [3; 0].
  split; [split; [reflexivity|intros x [<- | [<- | []]]; cbn; auto]|]. split; [vm_compute; reflexivity|].
  split; [vm_compute; reflexivity|]. split; [vm_compute; reflexivity|]. split; [vm_compute; left; reflexivity|].
  split; [cbn; auto|]. split; [cbn; intros [C|[C|[]]]; discriminate|]. intros []; vm_compute; reflexivity.
Qed.

Theorem pieces_refuted : exists emb x b s, accepted_msg emb x /\
  forall m, read_msg m emb x b = Ok (1, VMsg [VPayload [1]]) /\ read_msg m emb x (b ++ s) = Ok (2, VMsg [VPayload [1; 2]]).
Proof. exists extra_emb, pay_x, [1], [2]. split; [acc|]. intros []; split; vm_compute; reflexivity. Qed.
Theorem pieces_list_refuted : exists emb x b s v, accepted_msg emb x /\
  forall m, read_msg m emb x b = Ok (len b, v) /\ read_msg m emb x (b ++ s) <> Ok (len b, v).
Proof.
  exists extra_emb, inner_x, inner_b, [7]. eexists. split; [acc|]. intros []; (split; [vm_compute; reflexivity|vm_compute; discriminate]).
Qed.

Theorem session_pieces : forall mc mr w ps emb p x, session mc w ps -> sizes_fit mc ps -> In p ps -> In x (p_messages p) ->
  union_fields_usable x -> guarded_lengths emb x -> self_delimiting emb x ->
  forall b s, len (b ++ s) < 2 ^ 64 -> bytes_ok b ->
  read_msg mr emb x b = Err Truncated \/ read_msg mr emb x (b ++ s) = read_msg mr emb x b.
Proof.
  intros mc mr w ps emb p x H1 H2 H3 H4 H5 H6 Hd b s Hl Hb. assert (len b < 2 ^ 64) by (rewrite len_app in Hl; lia).
  pose proof (session_no_panic mc mr w ps emb p x H1 H2 H3 H4 H5 H6 b H Hb) as Np.
  pose proof (read_final mr emb x Hd b s Hl) as F. unfold final_result in F.
  destruct (read_msg mr emb x b) as [a|[]|]; auto; congruence.
Qed.

(** The sample message Frame, with one more field. *)
Definition frame_env : proto_env :=
  {| pe_endianness := p_endianness extra_p; pe_structs := p_structs_by_name extra_p;
     pe_messages := p_messages_by_name extra_p; pe_unions := p_unions_by_name extra_p |}.
Definition frame_d : smessage := hd {| sm_name := ""; sm_fields := [] |} (sp_messages extra_v).
Definition frame_with (f : smfield) : smessage := {| sm_name := "Frame"; sm_fields := sm_fields frame_d ++ [f] |}.
Definition frame_of (d : smessage) : message :=
  fst (get_ok (MkMessage 0 "" [] size_static, []) (message_from_model frame_env (m_id frame_x) d)).
Definition frame_id_x : message := Eval vm_compute in frame_of (frame_with (fld "last" (MTItem "Id"))).
Definition frame_pay_x : message := Eval vm_compute in frame_of (frame_with (fld "tail" MTPayload)).
Lemma frame_same : exists mk, message_from_model frame_env (m_id frame_x) frame_d = Ok (frame_x, mk).
Proof. eexists. vm_compute. reflexivity. Qed.
Definition demo_more : sstruct := {| ss_name := "Demo"; ss_fields := ss_fields demo ++ [scalar "last" (STUnsigned 8)] |}.
