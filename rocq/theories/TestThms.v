(** Proofs of C82: the guards of the general theorems hold for the descriptions of the test
    program. *)

From Coq Require Import Arith NArith String List Bool Lia.
From Verif Require Import Base Schema Compiler Access Bits Runtime Gen Loader SpecLoader SpecStruct SpecWire SpecRun
  StructFacts NestedThms ReadThms SoundThms ReadableThms LinkThms TotalThms LoaderSession CheckThms EvolveMore TestJson TestProgram.
Import ListNotations.
Local Open Scope N_scope.
Local Open Scope string_scope.

Definition depth := 12%nat.
Definition result1 := Eval vm_compute in build first_run.
Definition result2 := Eval vm_compute in build second_run.
Definition result3 := Eval vm_compute in build third_run.
Lemma build1 : forall m, build_in m first_run = result1.
Proof. intros []; vm_cast_no_check (eq_refl result1). Qed.
Lemma build2 : forall m, build_in m second_run = result2.
Proof. intros []; vm_cast_no_check (eq_refl result2). Qed.
Lemma build3 : forall m, build_in m third_run = result3.
Proof. intros []; vm_cast_no_check (eq_refl result3). Qed.
Lemma same_build : forall m m' run, In run runs -> build_in m run = build_in m' run.
Proof.
  intros m m' run [<- | [<- | [<- | []]]]; [rewrite !build1|rewrite !build2|rewrite !build3]; reflexivity.
Qed.

Lemma build_session : forall m run ps w, In run runs -> build_in m run = Ok (ps, w) ->
  exists qs, session Debug w (qs ++ ps)%list.
Proof.
  intros m run ps w Hr H. rewrite (same_build m Debug run Hr) in H. unfold build_in in H. apply bind_ok in H.
  destruct H as (calls & _ & H). destruct (loader_compile Debug (loader_after calls) (solver_new "::")) as [[ps' w']|e|] eqn:E;
    try discriminate H. injection H as <- <-. eapply loader_session; exact E.
Qed.

Definition over (f : world -> protocol -> bool) (r : outcome unit (list protocol * world)) : bool :=
  match r with Ok (ps, w) => forallb (f w) ps | _ => false end.
Lemma over_all : forall f, forallb (over f) [result1; result2; result3] = true ->
  forall m run ps w p, In run runs -> build_in m run = Ok (ps, w) -> In p ps -> f w p = true.
Proof.
  intros f H m run ps w p Hr Hb Hp. cbn [forallb] in H. apply andb_prop in H. destruct H as [H1 H].
  apply andb_prop in H. destruct H as [H2 H]. apply andb_prop in H. destruct H as [H3 _].
  assert (K : over f (build_in m run) = true).
  { destruct Hr as [<- | [<- | [<- | []]]]; [rewrite build1|rewrite build2|rewrite build3]; assumption. }
  rewrite Hb in K. cbn [over] in K. rewrite forallb_forall in K. exact (K _ Hp).
Qed.
Definition messages (f : world -> message -> bool) (w : world) (p : protocol) : bool := forallb (f w) (p_messages p).
Lemma messages_all : forall f, forallb (over (messages f)) [result1; result2; result3] = true ->
  forall m run ps w p x, In run runs -> build_in m run = Ok (ps, w) -> In p ps -> In x (p_messages p) -> f w x = true.
Proof.
  intros f H m run ps w p x Hr Hb Hp Hx. pose proof (over_all _ H _ _ _ _ _ Hr Hb Hp) as K. unfold messages in K.
  rewrite forallb_forall in K. exact (K _ Hx).
Qed.

Lemma builds : forall m run, In run runs -> exists ps w, build_in m run = Ok (ps, w).
Proof.
  intros m run [<- | [<- | [<- | []]]]; [rewrite build1|rewrite build2|rewrite build3]; do 2 eexists; reflexivity.
Qed.

Lemma test_readable : forall m run ps w p x, In run runs -> build_in m run = Ok (ps, w) -> In p ps -> In x (p_messages p) ->
  readable (marked w) x.
Proof.
  intros m run ps w p x Hr Hb Hp Hx. eapply (is_readable_sound depth).
  refine (messages_all (fun w x => is_readable depth (marked w) x) _ _ _ _ _ _ _ Hr Hb Hp Hx). vm_compute. reflexivity.
Qed.
Lemma unless : forall (n k : string) b, (String.eqb n k || b)%bool = true -> n <> k -> b = true.
Proof. intros n k b H Hn. apply String.eqb_neq in Hn. rewrite Hn in H. exact H. Qed.
Lemma test_delimited : forall m run ps w p x, In run runs -> build_in m run = Ok (ps, w) -> In p ps -> In x (p_messages p) ->
  m_name x <> "Dataset" -> self_delimiting (marked w) x.
Proof.
  intros m run ps w p x Hr Hb Hp Hx Hn. eapply (is_delimiting_sound depth). eapply unless; [|exact Hn].
  refine (messages_all (fun w x => String.eqb (m_name x) "Dataset" || is_delimiting depth (marked w) x)%bool _ _ _ _ _ _ _ Hr Hb Hp Hx).
  vm_compute. reflexivity.
Qed.
Lemma test_no_varchar : forall m run ps w p x, In run runs -> build_in m run = Ok (ps, w) -> In p ps -> In x (p_messages p) ->
  m_name x <> "Test" -> forall e f ty, part (marked w) x e f -> mf_ty f <> TVarcharString ty.
Proof.
  intros m run ps w p x Hr Hb Hp Hx Hn. eapply (no_varchar_sound depth). eapply unless; [|exact Hn].
  refine (messages_all (fun w x => String.eqb (m_name x) "Test" || all_parts depth (marked w) no_varchar x)%bool _ _ _ _ _ _ _ Hr Hb Hp Hx).
  vm_compute. reflexivity.
Qed.
Lemma test_guarded : forall m run ps w p x, In run runs -> build_in m run = Ok (ps, w) -> In p ps -> In x (p_messages p) ->
  m_name x <> "Test" -> guarded_lengths (marked w) x.
Proof.
  intros m run ps w p x Hr Hb Hp Hx Hn. eapply (guarded_sound depth). eapply unless; [|exact Hn].
  refine (messages_all (fun w x => String.eqb (m_name x) "Test" || all_parts depth (marked w) guarded_part x)%bool _ _ _ _ _ _ _ Hr Hb Hp Hx).
  vm_compute. reflexivity.
Qed.
Lemma test_usable : forall m run ps w p x, In run runs -> build_in m run = Ok (ps, w) -> In p ps -> In x (p_messages p) ->
  union_fields_usable x.
Proof.
  intros m run ps w p x Hr Hb Hp Hx. eapply (usable_sound depth).
  refine (messages_all (fun w x => all_within depth usable x) _ _ _ _ _ _ _ Hr Hb Hp Hx). vm_compute. reflexivity.
Qed.
Lemma test_checked : forall m run ps w p x mr, In run runs -> build_in m run = Ok (ps, w) -> In p ps -> In x (p_messages p) ->
  m_name x <> "Dataset" -> checked_lengths mr (marked w) x.
Proof.
  intros m run ps w p x mr Hr Hb Hp Hx Hn. eapply (checked_sound depth). eapply unless; [|exact Hn].
  refine (messages_all (fun w x => String.eqb (m_name x) "Dataset" || all_parts depth (marked w) checked_part x)%bool _ _ _ _ _ _ _ Hr Hb Hp Hx).
  vm_compute. reflexivity.
Qed.
Lemma test_scalars : forall m run ps w p s, In run runs -> build_in m run = Ok (ps, w) -> In p ps -> In s (p_structs p) ->
  all_scalars depth 0 s = true.
Proof.
  intros m run ps w p s Hr Hb Hp Hs.
  assert (K : forallb (all_scalars depth 0) (p_structs p) = true).
  { refine (over_all (fun w p => forallb (all_scalars depth 0) (p_structs p)) _ _ _ _ _ _ Hr Hb Hp). vm_compute. reflexivity. }
  rewrite forallb_forall in K. exact (K _ Hs).
Qed.

(** Messages that have a list are the protocol's own, so that it does not matter which run
    generated the imported ones. *)
Definition is_list (f : mfield) : bool := match mf_ty f with TList _ _ => true | _ => false end.
Definition own_lists (p : protocol) (y : message) : bool :=
  negb (existsb is_list (m_fields y)) || existsb (fun z => N.eqb (m_id y) (m_id z)) (p_messages p).
Lemma test_apart : forall m run ps w p emb x mr b, In run runs -> build_in m run = Ok (ps, w) -> In p ps -> generated_in w p emb ->
  In x (p_messages p) -> read_msg mr emb x b = read_msg mr (marked w) x b.
Proof.
  intros m run ps w p emb x mr b Hr Hb Hp Hg Hx.
  assert (K : forallb (all_within depth (own_lists p)) (p_messages p) = true).
  { refine (over_all (fun w p => forallb (all_within depth (own_lists p)) (p_messages p)) _ _ _ _ _ _ Hr Hb Hp). vm_compute. reflexivity. }
  rewrite forallb_forall in K. apply marks_agree_lists. intros y Hy (f & ty & z & Hf & Ht).
  pose proof (all_within_sound _ _ _ (K _ Hx) y Hy) as Q. unfold own_lists in Q. apply orb_prop in Q. destruct Q as [Q|Q].
  - exfalso. apply negb_true_iff in Q. assert (E : existsb is_list (m_fields y) = true); [|congruence].
    apply existsb_exists. exists f. split; [exact Hf|]. unfold is_list. rewrite Ht. reflexivity.
  - apply existsb_exists in Q. destruct Q as (u & Hu & E). apply N.eqb_eq in E. rewrite E. exact (Hg u Hu).
Qed.

(** ** The theorems *)

Lemma test_round_trip : forall mc m run ps w p emb x v b, In run runs -> build_in mc run = Ok (ps, w) -> In p ps -> generated_in w p emb ->
  In x (p_messages p) -> encodes_lax m x v b -> len b < 2 ^ 64 -> read_msg m emb x b = Ok (len b, v).
Proof.
  intros mc m run ps w p emb x v b Hr Hb Hp Hg Hx He Hl. rewrite (test_apart _ _ _ _ _ _ _ _ _ Hr Hb Hp Hg Hx).
  eapply roundtrip_whole; [eapply test_readable; eassumption|exact He|exact Hl].
Qed.
Lemma test_stream : forall mc m run ps w p emb x v b s, In run runs -> build_in mc run = Ok (ps, w) -> In p ps -> generated_in w p emb ->
  In x (p_messages p) -> m_name x <> "Dataset" -> encodes_lax m x v b -> len (b ++ s)%list < 2 ^ 64 ->
  read_msg m emb x (b ++ s)%list = Ok (len b, v).
Proof.
  intros mc m run ps w p emb x v b s Hr Hb Hp Hg Hx Hn He Hl. rewrite (test_apart _ _ _ _ _ _ _ _ _ Hr Hb Hp Hg Hx).
  eapply roundtrip_suffix; [eapply test_delimited; eassumption|assumption|assumption].
Qed.
Lemma test_truncated : forall mc m run ps w p emb x v b c, In run runs -> build_in mc run = Ok (ps, w) -> In p ps -> generated_in w p emb ->
  In x (p_messages p) -> m_name x <> "Dataset" -> m_name x <> "Test" -> encodes_lax m x v (b ++ c)%list -> c <> [] -> len (b ++ c)%list < 2 ^ 64 ->
  read_msg m emb x b = Err Truncated.
Proof.
  intros mc m run ps w p emb x v b c Hr Hb Hp Hg Hx Hn Hn2 He Hc Hl. rewrite (test_apart _ _ _ _ _ _ _ _ _ Hr Hb Hp Hg Hx).
  refine (truncated m (marked w) (fun _ => True) x _ _ v b c He Hc Hl).
  - eapply test_delimited; eassumption.
  - exact (test_no_varchar _ _ _ _ _ _ Hr Hb Hp Hx Hn2).
Qed.
Lemma test_no_panic : forall mc m run ps w p emb x, In run runs -> build_in mc run = Ok (ps, w) -> In p ps -> generated_in w p emb ->
  In x (p_messages p) -> m_name x <> "Test" -> forall b, len b < 2 ^ 64 -> bytes_ok b -> read_msg m emb x b <> Panic.
Proof.
  intros mc m run ps w p emb x Hr Hb Hp Hg Hx Hn b. rewrite (test_apart _ _ _ _ _ _ _ _ _ Hr Hb Hp Hg Hx). revert b.
  destruct (build_session _ _ _ _ Hr Hb) as (qs & Hs).
  eapply session_no_panic; [exact Hs|left; reflexivity|apply in_or_app; right; exact Hp|exact Hx| |].
  - eapply test_usable; eassumption.
  - eapply test_guarded; eassumption.
Qed.
Lemma test_sound : forall mc m run ps w p emb x b n v, In run runs -> build_in mc run = Ok (ps, w) -> In p ps -> generated_in w p emb ->
  In x (p_messages p) -> m_name x <> "Dataset" -> len b < 2 ^ 64 -> bytes_ok b -> read_msg m emb x b = Ok (n, v) ->
  n <= len b /\ encodes_lax m x v (firstn (N.to_nat n) b).
Proof.
  intros mc m run ps w p emb x b n v Hr Hb Hp Hg Hx Hn. rewrite (test_apart _ _ _ _ _ _ _ _ _ Hr Hb Hp Hg Hx).
  apply read_sound. eapply test_checked; eassumption.
Qed.
Lemma test_structs : forall E mc mr run ps w p s path o n, In run runs -> build_in mc run = Ok (ps, w) -> In p ps -> In s (p_structs p) ->
  path_at s path o n -> 0 < n <= 64 /\
  forall buf, s_byte_size s <= len buf -> bytes_ok buf ->
    (exists v, path_get (E:=E) mr s path buf = Ok v /\ is_field_value buf o n v) /\
    (forall v, exists buf', path_set (E:=E) mr s path buf v = Ok buf' /\ is_field_update buf o n v buf').
Proof.
  intros E mc mr run ps w p s path o n Hr Hb Hp Hs Hpa. destruct (build_session _ _ _ _ Hr Hb) as (qs & Hse).
  assert (Hok : struct_ok s).
  { eapply session_structs_ok; [exact Hse|left; reflexivity|]. unfold allocated. apply in_flat_map. exists p.
    split; [apply in_or_app; right; exact Hp|exact Hs]. }
  destruct (all_scalars_sound _ 0 _ eq_refl (test_scalars _ _ _ _ _ _ Hr Hb Hp Hs) _ _ _ Hpa) as (A & B & C).
  split; [exact B|]. intros buf Hl Hbuf. split.
  - eapply path_get_correct; eassumption.
  - intro v. eapply path_set_correct; eassumption.
Qed.

(** ** The two exceptions *)

Definition named (n : string) (r : outcome unit (list protocol * world)) : option (protocol * message) :=
  match r with
  | Ok (ps, _) => find (fun px => String.eqb (m_name (snd px)) n) (flat_map (fun p => map (pair p) (p_messages p)) ps)
  | _ => None
  end.
Lemma named_in : forall n ps w p x, named n (Ok (ps, w)) = Some (p, x) -> In p ps /\ In x (p_messages p) /\ m_name x = n.
Proof.
  intros n ps w p x H. cbn [named] in H. apply find_some in H. destruct H as [H Hn]. apply String.eqb_eq in Hn. cbn [snd] in Hn.
  apply in_flat_map in H. destruct H as (q & Hq & H). apply in_map_iff in H. destruct H as (y & He & Hy). injection He as -> ->. auto.
Qed.
Lemma test_panics : forall mc m, exists ps w p x, build_in mc first_run = Ok (ps, w) /\ In p ps /\ In x (p_messages p) /\ m_name x = "Test" /\
  forall emb, read_msg m emb x [0; 5]%N = Panic.
Proof.
  intros mc m. rewrite build1. destruct (named "Test" result1) as [[p x]|] eqn:E; [|vm_compute in E; discriminate E].
  unfold result1 in *. eexists _, _, p, x. split; [reflexivity|]. pose proof (named_in _ _ _ _ _ E) as (A & B & C).
  split; [exact A|]. split; [exact B|]. split; [exact C|]. cbn in E. injection E as <- <-. intro emb. destruct m; vm_compute; reflexivity.
Qed.
Lemma dataset_runs_on : forall mc m, exists ps w p x v b s, build_in mc third_run = Ok (ps, w) /\ In p ps /\ In x (p_messages p) /\
  m_name x = "Dataset" /\ encodes m x v b /\
  forall emb, generated_in w p emb -> read_msg m emb x (b ++ s)%list <> Ok (len b, v).
Proof.
  intros mc m. rewrite build3. destruct (named "Dataset" result3) as [[p x]|] eqn:E; [|vm_compute in E; discriminate E].
  unfold result3 in *. eexists _, _, p, x, (VMsg [VListing [] 0]), [0; 0; 0; 0]%N, [7]%N. split; [reflexivity|].
  pose proof (named_in _ _ _ _ _ E) as (A & B & C).
  split; [exact A|]. split; [exact B|]. split; [exact C|]. cbn in E. injection E as <- <-. split.
  - unfold encodes. cbn. exists [0; 0; 0; 0]%N, []. split; [reflexivity|]. split; [|reflexivity]. exists [0; 0; 0; 0]%N, [], []. repeat split; try constructor.
    all: try (repeat constructor; lia).
  - intros emb Hg. rewrite (test_apart mc third_run _ _ _ _ _ m _ (or_intror (or_intror (or_introl eq_refl))) (build3 mc) A Hg B).
    destruct m; vm_compute; discriminate.
Qed.
