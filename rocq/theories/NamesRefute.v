(** Accepted and generated protocols whose generated code has clashing or hidden names,
    or types used with other parameters than they are declared with (C73, C74). *)

From Coq Require Import Arith NArith Ascii String List Bool Lia.
From Verif Require Import Base Schema Codec Compiler Access Runtime Gen Template Templates SpecTemplate Driver SpecComp
  Samples SamplesComp SamplesMsg GenText SpecGen SpecCode GenThms GenMsgThms GenAllThms GenRefute SpecNames SamplesNames
  NamesThms NamesMore.
Import ListNotations.
Local Open Scope string_scope.

(** The compiler accepts the description and the generator gives files. *)
Definition accepted_and_generated (v : sprotocol) (p : protocol) : Prop :=
  (exists w, protocol_from_model Debug no_imports world0 v = Ok (p, w)) /\
  forall fm emb, exists files, rust_files fm emb p = Ok files.

Lemma accepted_by : forall v p w, widths_usize v -> declaration_generates v ->
  protocol_from_model Debug no_imports world0 v = Ok (p, w) -> accepted_and_generated v p.
Proof.
  intros v p w Hw Hg H. split; [eauto|]. intros fm emb.
  destruct (generation Debug fm emb no_imports world0 v p w) as [[_ Hf]|[Hn _]]; try assumption; [|eauto|contradiction].
  intros n q Hq. discriminate.
Qed.
Ltac accepted := eapply accepted_by;
  [unfold widths_usize; repeat constructor; intros b Hb; try discriminate Hb; injection Hb as <-; reflexivity
  |split; repeat constructor; cbn; try discriminate; try lia; try (right; lia)
  |vm_compute; reflexivity].

Lemma raw_accepted : accepted_and_generated raw_v (fst raw_p). Proof. accepted. Qed.
Lemma cases_accepted : accepted_and_generated cases_v (fst cases_p). Proof. accepted. Qed.
Lemma types_accepted : accepted_and_generated types_v (fst types_p). Proof. accepted. Qed.
Lemma hide_accepted : accepted_and_generated hide_v (fst hide_p). Proof. accepted. Qed.
Lemma params_accepted : accepted_and_generated params_v (fst params_p). Proof. accepted. Qed.

Lemma not_nodup : forall (l : list string) x, (1 < count_occ string_dec l x)%nat -> ~ NoDup l.
Proof. intros l x H HN. rewrite (NoDup_count_occ string_dec) in HN. specialize (HN x). lia. Qed.

Lemma structure_clash : exists v p s, accepted_and_generated v p /\ In s (p_structs p) /\ plain_structure s /\
  forall path show upper, ~ NoDup (methods (structure_lines path show upper s)).
Proof.
  eexists raw_v, (fst raw_p), _. split; [exact raw_accepted|]. split; [left; reflexivity|].
  split; [repeat constructor|]. intros path show upper. rewrite structure_methods.
  - apply not_nodup with (x := "get_raw_x"). vm_compute. lia.
  - repeat constructor; cbn; discriminate.
  - repeat constructor.
Qed.
Lemma union_clash : exists v p u, accepted_and_generated v p /\ In u (p_unions p) /\ plain_union u /\
  NoDup (map uc_name (u_cases u)) /\ forall path, ~ NoDup (methods (union_lines path u)).
Proof.
  eexists cases_v, (fst cases_p), _. split; [exact cases_accepted|]. split; [left; reflexivity|].
  split; [repeat constructor|]. split; [cbn; repeat constructor; cbn; intuition discriminate|].
  intros path. rewrite union_methods by repeat constructor.
  apply not_nodup with (x := "as_on"). vm_compute. lia.
Qed.
Lemma types_clash : exists v p, accepted_and_generated v p /\ plain_names p /\
  NoDup (map m_name (p_messages p) ++ map s_name (p_structs p) ++ map e_name (p_enums p) ++ map u_name (p_unions p)) /\
  forall fm emb, ~ NoDup (types (module_lines fm emb p)).
Proof.
  exists types_v, (fst types_p). split; [exact types_accepted|].
  assert (HP : plain_names (fst types_p)) by repeat constructor.
  split; [exact HP|]. split; [cbn; repeat constructor; cbn; intuition discriminate|].
  intros fm emb. rewrite module_types by exact HP. apply not_nodup with (x := "AOffsets"). vm_compute. lia.
Qed.
(** A run that rustc rejects, on an input that the model reads. *)
Lemma reading_hidden : exists v p x b, accepted_and_generated v p /\ In x (p_messages p) /\ plain_message x /\
  NoDup (map mf_name (m_fields x)) /\
  forall path emb, read_msg Debug emb x b = Ok (8%N, VMsg [VScalar 1; VScalar 2]) /\
    run_from_slice Debug emb b (program path emb x) = None.
Proof.
  eexists hide_v, (fst hide_p), _, [1;0;0;0;2;0;0;0]%N. split; [exact hide_accepted|]. split; [left; reflexivity|].
  split; [repeat constructor|]. split; [cbn; repeat constructor; cbn; intuition discriminate|].
  intros path emb. split; vm_compute; reflexivity.
Qed.
Lemma temporary_hidden : exists v p x b, accepted_and_generated v p /\ In x (p_messages p) /\ plain_message x /\
  NoDup (map mf_name (m_fields x)) /\ ~ In "slice" (map mf_name (m_fields x)) /\ ~ In "byte_offset" (map mf_name (m_fields x)) /\
  forall path emb, read_msg Debug emb x b = Ok (8%N, VMsg [VScalar 1; VScalar 2]) /\
    run_from_slice Debug emb b (program path emb x) = None.
Proof.
  eexists hide_v, (fst hide_p), _, [1;0;0;0;2;0;0;0]%N. split; [exact hide_accepted|]. split; [right; left; reflexivity|].
  split; [repeat constructor|]. split; [cbn; repeat constructor; cbn; intuition discriminate|].
  split; [cbn; intuition discriminate|]. split; [cbn; intuition discriminate|].
  intros path emb. split; vm_compute; reflexivity.
Qed.
Lemma offsets_hidden : exists v p x b, accepted_and_generated v p /\ In x (p_messages p) /\ plain_message x /\ no_hiding x /\
  forall path emb, read_msg Debug emb x b = Ok (8%N, VMsg [VScalar 1; VScalar 2]) /\
    run_from_slice_with_offsets Debug emb b (program path emb x) = None.
Proof.
  eexists hide_v, (fst hide_p), _, [1;0;0;0;2;0;0;0]%N. split; [exact hide_accepted|]. split; [right; right; left; reflexivity|].
  split; [repeat constructor|]. split.
  { unfold no_hiding. cbn. split; [repeat constructor; cbn; intuition discriminate|].
    split; [intuition discriminate|]. split; [intuition discriminate|].
    intros n [<- | [<- | []]]; cbn; intuition discriminate. }
  intros path emb. split; vm_compute; reflexivity.
Qed.

Lemma member_keyword : exists v p x, accepted_and_generated v p /\ In x (p_messages p) /\ plain_message x /\ no_hiding_offsets x /\
  forall path, exists k, In k keywords /\ In k (public_members (message_struct_lines path x)).
Proof.
  eexists word_v, (fst word_p), _. split; [accepted|]. split; [left; reflexivity|].
  split; [repeat constructor|]. split.
  { unfold no_hiding_offsets, no_hiding. cbn.
    split; [split; [repeat constructor; cbn; intuition discriminate|split; [intuition discriminate|split; [intuition discriminate|]]]
           |split; [intuition discriminate|]];
      intros n H; destruct H as [<- | [<- | []]]; cbn; intuition discriminate. }
  intros path. exists "type". split; [cbn; tauto|]. rewrite message_members by repeat constructor. left. reflexivity.
Qed.

(** C74 *)
Lemma message_parameters : exists v p x y, accepted_and_generated v p /\ In x (p_messages p) /\ In y (p_messages p) /\
  forall path, nth_error (message_lines path y) 1 = Some ("pub struct " ++ m_name y ++ " {") /\
    exists line, In line (message_lines path x) /\ used_with line (path (m_name y)) "<'a>".
Proof.
  eexists params_v, (fst params_p), _, _. split; [exact params_accepted|]. split; [right; left; reflexivity|].
  split; [left; reflexivity|]. intros path. split; [reflexivity|].
  eapply member_line_used; [left; reflexivity|]. left. eexists. split; [left; reflexivity|reflexivity].
Qed.
Lemma union_parameters : exists v p x u, accepted_and_generated v p /\ In x (p_messages p) /\ In u (p_unions p) /\
  forall path, nth_error (union_lines path u) 1 = Some ("pub enum " ++ u_name u ++ " {") /\
    exists line, In line (message_lines path x) /\ used_with line (path (u_name u)) "<'a>".
Proof.
  eexists params_v, (fst params_p), _, _. split; [exact params_accepted|]. split; [right; left; reflexivity|].
  split; [left; reflexivity|]. intros path. split; [reflexivity|].
  eapply member_line_used; [right; right; left; reflexivity|]. right. eexists. split; [eexists _, _; reflexivity|reflexivity].
Qed.

(** ** The main sample *)
Lemma main_plain : plain_names main_p.
Proof. repeat constructor. Qed.
Lemma main_files : forall fm emb, exists files, rust_files fm emb main_p = Ok files.
Proof.
  intros fm emb. destruct (generation Debug fm emb main_solver (snd lib_pw) main_v main_p (snd main_pw)) as [[_ H]|[H _]];
    [exact main_imports|exact main_widths|exact main_ok|eauto|destruct (H main_generates)].
Qed.
Lemma main_types : NoDup (type_names main_p).
Proof. vm_compute. repeat constructor; cbn; intuition discriminate. Qed.
Lemma packet_hiding : no_hiding_offsets packet_x.
Proof.
  unfold no_hiding_offsets, no_hiding. cbn.
  split; [split; [repeat constructor; cbn; intuition discriminate|split; [intuition discriminate|split; [intuition discriminate|]]]
         |split; [intuition discriminate|]];
    intros n H; destruct H as [<- | [<- | [<- | [<- | [<- | []]]]]]; cbn; intuition discriminate.
Qed.
Lemma main_structs : forall s, In s (p_structs main_p) -> no_clash (s_fields s).
Proof.
  intros s H. cbn in H. 
  repeat (destruct H as [<- | H]; [apply method_names_distinct; vm_compute; repeat constructor; cbn; intuition discriminate|]).
  destruct H.
Qed.
