(** Proofs for C56. *)

From Coq Require Import Arith NArith Ascii String List Bool Lia.
From Verif Require Import Base Schema Compiler SpecComp StructFacts ItemsThms Loader SpecLoader LoaderThms SpecRun
  Template SpecTemplate TemplateThms Driver SpecDriver DriverThms GenText SpecGen SpecCode GenThms GenMsgThms GenAllThms BuildScript SpecBuild.
Import ListNotations.
Local Open Scope string_scope.

(** ** Settings *)
Lemma configure_app : forall l x, configure (l ++ [x]) = set_one (configure l) x.
Proof. intros l x. unfold configure. rewrite fold_left_app. reflexivity. Qed.
Lemma wanted_app : forall l x t, wanted (l ++ [x]) t = if same_kind t (fst (about x)) then snd (about x) else wanted l t.
Proof.
  intros l x t. unfold wanted. rewrite map_app, filter_app, map_app. cbn [map filter].
  destruct (same_kind t (fst (about x))); cbn [map]; [apply last_last|rewrite app_nil_r; reflexivity].
Qed.
Lemma configure_wanted : forall l f, selected (configure l) f = wanted l (fi_ty f).
Proof.
  intros l f. induction l as [|x l IH] using rev_ind.
  - unfold selected, wanted. cbn. destruct (fi_ty f); reflexivity.
  - rewrite configure_app, wanted_app. unfold selected in *. destruct (fi_ty f), x; cbn in *; try reflexivity; exact IH.
Qed.
Lemma chosen_wanted : forall l f, chosen (configure l) f = wanted l (fi_ty f) && Nat.ltb 1 (String.length (fi_data f)).
Proof. intros l f. rewrite <- configure_wanted. reflexivity. Qed.

Lemma upper_shout : forall s, to_ascii_uppercase s = shout s.
Proof. induction s as [|c s IH]; [reflexivity|]. cbn [to_ascii_uppercase]. rewrite IH. reflexivity. Qed.

(** ** What was compiled *)
Lemma imports_compiled : forall m sep seen w l seen' w', imports_run m sep seen w l seen' w' ->
  Forall (fun bp => compiled m (snd bp)) seen -> Forall (fun bp => compiled m (snd bp)) seen'.
Proof.
  intros m sep seen w l seen' w' H. induction H as [|seen w path v l p w1 seen' w' Hp Hr IH]; intros Hs; [exact Hs|].
  apply IH. apply Forall_app. split; [exact Hs|]. constructor; [|constructor]. cbn.
  econstructor; [|exact Hp]. intros name q Hq. cbn in Hq.
  destruct (find (fun bp => String.eqb name (p_name (snd bp))) (rev seen)) as [bp|] eqn:E; [|discriminate].
  injection Hq as <-. apply find_some in E. destruct E as [E _]. apply in_rev in E. rewrite Forall_forall in Hs. apply Hs, E.
Qed.
Lemma visible_compiled : forall m sep seen, Forall (fun bp => compiled m (snd bp)) seen ->
  forall name q, r_protocol (visible sep seen) name = Some q -> compiled m q.
Proof.
  intros m sep seen Hs name q Hq. cbn in Hq.
  destruct (find (fun bp => String.eqb name (p_name (snd bp))) (rev seen)) as [bp|] eqn:E; [|discriminate].
  injection Hq as <-. apply find_some in E. destruct E as [E _]. apply in_rev in E. rewrite Forall_forall in Hs. apply Hs, E.
Qed.
Lemma loads_each : forall m R w l ps w', loads_run m R w l ps w' ->
  Forall2 (fun v p => exists w0 w1, protocol_from_model m R w0 v = Ok (p, w1)) l ps.
Proof. intros m R w l ps w' H. induction H; constructor; eauto. Qed.
Lemma loads_names : forall m R w l ps w', loads_run m R w l ps w' -> map p_name ps = map sp_name l.
Proof.
  intros m R w l ps w' H. apply loads_each in H. induction H as [|v p l ps (w0 & w1 & H1) _ IH]; [reflexivity|].
  cbn [map]. rewrite IH. f_equal. apply (protocol_items _ _ _ _ _ _ H1).
Qed.
Lemma loads_compiled : forall m R w l ps w', loads_run m R w l ps w' ->
  (forall name q, r_protocol R name = Some q -> compiled m q) -> forall p, In p ps -> compiled m p.
Proof.
  intros m R w l ps w' H HR. apply loads_each in H. induction H as [|v p l ps (w0 & w1 & H1) _ IH]; intros q Hq; [destruct Hq|].
  destruct Hq as [<- | Hq]; [|apply IH, Hq]. econstructor; eassumption.
Qed.

(** ** Paths *)
Lemma sapp_assoc : forall a b c : string, a ++ b ++ c = (a ++ b) ++ c.
Proof. induction a as [|x a IH]; intros b c; [reflexivity|]. cbn. rewrite IH. reflexivity. Qed.
Lemma sapp_cancel : forall a b c : string, a ++ b = a ++ c -> b = c.
Proof. induction a as [|x a IH]; intros b c H; [exact H|]. cbn in H. injection H as H. apply IH, H. Qed.
Lemma list_app : forall a b, list_ascii_of_string (a ++ b) = (list_ascii_of_string a ++ list_ascii_of_string b)%list.
Proof. induction a as [|x a IH]; intros b; [reflexivity|]. cbn. rewrite IH. reflexivity. Qed.
Lemma last_split : forall (x : ascii) l1 l2 f g, ~ In x f -> ~ In x g -> (l1 ++ x :: f = l2 ++ x :: g)%list -> l1 = l2 /\ f = g.
Proof.
  intros x l1. induction l1 as [|a l1 IH]; intros l2 f g Hf Hg H.
  - destruct l2 as [|b l2]; cbn in H.
    + injection H as ->. auto.
    + injection H as -> ->. exfalso. apply Hf. apply in_or_app. right. left. reflexivity.
  - destruct l2 as [|b l2]; cbn in H.
    + injection H as <- <-. exfalso. apply Hg. apply in_or_app. right. left. reflexivity.
    + injection H as -> H. destruct (IH _ _ _ Hf Hg H) as [-> ->]. auto.
Qed.
Lemma list_inj : forall a b, list_ascii_of_string a = list_ascii_of_string b -> a = b.
Proof. intros a b H. rewrite <- (string_of_list_ascii_of_string a), H, string_of_list_ascii_of_string. reflexivity. Qed.
Lemma slash_split : forall a b f g, ~ In slash (list_ascii_of_string f) -> ~ In slash (list_ascii_of_string g) ->
  a ++ "/" ++ f = b ++ "/" ++ g -> a = b /\ f = g.
Proof.
  intros a b f g Hf Hg H. apply (f_equal list_ascii_of_string) in H. rewrite !list_app in H. cbn in H.
  destruct (last_split _ _ _ _ _ Hf Hg H) as [H1 H2]. split; apply list_inj; assumption.
Qed.
Lemma ends_slash_in : forall s, ends_with_slash s = true -> In slash (list_ascii_of_string s).
Proof.
  induction s as [|c s IH]; [discriminate|]. intros H. destruct s as [|d s].
  - cbn in H. apply Ascii.eqb_eq in H. subst. left. reflexivity.
  - right. apply IH. exact H.
Qed.
Lemma ends_app : forall a s, s <> "" -> ends_with_slash (a ++ s) = ends_with_slash s.
Proof.
  induction a as [|c a IH]; intros s Hs; [reflexivity|]. cbn [append]. rewrite <- (IH s Hs).
  destruct (a ++ s) as [|d r] eqn:E; [|reflexivity]. destruct a; [cbn in E; congruence|discriminate].
Qed.
Lemma plain_prefix : forall n, plain n -> String.prefix "/" n = false.
Proof.
  intros n (Hn & _ & _ & Hs). destruct n as [|c n]; [congruence|]. cbn [String.prefix].
  destruct (ascii_dec "/" c) as [<- |]; [|reflexivity]. exfalso. apply Hs. left. reflexivity.
Qed.
Definition base (out : string) : string := if String.eqb out "" || ends_with_slash out then out else out ++ "/".
Lemma join_base : forall out n, plain n -> join out n = base out ++ n.
Proof.
  intros out n Hn. unfold join, base. rewrite (plain_prefix _ Hn).
  destruct (String.eqb out "" || ends_with_slash out); [reflexivity|]. apply sapp_assoc.
Qed.
Lemma join_file : forall out n f, plain n -> plain f -> join (join out n) f = base out ++ n ++ "/" ++ f.
Proof.
  intros out n f Hn Hf. rewrite join_base by exact Hf. unfold base at 1. rewrite (join_base _ _ Hn).
  assert (Hd : ends_with_slash (base out ++ n) = false).
  { rewrite ends_app by apply Hn. destruct (ends_with_slash n) eqn:E; [|reflexivity]. apply ends_slash_in in E. destruct Hn as (_ & _ & _ & Hn). tauto. }
  assert (He : String.eqb (base out ++ n) "" = false).
  { apply String.eqb_neq. destruct Hn as (Hn & _). destruct n; [congruence|]. destruct (base out); discriminate. }
  rewrite Hd, He. cbn [orb]. rewrite <- !sapp_assoc. reflexivity.
Qed.
Lemma join_inj : forall out n n', plain n -> plain n' -> join out n = join out n' -> n = n'.
Proof. intros out n n' Hn Hn' H. rewrite !join_base in H by assumption. apply sapp_cancel in H. exact H. Qed.
Lemma file_inj : forall out n n' f f', plain n -> plain n' -> plain f -> plain f' ->
  join (join out n) f = join (join out n') f' -> n = n' /\ f = f'.
Proof.
  intros out n n' f f' Hn Hn' Hf Hf' H. rewrite !join_file in H by assumption. apply sapp_cancel in H.
  apply slash_split in H; [exact H|apply Hf|apply Hf'].
Qed.
Lemma file_not_dir : forall out n n' f, plain n -> plain n' -> plain f -> join (join out n) f <> join out n'.
Proof.
  intros out n n' f Hn Hn' Hf H. rewrite join_file, join_base in H by assumption. apply sapp_cancel in H.
  subst n'. destruct Hn' as (_ & _ & _ & Hs). apply Hs. rewrite list_app. apply in_or_app. right. left. reflexivity.
Qed.
Lemma plain_before : forall n, plain n -> before_slash n = None.
Proof.
  intros n (_ & _ & _ & Hs). induction n as [|c n IH]; [reflexivity|]. cbn [before_slash].
  destruct (Ascii.eqb_spec c slash) as [->|N]; [exfalso; apply Hs; left; reflexivity|].
  rewrite IH; [reflexivity|]. intros X. apply Hs. right. exact X.
Qed.

(** The names of the files of the Rust generator. *)
Definition file_names : list string :=
  ["messages.rs"; "messages_from_slice.rs"; "messages_write.rs"; "messages_offsets.rs"; "structures.rs"; "enums.rs"; "unions.rs"].
Lemma plain_check : forall n, negb (String.eqb n "") && negb (String.eqb n ".") && negb (String.eqb n "..") &&
  negb (existsb (Ascii.eqb slash) (list_ascii_of_string n)) = true -> plain n.
Proof.
  intros n H. apply andb_prop in H. destruct H as [H H4]. apply andb_prop in H. destruct H as [H H3].
  apply andb_prop in H. destruct H as [H1 H2]. apply negb_true_iff in H1, H2, H3, H4. apply String.eqb_neq in H1, H2, H3.
  repeat split; try assumption. intros X. rewrite <- not_true_iff_false in H4. apply H4. apply existsb_exists.
  exists slash. split; [exact X|apply Ascii.eqb_refl].
Qed.
Lemma file_names_plain : Forall plain ("umbrella.rs" :: file_names).
Proof. repeat constructor; apply plain_check; reflexivity. Qed.
Lemma file_names_nodup : NoDup (file_names ++ ["umbrella.rs"]).
Proof. cbn. repeat constructor; cbn; intuition discriminate. Qed.
Lemma expected_names : forall fm emb p, map (fun f => snd (fst f)) (expected_files fm emb p) = file_names.
Proof. reflexivity. Qed.

(** ** The Rust generator *)
Section Rust.
Context {S : Type} (fs : fs_ops S) (m : mode) (fm : formats) (show : string -> string) (emb : N -> bool)
  (settings : list setting) (out : string).
Notation T := (generator_rust fm show emb).
Notation fl := (configure settings).

Lemma generated_exact : forall p files, compiled m p -> g_generate T p = Ok files -> files = map as_file (expected_files fm emb p).
Proof.
  intros p files Hc H. cbn in H. destruct (rust_files fm emb p) as [l|[]|] eqn:E; try discriminate.
  injection H as <-. eapply rust_files_exact; eassumption.
Qed.
Lemma chosen_kept : forall p, filter (chosen fl) (map as_file (expected_files fm emb p)) = map as_file (kept_files fm emb settings p).
Proof.
  intros p. unfold kept_files. induction (expected_files fm emb p) as [|f l IH]; [reflexivity|].
  cbn [map filter]. rewrite chosen_wanted. cbn [as_file fi_ty fi_data]. destruct f as [[t n] d]. cbn [fst snd as_file fi_ty fi_data].
  destruct (wanted settings t && Nat.ltb 1 (String.length d)); cbn [map]; rewrite IH; reflexivity.
Qed.
Lemma umbrella_of : forall p, g_umbrella T (p_name p) (written p_name fl out p (map as_file (expected_files fm emb p))) =
  Ok (umbrella_text_of show (p_name p) (join out (p_name p)) (kept_files fm emb settings p)).
Proof.
  intros p. cbn [generator_rust g_umbrella]. rewrite umbrella_text. unfold umbrella_text_of, written, proto_dir.
  rewrite chosen_kept, !map_map. reflexivity.
Qed.
Lemma umbrella_long : forall name dir l, worth_writing (umbrella_text_of show name dir l) = true.
Proof. intros. unfold umbrella_text_of, worth_writing. apply Nat.ltb_lt. cbn. lia. Qed.
Lemma kept_plain : forall p, Forall (fun f => plain (snd (fst f))) (kept_files fm emb settings p).
Proof.
  intros p. apply Forall_forall. intros f Hf. apply filter_In in Hf. destruct Hf as [Hf _].
  apply (in_map (fun f => snd (fst f))) in Hf. rewrite expected_names in Hf.
  pose proof file_names_plain as Hp. rewrite Forall_forall in Hp. apply Hp. right. exact Hf.
Qed.
Lemma umbrella_plain : plain "umbrella.rs".
Proof. pose proof file_names_plain as H. inversion H. assumption. Qed.

(** The steps for one protocol. *)
Definition plan (p : protocol) : list step :=
  SOp (FEnsure (join out (p_name p)))
  :: (map (fun f => SOp (FWrite (join (join out (p_name p)) (snd (fst f))) (snd f))) (kept_files fm emb settings p)
      ++ [SOp (FWrite (join (join out (p_name p)) "umbrella.rs")
           (umbrella_text_of show (p_name p) (join out (p_name p)) (kept_files fm emb settings p)))])%list.
Lemma script_plan : forall p files, compiled m p -> g_generate T p = Ok files -> script T p_name fl out p = plan p.
Proof.
  intros p files Hc H. pose proof (generated_exact _ _ Hc H) as E. unfold script. rewrite H, E, umbrella_of, umbrella_long, chosen_kept.
  unfold plan, proto_dir. f_equal. f_equal.
  pose proof (kept_plain p) as HP. induction (kept_files fm emb settings p) as [|f l IH]; [reflexivity|].
  inversion HP; subst. cbn [map flat_map]. rewrite map_app, IH by assumption. f_equal.
  unfold file_ops. rewrite <- before_folder, plain_before by assumption. reflexivity.
Qed.
Lemma reported_plan : forall p files, compiled m p -> g_generate T p = Ok files ->
  reported T p_name fl out p = {| pr_name := p_name p; pr_path := join (join out (p_name p)) "umbrella.rs" |}.
Proof.
  intros p files Hc H. pose proof (generated_exact _ _ Hc H) as E. unfold reported. rewrite H, E, umbrella_of, umbrella_long. reflexivity.
Qed.
Lemma plan_writes : forall p, write_paths (plan p) =
  map (join (join out (p_name p))) (map (fun f => snd (fst f)) (kept_files fm emb settings p) ++ ["umbrella.rs"]).
Proof.
  intros p. unfold plan, write_paths. cbn [flat_map write_path app]. rewrite flat_map_app, map_app. f_equal.
  induction (kept_files fm emb settings p) as [|f l IH]; [reflexivity|]. cbn [map flat_map write_path app]. rewrite IH. reflexivity.
Qed.
Lemma kept_nodup : forall p, NoDup (map (fun f => snd (fst f)) (kept_files fm emb settings p) ++ ["umbrella.rs"]).
Proof.
  intros p. pose proof file_names_nodup as H. rewrite <- (expected_names fm emb p) in H. unfold kept_files.
  induction (expected_files fm emb p) as [|f l IH]; [exact H|]. cbn [map app] in H. inversion H; subst.
  cbn [filter]. destruct (wanted settings (fst (fst f)) && Nat.ltb 1 (String.length (snd f))); [|apply IH; assumption].
  cbn [map app]. constructor; [|apply IH; assumption]. intros X. apply H2. apply in_app_or in X. apply in_or_app.
  destruct X as [X|X]; [left|right; exact X]. apply in_map_iff in X. destruct X as [g [<- X]]. apply filter_In in X.
  apply (in_map (fun f => snd (fst f))). apply X.
Qed.
Lemma nodup_map : forall {A B} (f : A -> B) l, NoDup l -> (forall x y, In x l -> In y l -> f x = f y -> x = y) -> NoDup (map f l).
Proof.
  intros A B f l H. induction H as [|x l Hx _ IH]; intros Hi; cbn [map]; constructor.
  - intros X. apply in_map_iff in X. destruct X as [y [E Y]]. apply Hx. rewrite (Hi x y); [exact Y|left; reflexivity|right; exact Y|congruence].
  - apply IH. intros a b Ha Hb. apply Hi; right; assumption.
Qed.
Lemma plan_files_plain : forall p f, In f (map (fun f => snd (fst f)) (kept_files fm emb settings p) ++ ["umbrella.rs"]) -> plain f.
Proof.
  intros p f H. apply in_app_or in H. destruct H as [H|[<- | []]]; [|apply umbrella_plain].
  apply in_map_iff in H. destruct H as [g [<- H]]. pose proof (kept_plain p) as K. rewrite Forall_forall in K. apply K, H.
Qed.
Lemma plans_nodup : forall ps, NoDup (map p_name ps) -> Forall (fun p => plain (p_name p)) ps -> NoDup (write_paths (flat_map plan ps)).
Proof.
  induction ps as [|p ps IH]; intros Hn Hp; [constructor|]. cbn [map] in Hn. inversion Hn as [|? ? Hx Hr]; subst. inversion Hp as [|? ? P1 P2]; subst.
  unfold write_paths in *. cbn [flat_map]. rewrite flat_map_app. fold (write_paths (plan p)).
  assert (H1 : NoDup (write_paths (plan p))).
  { rewrite plan_writes. apply nodup_map; [apply kept_nodup|]. intros x y Hx' Hy E.
    apply file_inj in E; [apply E|assumption|assumption|apply (plan_files_plain p), Hx'|apply (plan_files_plain p), Hy]. }
  specialize (IH Hr P2).
  assert (H2 : forall q, In q (write_paths (plan p)) -> ~ In q (flat_map write_path (flat_map plan ps))).
  { intros q Hq Hq2. rewrite plan_writes in Hq. apply in_map_iff in Hq. destruct Hq as [f [<- Hf]].
    fold (write_paths (flat_map plan ps)) in Hq2.
    assert (Hq3 : exists p', In p' ps /\ In (join (join out (p_name p)) f) (write_paths (plan p'))).
    { clear - Hq2. induction ps as [|p' ps IH]; [destruct Hq2|]. unfold write_paths in *. cbn [flat_map] in Hq2. rewrite flat_map_app in Hq2.
      apply in_app_or in Hq2. destruct Hq2 as [H|H]; [exists p'; split; [left; reflexivity|exact H]|].
      destruct (IH H) as (p2 & A & B). exists p2. split; [right; exact A|exact B]. }
    destruct Hq3 as (p' & Hp' & Hw). rewrite plan_writes in Hw. apply in_map_iff in Hw. destruct Hw as [g [E Hg]].
    rewrite Forall_forall in P2. apply file_inj in E; [|apply P2, Hp'|assumption|apply (plan_files_plain p'), Hg|apply (plan_files_plain p), Hf].
    apply Hx. destruct E as [<- _]. apply in_map. exact Hp'. }
  clear - H1 IH H2. induction (write_paths (plan p)) as [|x l IHl]; [exact IH|]. cbn [app]. inversion H1; subst. constructor.
  - intros X. apply in_app_or in X. destruct X as [X|X]; [tauto|]. apply (H2 x); [left; reflexivity|exact X].
  - apply IHl; [assumption|]. intros q Hq. apply H2. right. exact Hq.
Qed.

(** A run that succeeds generated every protocol. *)
Lemma steps_generated : forall ps s u s', run_steps fs s (flat_map (script T p_name fl out) ps) = (Ok u, s') ->
  forall p, In p ps -> exists files, g_generate T p = Ok files.
Proof.
  induction ps as [|p ps IH]; intros s u s' H q Hq; [destruct Hq|]. cbn [flat_map] in H. rewrite run_app in H.
  destruct (run_steps fs s (script T p_name fl out p)) as [[u1|e|] s1] eqn:E; try discriminate.
  destruct Hq as [<- | Hq]; [|eapply IH; eassumption].
  unfold script in E. destruct (g_generate T p) as [files|e|]; [exists files; reflexivity|discriminate E|discriminate E].
Qed.
Lemma scripts_plans : forall ps, (forall p, In p ps -> compiled m p) -> (forall p, In p ps -> exists files, g_generate T p = Ok files) ->
  flat_map (script T p_name fl out) ps = flat_map plan ps /\
  map (reported T p_name fl out) ps = map (fun p => {| pr_name := p_name p; pr_path := join (join out (p_name p)) "umbrella.rs" |}) ps.
Proof.
  induction ps as [|p ps IH]; intros Hc Hg; [split; reflexivity|]. cbn [flat_map map].
  destruct (Hg p (or_introl eq_refl)) as [files H].
  destruct IH as [IH1 IH2]; [intros; apply Hc; right; assumption|intros; apply Hg; right; assumption|].
  rewrite (script_plan p files), (reported_plan p files), IH1, IH2; try assumption; try (apply Hc; left; reflexivity). split; reflexivity.
Qed.

(** ** Success on a file system without obstacles *)
Section Works.
Context (look : S -> string -> option entry) (Hst : stores fs look) (Hwk : works_below fs look out)
  (names : list string) (Hnames : Forall plain names).
Definition inv (s : S) : Prop := forall n, In n names -> clear (look s) out n.

Lemma write_step : forall s n f d, inv s -> In n names -> plain f -> look s (join out n) = Some EDir ->
  exists s', fs_write fs s (join (join out n) f) d = Some s' /\ inv s' /\ look s' (join out n) = Some EDir.
Proof.
  intros s n f d Hi Hn Hf Hd. assert (Hp := Hnames). rewrite Forall_forall in Hp.
  pose proof (wb_write _ _ _ Hwk s n f d (Hp _ Hn) Hf Hd (proj2 (Hi n Hn) f Hf)) as Hw.
  destruct (fs_write fs s (join (join out n) f) d) as [s'|] eqn:E; [|congruence]. exists s'. split; [reflexivity|].
  destruct (st_write _ _ Hst _ _ _ _ E) as [_ H2].
  assert (Hdir : forall n', In n' names -> look s' (join out n') = look s (join out n')).
  { intros n' Hn'. rewrite H2. destruct (String.eqb_spec (join out n') (join (join out n) f)) as [X|X]; [|reflexivity].
    exfalso. symmetry in X. revert X. apply file_not_dir; auto. }
  split.
  - intros n' Hn'. unfold clear. rewrite Hdir by exact Hn'. split; [apply Hi, Hn'|].
    intros f' Hf'. rewrite H2. destruct (String.eqb _ _); [discriminate|]. apply Hi; assumption.
  - rewrite Hdir by exact Hn. exact Hd.
Qed.
Lemma writes_step : forall l s n, inv s -> In n names -> Forall (fun f => plain (fst f)) l -> look s (join out n) = Some EDir ->
  exists s', run_steps fs s (map (fun f => SOp (FWrite (join (join out n) (fst f)) (snd f))) l) = (Ok tt, s') /\ inv s' /\ look s' (join out n) = Some EDir.
Proof.
  induction l as [|f l IH]; intros s n Hi Hn Hl Hd; [exists s; auto|]. inversion Hl; subst. cbn [map run_steps fop_do].
  destruct (write_step s n (fst f) (snd f) Hi Hn) as (s1 & E & Hi1 & Hd1); [assumption|assumption|]. rewrite E. apply IH; assumption.
Qed.
Lemma plan_step : forall p s, inv s -> In (p_name p) names -> exists s', run_steps fs s (plan p) = (Ok tt, s') /\ inv s'.
Proof.
  intros p s Hi Hn. unfold plan. cbn [run_steps fop_do]. assert (Hp := Hnames). rewrite Forall_forall in Hp.
  assert (H1 : exists s1, (if fs_exists fs s (join out (p_name p)) then Some s else fs_create_dir fs s (join out (p_name p))) = Some s1 /\
     inv s1 /\ look s1 (join out (p_name p)) = Some EDir).
  { destruct (proj1 (Hi _ Hn)) as [X|X].
    - destruct (fs_exists fs s (join out (p_name p))) eqn:E; [apply (st_exists _ _ Hst) in E; congruence|].
      pose proof (wb_create _ _ _ Hwk s (p_name p) (Hp _ Hn) X) as Hc.
      destruct (fs_create_dir fs s (join out (p_name p))) as [s1|] eqn:Ec; [|congruence]. exists s1. split; [reflexivity|].
      destruct (st_create _ _ Hst _ _ _ Ec) as [_ H2]. split; [|rewrite H2, String.eqb_refl; reflexivity].
      intros n' Hn'. split.
      + rewrite H2. destruct (String.eqb _ _); [right; reflexivity|]. apply Hi, Hn'.
      + intros f Hf. rewrite H2. destruct (String.eqb_spec (join (join out n') f) (join out (p_name p))) as [Y|Y]; [|apply Hi; assumption].
        exfalso. revert Y. apply file_not_dir; auto.
    - destruct (fs_exists fs s (join out (p_name p))) eqn:E.
      + exists s. auto.
      + exfalso. assert (Hne : look s (join out (p_name p)) <> None) by congruence. apply (st_exists _ _ Hst) in Hne. congruence. }
  destruct H1 as (s1 & E1 & Hi1 & Hd1). rewrite E1.
  rewrite run_app.
  destruct (writes_step (map (fun f => (snd (fst f), snd f)) (kept_files fm emb settings p)) s1 (p_name p) Hi1 Hn) as (s2 & E2 & Hi2 & Hd2); [|exact Hd1|].
  { pose proof (kept_plain p) as K. apply Forall_forall. intros f Hf. apply in_map_iff in Hf. destruct Hf as [g [<- Hg]].
    rewrite Forall_forall in K. apply K, Hg. }
  rewrite map_map in E2. cbn [fst snd] in E2. rewrite E2. cbn [run_steps fop_do].
  edestruct (write_step s2 (p_name p) "umbrella.rs") as (s3 & E3 & Hi3 & _); [exact Hi2|exact Hn|apply umbrella_plain|exact Hd2|].
  rewrite E3. exists s3. auto.
Qed.
Lemma plans_step : forall ps s, inv s -> (forall p, In p ps -> In (p_name p) names) -> exists s', run_steps fs s (flat_map plan ps) = (Ok tt, s').
Proof.
  induction ps as [|p ps IH]; intros s Hi Hn; [exists s; reflexivity|]. cbn [flat_map]. rewrite run_app.
  destruct (plan_step p s Hi (Hn p (or_introl eq_refl))) as (s1 & E & Hi1). rewrite E. apply IH; [exact Hi1|]. intros; apply Hn; right; assumption.
Qed.
End Works.
End Rust.

(** ** The build script *)
Section Run.
Context {S : Type} (fs : fs_ops S) (m : mode) (fm : formats) (show : string -> string)
  (calls : list call) (settings : list setting).

Definition compiles (ps : list protocol) (w : world) : Prop :=
  exists seen w1, imports_run m "::" [] world_new (imported calls) seen w1 /\
    loads_run m (visible "::" seen) w1 (loaded calls) ps w.
Lemma compiles_facts : forall ps w, compiles ps w -> map p_name ps = map sp_name (loaded calls) /\ (forall p, In p ps -> compiled m p).
Proof.
  intros ps w (seen & w1 & H1 & H2). split; [eapply loads_names; exact H2|].
  eapply loads_compiled; [exact H2|]. apply visible_compiled. eapply imports_compiled; [exact H1|constructor].
Qed.

Theorem build_success : forall ok out_dir s lines s',
  generate_rust fs m fm show calls ok settings out_dir s = (Printed lines, s') ->
  exists out ps w seen w1, ok = true /\ out_dir = Some out /\
    imports_run m "::" [] world_new (imported calls) seen w1 /\
    loads_run m (visible "::" seen) w1 (loaded calls) ps w /\
    map p_name ps = map sp_name (loaded calls) /\
    lines = map (fun v => "cargo::rustc-env=BP3D_PROTOC_" ++ shout (sp_name v) ++ "=" ++
                          join (join out (sp_name v)) "umbrella.rs") (loaded calls) /\
    forall look, stores fs look ->
      NoDup (map sp_name (loaded calls)) -> Forall (fun v => plain (sp_name v)) (loaded calls) ->
      (forall p, In p ps -> let dir := join out (p_name p) in
         let kept := kept_files fm (marked w) settings p in
         (forall t n d, In (t, n, d) kept -> look s' (join dir n) = Some (EFile d)) /\
         look s' (join dir "umbrella.rs") = Some (EFile (umbrella_text_of show (p_name p) dir kept))) /\
      (forall q, (forall p, In p ps -> let dir := join out (p_name p) in
                    q <> dir /\ q <> join dir "umbrella.rs" /\
                    forall t n d, In (t, n, d) (kept_files fm (marked w) settings p) -> q <> join dir n) ->
         look s' q = look s q).
Proof.
  intros ok out_dir s lines s' H. unfold generate_rust in H. destruct ok; [|discriminate]. cbn [negb] in H.
  destruct (loader_compile m (loader_after calls) (solver_new "::")) as [[ps w]|e|] eqn:El; try discriminate.
  destruct out_dir as [out|]; [|discriminate].
  destruct (generate fs (generator_rust fm show (marked w)) p_name (configure settings) out s ps) as [[gen|e|] s1] eqn:Eg; try discriminate.
  injection H as <- <-. apply load_ok in El. destruct El as (seen & w1 & H1 & H2).
  destruct (compiles_facts ps w) as [Hn Hc]; [exists seen, w1; auto|].
  exists out, ps, w, seen, w1. do 4 (split; [first [reflexivity|assumption]|]). split; [exact Hn|].
  pose proof Eg as Eg0. rewrite generate_steps in Eg0.
  destruct (run_steps fs s _) as [[u|e|] s2] eqn:Er; cbn [lift] in Eg0; try discriminate. injection Eg0 as <- <-.
  pose proof (steps_generated _ _ _ _ _ _ _ _ _ _ Er) as Hg.
  destruct (scripts_plans m fm show (marked w) settings out ps Hc Hg) as [E1 E2].
  split.
  - rewrite E2, map_map.
    assert (E3 : map (fun p => cargo_line {| pr_name := p_name p; pr_path := join (join out (p_name p)) "umbrella.rs" |}) ps =
       map (fun n => "cargo::rustc-env=BP3D_PROTOC_" ++ shout n ++ "=" ++ join (join out n) "umbrella.rs") (map p_name ps)).
    { rewrite map_map. apply map_ext. intros p. unfold cargo_line. cbn [pr_name pr_path]. rewrite upper_shout. reflexivity. }
    rewrite E3, Hn, map_map. reflexivity.
  - intros look Hst Hnd Hpl.
    assert (Hpl' : Forall (fun p => plain (p_name p)) ps).
    { apply Forall_map. rewrite Hn. apply Forall_map. exact Hpl. }
    rewrite <- Hn in Hnd. pose proof (plans_nodup fm show (marked w) settings out ps Hnd Hpl') as Hw.
    rewrite <- E1 in Hw.
    destruct (generate_contents fs (generator_rust fm show (marked w)) p_name (configure settings) out look Hst ps s _ _ Eg Hw) as (_ & C1 & C2 & C3).
    split.
    + intros p Hp dir kept. destruct (Hg p Hp) as [files Hf]. pose proof (generated_exact m _ _ _ _ _ (Hc p Hp) Hf) as Ef. split.
      * intros t n d Hk. apply filter_In in Hk. destruct Hk as [Hk Hk2]. cbn [fst snd] in Hk2. apply andb_prop in Hk2. destruct Hk2 as [K1 K2].
        apply (C1 p files (as_file (t, n, d)) Hp Hf).
        -- rewrite Ef. apply in_map. exact Hk.
        -- pose proof (configure_wanted settings (as_file (t, n, d))) as K3. cbn [as_file fi_ty fst snd] in K3 |- *. rewrite K1 in K3.
           unfold enabled, selected in *. cbn [as_file fi_ty fst snd] in K3. destruct t; exact K3.
        -- apply Nat.ltb_lt. exact K2.
      * apply (C2 p files _ Hp Hf).
        -- rewrite Ef. apply umbrella_of.
        -- apply Nat.ltb_lt. exact (umbrella_long show (p_name p) dir kept).
    + intros q Hq. apply C3. intros p files Hp Hf. destruct (Hq p Hp) as (Q1 & Q2 & Q3). split; [exact Q1|]. split; [exact Q2|].
      intros f Hf1 Hf2. pose proof (generated_exact m _ _ _ _ _ (Hc p Hp) Hf) as Ef. rewrite Ef in Hf1.
      assert (Hk : In f (filter (chosen (configure settings)) (map as_file (expected_files fm (marked w) p)))) by (apply filter_In; auto).
      rewrite chosen_kept in Hk. apply in_map_iff in Hk. destruct Hk as [[[t n] d] [<- Hk]]. cbn [as_file fi_name fst snd]. split.
      * eapply Q3. exact Hk.
      * intros sub Hs. pose proof (kept_plain fm (marked w) settings p) as K. rewrite Forall_forall in K.
        apply K in Hk. cbn in Hk. rewrite <- before_folder, plain_before in Hs by exact Hk. discriminate.
Qed.

Theorem build_files_exact : forall ok out s lines s' look, stores fs look ->
  generate_rust fs m fm show calls ok settings (Some out) s = (Printed lines, s') ->
  exists ps w seen w1,
    imports_run m "::" [] world_new (imported calls) seen w1 /\
    loads_run m (visible "::" seen) w1 (loaded calls) ps w /\
    forall q, look s' q = last_at q (flat_map (build_plan fm show (marked w) settings out) ps) (look s q).
Proof.
  intros ok out s lines s' look Hst H. unfold generate_rust in H. destruct ok; [|discriminate]. cbn [negb] in H.
  destruct (loader_compile m (loader_after calls) (solver_new "::")) as [[ps w]|e|] eqn:El; try discriminate.
  destruct (generate fs (generator_rust fm show (marked w)) p_name (configure settings) out s ps) as [[gen|e|] s1] eqn:Eg; try discriminate.
  injection H as <- <-. apply load_ok in El. destruct El as (seen & w1 & H1 & H2).
  destruct (compiles_facts ps w) as [Hn Hc]; [exists seen, w1; auto|].
  exists ps, w, seen, w1. split; [exact H1|]. split; [exact H2|].
  rewrite generate_steps in Eg.
  destruct (run_steps fs s _) as [[u|e|] s2] eqn:Er; cbn [lift] in Eg; try discriminate. injection Eg as <- <-.
  pose proof (steps_generated _ _ _ _ _ _ _ _ _ _ Er) as Hg.
  destruct (scripts_plans m fm show (marked w) settings out ps Hc Hg) as [E1 E2]. rewrite E1 in Er.
  intros q. exact (run_last fs look Hst _ _ _ _ Er q).
Qed.

Lemma generated_or_panic : forall emb p, compiled m p ->
  (exists files, g_generate (generator_rust fm show emb) p = Ok files) \/ g_generate (generator_rust fm show emb) p = Panic.
Proof.
  intros emb p Hc. cbn [generator_rust g_generate].
  assert (Hd : generates p \/ ~ generates p).
  { unfold generates.
    destruct (Forall_dec_prop (fun s => Forall field_generates (s_fields s)) (p_structs p))
      as [A|A]; [intro; apply Forall_dec_prop, field_generates_dec| |right; tauto].
    destruct (Forall_dec_prop (fun x => Forall mfield_generates (m_fields x)) (p_messages p))
      as [B|B]; [intro; apply Forall_dec_prop, mfield_generates_dec|left; tauto|right; tauto]. }
  destruct Hd as [Hd|Hd].
  - rewrite (rust_files_text fm emb p (compiled_unions _ _ Hc) Hd). left. eauto.
  - rewrite (rust_files_panic fm emb p Hd). right. reflexivity.
Qed.
Lemma generated_decl : forall emb ps w, compiles ps w -> Forall widths_usize (loaded calls) ->
  ((forall p, In p ps -> exists files, g_generate (generator_rust fm show emb) p = Ok files) <-> Forall declaration_generates (loaded calls)).
Proof.
  intros emb ps w (seen & w1 & H1 & H2) Hu.
  assert (HR : forall name q, r_protocol (visible "::" seen) name = Some q -> compiled m q).
  { apply visible_compiled. eapply imports_compiled; [exact H1|constructor]. }
  apply loads_each in H2. clear H1. induction H2 as [|v p l ps' (w0 & w2 & Hv) _ IH].
  - split; [constructor|intros _ p []].
  - inversion Hu; subst. specialize (IH H2).
    assert (Hp : (exists files, g_generate (generator_rust fm show emb) p = Ok files) <-> declaration_generates v).
    { cbn [generator_rust g_generate]. destruct (generation m fm emb _ _ _ _ _ HR H1 Hv) as [[A B]|[A B]]; rewrite B.
      - split; [auto|eauto].
      - split; [intros [f X]; discriminate|tauto]. }
    split.
    + intros G. constructor; [apply Hp, G; left; reflexivity|]. apply IH. intros q Hq. apply G. right. exact Hq.
    + intros G q Hq. inversion G; subst. destruct Hq as [<- | Hq]; [apply Hp; assumption|apply IH; assumption].
Qed.

Theorem build_succeeds_iff : forall look ok out_dir s, stores fs look ->
  (forall out, out_dir = Some out -> works_below fs look out /\
     forall v, In v (loaded calls) -> plain (sp_name v) /\ clear (look s) out (sp_name v)) ->
  Forall widths_usize (loaded calls) ->
  ((exists lines s', generate_rust fs m fm show calls ok settings out_dir s = (Printed lines, s')) <->
   ok = true /\ out_dir <> None /\
   (exists ps w seen w1, imports_run m "::" [] world_new (imported calls) seen w1 /\
      loads_run m (visible "::" seen) w1 (loaded calls) ps w) /\
   Forall declaration_generates (loaded calls)).
Proof.
  intros look ok out_dir s Hst Hw Hu. split.
  - intros (lines & s' & H). pose proof H as H0. apply build_success in H0.
    destruct H0 as (out & ps & w & seen & w1 & -> & -> & H1 & H2 & _). split; [reflexivity|]. split; [discriminate|].
    split; [exists ps, w, seen, w1; auto|].
    assert (Hcp : compiles ps w) by (exists seen, w1; auto).
    apply (generated_decl (marked w) ps w Hcp Hu).
    unfold generate_rust in H. cbn [negb] in H.
    assert (El : loader_compile m (loader_after calls) (solver_new "::") = Ok (ps, w)) by (apply load_ok; eauto).
    rewrite El in H. rewrite generate_steps in H.
    destruct (run_steps fs s _) as [[u|e|] s2] eqn:Er; cbn [lift] in H; try discriminate.
    exact (steps_generated _ _ _ _ _ _ _ _ _ _ Er).
  - intros (-> & Ho & (ps & w & seen & w1 & H1 & H2) & Hd). destruct out_dir as [out|]; [|congruence].
    destruct (Hw out eq_refl) as [Hwk Hcl].
    assert (Hcp : compiles ps w) by (exists seen, w1; auto). destruct (compiles_facts ps w Hcp) as [Hn Hc].
    pose proof (proj2 (generated_decl (marked w) ps w Hcp Hu) Hd) as Hg.
    destruct (scripts_plans m fm show (marked w) settings out ps Hc Hg) as [E1 E2].
    assert (Hpl : Forall plain (map sp_name (loaded calls))).
    { apply Forall_map, Forall_forall. intros v Hv. apply (Hcl v Hv). }
    destruct (plans_step fs fm show (marked w) settings out look Hst Hwk (map sp_name (loaded calls)) Hpl ps s) as [s' Er].
    { intros n Hn'. apply in_map_iff in Hn'. destruct Hn' as [v [<- Hv]]. apply (Hcl v Hv). }
    { intros p Hp. rewrite <- Hn. apply in_map. exact Hp. }
    rewrite <- E1 in Er. do 2 eexists. unfold generate_rust. cbn [negb].
    assert (El : loader_compile m (loader_after calls) (solver_new "::") = Ok (ps, w)) by (apply load_ok; eauto).
    rewrite El, generate_steps, Er. cbn [lift]. reflexivity.
Qed.

(** The only failure of the generation that is an error is one of the file system. *)
Lemma steps_errors : forall emb ps s e s', (forall p, In p ps -> compiled m p) ->
  forall out, run_steps fs s (flat_map (script (generator_rust fm show emb) p_name (configure settings) out) ps) = (Err e, s') -> e = DIo.
Proof.
  intros emb ps s e s' Hc out. revert s.
  assert (G : forall x, In x (flat_map (script (generator_rust fm show emb) p_name (configure settings) out) ps) -> forall e, x <> SFail e).
  { intros x Hx e0 ->. apply in_flat_map in Hx. destruct Hx as [p [Hp Hx]].
    destruct (generated_or_panic emb p (Hc p Hp)) as [[files Hf]|Hf].
    - rewrite (script_plan m _ _ _ _ _ _ _ (Hc p Hp) Hf) in Hx. unfold plan in Hx. destruct Hx as [Hx|Hx]; [discriminate|].
      apply in_app_or in Hx. destruct Hx as [Hx|[Hx|[]]]; [|discriminate]. apply in_map_iff in Hx. destruct Hx as [? [Hx _]]. discriminate.
    - unfold script in Hx. rewrite Hf in Hx. destruct Hx as [Hx|[]]. discriminate. }
  induction (flat_map _ ps) as [|x l IH]; intros s H; [discriminate|].
  destruct x as [o|e0|]; cbn [run_steps] in H.
  - destruct (fop_do fs s o); [|congruence]. eapply IH; [|exact H]. intros y Hy. apply G. right. exact Hy.
  - exfalso. apply (G (SFail e0) (or_introl eq_refl) e0). reflexivity.
  - discriminate.
Qed.
Lemma steps_panic : forall emb ps s s' out,
  run_steps fs s (flat_map (script (generator_rust fm show emb) p_name (configure settings) out) ps) = (Panic, s') ->
  ~ (forall p, In p ps -> exists files, g_generate (generator_rust fm show emb) p = Ok files).
Proof.
  intros emb ps s s' out H G. revert s H.
  assert (N : forall x, In x (flat_map (script (generator_rust fm show emb) p_name (configure settings) out) ps) -> x <> SPanic).
  { intros x Hx ->. apply in_flat_map in Hx. destruct Hx as [p [Hp Hx]]. destruct (G p Hp) as [files Hf]. unfold script in Hx. rewrite Hf in Hx.
    destruct Hx as [Hx|Hx]; [discriminate|]. apply in_app_or in Hx. destruct Hx as [Hx|Hx].
    - apply in_map_iff in Hx. destruct Hx as [? [Hx _]]. discriminate.
    - cbn [generator_rust g_umbrella] in Hx. destruct (worth_writing _) in Hx; [destruct Hx as [Hx|[]]; discriminate|destruct Hx]. }
  induction (flat_map _ ps) as [|x l IH]; intros s H; [discriminate|].
  destruct x as [o|e0|]; cbn [run_steps] in H.
  - destruct (fop_do fs s o); [|discriminate]. eapply IH; [|exact H]. intros y Hy. apply N. right. exact Hy.
  - discriminate.
  - apply (N SPanic (or_introl eq_refl)). reflexivity.
Qed.

Theorem build_failure : forall ok out_dir s c s', Forall widths_usize (loaded calls) ->
  generate_rust fs m fm show calls ok settings out_dir s = (Panicked c, s') ->
  let runs ps w := exists seen w1, imports_run m "::" [] world_new (imported calls) seen w1 /\
                     loads_run m (visible "::" seen) w1 (loaded calls) ps w in
  let compiling := loader_compile m (loader_after calls) (solver_new "::") in
  match c with
  | CauseLoad => ok = false /\ s' = s
  | CauseCompile e => ok = true /\ failed compiling (Some e) /\ s' = s
  | CauseOutDir => ok = true /\ (exists ps w, runs ps w) /\ out_dir = None /\ s' = s
  | CauseGenerate e => ok = true /\ (exists ps w, runs ps w) /\ e = DIo
  | CauseInside => ok = true /\
      ((failed compiling None /\ s' = s) \/ ((exists ps w, runs ps w) /\ ~ Forall declaration_generates (loaded calls)))
  end.
Proof.
  intros ok out_dir s c s' Hu H runs compiling. unfold generate_rust in H. destruct ok; cbn [negb] in H; [|injection H as <- <-; auto].
  fold compiling in H. destruct compiling as [[ps w]|e|] eqn:El.
  - assert (Hr : runs ps w) by (apply load_ok; exact El). assert (Hcp : compiles ps w) by exact Hr.
    destruct (compiles_facts ps w Hcp) as [_ Hc].
    destruct out_dir as [out|]; [|injection H as <- <-; eauto 8].
    rewrite generate_steps in H. destruct (run_steps fs s _) as [[u|e|] s2] eqn:Er; cbn [lift] in H; try discriminate.
    + injection H as <- <-. split; [reflexivity|]. split; [eauto|]. eapply steps_errors; eassumption.
    + injection H as <- <-. split; [reflexivity|]. right. split; [eauto|].
      rewrite <- (generated_decl (marked w) ps w Hcp Hu). eapply steps_panic. exact Er.
  - injection H as <- <-. split; [reflexivity|]. split; [reflexivity|reflexivity].
  - injection H as <- <-. split; [reflexivity|]. left. split; reflexivity.
Qed.
End Run.

(** ** Sample run, and names that collide *)
Definition build_casing : casing := {| to_upper := to_ascii_uppercase; to_lower := fun s => s |}.
Definition build_formats : formats := {| fm_casing := build_casing; fm_f64 := fun _ => "0.5" |}.
Definition quoted (s : string) : string := String "034" (s ++ String "034" "").
Lemma mem_works : forall out, works_below mem_fs mem_look out.
Proof.
  intros out. constructor.
  - intros s n _ H. cbn. rewrite H. discriminate.
  - intros s n f d _ _ _ H. cbn. destruct (mem_look s (join (join out n) f)) as [[|x]|]; congruence.
Qed.
Definition tiny (n : string) : sprotocol :=
  {| sp_name := n; sp_endianness := None; sp_imports := []; sp_enums := [];
     sp_structs := [{| ss_name := "S"; ss_fields := [{| sf_name := "x"; sf_info := STUnsigned 8; sf_view := None; sf_array_len := None |}] |}];
     sp_unions := []; sp_messages := [] |}.
