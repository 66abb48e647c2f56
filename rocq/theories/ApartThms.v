(** Proofs of C83: protocols generated by separate runs. *)

From Coq Require Import Arith NArith String List Bool Lia.
From Verif Require Import Base Schema Compiler Access Runtime Gen Loader SpecLoader SpecStruct SpecWire SpecRun SpecApart
  StructFacts CompFacts CompThms LinkThms LoaderThms EvolveMore.
Import ListNotations.
Local Open Scope N_scope.

(** ** Messages of a session are told apart by their numbers *)

Definition msgs (ps : list protocol) : list message := flat_map p_messages ps.
Definition known (M : list message) (x : message) : Prop := forall y, within x y -> In y M.
Definition known_union (M : list message) (u : union_) : Prop :=
  forall c y, In c (u_cases u) -> uc_item c = Some (RMessage y) -> known M y.
Definition KI M := proto_inv (fun _ => True) (fun _ => True) (known_union M) (known M).
Lemma known_mono : forall M M' x, incl M M' -> known M x -> known M' x.
Proof. intros M M' x H K y Hy. apply H, K, Hy. Qed.
Lemma KI_mono : forall M M' p, incl M M' -> KI M p -> KI M' p.
Proof.
  intros M M' p H []. constructor; auto.
  - intros k v Hv c y Hc Hy. eapply known_mono; [exact H|]. eapply pi_unions; eauto.
  - intros k v Hv. eapply known_mono; [exact H|]. eapply pi_messages; eauto.
  - intros u Hu c y Hc Hy. eapply known_mono; [exact H|]. eapply pi_lunions; eauto.
  - intros x Hx. eapply known_mono; [exact H|]. eapply pi_lmessages; eauto.
Qed.
Definition numbered (M : list message) (n : N) : Prop :=
  (forall x, In x M -> m_id x < n) /\ forall x y, In x M -> In y M -> m_id x = m_id y -> x = y.
Lemma numbered_add : forall M n x, numbered M n -> m_id x = n -> numbered (M ++ [x]) (n + 1).
Proof.
  intros M n x (H1 & H2) Hx. split.
  - intros y Hy. apply in_app_or in Hy. destruct Hy as [Hy|[<- | []]]; [specialize (H1 _ Hy)|]; lia.
  - intros a b Ha Hb E. apply in_app_or in Ha. apply in_app_or in Hb.
    destruct Ha as [Ha|[<- | []]], Hb as [Hb|[<- | []]]; auto; [specialize (H1 _ Ha)|specialize (H1 _ Hb)]; lia.
Qed.
Lemma numbered_weaken : forall M n, numbered M n -> numbered M (n + 1).
Proof. intros M n (H1 & H2). split; [|assumption]. intros s Hs. specialize (H1 _ Hs). lia. Qed.
Lemma message_number : forall env id v x mk, message_from_model env id v = Ok (x, mk) -> m_id x = id.
Proof.
  intros env id v x mk H. unfold message_from_model in H. apply bind_ok in H. destruct H as ([[[fs n] b] mk'] & _ & H).
  injection H as <- <-. reflexivity.
Qed.
Lemma message_known : forall M env id v x mk, vals (known M) (pe_messages env) -> vals (known_union M) (pe_unions env) ->
  message_from_model env id v = Ok (x, mk) -> known (M ++ [x]) x.
Proof.
  intros M env id v x mk HM HU H. destruct (message_fields _ _ _ _ _ H) as (_ & _ & Hlen & Hf).
  intros y Hy. inversion Hy as [|x0 g z y0 Hg Hin Hw]; subst; [apply in_or_app; right; left; reflexivity|].
  apply in_or_app. left. apply In_nth_error in Hg. destruct Hg as (k & Hg).
  destruct (nth_error (sm_fields v) k) as [vf|] eqn:Ev.
  - destruct (Hf _ _ Ev) as (f' & mk1 & Hf' & Hm). assert (f' = g) by congruence. subst f'.
    destruct (mfield_inside _ _ _ _ _ _ Hm Hin) as [(nm & Hz)|(nm & u & c & Hu & Hc & Hz)].
    + exact (HM _ _ Hz y Hw).
    + exact (HU _ _ Hu c z Hc Hz y Hw).
  - apply nth_error_None in Ev. rewrite <- Hlen in Ev. apply nth_error_None in Ev. congruence.
Qed.
Lemma union_known : forall M structs messages v u, vals (known M) messages -> union_from_model structs messages v = Ok u -> known_union M u.
Proof.
  intros M structs messages v u HM H c y Hc Hy. unfold union_from_model in H. apply bind_ok in H. destruct H as (d & Hd & H).
  apply bind_ok in H. destruct H as (cs & Hcs & H). injection H as <-. cbn [u_cases] in Hc.
  destruct (ucases_in _ _ _ _ _ _ Hcs Hc y Hy) as (n & Hn). exact (HM _ _ Hn).
Qed.
Lemma import_messages : forall solver p v p', import_one solver p v = Ok p' -> p_messages p' = p_messages p.
Proof.
  intros solver p v p' H. unfold import_one in H. apply bind_ok in H. destruct H as (r & _ & H).
  destruct (sget (si_type v) (p_structs_by_name r)).
  { apply bind_ok in H. destruct H as (t & _ & H). inversion H; subst. reflexivity. }
  destruct (sget (si_type v) (p_enums_by_name r)).
  { apply bind_ok in H. destruct H as (t & _ & H). inversion H; subst. reflexivity. }
  destruct (sget (si_type v) (p_unions_by_name r)).
  { apply bind_ok in H. destruct H as (t & _ & H). inversion H; subst. reflexivity. }
  apply bind_ok in H. destruct H as (y & _ & H).
  apply bind_ok in H. destruct H as (t & _ & H). inversion H; subst. reflexivity.
Qed.

(** Exactly the items of lists are marked. *)
Lemma listed_marks : forall env id v x mk, message_from_model env id v = Ok (x, mk) -> forall y, lists_message x y -> In (m_id y) mk.
Proof.
  intros env id v x mk H y (f & ty & Hf & Ht). destruct (message_fields _ _ _ _ _ H) as (_ & _ & Hlen & Hk).
  apply In_nth_error in Hf. destruct Hf as (k & Hf). destruct (nth_error (sm_fields v) k) as [vf|] eqn:Ev.
  2:{ apply nth_error_None in Ev. rewrite <- Hlen in Ev. apply nth_error_None in Ev. congruence. }
  destruct (Hk _ _ Ev) as (f' & mk1 & Hf' & Hm). assert (f' = f) by congruence. subst f'.
  assert (Hi : incl mk1 mk).
  { unfold message_from_model in H. apply bind_ok in H. destruct H as ((((fs & dc) & dy) & mk') & H0 & H).
    injection H as <- <-. cbn [m_fields] in *. apply LinkThms.mfields_marks in H0. destruct H0 as (_ & H0). cbn in H0. exact (H0 _ _ _ _ Ev Hf Hm). }
  apply Hi. unfold mfield_from_model in Hm. destruct (smf_info vf) as [nm|ml nm|[ml|]| |on nm].
  - apply bind_ok in Hm. destruct Hm as ([s|z] & _ & Hm); [destruct (flattened s)|]; injection Hm as <- _; discriminate Ht.
  - apply bind_ok in Hm. destruct Hm as ([s|z] & _ & Hm); apply bind_ok in Hm; destruct Hm as (ty' & _ & Hm); injection Hm as <- <-;
      [discriminate Ht|]. cbn [mf_ty] in Ht. injection Ht as -> ->. left. reflexivity.
  - apply bind_ok in Hm. destruct Hm as (ty' & _ & Hm). injection Hm as <- _. discriminate Ht.
  - injection Hm as <- _. discriminate Ht.
  - injection Hm as <- _. discriminate Ht.
  - apply bind_ok in Hm. destruct Hm as ([oi g] & _ & Hm). apply bind_ok in Hm. destruct Hm as (u & _ & Hm).
    destruct (mf_ty g) as [|[s|z]| | | | | |]; try discriminate. destruct (_ =? _); [|discriminate]. injection Hm as <- _. discriminate Ht.
Qed.

Record step_inv (M : list message) (w0 : world) (pw : protocol * world) : Prop := {
  si_num : numbered (M ++ p_messages (fst pw)) (w_next (snd pw));
  si_new : w_next w0 <= w_next (snd pw) /\ forall x, In x (p_messages (fst pw)) -> w_next w0 <= m_id x;
  si_emb : forall id, In id (w_embedded (snd pw)) <->
    In id (w_embedded w0) \/ exists x y, In x (p_messages (fst pw)) /\ lists_message x y /\ m_id y = id;
  si_known : KI (M ++ p_messages (fst pw)) (fst pw) }.

Lemma protocol_step : forall m solver w v p w' M, numbered M (w_next w) ->
  (forall name q, r_protocol solver name = Some q -> KI M q) ->
  protocol_from_model m solver w v = Ok (p, w') -> step_inv M w (p, w').
Proof.
  intros m solver w v p w' M HM Hq H. unfold protocol_from_model in H.
  apply bind_ok in H. destruct H as (p1 & H1 & H).
  apply bind_ok in H. destruct H as (p2 & H2 & H).
  apply bind_ok in H. destruct H as ((p3 & w3) & H3 & H).
  apply bind_ok in H. destruct H as (p4 & H4 & H5).
  assert (K0 : step_inv M w (protocol_empty (sp_name v), w)).
  { constructor; cbn [fst snd protocol_empty p_messages]; rewrite ?app_nil_r; [exact HM| | |apply inv_empty].
    - split; [lia|intros x []].
    - intro id. split; [left; assumption|]. intros [H0|(x & y & [] & _)]. exact H0. }
  assert (K1 : step_inv M w (p1, w)).
  { apply (foldM_inv (fun p => step_inv M w (p, w)) (import_one solver) (sp_imports v) _ _) in H1; [exact H1| |exact K0].
    intros q i q' _ [A B C D] Hi. constructor; cbn [fst snd] in *; rewrite ?(import_messages _ _ _ _ Hi); try assumption.
    eapply inv_import; [|exact D|exact Hi]. intros n r Hr. eapply KI_mono; [|eapply Hq; exact Hr]. apply incl_appl, incl_refl. }
  assert (K2 : step_inv M w (p2, w)).
  { apply (foldM_inv (fun p => step_inv M w (p, w)) define_enum (sp_enums v) _ _) in H2; [exact H2| |exact K1].
    intros q i q' _ [A B C D] Hi. unfold define_enum in Hi. apply bind_ok in Hi. destruct Hi as (e & _ & Hi). injection Hi as <-.
    constructor; cbn [fst snd add_enum p_messages] in *; try assumption. apply inv_enum; [exact I|exact D]. }
  assert (K3 : step_inv M w (p3, w3)).
  { apply (foldM_inv (step_inv M w) (define_struct m) (sp_structs v) _ _) in H3; [exact H3| |exact K2].
    intros (q & wq) i (q' & wq') _ [A B C D] Hi. cbn [fst snd] in *. unfold define_struct in Hi.
    apply bind_ok in Hi. destruct Hi as (s & Hs & Hi). injection Hi as <- <-.
    constructor; cbn [fst snd add_struct p_messages w_next w_embedded]; try assumption.
    - apply numbered_weaken, A.
    - split; [lia|apply B].
    - apply inv_struct; [exact I|exact D]. }
  assert (K4 : step_inv M w (p4, w3)).
  { apply (foldM_inv (fun p => step_inv M w (p, w3)) define_union (sp_unions v) _ _) in H4; [exact H4| |exact K3].
    intros q i q' _ [A B C D] Hi. unfold define_union in Hi. apply bind_ok in Hi. destruct Hi as (u & Hu & Hi). injection Hi as <-.
    constructor; cbn [fst snd add_union p_messages] in *; try assumption. apply inv_union; [|exact D].
    eapply union_known; [|exact Hu]. eapply pi_messages. exact D. }
  apply (foldM_inv (step_inv M w) define_message (sp_messages v) _ _) in H5; [exact H5| |exact K4].
  intros (q & wq) i (q' & wq') _ [A B C D] Hi. cbn [fst snd] in *. unfold define_message in Hi.
  apply bind_ok in Hi. destruct Hi as ((x & mk) & Hx & Hi). injection Hi as <- <-.
  constructor; cbn [fst snd add_message p_messages w_next w_embedded].
  - rewrite app_assoc. apply numbered_add; [exact A|]. eapply message_number; exact Hx.
  - split; [lia|]. intros y Hy. apply in_app_or in Hy. destruct Hy as [Hy|[<- | []]]; [apply B, Hy|].
    rewrite (message_number _ _ _ _ _ Hx). apply B.
  - intro id. rewrite in_app_iff, C. split.
    + intros [[H|(a & b & Ha & Hb)]|H]; [left; exact H|right; exists a, b; split; [apply in_or_app; left; exact Ha|exact Hb]|].
      right. destruct (message_marks _ _ _ _ _ Hx id H) as (f & ty & y & Hf & Ht & Hy). exists x, y.
      split; [apply in_or_app; right; left; reflexivity|]. split; [exists f, ty; auto|exact Hy].
    + intros [H|(a & b & Ha & Hb & <-)]; [left; left; exact H|]. apply in_app_or in Ha. destruct Ha as [Ha|[<- | []]].
      * left. right. exists a, b. auto.
      * right. eapply listed_marks; [exact Hx|exact Hb].
  - rewrite app_assoc. apply inv_message.
    + eapply message_known; [| |exact Hx]; cbn; [eapply pi_messages|eapply pi_unions]; exact D.
    + eapply KI_mono; [apply incl_appl, incl_refl|exact D].
Qed.

(** ** Runs *)

Section Runs.
Variables (m : mode) (sep : string).

Record run_inv (seen : list (string * protocol)) (w : world) : Prop := {
  ri_num : numbered (msgs (map snd seen)) (w_next w);
  ri_known : forall b p, In (b, p) seen -> KI (msgs (map snd seen)) p }.
Lemma visible_known : forall seen w n q, run_inv seen w -> r_protocol (visible sep seen) n = Some q -> KI (msgs (map snd seen)) q.
Proof.
  intros seen w n q [_ H] Hq. cbn in Hq. destruct (find _ (rev seen)) as [[b p]|] eqn:E; [|discriminate]. injection Hq as <-.
  apply find_some in E. destruct E as [E _]. apply in_rev in E. exact (H _ _ E).
Qed.
Lemma msgs_snoc : forall (seen : list (string * protocol)) b p, msgs (map snd (seen ++ [(b, p)])) = (msgs (map snd seen) ++ p_messages p)%list.
Proof. intros seen b p. unfold msgs. rewrite map_app, flat_map_app. cbn. rewrite app_nil_r. reflexivity. Qed.
Lemma run_step : forall seen w b v p w', run_inv seen w -> protocol_from_model m (visible sep seen) w v = Ok (p, w') ->
  step_inv (msgs (map snd seen)) w (p, w') /\ run_inv (seen ++ [(b, p)]) w'.
Proof.
  intros seen w b v p w' Hr H. assert (S : step_inv (msgs (map snd seen)) w (p, w')).
  { eapply protocol_step; [apply Hr| |exact H]. intros n q Hq. eapply visible_known; eassumption. }
  split; [exact S|]. destruct S as [A B C D]. cbn [fst snd] in *. constructor; rewrite msgs_snoc; [exact A|].
  intros b' q Hq. apply in_app_or in Hq. destruct Hq as [Hq|[E|[]]].
  - eapply KI_mono; [apply incl_appl, incl_refl|]. eapply ri_known; eassumption.
  - injection E as <- <-. exact D.
Qed.
Lemma run_start : run_inv [] world_new.
Proof. constructor; [split; [intros x []|intros x y []]|intros b p []]. Qed.
Lemma imports_split : forall l1 l2 seen w seen' w', imports_run m sep seen w (l1 ++ l2) seen' w' <->
  exists seen1 w1, imports_run m sep seen w l1 seen1 w1 /\ imports_run m sep seen1 w1 l2 seen' w'.
Proof.
  induction l1 as [|[b v] l1 IH]; intros l2 seen w seen' w'; cbn [app].
  - split.
    + intro H. exists seen, w. split; [constructor|exact H].
    + intros (s1 & w1 & H1 & H2). inversion H1; subst. exact H2.
  - split.
    + intro H. inversion H as [|? ? ? ? ? p w1 ? ? H1 H2]; subst. apply IH in H2. destruct H2 as (s1 & w2 & H2 & H3).
      exists s1, w2. split; [econstructor; eassumption|exact H3].
    + intros (s1 & w2 & H & H3). inversion H as [|? ? ? ? ? p w1 ? ? H1 H2]; subst. econstructor; [exact H1|]. apply IH. eauto.
Qed.
Lemma imports_same : forall l seen w s1 w1 s2 w2, imports_run m sep seen w l s1 w1 -> imports_run m sep seen w l s2 w2 ->
  s1 = s2 /\ w1 = w2.
Proof.
  induction l as [|[b v] l IH]; intros seen w s1 w1 s2 w2 H1 H2; inversion H1; subst; inversion H2; subst; [auto|].
  match goal with A : protocol_from_model _ _ _ _ = Ok (?p, ?u), B : protocol_from_model _ _ _ _ = Ok (?q, ?t) |- _ =>
    rewrite A in B; injection B as <- <- end. eapply IH; eassumption.
Qed.
Lemma imports_inv : forall l seen w seen' w', imports_run m sep seen w l seen' w' -> run_inv seen w -> run_inv seen' w'.
Proof.
  intros l seen w seen' w' H. induction H as [|seen w b v l p w1 seen' w' H1 H2 IH]; intro Hr; [exact Hr|].
  apply IH. eapply run_step; eassumption.
Qed.
(** What a run is. *)
Lemma run_is : forall earlier v p w, run_gives m sep earlier v p w <->
  exists seen w1, imports_run m sep [] world_new earlier seen w1 /\ protocol_from_model m (visible sep seen) w1 v = Ok (p, w).
Proof.
  intros earlier v p w. unfold run_gives. rewrite load_ok.
  assert (E1 : imported (run_of earlier v) = earlier).
  { unfold imported, run_of. rewrite flat_map_app. cbn. rewrite app_nil_r. induction earlier as [|[b u] l IH]; [reflexivity|]. cbn. rewrite IH. reflexivity. }
  assert (E2 : loaded (run_of earlier v) = [v]).
  { unfold loaded, run_of. rewrite flat_map_app. cbn. clear E1. induction earlier as [|[b u] l IH]; [reflexivity|]. cbn. exact IH. }
  rewrite E1, E2. split; intros (seen & w1 & H1 & H2); exists seen, w1; (split; [exact H1|]).
  - inversion H2 as [|? ? ? ? w2 ? ? A B]; subst. inversion B; subst. exact A.
  - econstructor; [exact H2|constructor].
Qed.
(** A later run sees the very protocol that was generated. *)
Theorem runs_same : forall l1 v p w, run_gives m sep l1 v p w -> forall path l2 v' p' w',
  run_gives m sep (l1 ++ (path, v) :: l2) v' p' w' ->
  exists seen w0 seen' w1, imports_run m sep [] world_new l1 seen w0 /\ imports_run m sep (seen ++ [(path, p)]) w l2 seen' w1 /\
    protocol_from_model m (visible sep seen') w1 v' = Ok (p', w').
Proof.
  intros l1 v p w H path l2 v' p' w' H'. apply run_is in H. apply run_is in H'. destruct H as (seen & w0 & H1 & H2).
  destruct H' as (seen' & w1 & H3 & H4). apply imports_split in H3. destruct H3 as (s & u & A & B).
  destruct (imports_same _ _ _ _ _ _ _ A H1) as [-> ->]. inversion B as [|? ? ? ? ? q u1 ? ? C D]; subst.
  rewrite H2 in C. injection C as <- <-. exists seen, w0, seen', w1. auto.
Qed.

(** The runs of the protocols in between. *)
Lemma between : forall l2 seen w seen' w', imports_run m sep seen w l2 seen' w' -> forall l1, imports_run m sep [] world_new l1 seen w ->
  exists more, seen' = (seen ++ more)%list /\
  forall b p, In (b, p) more -> exists e v e' u, l2 = (e ++ (b, v) :: e')%list /\ run_gives m sep (l1 ++ e) v p u.
Proof.
  intros l2 seen w seen' w' H. induction H as [|seen w b v l p w1 seen' w' H1 H2 IH]; intros l1 Hl.
  - exists []. rewrite app_nil_r. split; [reflexivity|intros b p []].
  - destruct (IH (l1 ++ [(b, v)])%list) as (more & E & Hm).
    { apply imports_split. exists seen, w. split; [exact Hl|]. econstructor; [exact H1|constructor]. }
    exists ((b, p) :: more). split; [rewrite E, <- app_assoc; reflexivity|]. intros b' q [E'|Hq].
    + injection E' as <- <-. exists [], v, l, w1. split; [reflexivity|]. rewrite app_nil_r. apply run_is. eauto.
    + destruct (Hm _ _ Hq) as (e & v' & e' & u & E1 & E2). exists ((b, v) :: e), v', e', u.
      split; [rewrite E1; reflexivity|]. rewrite <- app_assoc in E2. exact E2.
Qed.
Lemma imports_marks : forall l2 seen w seen' w', imports_run m sep seen w l2 seen' w' -> run_inv seen w ->
  exists more, seen' = (seen ++ more)%list /\ w_next w <= w_next w' /\
    (forall b q x, In (b, q) more -> In x (p_messages q) -> w_next w <= m_id x) /\
    forall id, In id (w_embedded w') <->
      In id (w_embedded w) \/ exists b q x y, In (b, q) more /\ In x (p_messages q) /\ lists_message x y /\ m_id y = id.
Proof.
  intros l2 seen w seen' w' H. induction H as [|seen w b v l p w1 seen' w' H1 H2 IH]; intro Hr.
  - exists []. rewrite app_nil_r. split; [reflexivity|]. split; [lia|]. split; [intros b q x []|]. intro id. split; [auto|].
    intros [H|(b & q & x & y & [] & _)]. exact H.
  - destruct (run_step _ _ b _ _ _ Hr H1) as [[A B C D] Hr']. cbn [fst snd] in *. destruct (IH Hr') as (more & E & E1 & E2 & E3).
    exists ((b, p) :: more). split; [rewrite E, <- app_assoc; reflexivity|]. split; [lia|]. split.
    + intros b' q x [E'|Hq] Hx; [injection E' as <- <-; apply B, Hx|]. specialize (E2 _ _ _ Hq Hx). lia.
    + intro id. rewrite E3, C. split.
      * intros [[H|(x & y & Hx & Hy)]|(b' & q & x & y & Hq & Hx)]; [auto|right; exists b, p, x, y; split; [left; reflexivity|auto]|].
        right. exists b', q, x, y. split; [right; exact Hq|exact Hx].
      * intros [H|(b' & q & x & y & [E'|Hq] & Hx & Hy)]; [auto|injection E' as <- <-; left; right; exists x, y; auto|].
        right. exists b', q, x, y. auto.
Qed.
End Runs.

Lemma marked_in : forall w id, marked w id = true <-> In id (w_embedded w).
Proof.
  intros w id. unfold marked. rewrite existsb_exists. split; [intros (k & Hk & E); apply N.eqb_eq in E; subst; exact Hk|].
  intro H. exists id. split; [exact H|apply N.eqb_refl].
Qed.
Lemma listed_within : forall x y, lists_message x y -> within x y.
Proof. intros x y (f & ty & Hf & Ht). eapply within_deep; [exact Hf| |apply within_here]. rewrite Ht. constructor. Qed.
Lemma in_msgs : forall (seen : list (string * protocol)) x, In x (msgs (map snd seen)) <-> exists b p, In (b, p) seen /\ In x (p_messages p).
Proof.
  intros seen x. unfold msgs. rewrite in_flat_map. split.
  - intros (p & Hp & Hx). apply in_map_iff in Hp. destruct Hp as ([b q] & E & Hq). cbn in E. subst q. eauto.
  - intros (b & p & Hp & Hx). exists p. split; [|exact Hx]. apply in_map_iff. exists (b, p). auto.
Qed.
(** The state a later run ends in. *)
Theorem runs_marks : forall m sep l1 path v p w l2 path' v' p' w' y, run_gives m sep l1 v p w -> In y (p_messages p) ->
  run_gives m sep (l1 ++ (path, v) :: l2) v' p' w' ->
  (marked w' (m_id y) = true <-> marked w (m_id y) = true \/
   exists e b u e' q t z, (l2 ++ [(path', v')] = e ++ (b, u) :: e')%list /\ run_gives m sep (l1 ++ (path, v) :: e) u q t /\
     In z (p_messages q) /\ lists_message z y).
Proof.
  intros m sep l1 path v p w l2 path' v' p' w' y H Hy H'.
  destruct (runs_same _ _ _ _ _ _ H path l2 _ _ _ H') as (seen & w0 & seen' & w1 & A & B & C).
  pose proof (proj1 (run_is _ _ _ _ _ _) H) as (seen0 & w00 & A' & Hp). destruct (imports_same _ _ _ _ _ _ _ _ _ A' A) as [-> ->]. clear A'.
  assert (B' : imports_run m sep (seen ++ [(path, p)]) w (l2 ++ [(path', v')]) (seen' ++ [(path', p')]) w').
  { apply imports_split. exists seen', w1. split; [exact B|]. econstructor; [exact C|constructor]. }
  assert (A1 : imports_run m sep [] world_new (l1 ++ [(path, v)]) (seen ++ [(path, p)]) w).
  { apply imports_split. exists seen, w0. split; [exact A|]. econstructor; [exact Hp|constructor]. }
  pose proof (imports_inv _ _ _ _ _ _ _ A1 run_start) as I1. pose proof (imports_inv _ _ _ _ _ _ _ B' I1) as I2.
  destruct (imports_marks _ _ _ _ _ _ _ B' I1) as (more & E & _ & _ & Hm).
  destruct (between _ _ _ _ _ _ _ B' _ A1) as (more' & E' & Hb).
  rewrite E in E'. apply app_inv_head in E'. subst more'. rewrite !marked_in, Hm. apply or_iff_compat_l. split.
  - intros (b & q & z & y' & Hq & Hz & Hl & Hid). destruct (Hb _ _ Hq) as (e & u & e' & t & E1 & E2).
    exists e, b, u, e', q, t, z. split; [exact E1|]. rewrite <- app_assoc in E2. split; [exact E2|]. split; [exact Hz|].
    assert (y' = y) as <-; [|exact Hl]. destruct I2 as [(_ & Hu) Hk]. rewrite E in Hu, Hk. apply Hu; [| |exact Hid].
    + assert (K : In (b, q) ((seen ++ [(path, p)]) ++ more)) by (apply in_or_app; right; exact Hq).
      exact (pi_lmessages _ _ _ _ _ (Hk _ _ K) z Hz y' (listed_within _ _ Hl)).
    + apply in_msgs. exists path, p. split; [|exact Hy]. apply in_or_app. left. apply in_or_app. right. left. reflexivity.
  - intros (e & b & u & e' & q & t & z & E1 & E2 & Hz & Hl). rewrite E1 in B'.
    destruct (proj1 (run_is _ _ _ _ _ _) E2) as (s2 & w2 & F1 & F2).
    replace (l1 ++ (path, v) :: e)%list with ((l1 ++ [(path, v)]) ++ e)%list in F1 by (rewrite <- app_assoc; reflexivity).
    apply imports_split in F1. destruct F1 as (s3 & w3 & F1 & F3). destruct (imports_same _ _ _ _ _ _ _ _ _ F1 A1) as [-> ->].
    apply imports_split in B'. destruct B' as (s4 & w4 & G1 & G2). destruct (imports_same _ _ _ _ _ _ _ _ _ G1 F3) as [-> ->].
    inversion G2 as [|? ? ? ? ? q' t' ? ? G3 G4]; subst. rewrite F2 in G3. injection G3 as <- <-.
    assert (K : In (b, q) more).
    { destruct (between _ _ _ _ _ _ _ F3 _ A1) as (m3 & E3 & _). rewrite E3 in G4.
      assert (A2 : imports_run m sep [] world_new (l1 ++ (path, v) :: e ++ [(b, u)]) (((seen ++ [(path, p)]) ++ m3) ++ [(b, q)]) t).
      { replace (l1 ++ (path, v) :: e ++ [(b, u)])%list with ((l1 ++ [(path, v)]) ++ (e ++ [(b, u)]))%list by (rewrite <- app_assoc; reflexivity).
        apply imports_split. exists (seen ++ [(path, p)])%list, w. split; [exact A1|]. apply imports_split. exists s2, w2. split; [exact F3|].
        rewrite <- E3. econstructor; [exact F2|constructor]. }
      destruct (between _ _ _ _ _ _ _ G4 _ A2) as (m4 & E4 & _). rewrite E in E4. rewrite <- !app_assoc in E4.
      do 2 apply app_inv_head in E4. rewrite E4. apply in_or_app. right. left. reflexivity. }
    exists b, q, z, y. auto.
Qed.

Theorem apart_read : forall mc mr sep earlier path v p w emb, program mc sep (earlier ++ [(path, v)]) emb ->
  run_gives mc sep earlier v p w ->
  (forall e b u e' q t, (earlier ++ [(path, v)] = e ++ (b, u) :: e')%list -> run_gives mc sep e u q t -> ~ lists_imported q) ->
  forall x, In x (p_messages p) -> forall b, read_msg mr emb x b = read_msg mr (marked w) x b.
Proof.
  intros mc mr sep earlier path v p w emb Hpr H Hn x Hx. apply marks_agree_lists. intros y Hy Hl.
  pose proof (proj1 (run_is _ _ _ _ _ _) H) as (seen & w1 & A & B).
  assert (A1 : imports_run mc sep [] world_new (earlier ++ [(path, v)]) (seen ++ [(path, p)]) w).
  { apply imports_split. exists seen, w1. split; [exact A|]. econstructor; [exact B|constructor]. }
  pose proof (imports_inv _ _ _ _ _ _ _ A1 run_start) as [I1 I2].
  assert (Hp : In (path, p) (seen ++ [(path, p)])) by (apply in_or_app; right; left; reflexivity).
  pose proof (pi_lmessages _ _ _ _ _ (I2 _ _ Hp) x Hx y Hy) as K. apply in_msgs in K. destruct K as (b & q & Hq & Hyq).
  apply in_app_or in Hq. destruct Hq as [Hq|[E|[]]].
  - destruct (between _ _ _ _ _ _ _ A [] (ir_nil _ _ _ _)) as (more & E & Hb). cbn [app] in E. subst more.
    destruct (Hb _ _ Hq) as (e & u & e' & t & -> & R). cbn [app] in R.
    rewrite (Hpr e b u (e' ++ [(path, v)]) q t (eq_sym (app_assoc e ((b, u) :: e') _)) R y Hyq).
    destruct (marked w (m_id y)) eqn:E1.
    + apply (runs_marks mc sep e b u q t e' path v p w y R Hyq H) in E1. destruct E1 as [E1|(f & b' & u' & f' & q' & t' & z & E2 & R' & Hz & Hzl)]; [exact E1|].
      exfalso. refine (Hn (e ++ (b, u) :: f) b' u' f' q' t' _ R' _).
      { rewrite <- app_assoc. cbn [app]. rewrite E2, <- app_assoc. reflexivity. }
      exists z, y. split; [exact Hz|]. split; [exact Hzl|]. split; [|exact Hl]. intro C.
      (* the messages of different protocols have different numbers *)
      pose proof (proj1 (run_is _ _ _ _ _ _) R') as (s2 & w2 & F1 & F2).
      pose proof (imports_inv _ _ _ _ _ _ _ F1 run_start) as I3.
      destruct (run_step _ _ _ _ b' _ _ _ I3 F2) as [[_ [_ N1] _ _] _]. cbn [fst snd] in N1. specialize (N1 y C).
      destruct I3 as [(N2 & _) _]. assert (K : In y (msgs (map snd s2))); [|specialize (N2 y K); lia].
      apply in_msgs. apply imports_split in F1. destruct F1 as (s3 & w3 & F1 & F3). inversion F3 as [|? ? ? ? ? q2 w4 ? ? F4 F5]; subst.
      assert (q2 = q) as ->.
      { pose proof (proj1 (run_is _ _ _ _ _ _) R) as (s5 & w5 & L1 & L2). destruct (imports_same _ _ _ _ _ _ _ _ _ L1 F1) as [-> ->]. congruence. }
      assert (A3 : imports_run mc sep [] world_new (e ++ [(b, u)]) (s3 ++ [(b, q)]) w4).
      { apply imports_split. exists s3, w3. split; [exact F1|]. econstructor; [exact F4|constructor]. }
      destruct (between _ _ _ _ _ _ _ F5 _ A3) as (m4 & E4 & _). exists b, q. split; [|exact Hyq]. rewrite E4.
      apply in_or_app. left. apply in_or_app. right. left. reflexivity.
    + destruct (marked t (m_id y)) eqn:E2; [|reflexivity].
      assert (marked w (m_id y) = true); [|congruence]. apply (runs_marks mc sep e b u q t e' path v p w y R Hyq H). left. exact E2.
  - injection E as <- <-. exact (Hpr earlier path v [] p w eq_refl H y Hyq).
Qed.

(** There is such a program: the messages of different protocols have different numbers. *)
Theorem program_exists : forall m sep l seen w, imports_run m sep [] world_new l seen w -> exists emb, program m sep l emb.
Proof.
  intros m sep l. induction l as [|[path v] l IH] using rev_ind; intros seen w H.
  - exists (fun _ => false). intros e b u e' p w' E. destruct e; discriminate.
  - apply imports_split in H. destruct H as (s1 & w1 & H1 & H2). destruct (IH _ _ H1) as (emb & He). clear IH.
    inversion H2 as [|? ? ? ? ? q w2 ? ? A B]; subst. inversion B; subst. clear B.
    exists (fun id => if id <? w_next w1 then emb id else marked w id). intros e b u e' p w' E R x Hx.
    pose proof (imports_inv _ _ _ _ _ _ _ H1 run_start) as I1. pose proof (proj1 (run_is _ _ _ _ _ _) R) as (s2 & w2 & F1 & F2).
    destruct e' as [|[b1 u1] e'' _] using rev_ind.
    + apply app_inj_tail in E. destruct E as [<- E]. injection E as <- <-. destruct (imports_same _ _ _ _ _ _ _ _ _ F1 H1) as [-> ->].
      rewrite A in F2. injection F2 as <- <-. destruct (run_step _ _ _ _ path _ _ _ I1 A) as [[_ [_ N1] _ _] _]. cbn [fst snd] in N1.
      specialize (N1 x Hx). replace (m_id x <? w_next w1) with false by (symmetry; apply N.ltb_ge; exact N1). reflexivity.
    + assert (l = (e ++ (b, u) :: e'')%list) as ->.
      { change ((b, u) :: (e'' ++ [(b1, u1)]))%list with (((b, u) :: e'') ++ [(b1, u1)])%list in E. rewrite app_assoc in E.
        apply app_inj_tail in E. apply E. }
      rewrite <- (He e b u e'' p w' eq_refl R x Hx). apply imports_split in H1. destruct H1 as (s3 & w3 & G1 & G2).
      destruct (imports_same _ _ _ _ _ _ _ _ _ G1 F1) as [-> ->]. inversion G2 as [|? ? ? ? ? q2 w4 ? ? G3 G4]; subst.
      rewrite F2 in G3. injection G3 as <- <-.
      assert (A3 : imports_run m sep [] world_new (e ++ [(b, u)]) (s2 ++ [(b, p)]) w').
      { apply imports_split. exists s2, w2. split; [exact F1|]. econstructor; [exact F2|constructor]. }
      destruct (between _ _ _ _ _ _ _ G4 _ A3) as (m4 & E4 & _). destruct I1 as [(N2 & _) _].
      assert (K : In x (msgs (map snd s1))).
      { apply in_msgs. exists b, p. split; [|exact Hx]. rewrite E4. apply in_or_app. left. apply in_or_app. right. left. reflexivity. }
      specialize (N2 x K). replace (m_id x <? w_next w1) with true by (symmetry; apply N.ltb_lt; exact N2). reflexivity.
Qed.
