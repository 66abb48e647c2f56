(** Facts about the messages of compiled protocols: unions select on a member
    that holds their discriminant, items of lists are marked. *)

From Coq Require Import Arith NArith ZArith String List Bool Lia ZifyBool ZifyN ZifyNat.
From Verif Require Import Base Schema Codec Compiler Access SpecComp SpecStruct StructFacts StructThms NestedThms
  CompFacts CompThms Runtime Gen SpecWire MsgFacts TotalThms Loader SpecRun.
Import ListNotations.
Local Open Scope N_scope.

(** ** Compiled messages are linked *)

Definition linked_field (K : list structure) (W : list N) (x : message) (k : nat) (f : mfield) : Prop :=
  match mf_ty f with
  | TRef (RStruct s) => In s K
  | TUnion u on i => (i < k)%nat /\ mf_optional f = false /\
      In (d_root (u_disc u)) K /\
      exists g, nth_error (m_fields x) i = Some g /\ mf_ty g = TRef (RStruct (d_root (u_disc u)))
  | TList _ y => In (m_id y) W
  | _ => True
  end.
Definition linked1 K W (x : message) : Prop :=
  forall k f, nth_error (m_fields x) k = Some f -> linked_field K W x k f.
Definition linked K W (x : message) : Prop := forall y, within x y -> linked1 K W y.

Definition linked_union K W (u : union_) : Prop :=
  In (d_root (u_disc u)) K /\
  forall c y, In c (u_cases u) -> uc_item c = Some (RMessage y) -> linked K W y.

Definition PI K W := proto_inv (fun _ => True) (fun s => In s K) (linked_union K W) (linked K W).

Lemma linked1_mono : forall K K' W W' x, incl K K' -> incl W W' -> linked1 K W x -> linked1 K' W' x.
Proof.
  intros K K' W W' x HK HW H k f Hf. specialize (H k f Hf). unfold linked_field in *.
  destruct (mf_ty f) as [| [s|y] | | | |u on i| |]; auto. destruct H as (H1 & H2 & H3 & H4). repeat split; auto.
Qed.
Lemma linked_mono : forall K K' W W' x, incl K K' -> incl W W' -> linked K W x -> linked K' W' x.
Proof. intros K K' W W' x HK HW H y Hy. eapply linked1_mono; eauto. Qed.
Lemma linked_union_mono : forall K K' W W' u, incl K K' -> incl W W' -> linked_union K W u -> linked_union K' W' u.
Proof.
  intros K K' W W' u HK HW (H1 & H3). split; [auto|].
  intros c y Hc Hy. eapply linked_mono; eauto.
Qed.
Lemma PI_mono : forall K K' W W' p, incl K K' -> incl W W' -> PI K W p -> PI K' W' p.
Proof.
  intros K K' W W' p HK HW []. constructor; auto.
  - intros k v Hv. apply HK. eapply pi_structs; eauto.
  - intros k v Hv. eapply linked_union_mono; eauto.
  - intros k v Hv. eapply linked_mono; eauto.
  - intros u Hu. eapply linked_union_mono; eauto.
  - intros x Hx. eapply linked_mono; eauto.
Qed.


Definition ids_unique (K : list structure) (n : N) : Prop :=
  (forall s, In s K -> s_id s < n) /\
  forall s s', In s K -> In s' K -> s_id s = s_id s' -> s = s'.

Lemma structure_id : forall m e enums structs id d s,
  structure_from_model m e enums structs id d = Ok s -> s_id s = id.
Proof.
  intros m e enums structs id d s H. unfold structure_from_model in H. apply bind_ok in H.
  destruct H as ((fs & off) & _ & H). inversion H; subst. reflexivity.
Qed.

Lemma ids_add : forall K n s, ids_unique K n -> s_id s = n -> ids_unique (K ++ [s]) (n + 1).
Proof.
  intros K n s (H1 & H2) Hs. split.
  - intros s' Hs'. apply in_app_or in Hs'. destruct Hs' as [Hs'|[<-|[]]]; [specialize (H1 _ Hs'); lia|lia].
  - intros a b Ha Hb Hab. apply in_app_or in Ha. apply in_app_or in Hb.
    destruct Ha as [Ha|[<-|[]]], Hb as [Hb|[<-|[]]]; auto.
    + specialize (H1 _ Ha). lia.
    + specialize (H1 _ Hb). lia.
Qed.

Lemma ids_weaken : forall K n, ids_unique K n -> ids_unique K (n + 1).
Proof. intros K n (H1 & H2). split; [|assumption]. intros s Hs. specialize (H1 _ Hs). lia. Qed.

Lemma ucases_in : forall structs messages d l cs c, ucases_from_model structs messages d l = Ok cs -> In c cs ->
  forall y, uc_item c = Some (RMessage y) -> exists n, sget n messages = Some y.
Proof.
  intros structs messages d. induction l as [|v l IH]; intros cs c H Hc y Hy; cbn in H.
  - inversion H; subst. contradiction.
  - apply bind_ok in H. destruct H as (leaf & _ & H). apply bind_ok in H. destruct H as (c0 & Hc0 & H).
    apply bind_ok in H. destruct H as (cs0 & Hcs & H). inversion H; subst.
    destruct Hc as [<-|Hc]; [|eapply IH; eauto].
    unfold ucase_from_model in Hc0. apply bind_ok in Hc0. destruct Hc0 as (k & _ & Hc0).
    apply bind_ok in Hc0. destruct Hc0 as (it & Hit & Hc0). inversion Hc0; subst. cbn in Hy. subst it.
    destruct (su_item_type v) as [n|]; [|discriminate]. apply bind_ok in Hit. destruct Hit as (r & Hr & Hit).
    inversion Hit; subst. apply ok_or_ok in Hr. unfold referenced_lookup in Hr.
    destruct (sget n structs); [discriminate|]. destruct (sget n messages) eqn:E; inversion Hr; subst. eauto.
Qed.

Lemma union_linked : forall K W structs messages v u,
  vals (fun s => In s K) structs -> vals (linked K W) messages ->
  union_from_model structs messages v = Ok u -> linked_union K W u.
Proof.
  intros K W structs messages v u HS HM H. unfold union_from_model in H.
  apply bind_ok in H. destruct H as (d & Hd & H). apply bind_ok in H. destruct H as (cs & Hcs & H).
  inversion H; subst. clear H. unfold linked_union. cbn [u_disc u_cases]. split.
  - unfold disc_from_model in Hd. destruct (split_dot (sun_discriminant v)) as (n & parts).
    apply bind_ok in Hd. destruct Hd as (root & Hr & Hd). apply ok_or_ok in Hr.
    apply bind_ok in Hd. destruct Hd as ((leaf & idx) & _ & Hd).
    apply bind_ok in Hd. destruct Hd as (li & _ & Hd). inversion Hd; subst. cbn. eapply HS; eauto.
  - intros c y Hc Hy. destruct (ucases_in _ _ _ _ _ _ Hcs Hc y Hy) as (n & Hn). eapply HM; eauto.
Qed.

Lemma find_mfield_spec : forall n l i k f, find_mfield n i l = Some (k, f) ->
  (i <= k)%nat /\ nth_error l (k - i) = Some f.
Proof.
  intros n. induction l as [|g l IH]; intros i k f H; cbn in H; [discriminate|].
  destruct (String.eqb (mf_name g) n).
  - inversion H; subst. rewrite Nat.sub_diag. auto.
  - apply IH in H. destruct H as (H1 & H2). replace (k - i)%nat with (S (k - S i)) by lia. split; [lia|exact H2].
Qed.

Lemma nth_error_firstn : forall {A} n k (l : list A) x, nth_error (firstn n l) k = Some x ->
  (k < n)%nat /\ nth_error l k = Some x.
Proof.
  intros A. induction n as [|n IH]; intros k l x H; [destruct k; discriminate|].
  destruct l as [|a l]; [destruct k; discriminate|]. destruct k as [|k]; cbn in *; [split; [lia|exact H]|].
  apply IH in H. destruct H. split; [lia|assumption].
Qed.

Lemma mfields_marks : forall env l fs n b mk fs' n' b' mk',
  mfields_from_model env fs n b mk l = Ok (fs', n', b', mk') ->
  incl mk mk' /\ forall k v f mk1, nth_error l k = Some v -> nth_error fs' (length fs + k) = Some f ->
    mfield_from_model env (firstn (length fs + k) fs') v = Ok (f, mk1) -> incl mk1 mk'.
Proof.
  intros env. induction l as [|v l IH]; intros fs n b mk fs' n' b' mk' H.
  - cbn in H. inversion H; subst. split; [apply incl_refl|]. intros [|k] v f mk1 Hv; discriminate.
  - pose proof H as H0. cbn in H. apply bind_ok in H. destruct H as ((f & mk1) & Hf & H). cbn in H.
    destruct (_ && _); [discriminate|]. destruct (1 <? _); [discriminate|].
    pose proof H as H1. apply IH in H. destruct H as (Hi & Hk). split.
    + intros x Hx. apply Hi, in_or_app. auto.
    + intros [|k] v' f' mk2 Hv Hf' Hm.
      * cbn in Hv. inversion Hv; subst v'. rewrite Nat.add_0_r in Hm.
        apply mfields_app in H1. destruct H1 as (new & Hnew & _). cbn [fst] in Hnew. subst fs'.
        rewrite <- app_assoc in Hm. rewrite firstn_app, Nat.sub_diag, firstn_all in Hm. cbn [firstn] in Hm.
        rewrite app_nil_r in Hm. rewrite Hf in Hm. inversion Hm; subst. intros x Hx. apply Hi, in_or_app. auto.
      * cbn in Hv. rewrite app_length in Hk. cbn [length] in Hk.
        replace (length fs + S k)%nat with (length fs + 1 + k)%nat in * by lia. eauto.
Qed.

Lemma mfield_linked : forall K W W' n env fs k v f mk x, ids_unique K n -> incl W W' -> incl mk W' ->
  vals (fun s => In s K) (pe_structs env) -> vals (linked_union K W) (pe_unions env) ->
  (forall i g s, nth_error fs i = Some g -> mf_ty g = TRef (RStruct s) -> In s K) ->
  fs = firstn k (m_fields x) -> mfield_from_model env fs v = Ok (f, mk) -> linked_field K W' x k f.
Proof.
  intros K W W' n env fs k v f mk x Hid HW Hmk HS HU Hprev Hfs H. unfold mfield_from_model in H.
  destruct (smf_info v) as [nm|ml nm|[ml|]| |on nm].
  - apply bind_ok in H. destruct H as (r & Hr & H). apply ok_or_ok in Hr. unfold referenced_lookup in Hr.
    destruct (sget nm (pe_structs env)) as [s|] eqn:Es.
    + inversion Hr; subst r. destruct (flattened s); inversion H; subst; [exact I|]. cbn. eapply HS; eauto.
    + destruct (sget nm (pe_messages env)) as [y|]; inversion Hr; subst r. inversion H; subst. exact I.
  - apply bind_ok in H. destruct H as (r & Hr & H). apply bind_ok in H. destruct H as (ty & _ & H).
    destruct r as [s|y]; inversion H; subst; cbn; [exact I|]. apply Hmk. left. reflexivity.
  - apply bind_ok in H. destruct H as (ty & _ & H). inversion H; subst. exact I.
  - inversion H; subst. exact I.
  - inversion H; subst. exact I.
  - apply bind_ok in H. destruct H as ((i & g) & Hg & H). apply ok_or_ok in Hg. apply find_mfield_spec in Hg.
    destruct Hg as (_ & Hg). rewrite Nat.sub_0_r in Hg.
    apply bind_ok in H. destruct H as (u & Hu & H). apply ok_or_ok in Hu. destruct (HU _ _ Hu) as (HuK & _).
    destruct (mf_ty g) as [| [s|y] | | | | | |] eqn:Eg; try discriminate.
    destruct (N.eqb_spec (s_id (d_root (u_disc u))) (s_id s)) as [E|E]; [|discriminate]. inversion H; subst f mk.
    assert (Hs : In s K) by (eapply Hprev; eauto). destruct Hid as (_ & Hid). specialize (Hid _ _ HuK Hs E). subst s.
    unfold linked_field. cbn [mf_ty mf_optional]. rewrite Hfs in Hg. apply nth_error_firstn in Hg. destruct Hg as (Hlt & Hg).
    repeat split; auto. eauto.
Qed.

Lemma mfield_inside : forall env fs v f mk y, mfield_from_model env fs v = Ok (f, mk) -> inside (mf_ty f) y ->
  (exists n, sget n (pe_messages env) = Some y) \/
  (exists n u c, sget n (pe_unions env) = Some u /\ In c (u_cases u) /\ uc_item c = Some (RMessage y)).
Proof.
  intros env fs v f mk y H Hi. unfold mfield_from_model in H.
  destruct (smf_info v) as [nm|ml nm|[ml|]| |on nm].
  - apply bind_ok in H. destruct H as (r & Hr & H). apply ok_or_ok in Hr. unfold referenced_lookup in Hr.
    destruct (sget nm (pe_structs env)) as [s|] eqn:Es.
    + inversion Hr; subst r. destruct (flattened s); inversion H; subst; inversion Hi.
    + destruct (sget nm (pe_messages env)) as [z|] eqn:Em; inversion Hr; subst r. inversion H; subst.
      inversion Hi; subst. eauto.
  - apply bind_ok in H. destruct H as (r & Hr & H). apply ok_or_ok in Hr. unfold referenced_lookup in Hr.
    apply bind_ok in H. destruct H as (ty & _ & H).
    destruct (sget nm (pe_structs env)) as [s|] eqn:Es.
    + inversion Hr; subst r. inversion H; subst. inversion Hi.
    + destruct (sget nm (pe_messages env)) as [z|] eqn:Em; inversion Hr; subst r. inversion H; subst.
      inversion Hi; subst. eauto.
  - apply bind_ok in H. destruct H as (ty & _ & H). inversion H; subst. inversion Hi.
  - inversion H; subst. inversion Hi.
  - inversion H; subst. inversion Hi.
  - apply bind_ok in H. destruct H as ((i & g) & Hg & H).
    apply bind_ok in H. destruct H as (u & Hu & H). apply ok_or_ok in Hu.
    destruct (mf_ty g) as [| [s|z] | | | | | |] eqn:Eg; try discriminate.
    destruct (_ =? _); [|discriminate]. inversion H; subst f mk. inversion Hi; subst. right. eauto 10.
Qed.

Lemma message_linked : forall K W n env id v x mk, ids_unique K n ->
  vals (fun s => In s K) (pe_structs env) -> vals (linked K W) (pe_messages env) ->
  vals (linked_union K W) (pe_unions env) ->
  message_from_model env id v = Ok (x, mk) -> linked K (W ++ mk) x.
Proof.
  intros K W n env id v x mk Hid HS HM HU H.
  destruct (message_fields _ _ _ _ _ H) as (_ & _ & Hlen & Hf).
  assert (Hmk : forall k vf f mk1, nth_error (sm_fields v) k = Some vf -> nth_error (m_fields x) k = Some f ->
            mfield_from_model env (firstn k (m_fields x)) vf = Ok (f, mk1) -> incl mk1 mk).
  { unfold message_from_model in H. apply bind_ok in H. destruct H as ((((fs & dc) & dy) & mk') & H0 & H).
    inversion H; subst. cbn [m_fields]. apply mfields_marks in H0. destruct H0 as (_ & H0). cbn in H0. exact H0. }
  assert (Hk : forall k f, nth_error (m_fields x) k = Some f -> exists vf mk1,
            nth_error (sm_fields v) k = Some vf /\ mfield_from_model env (firstn k (m_fields x)) vf = Ok (f, mk1)).
  { intros k f Hk. destruct (nth_error (sm_fields v) k) as [vf|] eqn:Ev.
    - destruct (Hf _ _ Ev) as (f' & mk1 & Hf' & Hm). assert (f' = f) by congruence. subst f'. eauto.
    - apply nth_error_None in Ev. rewrite <- Hlen in Ev. apply nth_error_None in Ev. congruence. }
  assert (Hx : forall k f, nth_error (m_fields x) k = Some f -> linked_field K (W ++ mk) x k f).
  { intro k. induction k as [k IH] using lt_wf_ind. intros f Hfk. destruct (Hk _ _ Hfk) as (vf & mk1 & Hv & Hm).
    eapply mfield_linked with (W := W); [exact Hid| | |exact HS|exact HU| |reflexivity|exact Hm].
    - intros a Ha. apply in_or_app. auto.
    - intros a Ha. apply in_or_app. right. eapply Hmk; eauto.
    - intros i g s Hg Hs. apply nth_error_firstn in Hg. destruct Hg as (Hlt & Hg).
      specialize (IH i Hlt g Hg). unfold linked_field in IH. rewrite Hs in IH. exact IH. }
  intros y Hy. inversion Hy as [|x0 g z y0 Hg Hin Hw]; subst; [exact Hx|].
  apply In_nth_error in Hg. destruct Hg as (k & Hg). destruct (Hk _ _ Hg) as (vf & mk1 & Hv & Hm).
  eapply linked1_mono; [apply incl_refl|apply incl_appl, incl_refl|].
  destruct (mfield_inside _ _ _ _ _ _ Hm Hin) as [(nm & Hz)|(nm & u & c & Hu & Hc & Hz)].
  - exact (HM _ _ Hz y Hw).
  - destruct (HU _ _ Hu) as (_ & H2). exact (H2 _ _ Hc Hz y Hw).
Qed.

(** ** Sessions *)

Definition allocated (ps : list protocol) : list structure := flat_map p_structs ps.

Record linked_session (w : world) (ps : list protocol) : Prop := {
  ls_ids : ids_unique (allocated ps) (w_next w);
  ls_protos : forall p, In p ps -> PI (allocated ps) (w_embedded w) p }.

Lemma import_structs : forall solver p v p', import_one solver p v = Ok p' -> p_structs p' = p_structs p.
Proof.
  intros solver p v p' H. unfold import_one in H. apply bind_ok in H. destruct H as (r & _ & H).
  destruct (sget (si_type v) (p_structs_by_name r)).
  { apply bind_ok in H. destruct H as (t & _ & H). inversion H; subst. reflexivity. }
  destruct (sget (si_type v) (p_enums_by_name r)).
  { apply bind_ok in H. destruct H as (t & _ & H). inversion H; subst. reflexivity. }
  destruct (sget (si_type v) (p_unions_by_name r)).
  { apply bind_ok in H. destruct H as (t & _ & H). inversion H; subst. reflexivity. }
  apply bind_ok in H. destruct H as (y & _ & H).
  apply bind_ok in H. destruct H as (t & _ & H). inversion H; subst. reflexivity.
Qed.

Record partial_inv (ps : list protocol) (w0 : world) (pw : protocol * world) : Prop := {
  pa_ids : ids_unique (allocated ps ++ p_structs (fst pw)) (w_next (snd pw));
  pa_emb : incl (w_embedded w0) (w_embedded (snd pw));
  pa_inv : PI (allocated ps ++ p_structs (fst pw)) (w_embedded (snd pw)) (fst pw) }.

Theorem session_linked : forall m w ps, session m w ps -> linked_session w ps.
Proof.
  intros m w ps H. induction H as [|w ps solver v p w' Hs IH Hq H].
  { constructor; [|intros p []]. split; [intros s []|intros s s' []]. }
  destruct IH as [Hids Hps]. unfold protocol_from_model in H.
  apply bind_ok in H. destruct H as (p1 & H1 & H).
  apply bind_ok in H. destruct H as (p2 & H2 & H).
  apply bind_ok in H. destruct H as ((p3 & w3) & H3 & H).
  apply bind_ok in H. destruct H as (p4 & H4 & H5).
  assert (K0 : partial_inv ps w (protocol_empty (sp_name v), w)).
  { constructor; cbn [fst snd protocol_empty p_structs]; rewrite ?app_nil_r;
      [assumption|apply incl_refl|apply inv_empty]. }
  assert (K1 : partial_inv ps w (p1, w)).
  { apply (foldM_inv (fun p => partial_inv ps w (p, w)) (import_one solver) (sp_imports v) _ _) in H1;
      [exact H1| |exact K0].
    intros q i q' _ [A B C] Hi. constructor; cbn [fst snd] in *; rewrite ?(import_structs _ _ _ _ Hi); try assumption.
    eapply (inv_import); [|exact C|exact Hi]. intros n r Hr. eapply PI_mono; [| |apply Hps; eapply Hq; eauto].
    - apply incl_appl, incl_refl.
    - exact B. }
  assert (K2 : partial_inv ps w (p2, w)).
  { apply (foldM_inv (fun p => partial_inv ps w (p, w)) define_enum (sp_enums v) _ _) in H2;
      [exact H2| |exact K1].
    intros q i q' _ [A B C] Hi. unfold define_enum in Hi. apply bind_ok in Hi. destruct Hi as (e & _ & Hi).
    inversion Hi; subst. constructor; cbn [fst snd add_enum p_structs] in *; try assumption.
    apply inv_enum; [exact I|exact C]. }
  assert (K3 : partial_inv ps w (p3, w3)).
  { apply (foldM_inv (partial_inv ps w) (define_struct m) (sp_structs v) _ _) in H3; [exact H3| |exact K2].
    intros (q & wq) i (q' & wq') _ [A B C] Hi. cbn [fst snd] in *. unfold define_struct in Hi.
    apply bind_ok in Hi. destruct Hi as (s & Hs' & Hi). inversion Hi; subst. apply structure_id in Hs'.
    constructor; cbn [fst snd add_struct p_structs w_next w_embedded]; try assumption.
    - rewrite app_assoc. apply ids_add; assumption.
    - rewrite app_assoc. apply inv_struct.
      + apply in_or_app. right. left. reflexivity.
      + eapply PI_mono; [| |exact C]; [apply incl_appl, incl_refl|apply incl_refl]. }
  assert (K4 : partial_inv ps w (p4, w3)).
  { apply (foldM_inv (fun p => partial_inv ps w (p, w3)) define_union (sp_unions v) _ _) in H4;
      [exact H4| |exact K3].
    intros q i q' _ [A B C] Hi. unfold define_union in Hi. apply bind_ok in Hi. destruct Hi as (u & Hu & Hi).
    inversion Hi; subst. constructor; cbn [fst snd add_union p_structs] in *; try assumption.
    apply inv_union; [|exact C]. eapply union_linked; [| |exact Hu]; [eapply pi_structs|eapply pi_messages]; exact C. }
  assert (K5 : partial_inv ps w (p, w')).
  { apply (foldM_inv (partial_inv ps w) define_message (sp_messages v) _ _) in H5; [exact H5| |exact K4].
    intros (q & wq) i (q' & wq') _ [A B C] Hi. cbn [fst snd] in *. unfold define_message in Hi.
    apply bind_ok in Hi. destruct Hi as ((x & mk) & Hx & Hi). inversion Hi; subst.
    constructor; cbn [fst snd add_message p_structs w_next w_embedded].
    - apply ids_weaken. exact A.
    - intros a Ha. apply in_or_app. left. apply B. exact Ha.
    - apply inv_message.
      + eapply message_linked; [exact A| | | |exact Hx]; cbn;
          [eapply pi_structs|eapply pi_messages|eapply pi_unions]; exact C.
      + eapply PI_mono; [| |exact C]; [apply incl_refl|apply incl_appl, incl_refl]. }
  destruct K5 as [A B C]. cbn [fst snd] in *.
  assert (Ha : allocated (ps ++ [p]) = (allocated ps ++ p_structs p)%list).
  { unfold allocated. rewrite flat_map_app. cbn. rewrite app_nil_r. reflexivity. }
  constructor; rewrite Ha; [exact A|]. intros q Hqq. apply in_app_or in Hqq. destruct Hqq as [Hqq|[<-|[]]].
  - eapply PI_mono; [| |apply Hps; exact Hqq]; [apply incl_appl, incl_refl|exact B].
  - exact C.
Qed.

Lemma session_compiled : forall m w ps, session m w ps -> forall p, In p ps -> compiled m p.
Proof.
  intros m w ps H. induction H as [|w ps solver v p w' Hs IH Hq H]; intros q Hin; [contradiction|].
  apply in_app_or in Hin. destruct Hin as [Hin|[<-|[]]]; [auto|]. econstructor; [|exact H]. eauto.
Qed.

Lemma compiled_structs_ok : forall p, compiled Debug p -> forall s, In s (p_structs p) -> struct_ok s.
Proof.
  intros p H.
  assert (Hi : proto_inv (fun _ => True) struct_ok (fun _ => True) (fun _ => True) p).
  { apply (inv_compiled Debug); try exact H; auto. intros enums structs id d s _ HS Hs.
    eapply structure_ok; [exact HS|exact Hs|]. left. reflexivity. }
  destruct Hi. assumption.
Qed.

Lemma session_structs_ok : forall m w ps, session m w ps -> sizes_fit m ps ->
  forall s, In s (allocated ps) -> struct_ok s.
Proof.
  intros m w ps H Hf s Hs. unfold allocated in Hs. apply in_flat_map in Hs. destruct Hs as (p & Hp & Hs).
  destruct Hf as [-> | Hf].
  - eapply compiled_structs_ok; [eapply session_compiled; eauto|exact Hs].
  - destruct (Hf _ _ Hp Hs) as (structs & n & Hb & Hn). eapply built_ok; eauto.
Qed.

Lemma path_get_total : forall E mr path s o w buf, struct_ok s -> path_at s path o w -> 0 < w <= 64 ->
  s_byte_size s <= len buf -> bytes_ok buf -> exists v, path_get (E:=E) mr s path buf = Ok v.
Proof.
  intros E mr. induction path as [|i path IH]; intros s o w buf Hok Hp Hw Hlen Hbuf; [inversion Hp|].
  inversion Hp as [s0 i0 f Hf|s0 i0 n r loc rest o' w' Hf Hr]; subst; cbn [path_get]; rewrite Hf;
    destruct (struct_nth s Hok i _ Hf) as (Hloc & Hle & Hx); cbn [field_bits field_loc] in *;
    rewrite (struct_bytes _ Hok) in Hlen.
  - pose proof (window_fits _ _ _ Hle).
    destruct (ac_get_LE (E:=E) mr f _ _ buf Hloc Hx Hw) as (v & Hv & Hb); [lia|assumption|]. eauto.
  - subst loc. set (o0 := total_bits (firstn i (s_fields s))) in *.
    rewrite loc_byte_offset, loc_byte_size. pose proof (window_fits _ _ _ Hle) as Hfit.
    destruct (slice_window (E:=E) buf (o0 / 8) (o0 / 8 + ceil8 (s_bit_size r)))
      as (x & Hsl & Hxl & Hxo & Hxb); [lia|lia|assumption|].
    rewrite Hsl. cbn [bind]. destruct (IH r o' w x) as (v & Hv); try assumption; [|eauto].
    rewrite (struct_bytes _ Hx). unfold len. lia.
Qed.

(** Unions of compiled messages can be read. *)
Theorem session_unions : forall mc mr w ps p x, session mc w ps -> sizes_fit mc ps ->
  In p ps -> In x (p_messages p) -> union_fields_usable x -> unions_linked mr x.
Proof.
  intros mc mr w ps p x Hs Hf Hp Hx Hu y l f r u on i Hw Hl Ht.
  pose proof (session_linked _ _ _ Hs) as [_ Hlk]. pose proof (pi_lmessages _ _ _ _ _ (Hlk p Hp) x Hx y Hw) as Hy.
  assert (Hk : nth_error (m_fields y) (length l) = Some f).
  { rewrite Hl, nth_error_app2, Nat.sub_diag by lia. reflexivity. }
  specialize (Hy _ _ Hk). unfold linked_field in Hy. rewrite Ht in Hy.
  destruct Hy as (Hlt & _ & HK & g & Hg & Hgt).
  destruct (Hu y f u on i Hw (nth_error_In _ _ Hk) Ht) as (Ho & o & wd & Hp' & Hwd).
  exists g, (d_root (u_disc u)).
  split; [rewrite Hl, nth_error_app1 in Hg by lia; exact Hg|]. split; [exact Hgt|]. split; [apply Ho; exact Hg|].
  intros data Hd Hb. eapply path_get_total; eauto.
  - eapply session_structs_ok; eauto.
  - rewrite Hd. apply N.le_refl.
Qed.

Theorem session_items_marked : forall m w ps p x, session m w ps -> In p ps -> In x (p_messages p) ->
  items_marked (marked w) x.
Proof.
  intros m w ps p x Hs Hp Hx y f ty z Hw Hf Ht.
  pose proof (session_linked _ _ _ Hs) as [_ Hlk]. pose proof (pi_lmessages _ _ _ _ _ (Hlk p Hp) x Hx y Hw) as Hy.
  apply In_nth_error in Hf. destruct Hf as (k & Hf). specialize (Hy k f Hf). unfold linked_field in Hy. rewrite Ht in Hy.
  unfold marked. apply existsb_exists. exists (m_id z). split; [exact Hy|apply N.eqb_refl].
Qed.

(** ** The loader runs a session *)

Theorem loader_session : forall m l sep ps w,
  loader_compile m l (solver_new sep) = Ok (ps, w) ->
  exists imported, length imported = length (ld_imported l) /\ length ps = length (ld_models l) /\
    session m w (imported ++ ps).
Proof.
  intros m l sep ps w H. unfold loader_compile in H. apply bind_ok in H. destruct H as ((s & w1) & H1 & H2).
  assert (A : forall li s0 w0 qs, session m w0 qs ->
            (forall name q, r_protocol (solver_resolver s0) name = Some q -> In q qs) ->
            foldM (compile_imported m) (s0, w0) li = Ok (s, w1) ->
            exists imported, length imported = length li /\ session m w1 (qs ++ imported) /\
              (forall name q, r_protocol (solver_resolver s) name = Some q -> In q (qs ++ imported))).
  { induction li as [|iv li IH]; intros s0 w0 qs Hq Hr H; cbn [foldM] in H.
    - inversion H; subst. exists []. rewrite app_nil_r. auto.
    - apply bind_ok in H. destruct H as ((s2 & w2) & Hc & H). unfold compile_imported in Hc.
      apply bind_ok in Hc. destruct Hc as ((p & w3) & Hp & Hc). inversion Hc; subst s2 w3.
      specialize (IH (solver_register s0 (fst iv) p) _ (qs ++ [p])%list (session_step _ _ _ _ _ _ _ Hq Hr Hp)).
      destruct IH as (im & Hl & Hse & Hrr).
      + intros name q Hn. cbn in Hn. destruct (String.eqb name (p_name p)).
        * inversion Hn; subst. apply in_or_app. right. left. reflexivity.
        * apply in_or_app. left. eapply Hr. cbn. exact Hn.
      + exact H.
      + exists (p :: im). rewrite <- app_assoc in *. cbn [app] in *. split; [cbn [length]; lia|]. auto. }
  destruct (A (ld_imported l) (solver_new sep) world_new []) as (im & Hl & Hse & Hr).
  { constructor. } { intros name q Hn. discriminate. } { exact H1. }
  cbn [app] in Hse, Hr. exists im. split; [exact Hl|].
  assert (B : forall lm qs w0 ps w, foldM (compile_loaded m s) (qs, w0) lm = Ok (ps, w) ->
            session m w0 (im ++ qs) ->
            exists rs, ps = (qs ++ rs)%list /\ length rs = length lm /\ session m w (im ++ ps)).
  { clear - Hr. induction lm as [|v lm IH]; intros qs w0 ps w H Hq; cbn [foldM] in H.
    - inversion H; subst. exists []. rewrite app_nil_r. auto.
    - apply bind_ok in H. destruct H as ((qs2 & w2) & Hc & H). unfold compile_loaded in Hc.
      apply bind_ok in Hc. destruct Hc as ((p & w3) & Hp & Hc). inversion Hc; subst qs2 w3.
      destruct (IH _ _ _ _ H) as (rs & -> & Hlr & Hse).
      + rewrite app_assoc. econstructor; [exact Hq| |exact Hp]. intros name q Hn. apply in_or_app. left. eauto.
      + exists (p :: rs). rewrite <- app_assoc. split; [reflexivity|]. split; [cbn [length]; lia|].
        rewrite <- app_assoc in Hse. exact Hse. }
  destruct (B _ _ _ _ _ H2) as (rs & E & Hlr & Hf).
  { rewrite app_nil_r. exact Hse. }
  cbn [app] in E. subst rs. auto.
Qed.

(** C26 for compiled protocols. *)
Theorem session_no_panic : forall mc mr w ps emb p x, session mc w ps -> sizes_fit mc ps ->
  In p ps -> In x (p_messages p) -> union_fields_usable x -> guarded_lengths emb x ->
  forall b, len b < 2 ^ 64 -> bytes_ok b -> read_msg mr emb x b <> Panic.
Proof.
  intros mc mr w ps emb p x Hs Hf Hp Hx Hu Hg. apply read_no_panic; [assumption|]. eapply session_unions; eauto.
Qed.
