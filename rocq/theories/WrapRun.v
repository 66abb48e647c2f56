(** Proofs for C97: whole protocols. *)

From Coq Require Import Arith NArith ZArith String List Bool Lia ZifyBool ZifyN ZifyNat.
From Verif Require Import Base Schema Codec Compiler Access Runtime Gen SpecStruct SpecReadable SpecWire SpecLimit LimitComp StructFacts SpecKind KindComp KindRun ReadThms ReadableThms
  SpecWrap WrapThms.
Import ListNotations.
Local Open Scope N_scope.
Ltac Zify.zify_post_hook ::= idtac.

(** ** Tables *)

Lemma get_other : forall {A} n k (a : A) l, n <> k -> sget n (sinsert k a l) = sget n l.
Proof. intros A n k a l H. unfold sinsert. cbn. destruct (String.eqb_spec n k); [contradiction|reflexivity]. Qed.
Lemma imports_other : forall solver n l p q, foldM (import_one solver) p l = Ok q -> ~ In n (map si_type l) ->
  sget n (p_structs_by_name q) = sget n (p_structs_by_name p) /\ sget n (p_messages_by_name q) = sget n (p_messages_by_name p).
Proof.
  intros solver n l. induction l as [|v l IH]; intros p q H Hn; cbn [foldM] in H; [injection H as <-; auto|]. cbn in Hn.
  apply bind_ok in H. destruct H as (r & H1 & H2). destruct (IH _ _ H2) as [-> ->]; [tauto|]. assert (Hv : n <> si_type v) by (intro; subst; tauto).
  unfold import_one in H1. apply bind_ok in H1. destruct H1 as (a & _ & H1). cbv zeta in H1.
  destruct (sget _ (p_structs_by_name a)); [apply bind_ok in H1; destruct H1 as (? & _ & H1); injection H1 as <-; cbn [add_path add_struct p_structs_by_name p_messages_by_name]; rewrite ?get_other by exact Hv; auto|].
  destruct (sget _ (p_enums_by_name a)); [apply bind_ok in H1; destruct H1 as (? & _ & H1); injection H1 as <-; auto|].
  destruct (sget _ (p_unions_by_name a)); [apply bind_ok in H1; destruct H1 as (? & _ & H1); injection H1 as <-; auto|].
  apply bind_ok in H1; destruct H1 as (? & _ & H1). apply bind_ok in H1; destruct H1 as (? & _ & H1). injection H1 as <-.
  cbn [add_path add_message p_structs_by_name p_messages_by_name]; rewrite ?get_other by exact Hv; auto.
Qed.
Lemma enums_keep : forall l p q, foldM define_enum p l = Ok q -> p_structs_by_name q = p_structs_by_name p /\ p_messages_by_name q = p_messages_by_name p.
Proof.
  induction l as [|v l IH]; intros p q H; cbn [foldM] in H; [injection H as <-; auto|]. apply bind_ok in H. destruct H as (c & H1 & H2).
  unfold define_enum in H1. apply bind_ok in H1. destruct H1 as (e & _ & H1). injection H1 as <-. apply IH in H2. exact H2.
Qed.
Lemma structs_other : forall m n l pw qw, foldM (define_struct m) pw l = Ok qw ->
  p_messages_by_name (fst qw) = p_messages_by_name (fst pw) /\ p_endianness (fst qw) = p_endianness (fst pw) /\
  (~ In n (map ss_name l) -> sget n (p_structs_by_name (fst qw)) = sget n (p_structs_by_name (fst pw))).
Proof.
  intros m n l. induction l as [|v l IH]; intros [p w] qw H; cbn [foldM] in H; [injection H as <-; auto|].
  apply bind_ok in H. destruct H as (r & H1 & H2). unfold define_struct in H1. apply bind_ok in H1. destruct H1 as (s & Hs & H1). injection H1 as <-.
  apply IH in H2. destruct H2 as (E1 & E2 & E3). cbn [fst add_struct p_messages_by_name p_structs_by_name p_endianness] in *. split; [exact E1|]. split; [exact E2|]. intro Hn.
  cbn in Hn. rewrite E3 by tauto. apply get_other. unfold structure_from_model in Hs. apply bind_ok in Hs. destruct Hs as ([fs off] & _ & Hs). injection Hs as <-. cbn. intro; subst; tauto.
Qed.
Lemma structs_own : forall m l pw qw, foldM (define_struct m) pw l = Ok qw -> NoDup (map ss_name l) -> forall d, In d l ->
  exists s endi enums structs i, sget (ss_name d) (p_structs_by_name (fst qw)) = Some s /\ structure_from_model m endi enums structs i d = Ok s.
Proof.
  intros m l. induction l as [|v l IH]; intros [p w] qw H Hn d Hd; [contradiction|]. cbn [foldM] in H. apply bind_ok in H. destruct H as (r & H1 & H2). cbn in Hn.
  inversion Hn as [|? ? N1 N2]; subst. destruct Hd as [->|Hd]; [|eapply IH; eauto].
  unfold define_struct in H1. apply bind_ok in H1. destruct H1 as (s & Hs & H1). injection H1 as <-.
  destruct (structs_other _ (ss_name d) _ _ _ H2) as (_ & _ & E). exists s. do 4 eexists. split; [|exact Hs]. rewrite (E N1). cbn [fst add_struct p_structs_by_name].
  assert (En : s_name s = ss_name d). { unfold structure_from_model in Hs. apply bind_ok in Hs. destruct Hs as ([fs off] & _ & Hs). injection Hs as <-. reflexivity. }
  rewrite En. cbn. rewrite String.eqb_refl. reflexivity.
Qed.

(** What succeeds on one side does on the other. *)
Definition follows {A B} (P : A -> B -> Prop) (r : cres A) (r' : cres B) : Prop := forall a, r = Ok a -> exists a', r' = Ok a' /\ P a a'.
Lemma follows_bind : forall {A A' B B'} (P : A -> A' -> Prop) (Q : B -> B' -> Prop) r r' f f', follows P r r' ->
  (forall a a', r = Ok a -> r' = Ok a' -> P a a' -> follows Q (f a) (f' a')) -> follows Q (bind r f) (bind r' f').
Proof.
  intros A A' B B' P Q r r' f f' H K b Hb. apply bind_ok in Hb. destruct Hb as (a & Ha & Hb). destruct (H a Ha) as (a' & Ha' & Hp).
  destruct (K a a' Ha Ha' Hp b Hb) as (b' & Hb' & Hq). exists b'. rewrite Ha'. auto.
Qed.
Lemma follows_ok : forall {A B} (P : A -> B -> Prop) a a', P a a' -> follows P (Ok a) (Ok a').
Proof. intros A B P a a' H b E. injection E as <-. eauto. Qed.
Lemma follows_same : forall {A} (r : cres A), follows eq r r.
Proof. intros A r a H. eauto. Qed.
Lemma follows_err : forall {A B} (P : A -> B -> Prop) e r', follows P (Err e) r'.
Proof. intros A B P e r' a H. discriminate. Qed.

(** ** One message *)

Section Env.
Variables (structs : smap structure) (us : smap union_) (W : string -> string -> Prop).
(** What is known of a message [n] that wraps the structure [t]. *)
Hypothesis Wstruct : forall n t, W n t -> sget n structs = None /\ exists s, sget t structs = Some s /\
  forall g, flattened s = Some g -> N.of_nat (get_byte_size (ff_ty g)) = s_byte_size s.
Definition members_alike (f f' : smfield) : Prop := f' = f \/ smf_name f' = smf_name f /\ smf_optional f' = smf_optional f /\
  exists k n t, smf_info f = MTList k n /\ smf_info f' = MTList k t /\ W n t.
Definition menv (ms : smap message) : proto_env := {| pe_endianness := Little; pe_structs := structs; pe_messages := ms; pe_unions := us |}.

Variables (ms ms' : smap message).
Hypothesis Hm : entries_alike alt_msg ms ms'.
Hypothesis Hw : forall n t x s, W n t -> sget n ms = Some x -> sget t structs = Some s -> holds x s.

Lemma alt_find : forall n fs fs', alt_fs fs fs' -> forall i,
  match find_mfield n i fs, find_mfield n i fs' with
  | Some (j, f), Some (j', f') => j' = j /\ mf_name f' = mf_name f /\ alt_ty (mf_ty f) (mf_ty f')
  | None, None => True
  | _, _ => False
  end.
Proof.
  intros n fs fs' H. induction H as [|k t t' o z z' e r r' Ht Hz H IH]; intro i; cbn [find_mfield]; [exact I|]. cbn [mf_name].
  destruct (String.eqb k n); [cbn; auto|apply IH].
Qed.
Definition found (r r' : referenced) : Prop :=
  match r, r' with RStruct s, RStruct s' => s' = s | RMessage x, RMessage x' => alt_msg x x' | _, _ => False end.
Lemma alt_lookup : forall n, follows found (ok_or (referenced_lookup structs ms n) (EUndefinedReference n)) (ok_or (referenced_lookup structs ms' n) (EUndefinedReference n)).
Proof.
  intro n. unfold referenced_lookup. destruct (sget n structs); [apply follows_ok; reflexivity|]. pose proof (alike_get _ n _ _ Hm) as K.
  destruct (sget n ms), (sget n ms'); try contradiction; [apply follows_ok; exact K|apply follows_err].
Qed.
Lemma alt_head : forall x x', alt_msg x x' -> m_id x' = m_id x /\ m_name x' = m_name x /\ less_open (m_size x) (m_size x').
Proof. intros x x' []. auto. Qed.
Lemma less_refl : forall z, less_open z z.
Proof. split; auto. Qed.

Lemma alt_member_model : forall fs fs' v v', alt_fs fs fs' -> members_alike v v' ->
  follows (fun a a' => alt_fs [fst a] [fst a']) (mfield_from_model (menv ms) fs v) (mfield_from_model (menv ms') fs' v').
Proof.
  assert (One : forall n t t' o z z' e, alt_ty t t' -> less_open z z' -> alt_fs [MkMField n t o z e] [MkMField n t' o z' e]) by (intros; constructor; auto; constructor).
  intros fs fs' v v' F [->|(En & Eo & k & n & t & Ei & Ei' & Hwt)]; unfold mfield_from_model; cbn [menv pe_endianness pe_structs pe_messages pe_unions].
  - destruct (smf_info v) as [n|k n|[k|]| |on n].
    + eapply follows_bind; [apply alt_lookup|]. intros [s|x] [s'|x'] _ _ K; try contradiction.
      * cbn in K. subst s'. destruct (flattened s); apply follows_ok, One; [constructor|apply less_refl|constructor|apply less_refl].
      * apply follows_ok, One; [constructor; exact K|apply (alt_head _ _ K)].
    + eapply follows_bind; [apply alt_lookup|]. intros r r' _ _ K. eapply follows_bind; [apply follows_same|]. intros ty ty' _ _ <-.
      destruct r as [s|x], r' as [s'|x']; try contradiction.
      * cbn in K. subst s'. apply follows_ok, One; [constructor|apply less_refl].
      * apply follows_ok, One; [constructor; exact K|apply less_refl].
    + eapply follows_bind; [apply follows_same|]. intros ty ty' _ _ <-. apply follows_ok, One; [constructor|apply less_refl].
    + apply follows_ok, One; [constructor|apply less_refl].
    + apply follows_ok, One; [constructor|apply less_refl].
    + pose proof (alt_find on _ _ F 0) as K. destruct (find_mfield on 0 fs) as [[j f]|], (find_mfield on 0 fs') as [[j' f']|]; try contradiction; cbn [ok_or bind]; [|apply follows_err].
      destruct K as (-> & Enm & Ht). destruct (sget n us) as [u|]; cbn [ok_or bind]; [|apply follows_err].
      assert (K : forall s, mf_ty f = TRef (RStruct s) -> mf_ty f' = TRef (RStruct s)) by (intros s E; rewrite E in Ht; inversion Ht; auto).
      destruct (mf_ty f) as [|[s|]| | | | | |]; try apply follows_err.
      rewrite (K s eq_refl). destruct (_ =? _); [|apply follows_err]. rewrite Enm. apply follows_ok, One; [constructor|apply less_refl].
  - rewrite Ei, Ei', En, Eo. destruct (Wstruct n t Hwt) as (Nn & s & Hs & _). unfold referenced_lookup. rewrite Nn, Hs.
    destruct (sget n ms) as [x|] eqn:Hx; cbn [ok_or bind]; [|apply follows_err]. eapply follows_bind; [apply follows_same|]. intros ty ty' _ _ <-.
    apply follows_ok, One; [apply at_array; exact (Hw n t x s Hwt Hx Hs)|]. split; [reflexivity|discriminate].
Qed.
Lemma alt_snoc : forall fs fs' f f', alt_fs fs fs' -> alt_fs [f] [f'] -> alt_fs (fs ++ [f]) (fs' ++ [f']).
Proof. intros fs fs' f f' H K. induction H; cbn [app]; [exact K|constructor; assumption]. Qed.
Lemma alt_members_model : forall l l', Forall2 members_alike l l' -> forall fs fs' c c' dyn marks marks', alt_fs fs fs' -> c' <= c ->
  follows (fun a a' => alt_fs (fst (fst (fst a))) (fst (fst (fst a'))) /\ snd (fst (fst a')) <= snd (fst (fst a)) /\ snd (fst a') = snd (fst a))
    (mfields_from_model (menv ms) fs c dyn marks l) (mfields_from_model (menv ms') fs' c' dyn marks' l').
Proof.
  intros l l' L. induction L as [|v v' l l' Hv L IH]; intros fs fs' c c' dyn marks marks' F Hc; cbn [mfields_from_model]; [apply follows_ok; cbn; auto|].
  eapply follows_bind; [apply alt_member_model; [exact F|exact Hv]|]. intros [f mk] [f' mk'] _ _ Hf. cbn in Hf. cbv zeta.
  assert (Hz : less_open (mf_size f) (mf_size f')) by (inversion Hf; subst; assumption). destruct Hz as [Hz1 Hz2]. rewrite Hz1.
  destruct ((0 <? c) && _) eqn:T1; [apply follows_err|]. destruct (1 <? _) eqn:T2; [apply follows_err|].
  assert (G1 : (0 <? c') && (is_dyn_sized (mf_size f) || is_element_dyn_sized (mf_size f')) = false).
  { destruct (is_element_dyn_sized (mf_size f')); [rewrite (Hz2 eq_refl) in T1|]; destruct (is_dyn_sized (mf_size f)), (is_element_dyn_sized (mf_size f)); cbn in *; lia. }
  rewrite G1. set (k := if is_element_dyn_sized (mf_size f) then c + 1 else c) in *. set (k' := if is_element_dyn_sized (mf_size f') then c' + 1 else c').
  assert (Hk : k' <= k). { subst k k'. destruct (is_element_dyn_sized (mf_size f')); [rewrite (Hz2 eq_refl); lia|]. destruct (is_element_dyn_sized (mf_size f)); lia. }
  assert (G2 : (1 <? k') = false) by lia. rewrite G2. apply IH; [|exact Hk]. apply alt_snoc; assumption.
Qed.
Lemma alt_message_model : forall i v v', sm_name v' = sm_name v -> Forall2 members_alike (sm_fields v) (sm_fields v') ->
  follows (fun a a' => alt_msg (fst a) (fst a')) (message_from_model (menv ms) i v) (message_from_model (menv ms') i v').
Proof.
  intros i v v' En L. unfold message_from_model. eapply follows_bind; [apply (alt_members_model _ _ L [] []); [constructor|apply N.le_refl]|].
  intros [[[fs c] dyn] mk] [[[fs' c'] dyn'] mk'] _ _ (F & Hc & Hy). cbn in *. subst dyn'. rewrite En. apply follows_ok. constructor; [exact F|]. split; [reflexivity|cbn; lia].
Qed.
(** A message that wraps a structure holds it. *)
Lemma wrapper_holds : forall i v f n t x mk s, W n t -> sm_fields v = [f] -> smf_info f = MTItem t -> smf_optional f = None \/ smf_optional f = Some false ->
  message_from_model (menv ms) i v = Ok (x, mk) -> sget t structs = Some s -> holds x s.
Proof.
  intros i v f n t x mk s Hwt Hf Hi Ho H Hs. destruct (Wstruct n t Hwt) as (_ & s0 & Hs0 & Hg). rewrite Hs in Hs0. injection Hs0 as <-.
  assert (Eo : opt_default (smf_optional f) = false) by (destruct Ho as [-> | ->]; reflexivity).
  unfold message_from_model in H. rewrite Hf in H. cbn [mfields_from_model] in H. unfold mfield_from_model in H. rewrite Hi, Eo in H.
  cbn [menv pe_endianness pe_structs pe_messages pe_unions] in H. unfold referenced_lookup in H. rewrite Hs in H. cbn [ok_or bind] in H.
  destruct (flattened s) as [g|] eqn:G; cbn in H; injection H as <- _; unfold holds; do 6 eexists; (split; [reflexivity|]).
  - right. exists (ff_ty g). auto.
  - left. reflexivity.
Qed.
End Env.

(** ** All messages *)

Section Run.
Variables (m : mode) (solver : resolver) (w : world) (d d' : sprotocol) (p : protocol) (w1 : world).
Hypothesis Hd : unwrapped m d d'.
Hypothesis Hn : names_differ d.
Hypothesis Hp : protocol_from_model m solver w d = Ok (p, w1).

Lemma nodup_parts : NoDup (map ss_name (sp_structs d)) /\ NoDup (map sm_name (sp_messages d)) /\
  (forall n, In n (map sm_name (sp_messages d)) -> ~ In n (map si_type (sp_imports d)) /\ ~ In n (map ss_name (sp_structs d))).
Proof.
  clear -Hn. unfold names_differ in Hn. revert Hn. generalize (map si_type (sp_imports d)) (map ss_name (sp_structs d)) (map sm_name (sp_messages d)).
  intros a b c H. assert (K : forall (x y : list string), NoDup (x ++ y) -> NoDup x /\ NoDup y /\ forall n, In n y -> ~ In n x).
  { clear. induction x as [|k x IH]; intros y H; [split; [constructor|]; split; [exact H|intros ? ? []]|]. cbn in H. inversion H as [|? ? N1 N2]; subst.
    destruct (IH y N2) as (A & B & C). split; [constructor; [intro Hk; apply N1, in_or_app; auto|exact A]|]. split; [exact B|].
    intros n Hy [->|Hx]; [apply N1, in_or_app; auto|exact (C n Hy Hx)]. }
  destruct (K _ _ H) as (A & B & C). destruct (K _ _ B) as (A2 & B2 & C2). split; [exact A2|]. split; [exact B2|].
  intros n H0. split; [apply C, in_or_app; auto|apply C2, H0].
Qed.

Lemma same_name_same : forall l (x y : smessage), NoDup (map sm_name l) -> In x l -> In y l -> sm_name x = sm_name y -> x = y.
Proof.
  induction l as [|a l IH]; intros x y H Hx Hy E; [contradiction|]. cbn in H. inversion H as [|? ? N1 N2]; subst.
  destruct Hx as [->|Hx], Hy as [->|Hy]; auto.
  - destruct N1. rewrite E. apply in_map. exact Hy.
  - destruct N1. rewrite <- E. apply in_map. exact Hx.
Qed.

Lemma wrap_run : exists p' w1', protocol_from_model m solver w d' = Ok (p', w1') /\ p_structs p' = p_structs p /\ p_structs_by_name p' = p_structs_by_name p /\
  p_unions p' = p_unions p /\ Forall2 alt_msg (p_messages p) (p_messages p') /\ entries_alike alt_msg (p_messages_by_name p) (p_messages_by_name p').
Proof.
  destruct (run_stages _ _ _ _ _ _ Hp) as [[p0 p1 p2 w2 p3 K0 K1 K2 K3 K4]].
  destruct Hd as (E1 & E2 & E3 & E4 & E5 & F). unfold protocol_from_model. rewrite E1, E2, K0. cbn [bind]. rewrite E4, K1. cbn [bind]. rewrite E3, K2. cbn [bind].
  rewrite E5, K3. cbn [bind].
  destruct nodup_parts as (Ns & Nm & Nx).
  destruct (unions_keep _ _ _ K3) as (A1 & _ & A3 & _ & A5 & _).
  assert (Wstruct : forall n t, wraps m d n t -> sget n (p_structs_by_name p3) = None /\ exists s, sget t (p_structs_by_name p3) = Some s /\
    forall g, flattened s = Some g -> N.of_nat (get_byte_size (ff_ty g)) = s_byte_size s).
  { intros n t (x & f & sd & Hx & <- & _ & _ & _ & Hsd & <- & Hmf & Hnr). rewrite A1. destruct (Nx (sm_name x)) as [X1 X2]; [apply in_map; exact Hx|].
    destruct (structs_other _ (sm_name x) _ _ _ K2) as (_ & _ & B3). cbn [fst] in B3. rewrite (B3 X2). destruct (enums_keep _ _ _ K1) as [-> _].
    destruct (imports_other _ (sm_name x) _ _ _ K0 X1) as [-> _]. split; [reflexivity|].
    destruct (structs_own _ _ _ _ K2 Ns sd Hsd) as (s & endi & enums & structs & i & G1 & G2). exists s. split; [exact G1|].
    exact (flat_right _ _ _ _ _ _ _ G2 Hnr Hmf). }
  assert (L3 : p_endianness p3 = Little).
  { pose proof (start_alike _ _ _ _ K0 _ _ _ _ K1 K1 True) as (L1 & _). rewrite A5. destruct (structs_other _ ""%string _ _ _ K2) as (_ & L2 & _). cbn in L2. congruence. }
  assert (Wfree : forall n t, wraps m d n t -> sget n (p_messages_by_name p3) = None).
  { intros n t (x & f & sd & Hx & <- & _). destruct (Nx (sm_name x)) as [X1 X2]; [apply in_map; exact Hx|]. rewrite A3.
    destruct (structs_other _ ""%string _ _ _ K2) as (L2 & _ & _). cbn [fst] in L2. rewrite L2. destruct (enums_keep _ _ _ K1) as [_ ->].
    destruct (imports_other _ (sm_name x) _ _ _ K0 X1) as [_ ->]. reflexivity. }
  set (T := p_structs_by_name p3) in *. set (U := p_unions_by_name p3).
  assert (Step : forall l l' , Forall2 (fun x x' => sm_name x' = sm_name x /\ Forall2 (unwrapped_member m d) (sm_fields x) (sm_fields x')) l l' ->
    incl l (sp_messages d) -> forall q q' wx wx' r, p_endianness q = Little -> p_endianness q' = Little -> p_structs_by_name q = T -> p_structs_by_name q' = T ->
    p_unions_by_name q = U -> p_unions_by_name q' = U -> w_next wx' = w_next wx ->
    (forall n t x s, wraps m d n t -> sget n (p_messages_by_name q) = Some x -> sget t T = Some s -> holds x s) ->
    entries_alike alt_msg (p_messages_by_name q) (p_messages_by_name q') -> Forall2 alt_msg (p_messages q) (p_messages q') ->
    foldM define_message (q, wx) l = Ok r -> exists r', foldM define_message (q', wx') l' = Ok r' /\
    Forall2 alt_msg (p_messages (fst r)) (p_messages (fst r')) /\ entries_alike alt_msg (p_messages_by_name (fst r)) (p_messages_by_name (fst r'))).
  { intros l l' G. induction G as [|v v' l l' [Ev Fv] G IH]; intros Hincl q q' wx wx' r Q1 Q2 Q3 Q4 Q5 Q6 Ew Hh Ha Hl Hr; cbn [foldM] in Hr |- *.
    - injection Hr as <-. exists (q', wx'). auto.
    - apply bind_ok in Hr. destruct Hr as (a & D & Hr). unfold define_message in D. apply bind_ok in D. destruct D as ([x mk] & X & D). injection D as <-. rewrite Q1, Q3, Q5 in X.
      destruct (alt_message_model T U (wraps m d) Wstruct _ _ Ha Hh (w_next wx) v v' Ev Fv _ X) as ([x' mk'] & X' & K). cbn in K. unfold menv in X'.
      unfold define_message at 1. rewrite Q2, Q4, Q6, Ew, X'. cbn [bind]. destruct (alt_head _ _ K) as (_ & En & _).
      refine (IH _ _ _ _ _ _ _ _ _ _ _ _ _ _ _ _ Hr); cbn [add_message p_endianness p_structs_by_name p_unions_by_name p_messages_by_name p_messages w_next]; auto.
      + intros y Hy. apply Hincl. right. exact Hy.
      + intros n t y s Hwt Hy Hs. cbn in Hy. destruct (String.eqb_spec n (m_name x)) as [->|_]; [|exact (Hh n t y s Hwt Hy Hs)]. injection Hy as <-.
        assert (Ex : m_name x = sm_name v).
        { unfold message_from_model in X. apply bind_ok in X. destruct X as ([[[fs c] dyn] mk0] & _ & X). injection X as <- _. reflexivity. }
        pose proof Hwt as (y & f & sd & Hy & Hyn & Hyf & Hyi & Hyo & _).
        assert (y = v) by (apply (same_name_same _ _ _ Nm Hy); [apply Hincl; left; reflexivity|congruence]). subst y.
        exact (wrapper_holds T U (wraps m d) Wstruct _ (w_next wx) v f _ t x mk s Hwt Hyf Hyi Hyo X Hs).
      + rewrite En. constructor; auto.
      + apply Forall2_app; auto. }
  destruct (Step _ _ F (incl_refl _) p3 p3 w2 w2 (p, w1)) as ([p' w1'] & R & R1 & R2); auto.
  - intros n t x s Hwt Hx. rewrite (Wfree n t Hwt) in Hx. discriminate.
  - apply entries_refl, alt_msg_refl.
  - apply forall2_refl, alt_msg_refl.
  - exists p', w1'. split; [exact R|]. destruct (messages_keep _ _ _ K4) as (M1 & M2 & M3). destruct (messages_keep _ _ _ R) as (N1 & N2 & N3). cbn [fst] in *.
    rewrite M1, M2, M3, N1, N2, N3. auto.
Qed.
End Run.

Lemma wrap_accepted : forall m solver w d d' p w1, unwrapped m d d' -> names_differ d -> protocol_from_model m solver w d = Ok (p, w1) ->
  exists p' w1', protocol_from_model m solver w d' = Ok (p', w1').
Proof. intros m solver w d d' p w1 H1 H2 H3. destruct (wrap_run _ _ _ _ _ _ _ H1 H2 H3) as (p' & w1' & K & _). eauto. Qed.
Lemma wrap_format : forall m solver w d d' p p' w1 w1', unwrapped m d d' -> names_differ d ->
  protocol_from_model m solver w d = Ok (p, w1) -> protocol_from_model m solver w d' = Ok (p', w1') ->
  p_structs p' = p_structs p /\ p_unions p' = p_unions p /\ Forall2 written_alike (p_messages p) (p_messages p') /\
  forall n, match sget n (p_messages_by_name p), sget n (p_messages_by_name p') with
            | Some x, Some x' => written_alike x x'
            | None, None => True
            | _, _ => False
            end.
Proof.
  intros m solver w d d' p p' w1 w1' H1 H2 H3 H4. destruct (wrap_run _ _ _ _ _ _ _ H1 H2 H3) as (q & wq & K & E1 & _ & E2 & F & G).
  rewrite H4 in K. injection K as <- <-. split; [exact E1|]. split; [exact E2|]. split.
  - clear -F. induction F; constructor; [apply alt_written|]; assumption.
  - intro n. pose proof (alike_get _ n _ _ G) as Q. destruct (sget n (p_messages_by_name p)), (sget n (p_messages_by_name p')); try contradiction; [apply alt_written, Q|exact I].
Qed.
Lemma wrap_read : forall m solver w d d' p p' w1 w1' n x x', unwrapped m d d' -> names_differ d ->
  protocol_from_model m solver w d = Ok (p, w1) -> protocol_from_model m solver w d' = Ok (p', w1') ->
  sget n (p_messages_by_name p) = Some x -> sget n (p_messages_by_name p') = Some x' -> SpecReadable.tidy x ->
  forall mr emb emb' v b, encodes_lax mr x v b -> len b < 2 ^ 64 ->
  read_msg mr emb x b = Ok (len b, v) /\ read_msg mr emb' x' b = Ok (len b, v).
Proof.
  intros m solver w d d' p p' w1 w1' n x x' H1 H2 H3 H4 Hx Hx' Ht mr emb emb' v b He Hl. destruct (wrap_run _ _ _ _ _ _ _ H1 H2 H3) as (q & wq & K & _ & _ & _ & _ & G).
  rewrite H4 in K. injection K as <- <-. pose proof (alike_get _ n _ _ G) as Q. rewrite Hx, Hx' in Q. split.
  - apply roundtrip_whole; [apply tidy_readable, Ht|exact He|exact Hl].
  - apply roundtrip_whole; [apply tidy_readable; exact (proj2 (proj2 alt_tidy) _ _ Q Ht)|apply (proj2 (proj2 (alt_encs mr (fun _ => True))) _ _ Q); exact He|exact Hl].
Qed.
