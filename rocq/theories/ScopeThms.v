(** Proofs about open-ended fields (C19), references (C20) and imports (C21). *)

From Coq Require Import Arith NArith ZArith Ascii String List Bool Lia ZifyBool ZifyN ZifyNat.
From Verif Require Import Base Schema Compiler SpecComp SpecStruct StructFacts StructThms ViewThms ArrayThms
  EnumThms CompFacts CompThms.
Import ListNotations.
Local Open Scope N_scope.

(** ** C19 *)

Definition flags_of (sz : size_info) (o v : Prop) : Prop :=
  (is_element_dyn_sized sz = true <-> o) /\ (is_dyn_sized sz = true <-> v).

Definition msg_sized (x : message) : Prop :=
  flags_of (m_size x) (exists f, In f (m_fields x) /\ open_ended (mf_ty f))
                      (exists f, In f (m_fields x) /\ variable_size (mf_ty f)).
Definition case_has (P : mfield_type -> Prop) (u : union_) : Prop :=
  exists c x f, In c (u_cases u) /\ uc_item c = Some (RMessage x) /\ In f (m_fields x) /\ P (mf_ty f).
Definition union_sized (u : union_) : Prop :=
  flags_of (u_size u) (case_has open_ended u) (case_has variable_size u).

Lemma flags_iff : forall sz o v o' v', flags_of sz o v -> (o <-> o') -> (v <-> v') -> flags_of sz o' v'.
Proof. unfold flags_of. intros. tauto. Qed.

Lemma open_message : forall x, open_ended (TRef (RMessage x)) <-> exists f, In f (m_fields x) /\ open_ended (mf_ty f).
Proof.
  intro x. split.
  - intro H. inversion H; subst. eauto.
  - intros (f & H1 & H2). econstructor; eassumption.
Qed.
Lemma var_message : forall x, variable_size (TRef (RMessage x)) <-> exists f, In f (m_fields x) /\ variable_size (mf_ty f).
Proof.
  intro x. split.
  - intro H. inversion H as [t Ho| | | |y f Hf Hv|]; subst; [|eauto].
    apply open_message in Ho. destruct Ho as (f & Hf & Ho). exists f. split; [assumption|constructor; assumption].
  - intros (f & H1 & H2). eapply vs_message; eassumption.
Qed.
Lemma open_union : forall u n i, open_ended (TUnion u n i) <-> case_has open_ended u.
Proof.
  intros u n i. split.
  - intro H. inversion H; subst. exists c, x, f. auto.
  - intros (c & x & f & H1 & H2 & H3 & H4). econstructor; eassumption.
Qed.
Lemma var_union : forall u n i, variable_size (TUnion u n i) <-> case_has variable_size u.
Proof.
  intros u n i. split.
  - intro H. inversion H as [t Ho| | | | |u' on i' c x f H1 H2 H3 H4]; subst; [|exists c, x, f; auto].
    apply open_union in Ho. destruct Ho as (c & x & f & H1 & H2 & H3 & H4).
    exists c, x, f. repeat split; try assumption. constructor; assumption.
  - intros (c & x & f & H1 & H2 & H3 & H4). eapply vs_union; eassumption.
Qed.

Lemma mfield_sized : forall env un v f mk,
  vals msg_sized (pe_messages env) -> vals union_sized (pe_unions env) ->
  mfield_from_model env un v = Ok (f, mk) ->
  flags_of (mf_size f) (open_ended (mf_ty f)) (variable_size (mf_ty f)).
Proof.
  intros env un v f mk Hms Hus H. unfold mfield_from_model in H.
  destruct (smf_info v) as [n|ml n|[ml|]| |on n].
  - apply bind_ok in H. destruct H as (r & Hr & H). apply ok_or_ok in Hr. destruct r as [s|x].
    + destruct (flattened s); inversion H; subst; cbn; split; cbn; (split; [discriminate|]);
        intro K; first [solve [inversion K]|inversion K as [? Ho| | | | |]; solve [inversion Ho]].
    + inversion H; subst; cbn. unfold referenced_lookup in Hr.
      destruct (sget n (pe_structs env)); [discriminate|].
      destruct (sget n (pe_messages env)) eqn:Hx; [|discriminate]. inversion Hr; subst.
      eapply flags_iff; [exact (Hms _ _ Hx)|symmetry; apply open_message|symmetry; apply var_message].
  - apply bind_ok in H. destruct H as (r & Hr & H). apply bind_ok in H. destruct H as (ty & _ & H).
    destruct r; inversion H; subst; cbn; split; cbn.
    + split; [discriminate|intro K; inversion K].
    + split; [intros _; first [apply vs_array|apply vs_varchar|apply vs_string|constructor]|reflexivity].
    + split; [intros _; first [apply vs_array|apply vs_varchar|apply vs_string|constructor]|reflexivity].
    + split; [intros _; constructor; constructor|reflexivity].
  - apply bind_ok in H. destruct H as (ty & _ & H). inversion H; subst; cbn. split; cbn.
    + split; [discriminate|intro K; inversion K].
    + split; [intros _; first [apply vs_array|apply vs_varchar|apply vs_string|constructor]|reflexivity].
  - inversion H; subst; cbn. split; cbn.
    + split; [discriminate|intro K; inversion K].
    + split; [intros _; first [apply vs_array|apply vs_varchar|apply vs_string|constructor]|reflexivity].
  - inversion H; subst; cbn. split; cbn.
    + split; [intros _; first [apply vs_array|apply vs_varchar|apply vs_string|constructor]|reflexivity].
    + split; [intros _; constructor; constructor|reflexivity].
  - apply bind_ok in H. destruct H as ((k & g) & _ & H). apply bind_ok in H. destruct H as (r & Hr & H).
    apply ok_or_ok in Hr. destruct (mf_ty g) as [| [s|x] | | | | | |]; try discriminate.
    destruct (_ =? _); [|discriminate]. inversion H; subst; cbn.
    eapply flags_iff; [exact (Hus _ _ Hr)|symmetry; apply open_union|symmetry; apply var_union].
Qed.

Definition ordered (fs : list mfield) : Prop :=
  forall i j f g, (i < j)%nat -> nth_error fs i = Some f -> nth_error fs j = Some g ->
    open_ended (mf_ty f) -> ~ variable_size (mf_ty g).

Lemma exists_snoc : forall {A} (P : A -> Prop) l x,
  (exists y, In y (l ++ [x]) /\ P y) <-> (exists y, In y l /\ P y) \/ P x.
Proof.
  intros A P l x. split.
  - intros (y & Hy & Hp). apply in_app_or in Hy. destruct Hy as [Hy|[->|[]]]; [left; eauto|right; assumption].
  - intros [(y & Hy & Hp)|Hp]; [exists y|exists x]; (split; [apply in_or_app; cbn; auto|assumption]).
Qed.

Lemma mfields_sized : forall env l fs n b mk fs' n' b' mk',
  vals msg_sized (pe_messages env) -> vals union_sized (pe_unions env) ->
  mfields_from_model env fs n b mk l = Ok (fs', n', b', mk') ->
  (n <= 1 /\ (0 < n <-> exists f, In f fs /\ open_ended (mf_ty f)) /\
   (b = true <-> exists f, In f fs /\ variable_size (mf_ty f)) /\ ordered fs) ->
  (n' <= 1 /\ (0 < n' <-> exists f, In f fs' /\ open_ended (mf_ty f)) /\
   (b' = true <-> exists f, In f fs' /\ variable_size (mf_ty f)) /\ ordered fs').
Proof.
  intros env. induction l as [|v l IH]; intros fs n b mk fs' n' b' mk' Hms Hus H Hi; cbn in H.
  - inversion H; subst. exact Hi.
  - apply bind_ok in H. destruct H as ((f & mk1) & H0 & H).
    pose proof (mfield_sized _ _ _ _ _ Hms Hus H0) as (Ho & Hv).
    destruct (N.ltb_spec 0 n) as [Hn|Hn]; cbn [andb] in H.
    + destruct (is_dyn_sized (mf_size f)) eqn:Ed; cbn [orb] in H; [discriminate|].
      destruct (is_element_dyn_sized (mf_size f)) eqn:Ee; cbn [orb] in H; [discriminate|].
      destruct (1 <? n); [discriminate|]. eapply IH; [assumption..|exact H|].
      destruct Hi as (I1 & I2 & I3 & I4). split; [assumption|]. split; [|split].
      * rewrite exists_snoc. rewrite <- I2. rewrite <- Ho. split; [intro K; left; exact K|intros [K|K]; [exact K|discriminate]].
      * rewrite exists_snoc. rewrite <- I3, <- Hv, orb_false_r. split; [intro K; left; exact K|intros [K|K]; [exact K|discriminate]].
      * intros i j f1 g Hij Hf1 Hg Hop.
        assert (Hj : (j < length (fs ++ [f]))%nat) by (apply nth_error_Some; congruence).
        rewrite app_length in Hj. cbn in Hj.
        destruct (Nat.eq_dec j (length fs)) as [->|Hne].
        -- rewrite nth_error_app2, Nat.sub_diag in Hg by lia. inversion Hg; subst g.
           rewrite <- Hv. discriminate.
        -- rewrite nth_error_app1 in Hf1, Hg by lia. exact (I4 i j f1 g Hij Hf1 Hg Hop).
    + assert (n = 0) by lia. subst n. destruct Hi as (I1 & I2 & I3 & I4).
      assert (Hno : forall g, In g fs -> ~ open_ended (mf_ty g)).
      { intros g Hg Hop. assert (0 < 0) by (apply I2; eauto). lia. }
      destruct (1 <? (if is_element_dyn_sized (mf_size f) then 0 + 1 else 0)) eqn:E1; [discriminate|].
      eapply IH; [assumption..|exact H|]. split; [destruct (is_element_dyn_sized (mf_size f)); lia|].
      split; [|split].
      * rewrite exists_snoc, <- Ho. destruct (is_element_dyn_sized (mf_size f)) eqn:Ee.
        -- split; [intros _; right; reflexivity|intros _; lia].
        -- split; [lia|]. intros [(g & Hg & Hop)|]; [exfalso; eapply Hno; eassumption|discriminate].
      * rewrite exists_snoc, <- I3, <- Hv. rewrite orb_true_iff. tauto.
      * intros i j f1 g Hij Hf1 Hg Hop.
        assert (Hj : (j < length (fs ++ [f]))%nat) by (apply nth_error_Some; congruence).
        rewrite app_length in Hj. cbn in Hj.
        rewrite nth_error_app1 in Hf1 by lia. exfalso. eapply Hno; [eapply nth_error_In; exact Hf1|exact Hop].
Qed.

Lemma message_sized : forall env id v x mk,
  vals msg_sized (pe_messages env) -> vals union_sized (pe_unions env) ->
  message_from_model env id v = Ok (x, mk) -> msg_sized x /\ ordered (m_fields x).
Proof.
  intros env id v x mk Hms Hus H. unfold message_from_model in H. apply bind_ok in H.
  destruct H as ((((fs & n) & b) & mk') & H0 & H). inversion H; subst; clear H.
  eapply mfields_sized in H0; try eassumption.
  - destruct H0 as (I1 & I2 & I3 & I4). split; [|assumption]. split; cbn.
    + rewrite <- I2. rewrite N.ltb_lt. reflexivity.
    + exact I3.
  - split; [lia|]. split; [|split].
    + split; [lia|]. intros (f & [] & _).
    + split; [discriminate|]. intros (f & [] & _).
    + intros i j f g _ Hf. destruct i; discriminate.
Qed.

Lemma ucases_messages : forall structs messages d l cs,
  ucases_from_model structs messages d l = Ok cs ->
  forall c x, In c cs -> uc_item c = Some (RMessage x) -> exists n, sget n messages = Some x.
Proof.
  intros structs messages d. induction l as [|v l IH]; intros cs H c x Hc Hx; cbn in H.
  - inversion H; subst. destruct Hc.
  - apply bind_ok in H. destruct H as (leaf & _ & H). apply bind_ok in H. destruct H as (c0 & H0 & H).
    apply bind_ok in H. destruct H as (cs' & H1 & H). inversion H; subst. destruct Hc as [<-|Hc]; [|eauto].
    unfold ucase_from_model in H0. apply bind_ok in H0. destruct H0 as (k & _ & H0).
    apply bind_ok in H0. destruct H0 as (it & H0 & H2). inversion H2; subst. cbn in Hx. subst it.
    destruct (su_item_type v) as [t|]; [|discriminate]. apply bind_ok in H0. destruct H0 as (r & Hr & H0).
    inversion H0; subst. apply ok_or_ok in Hr. unfold referenced_lookup in Hr.
    destruct (sget t structs); [discriminate|]. destruct (sget t messages) eqn:E; [|discriminate].
    inversion Hr; subst. eauto.
Qed.

Lemma union_sized_ok : forall structs messages v u, vals msg_sized messages ->
  union_from_model structs messages v = Ok u -> union_sized u.
Proof.
  intros structs messages v u Hms H. unfold union_from_model in H. apply bind_ok in H.
  destruct H as (d & _ & H). apply bind_ok in H. destruct H as (cs & Hcs & H). inversion H; subst; clear H.
  assert (K : forall (g : size_info -> bool) (P : mfield_type -> Prop),
    (forall x, msg_sized x -> (g (m_size x) = true <-> exists f, In f (m_fields x) /\ P (mf_ty f))) ->
    (existsb (fun c => match uc_item c with Some (RMessage x) => g (m_size x) | _ => false end) cs = true <->
     exists c x f, In c cs /\ uc_item c = Some (RMessage x) /\ In f (m_fields x) /\ P (mf_ty f))).
  { intros g P Hg. rewrite existsb_exists. split.
    - intros (c & Hc & Hx). destruct (uc_item c) as [[s|x]|] eqn:Hi; try discriminate.
      destruct (ucases_messages _ _ _ _ _ Hcs _ _ Hc Hi) as (n & Hn).
      apply Hg in Hx; [|exact (Hms _ _ Hn)]. destruct Hx as (f & Hf & Hp). exists c, x, f. auto.
    - intros (c & x & f & Hc & Hi & Hf & Hp). exists c. split; [assumption|]. rewrite Hi.
      destruct (ucases_messages _ _ _ _ _ Hcs _ _ Hc Hi) as (n & Hn).
      apply Hg; [exact (Hms _ _ Hn)|eauto]. }
  split; cbn.
  - apply (K is_element_dyn_sized open_ended). intros x Hx. apply Hx.
  - apply (K is_dyn_sized variable_size). intros x Hx. apply Hx.
Qed.

Lemma compiled_sized : forall m p, compiled m p ->
  proto_inv (fun _ => True) (fun _ => True) union_sized (fun x => msg_sized x /\ ordered (m_fields x)) p.
Proof.
  intros m p H. apply (inv_compiled m); try exact H; try (intros; exact I).
  - intros structs messages v u _ Hm Hu. eapply union_sized_ok; [|exact Hu].
    intros k x Hx. apply (Hm k x Hx).
  - intros env id v x mk _ _ Hm Hu Hx. eapply message_sized; [|exact Hu|exact Hx].
    intros k y Hy. apply (Hm k y Hy).
Qed.

Lemma open_field_last : forall m p x i j f g, compiled m p -> In x (p_messages p) ->
  (i < j)%nat -> nth_error (m_fields x) i = Some f -> nth_error (m_fields x) j = Some g ->
  open_ended (mf_ty f) -> ~ variable_size (mf_ty g).
Proof.
  intros m p x i j f g Hp Hx. apply compiled_sized in Hp. pose proof (pi_lmessages _ _ _ _ _ Hp x Hx) as (_ & Ho).
  apply Ho.
Qed.

Lemma mfields_app : forall env l1 l2 fs n b mk,
  mfields_from_model env fs n b mk (l1 ++ l2) =
  ('(fs1, n1, b1, mk1) <- mfields_from_model env fs n b mk l1 ;; mfields_from_model env fs1 n1 b1 mk1 l2).
Proof.
  intros env. induction l1 as [|v l1 IH]; intros l2 fs n b mk; [reflexivity|].
  cbn [app mfields_from_model]. destruct (mfield_from_model env fs v) as [(f & mk')|e|]; cbn [bind]; try reflexivity.
  destruct (_ && _); [reflexivity|]. destruct (1 <? _); [reflexivity|]. apply IH.
Qed.

(** A variable-size member behind an open-ended one is reported, whatever
    follows. *)
Lemma open_field_reported : forall m p id name l1 v l2 x mk f mk' g, compiled m p ->
  let env := {| pe_endianness := p_endianness p; pe_structs := p_structs_by_name p;
                pe_messages := p_messages_by_name p; pe_unions := p_unions_by_name p |} in
  message_from_model env id {| sm_name := name; sm_fields := l1 |} = Ok (x, mk) ->
  mfield_from_model env (m_fields x) v = Ok (f, mk') ->
  In g (m_fields x) -> open_ended (mf_ty g) -> variable_size (mf_ty f) ->
  message_from_model env id {| sm_name := name; sm_fields := l1 ++ v :: l2 |} = Err EVarsizeAfterPayload.
Proof.
  intros m p id name l1 v l2 x mk f mk' g Hp env Hx Hf Hg Ho Hv. apply compiled_sized in Hp.
  assert (Hms : vals msg_sized (pe_messages env)).
  { intros k y Hy. apply (pi_messages _ _ _ _ _ Hp k y Hy). }
  assert (Hus : vals union_sized (pe_unions env)) by exact (pi_unions _ _ _ _ _ Hp).
  unfold message_from_model in *. cbn [sm_fields sm_name] in *. rewrite mfields_app.
  apply bind_ok in Hx. destruct Hx as ((((fs & n) & b) & mk1) & H0 & Hx). inversion Hx; subst; clear Hx.
  rewrite H0. cbn [bind mfields_from_model]. cbn [m_fields] in *. rewrite Hf. cbn [bind].
  eapply mfields_sized in H0; try eassumption.
  - destruct H0 as (I1 & I2 & I3 & I4).
    destruct (mfield_sized _ _ _ _ _ Hms Hus Hf) as (_ & Hd).
    rewrite (proj2 Hd Hv). destruct (N.ltb_spec 0 n) as [Hn|Hn]; [reflexivity|].
    exfalso. assert (0 < n) by (apply I2; eauto). lia.
  - split; [lia|]. split; [|split].
    + split; [lia|]. intros (h & [] & _).
    + split; [discriminate|]. intros (h & [] & _).
    + intros i j h k _ Hh. destruct i; discriminate.
Qed.

(** ** C20 *)

Lemma foldM_prefix : forall {E A St} (P : list A -> St -> Prop) (f : St -> A -> outcome E St) l s s',
  (forall l1 x s s', P l1 s -> f s x = Ok s' -> P (l1 ++ [x]) s') ->
  P [] s -> foldM f s l = Ok s' -> P l s'.
Proof.
  intros E A St P f l s s' Hf Hs.
  assert (G : forall l2 l1 s1, P l1 s1 -> foldM f s1 l2 = Ok s' -> P (l1 ++ l2) s').
  { induction l2 as [|x l2 IH]; intros l1 s1 H1 H; cbn in H.
    - inversion H; subst. rewrite app_nil_r. assumption.
    - apply bind_ok in H. destruct H as (s2 & Hx & H). 
      replace (l1 ++ x :: l2) with ((l1 ++ [x]) ++ l2) by (rewrite <- app_assoc; reflexivity).
      eapply IH; [|exact H]. eapply Hf; eassumption. }
  intro H. apply (G l [] s Hs H).
Qed.

Definition keys_in {A} (m : smap A) (P : string -> Prop) : Prop := forall k v, sget k m = Some v -> P k.
Lemma keys_insert : forall {A} (m : smap A) (P : string -> Prop) k v, P k -> keys_in m P -> keys_in (sinsert k v m) P.
Proof.
  intros A m P k v Hk Hm k' v' H. cbn in H. destruct (String.eqb_spec k' k) as [->|]; [assumption|eauto].
Qed.
Lemma keys_mono : forall {A} (m : smap A) (P Q : string -> Prop), (forall k, P k -> Q k) -> keys_in m P -> keys_in m Q.
Proof. unfold keys_in. eauto. Qed.

Record scope (p : protocol) (E S U M : string -> Prop) : Prop := {
  sc_e : keys_in (p_enums_by_name p) E;
  sc_s : keys_in (p_structs_by_name p) S;
  sc_u : keys_in (p_unions_by_name p) U;
  sc_m : keys_in (p_messages_by_name p) M }.

Lemma import_scope : forall solver p v p' (I : string -> Prop), import_one solver p v = Ok p' -> I (si_type v) ->
  scope p I I I I -> scope p' I I I I.
Proof.
  intros solver p v p' P H Hv [A B C D]. unfold import_one in H.
  apply bind_ok in H. destruct H as (r & _ & H).
  destruct (sget _ (p_structs_by_name r)).
  { apply bind_ok in H. destruct H as (tp & _ & H). inversion H; subst.
    constructor; cbn; try assumption. apply keys_insert; assumption. }
  destruct (sget _ (p_enums_by_name r)).
  { apply bind_ok in H. destruct H as (tp & _ & H). inversion H; subst.
    constructor; cbn; try assumption. apply keys_insert; assumption. }
  destruct (sget _ (p_unions_by_name r)).
  { apply bind_ok in H. destruct H as (tp & _ & H). inversion H; subst.
    constructor; cbn; try assumption. apply keys_insert; assumption. }
  apply bind_ok in H. destruct H as (msg & _ & H). apply bind_ok in H. destruct H as (tp & _ & H). inversion H; subst.
  constructor; cbn; try assumption. apply keys_insert; assumption.
Qed.

Section Phases.
  Variables (m : mode) (solver : resolver) (w : world) (v : sprotocol).

  Let imp := imported v.
  Definition en_scope (l : list senum) (n : string) := imp n \/ In n (map se_name l).
  Definition st_scope (l : list sstruct) (n : string) := imp n \/ In n (map ss_name l).
  Definition un_scope (l : list sunion) (n : string) := imp n \/ In n (map sun_name l).
  Definition ms_scope (l : list smessage) (n : string) := imp n \/ In n (map sm_name l).

  Lemma phase_import : forall p, foldM (import_one solver) (protocol_empty (sp_name v)) (sp_imports v) = Ok p ->
    scope p imp imp imp imp.
  Proof.
    intros p H. eapply (foldM_inv (fun q => scope q imp imp imp imp)); [| |exact H].
    - intros s x s' Hx Hs Hm. eapply import_scope; [exact Hm| |exact Hs]. unfold imp, imported.
      apply in_map. assumption.
    - constructor; intros k y Hk; discriminate.
  Qed.

  Lemma phase_enum : forall p p' l, scope p imp imp imp imp -> foldM define_enum p l = Ok p' ->
    scope p' (en_scope l) imp imp imp.
  Proof.
    intros p p' l Hp H. eapply (foldM_prefix (fun l1 q => scope q (en_scope l1) imp imp imp)); [| |exact H].
    - intros l1 x s s' [A B C D] Hx. unfold define_enum in Hx. apply bind_ok in Hx. destruct Hx as (e & He & Hx).
      inversion Hx; subst. apply enum_sorted in He. destruct He as (Hn & _).
      constructor; cbn; try assumption. rewrite Hn. apply keys_insert.
      + right. rewrite map_app. apply in_or_app. right. left. reflexivity.
      + eapply keys_mono; [|exact A]. intros k [K|K]; [left; assumption|right]. rewrite map_app. apply in_or_app. auto.
    - destruct Hp as [A B C D]. constructor; try assumption. eapply keys_mono; [|exact A]. intros k K. left. assumption.
  Qed.

  Lemma phase_struct : forall p p' w' le l, scope p (en_scope le) imp imp imp ->
    foldM (define_struct m) (p, w) l = Ok (p', w') ->
    scope p' (en_scope le) (st_scope l) imp imp.
  Proof.
    intros p p' w' le l Hp H. change p' with (fst (p', w')).
    eapply (foldM_prefix (fun l1 q => scope (fst q) (en_scope le) (st_scope l1) imp imp)); [| |exact H].
    - intros l1 x (s & ws) (s' & ws') [A B C D] Hx. cbn [fst] in *. unfold define_struct in Hx.
      apply bind_ok in Hx. destruct Hx as (e & He & Hx).
      inversion Hx; subst. apply structure_layout in He. destruct He as (_ & Hn & _).
      constructor; cbn; try assumption. rewrite Hn. apply keys_insert.
      + right. rewrite map_app. apply in_or_app. right. left. reflexivity.
      + eapply keys_mono; [|exact B]. intros k [K|K]; [left; assumption|right]. rewrite map_app. apply in_or_app. auto.
    - destruct Hp as [A B C D]. constructor; try assumption. eapply keys_mono; [|exact B]. intros k K. left. assumption.
  Qed.

  Lemma union_name : forall structs messages u r, union_from_model structs messages u = Ok r -> u_name r = sun_name u.
  Proof.
    intros structs messages u r H. unfold union_from_model in H. apply bind_ok in H. destruct H as (d & _ & H).
    apply bind_ok in H. destruct H as (c & _ & H). inversion H. reflexivity.
  Qed.

  Lemma phase_union : forall p p' le ls l, scope p (en_scope le) (st_scope ls) imp imp ->
    foldM define_union p l = Ok p' ->
    scope p' (en_scope le) (st_scope ls) (un_scope l) imp.
  Proof.
    intros p p' le ls l Hp H.
    eapply (foldM_prefix (fun l1 q => scope q (en_scope le) (st_scope ls) (un_scope l1) imp)); [| |exact H].
    - intros l1 x s s' [A B C D] Hx. unfold define_union in Hx.
      apply bind_ok in Hx. destruct Hx as (e & He & Hx).
      inversion Hx; subst. apply union_name in He.
      constructor; cbn; try assumption. rewrite He. apply keys_insert.
      + right. rewrite map_app. apply in_or_app. right. left. reflexivity.
      + eapply keys_mono; [|exact C]. intros k [K|K]; [left; assumption|right]. rewrite map_app. apply in_or_app. auto.
    - destruct Hp as [A B C D]. constructor; try assumption. eapply keys_mono; [|exact C]. intros k K. left. assumption.
  Qed.

  Lemma phase_message : forall p p' w1 w2 le ls lu l, scope p (en_scope le) (st_scope ls) (un_scope lu) imp ->
    foldM define_message (p, w1) l = Ok (p', w2) ->
    scope p' (en_scope le) (st_scope ls) (un_scope lu) (ms_scope l).
  Proof.
    intros p p' w1 w2 le ls lu l Hp H. change p' with (fst (p', w2)).
    eapply (foldM_prefix (fun l1 q => scope (fst q) (en_scope le) (st_scope ls) (un_scope lu) (ms_scope l1))); [| |exact H].
    - intros l1 x (s & ws) (s' & ws') [A B C D] Hx. cbn [fst] in *. unfold define_message in Hx.
      apply bind_ok in Hx. destruct Hx as ((e & mk) & He & Hx).
      inversion Hx; subst. apply message_fields in He. destruct He as (Hn & _).
      constructor; cbn; try assumption. rewrite Hn. apply keys_insert.
      + right. rewrite map_app. apply in_or_app. right. left. reflexivity.
      + eapply keys_mono; [|exact D]. intros k [K|K]; [left; assumption|right]. rewrite map_app. apply in_or_app. auto.
    - destruct Hp as [A B C D]. constructor; try assumption. eapply keys_mono; [|exact D]. intros k K. left. assumption.
  Qed.
End Phases.

Lemma protocol_phases : forall m solver w v p w', protocol_from_model m solver w v = Ok (p, w') ->
  exists p1 p2 p3 w3 p4,
    foldM (import_one solver) (protocol_empty (sp_name v)) (sp_imports v) = Ok p1 /\
    foldM define_enum p1 (sp_enums v) = Ok p2 /\
    foldM (define_struct m) (p2, w) (sp_structs v) = Ok (p3, w3) /\
    foldM define_union p3 (sp_unions v) = Ok p4 /\
    foldM define_message (p4, w3) (sp_messages v) = Ok (p, w').
Proof.
  intros m solver w v p w' H. unfold protocol_from_model in H.
  apply bind_ok in H. destruct H as (p1 & H1 & H).
  apply bind_ok in H. destruct H as (p2 & H2 & H).
  apply bind_ok in H. destruct H as ((p3 & w3) & H3 & H).
  apply bind_ok in H. destruct H as (p4 & H4 & H5).
  exists p1, p2, p3, w3, p4. auto.
Qed.

Lemma fields_each : forall m endi enums structs l off fs off' i df,
  fields_from_model m endi enums structs off l = Ok (fs, off') -> nth_error l i = Some df ->
  exists f o1 o2, nth_error fs i = Some f /\ field_from_model m endi enums structs o1 df = Ok (f, o2).
Proof.
  intros m endi enums structs. induction l as [|d l IH]; intros off fs off' i df H Hd; [destruct i; discriminate|].
  cbn in H. apply bind_ok in H. destruct H as ((f & off1) & H0 & H).
  apply bind_ok in H. destruct H as ((fs1 & off2) & H1 & H). inversion H; subst.
  destruct i as [|i]; cbn in Hd.
  - inversion Hd; subst. exists f, off, off1. auto.
  - destruct (IH _ _ _ _ _ H1 Hd) as (f' & o1 & o2 & Hf & Hm). exists f', o1, o2. auto.
Qed.

Lemma struct_each : forall m endi enums structs id d s df,
  structure_from_model m endi enums structs id d = Ok s -> In df (ss_fields d) ->
  exists f o1 o2, In f (s_fields s) /\ field_from_model m endi enums structs o1 df = Ok (f, o2).
Proof.
  intros m endi enums structs id d s df H Hd. unfold structure_from_model in H.
  apply bind_ok in H. destruct H as ((fs & off) & H0 & H). inversion H; subst. cbn.
  apply In_nth_error in Hd. destruct Hd as (i & Hi).
  destruct (fields_each _ _ _ _ _ _ _ _ _ _ H0 Hi) as (f & o1 & o2 & Hf & Hm).
  exists f, o1, o2. split; [eapply nth_error_In; exact Hf|exact Hm].
Qed.

(** Structures only refer to imported or earlier structures and to imported or
    declared enums. *)
Lemma struct_references : forall m solver w v p w' k d df,
  protocol_from_model m solver w v = Ok (p, w') ->
  nth_error (sp_structs v) k = Some d -> In df (ss_fields d) ->
  (forall n, sf_info df = STStruct n -> imported v n \/ earlier_struct v k n) /\
  (forall n, sf_view df = Some (SVEnum n) -> (exists b, sf_info df = STUnsigned b) -> imported v n \/ some_enum v n).
Proof.
  intros m solver w v p w' k d df H Hk Hd.
  destruct (protocol_phases _ _ _ _ _ _ H) as (p1 & p2 & p3 & w3 & p4 & H1 & H2 & H3 & H4 & H5).
  destruct (foldM_nth _ _ _ _ _ _ H3 Hk) as ((q1 & w1) & (q2 & w2) & Hq1 & Hq2 & _).
  apply phase_import in H1. pose proof (phase_enum _ _ _ _ H1 H2) as Hs2.
  pose proof (phase_struct _ _ _ _ _ _ _ _ Hs2 Hq1) as [A B C D].
  unfold define_struct in Hq2. apply bind_ok in Hq2. destruct Hq2 as (s & Hs & _).
  destruct (struct_each _ _ _ _ _ _ _ _ Hs Hd) as (f & o1 & o2 & _ & Hf).
  unfold field_from_model in Hf. split.
  - intros n Hn. rewrite Hn in Hf. apply bind_ok in Hf. destruct Hf as (r & Hr & _). apply ok_or_ok in Hr.
    apply (B _ _ Hr).
  - intros n Hn (b & Hb). rewrite Hb in Hf. cbn [get_bit_size ok_or bind get_simple_type] in Hf.
    apply bind_ok in Hf. destruct Hf as (vw & Hvw & _).
    rewrite Hn in Hvw. cbn in Hvw. apply bind_ok in Hvw. destruct Hvw as (r & Hr & _). apply ok_or_ok in Hr.
    apply (A _ _ Hr).
Qed.

(** Unions refer to imported or declared structures, or imported messages. *)
Lemma union_references : forall m solver w v p w' u,
  protocol_from_model m solver w v = Ok (p, w') -> In u (sp_unions v) ->
  (exists n parts, joined (sun_discriminant u) (n :: parts) /\ Forall no_dot (n :: parts) /\
     (imported v n \/ some_struct v n)) /\
  (forall c n, In c (sun_cases u) -> su_item_type c = Some n -> imported v n \/ some_struct v n).
Proof.
  intros m solver w v p w' u H Hu.
  destruct (protocol_phases _ _ _ _ _ _ H) as (p1 & p2 & p3 & w3 & p4 & H1 & H2 & H3 & H4 & H5).
  apply In_nth_error in Hu. destruct Hu as (k & Hk).
  destruct (foldM_nth _ _ _ _ _ _ H4 Hk) as (q1 & q2 & Hq1 & Hq2 & _).
  apply phase_import in H1. pose proof (phase_enum _ _ _ _ H1 H2) as Hs2.
  pose proof (phase_struct _ _ _ _ _ _ _ _ Hs2 H3) as Hs3.
  pose proof (phase_union _ _ _ _ _ _ Hs3 Hq1) as [A B C D].
  unfold define_union in Hq2. apply bind_ok in Hq2. destruct Hq2 as (r & Hr & _).
  unfold union_from_model in Hr. apply bind_ok in Hr. destruct Hr as (disc & Hdisc & Hr).
  apply bind_ok in Hr. destruct Hr as (cs & Hcs & _). split.
  - unfold disc_from_model in Hdisc. destruct (split_dot (sun_discriminant u)) as (n & parts) eqn:Hsp.
    apply split_dot_spec in Hsp. destruct Hsp as (Hj & Hd). exists n, parts. split; [assumption|]. split; [assumption|].
    apply bind_ok in Hdisc. destruct Hdisc as (root & Hroot & _). apply ok_or_ok in Hroot. apply (B _ _ Hroot).
  - intros c n Hc Hn. revert cs Hcs. induction (sun_cases u) as [|c0 l IH]; intros cs Hcs; [destruct Hc|].
    cbn in Hcs. apply bind_ok in Hcs. destruct Hcs as (leaf & _ & Hcs). apply bind_ok in Hcs.
    destruct Hcs as (c1 & Hc1 & Hcs). apply bind_ok in Hcs. destruct Hcs as (cs' & Hcs' & _).
    destruct Hc as [->|Hc]; [|eauto].
    unfold ucase_from_model in Hc1. apply bind_ok in Hc1. destruct Hc1 as (kk & _ & Hc1).
    apply bind_ok in Hc1. destruct Hc1 as (it & Hit & _). rewrite Hn in Hit. apply bind_ok in Hit.
    destruct Hit as (rr & Hrr & _). apply ok_or_ok in Hrr. unfold referenced_lookup in Hrr.
    destruct (sget n (p_structs_by_name q1)) eqn:E1; [apply (B _ _ E1)|].
    destruct (sget n (p_messages_by_name q1)) eqn:E2; [|discriminate]. left. apply (D _ _ E2).
Qed.

(** Messages refer to imported types, declared structures and unions, earlier
    messages and earlier fields. *)
Lemma message_references : forall m solver w v p w' k d j df,
  protocol_from_model m solver w v = Ok (p, w') ->
  nth_error (sp_messages v) k = Some d -> nth_error (sm_fields d) j = Some df ->
  (forall n, item_reference (smf_info df) = Some n ->
     imported v n \/ some_struct v n \/ earlier_message v k n) /\
  (forall on n, smf_info df = MTUnion on n ->
     (imported v n \/ some_union v n) /\ In on (map smf_name (firstn j (sm_fields d)))).
Proof.
  intros m solver w v p w' k d j df H Hk Hj.
  destruct (protocol_phases _ _ _ _ _ _ H) as (p1 & p2 & p3 & w3 & p4 & H1 & H2 & H3 & H4 & H5).
  destruct (foldM_nth _ _ _ _ _ _ H5 Hk) as ((q1 & w1) & (q2 & w2) & Hq1 & Hq2 & _).
  apply phase_import in H1. pose proof (phase_enum _ _ _ _ H1 H2) as Hs2.
  pose proof (phase_struct _ _ _ _ _ _ _ _ Hs2 H3) as Hs3.
  pose proof (phase_union _ _ _ _ _ _ Hs3 H4) as Hs4.
  pose proof (phase_message _ _ _ _ _ _ _ _ _ Hs4 Hq1) as [A B C D].
  unfold define_message in Hq2. apply bind_ok in Hq2. destruct Hq2 as ((x & mk) & Hx & _).
  destruct (message_fields _ _ _ _ _ Hx) as (_ & _ & Hlen & Heach).
  destruct (Heach _ _ Hj) as (f & mk' & Hf & Hm).
  assert (Hlook : forall n r, referenced_lookup (p_structs_by_name q1) (p_messages_by_name q1) n = Some r ->
            imported v n \/ some_struct v n \/ earlier_message v k n).
  { intros n r Hr. unfold referenced_lookup in Hr.
    destruct (sget n (p_structs_by_name q1)) eqn:E1; [destruct (B _ _ E1) as [K|K]; [auto|right; left; exact K]|].
    destruct (sget n (p_messages_by_name q1)) eqn:E2; [|discriminate].
    destruct (D _ _ E2) as [K|K]; [auto|right; right; exact K]. }
  unfold mfield_from_model in Hm. split.
  - intros n Hn. destruct (smf_info df) as [t|ml t|[ml|]| |on t]; try discriminate; inversion Hn; subst t;
      apply bind_ok in Hm; destruct Hm as (r & Hr & _); apply ok_or_ok in Hr; cbn in Hr; eapply Hlook; exact Hr.
  - intros on n Hn. rewrite Hn in Hm. apply bind_ok in Hm. destruct Hm as ((i & g) & Hg & Hm).
    apply bind_ok in Hm. destruct Hm as (r & Hr & _). apply ok_or_ok in Hr. cbn in Hr.
    split; [apply (C _ _ Hr)|]. apply ok_or_ok in Hg.
    assert (Hfind : forall l i0 i g, find_mfield on i0 l = Some (i, g) -> In on (map mf_name l)).
    { induction l as [|a l IH]; intros i0 i1 g1 Hl; cbn in Hl; [discriminate|].
      destruct (String.eqb_spec (mf_name a) on) as [He|He]; [left; assumption|right; eauto]. }
    apply Hfind in Hg.
    assert (Hnames : forall q, (q <= j)%nat -> map mf_name (firstn q (m_fields x)) = map smf_name (firstn q (sm_fields d))).
    { clear -Heach Hlen. assert (Hall : map mf_name (m_fields x) = map smf_name (sm_fields d)).
      { apply nth_ext with (d := EmptyString) (d' := EmptyString); [rewrite !map_length; exact Hlen|].
        intros n Hn. rewrite map_length in Hn. rewrite Hlen in Hn.
        destruct (nth_error (sm_fields d) n) as [vf|] eqn:Hv; [|apply nth_error_None in Hv; lia].
        destruct (Heach _ _ Hv) as (f & mk & Hf & Hm).
        rewrite (nth_error_nth (map mf_name (m_fields x)) n EmptyString (map_nth_error mf_name n _ Hf)).
        rewrite (nth_error_nth (map smf_name (sm_fields d)) n EmptyString (map_nth_error smf_name n _ Hv)).
        unfold mfield_from_model in Hm.
        destruct (smf_info vf) as [t|ml t|[ml|]| |on t]; repeat first
          [ inv_bind Hm
          | match type of Hm with context [match ?x with _ => _ end] => destruct x eqn:? end
          | progress cbn [bind] in Hm ]; inversion Hm; reflexivity. }
      intros q _. rewrite <- !firstn_map, Hall. reflexivity. }
    rewrite Hnames in Hg by lia. exact Hg.
Qed.

(** A structure shadows a message of the same name. *)
Lemma struct_shadows : forall structs messages n s,
  sget n structs = Some s -> referenced_lookup structs messages n = Some (RStruct s).
Proof. intros structs messages n s H. unfold referenced_lookup. rewrite H. reflexivity. Qed.

(** An unknown name is an UndefinedReference error. *)
Lemma undefined_struct : forall m endi enums structs off df n,
  sf_info df = STStruct n -> sget n structs = None ->
  field_from_model m endi enums structs off df = Err (EUndefinedReference n).
Proof. intros m endi enums structs off df n H Hn. unfold field_from_model. rewrite H, Hn. reflexivity. Qed.
Lemma undefined_item : forall env un v n, item_reference (smf_info v) = Some n ->
  sget n (pe_structs env) = None -> sget n (pe_messages env) = None ->
  mfield_from_model env un v = Err (EUndefinedReference n).
Proof.
  intros env un v n H Hs Hm. unfold mfield_from_model.
  assert (Hl : referenced_lookup (pe_structs env) (pe_messages env) n = None)
    by (unfold referenced_lookup; rewrite Hs, Hm; reflexivity).
  destruct (smf_info v) as [t|ml t|[ml|]| |on t]; try discriminate; inversion H; subst t; rewrite Hl; reflexivity.
Qed.
