(** Proofs for C88: compiling a protocol with other limits. *)

From Coq Require Import Arith NArith ZArith String List Bool Lia ZifyBool ZifyN ZifyNat.
From Verif Require Import Base Schema Compiler Runtime Gen Loader SpecLoader SpecExact SpecLimit AcceptThms.
Import ListNotations.
Local Open Scope N_scope.

Lemma alike_bind : forall {A B} (P : A -> A -> Prop) (Q : B -> B -> Prop) r r' f f', ends_alike P r r' ->
  (forall a a', P a a' -> ends_alike Q (f a) (f' a')) -> ends_alike Q (bind r f) (bind r' f').
Proof. intros A B P Q [a|e|] [a'|e'|] f f' H K; cbn in *; try contradiction; auto. Qed.
Lemma alike_foldM : forall {S A} (P : S -> S -> Prop) (L : A -> A -> Prop) f f', (forall s s' a a', P s s' -> L a a' -> ends_alike P (f s a) (f' s' a')) ->
  forall l l', Forall2 L l l' -> forall s s', P s s' -> ends_alike P (foldM f s l) (foldM f' s' l').
Proof.
  intros S A P L f f' K l l' F. induction F; intros s s' Hs; cbn [foldM]; [exact Hs|]. eapply alike_bind; [apply K; eassumption|]. auto.
Qed.
Lemma alike_refl : forall {A} (P : A -> A -> Prop) r, (forall a, P a a) -> ends_alike P r r.
Proof. intros A P [a|e|] H; cbn; auto. Qed.
Lemma alike_eq : forall {A} (r r' : cres A), ends_alike eq r r' <-> r' = r.
Proof.
  intros A [a|e|] [a'|e'|]; cbn; split; intro H; try contradiction; try discriminate; subst; try reflexivity; try (injection H; auto).
Qed.
Lemma alike_impl : forall {A} (P Q : A -> A -> Prop) r r', (forall a a', P a a' -> Q a a') -> ends_alike P r r' -> ends_alike Q r r'.
Proof. intros A P Q [a|e|] [a'|e'|] H; cbn; auto. Qed.
Lemma forall2_refl : forall {A} (P : A -> A -> Prop) l, (forall a, P a a) -> Forall2 P l l.
Proof. intros A P l H. induction l; auto. Qed.
Lemma alike_ok_or : forall {A} (P : A -> A -> Prop) o o' e, match o, o' with Some a, Some a' => P a a' | None, None => True | _, _ => False end ->
  ends_alike P (ok_or o e) (ok_or o' e).
Proof. intros A P [a|] [a'|] e H; cbn in *; auto. Qed.
Lemma alike_get : forall {A} (P : A -> A -> Prop) n (a a' : smap A), entries_alike P a a' ->
  match sget n a, sget n a' with Some x, Some x' => P x x' | None, None => True | _, _ => False end.
Proof.
  intros A P n a a' F. induction F as [|[k v] [k' v'] l l' [E H] F IH]; cbn; [exact I|]. cbn in E, H. subst k'. destruct (String.eqb n k); [exact H|exact IH].
Qed.

Section Limits.
Variables (L : N -> N -> Prop) (R : fixed_type -> fixed_type -> Prop).
Hypothesis LR : forall a b, L a b -> ends_alike R (fixed_from_max_value a) (fixed_from_max_value b).
Hypothesis RR : forall t, R t t.
Notation resized := (resized R). Notation resized_field := (resized_field R). Notation resized_type := (resized_type R).
Notation resized_ref := (resized_ref R). Notation resized_union := (resized_union R). Notation resized_case := (resized_case R).
Notation resized_protocol := (resized_protocol R).

Lemma resized_size : forall x x', resized x x' -> m_size x' = m_size x /\ m_id x' = m_id x /\ m_name x' = m_name x.
Proof. intros x x' []. cbn. auto. Qed.
Lemma resized_lookup : forall structs ms ms' n, entries_alike resized ms ms' ->
  match referenced_lookup structs ms n, referenced_lookup structs ms' n with Some a, Some a' => resized_ref a a' | None, None => True | _, _ => False end.
Proof.
  intros structs ms ms' n H. unfold referenced_lookup. destruct (sget n structs); [constructor|]. pose proof (alike_get _ n _ _ H) as K.
  destruct (sget n ms), (sget n ms'); try contradiction; [|exact I]. constructor. exact K.
Qed.
Lemma resized_ucase : forall structs ms ms' d v, entries_alike resized ms ms' ->
  ends_alike resized_case (ucase_from_model structs ms d v) (ucase_from_model structs ms' d v).
Proof.
  intros structs ms ms' d v H. unfold ucase_from_model. eapply alike_bind; [apply (alike_refl eq); reflexivity|]. intros c c' <-.
  eapply (alike_bind (fun o o' => match o, o' with Some a, Some a' => resized_ref a a' | None, None => True | _, _ => False end)).
  - destruct (su_item_type v) as [t|]; cbn; [|exact I]. eapply alike_bind; [apply alike_ok_or, resized_lookup, H|]. intros a a' K. exact K.
  - intros [a|] [a'|] K; try contradiction; cbn; constructor. exact K.
Qed.
Lemma resized_ucases : forall structs ms ms' d l, entries_alike resized ms ms' ->
  ends_alike (Forall2 resized_case) (ucases_from_model structs ms d l) (ucases_from_model structs ms' d l).
Proof.
  intros structs ms ms' d l H. induction l as [|v r IH]; cbn [ucases_from_model]; [constructor|].
  eapply alike_bind; [apply (alike_refl eq); reflexivity|]. intros f f' <-. eapply alike_bind; [apply resized_ucase, H|]. intros c c' Hc.
  eapply alike_bind; [exact IH|]. intros cs cs' Hcs. cbn. constructor; assumption.
Qed.
Lemma resized_sizes : forall (g : size_info -> bool) cs cs', Forall2 resized_case cs cs' ->
  existsb (fun c => match uc_item c with Some (RMessage x) => g (m_size x) | _ => false end) cs' =
  existsb (fun c => match uc_item c with Some (RMessage x) => g (m_size x) | _ => false end) cs.
Proof.
  intros g cs cs' F. induction F as [|c c' l l' H F IH]; cbn; [reflexivity|]. rewrite IH. f_equal. destruct H as [name n|name n t t' H]; cbn; [reflexivity|].
  destruct H as [s|y y' H]; [reflexivity|]. rewrite (proj1 (resized_size _ _ H)). reflexivity.
Qed.
Lemma resized_union_model : forall structs ms ms' v, entries_alike resized ms ms' ->
  ends_alike resized_union (union_from_model structs ms v) (union_from_model structs ms' v).
Proof.
  intros structs ms ms' v H. unfold union_from_model. eapply alike_bind; [apply (alike_refl eq); reflexivity|]. intros d d' <-.
  eapply alike_bind; [apply resized_ucases, H|]. intros cs cs' Hcs. cbv zeta. rewrite (resized_sizes is_dyn_sized _ _ Hcs), (resized_sizes is_element_dyn_sized _ _ Hcs).
  cbn. constructor. exact Hcs.
Qed.
Lemma resized_mf_name : forall f f', resized_field f f' -> mf_name f' = mf_name f /\ mf_size f' = mf_size f.
Proof. intros f f' []. auto. Qed.
Lemma resized_find : forall n fs fs', Forall2 resized_field fs fs' -> forall i,
  match find_mfield n i fs, find_mfield n i fs' with Some (j, f), Some (j', f') => j = j' /\ resized_field f f' | None, None => True | _, _ => False end.
Proof.
  intros n fs fs' F. induction F as [|f f' l l' H F IH]; intro i; cbn; [exact I|]. rewrite (proj1 (resized_mf_name _ _ H)). destruct (String.eqb (mf_name f) n); [auto|apply IH].
Qed.
Lemma resized_member_model : forall e structs ms ms' us us' fs fs' v v', entries_alike resized ms ms' -> entries_alike resized_union us us' ->
  Forall2 resized_field fs fs' -> other_member L v v' ->
  ends_alike (fun a a' => resized_field (fst a) (fst a') /\ snd a' = snd a)
    (mfield_from_model {| pe_endianness := e; pe_structs := structs; pe_messages := ms; pe_unions := us |} fs v)
    (mfield_from_model {| pe_endianness := e; pe_structs := structs; pe_messages := ms'; pe_unions := us' |} fs' v').
Proof.
  intros e structs ms ms' us us' fs fs' v v' Hm Hu Hf (En & Eo & H). unfold mfield_from_model. cbn [pe_endianness pe_structs pe_messages pe_unions]. rewrite En, Eo.
  assert (List : forall a b t, ends_alike R (fixed_from_max_value a) (fixed_from_max_value b) ->
    ends_alike (fun a a' => resized_field (fst a) (fst a') /\ snd a' = snd a)
      (r <- ok_or (referenced_lookup structs ms t) (EUndefinedReference t);; ty <- fixed_from_max_value a;;
       match r with
       | RStruct s => Ok (MkMField (smf_name v) (TArray ty s) (opt_default (smf_optional v)) size_dyn e, [])
       | RMessage x => Ok (MkMField (smf_name v) (TList ty x) (opt_default (smf_optional v)) size_open e, [m_id x]) end)
      (r <- ok_or (referenced_lookup structs ms' t) (EUndefinedReference t);; ty <- fixed_from_max_value b;;
       match r with
       | RStruct s => Ok (MkMField (smf_name v) (TArray ty s) (opt_default (smf_optional v)) size_dyn e, [])
       | RMessage x => Ok (MkMField (smf_name v) (TList ty x) (opt_default (smf_optional v)) size_open e, [m_id x]) end)).
  { intros a b t Hab. eapply alike_bind; [apply alike_ok_or, resized_lookup, Hm|]. intros r r' Hr. eapply alike_bind; [exact Hab|]. intros ty ty' Ht.
    destruct Hr as [s|y y' Hy]; cbn; (split; [constructor|]).
    - constructor. exact Ht.
    - reflexivity.
    - constructor; assumption.
    - rewrite (proj1 (proj2 (resized_size _ _ Hy))). reflexivity. }
  assert (Text : forall a b, ends_alike R (fixed_from_max_value a) (fixed_from_max_value b) ->
    ends_alike (fun a a' => resized_field (fst a) (fst a') /\ snd a' = snd a)
      (ty <- fixed_from_max_value a;; Ok (MkMField (smf_name v) (TVarcharString ty) (opt_default (smf_optional v)) size_dyn e, @nil N))
      (ty <- fixed_from_max_value b;; Ok (MkMField (smf_name v) (TVarcharString ty) (opt_default (smf_optional v)) size_dyn e, []))).
  { intros a b Hab. eapply alike_bind; [exact Hab|]. intros ty ty' Ht. cbn. split; [|reflexivity]. constructor. constructor. exact Ht. }
  assert (Same : forall a, ends_alike R (fixed_from_max_value a) (fixed_from_max_value a)) by (intro a; apply alike_refl; exact RR).
  destruct H as [[t|a t|[a|]| |on t]|a b t Hab|a b Hab].
  - eapply alike_bind; [apply alike_ok_or, resized_lookup, Hm|]. intros r r' [s|y y' Hy].
    + destruct (flattened s) as [g|]; cbn; (split; [|reflexivity]); constructor; repeat constructor.
    + cbn. rewrite (proj1 (resized_size _ _ Hy)). split; [|reflexivity]. constructor. constructor. constructor. exact Hy.
  - apply List, Same.
  - apply Text, Same.
  - cbn. split; [|reflexivity]. constructor. constructor.
  - cbn. split; [|reflexivity]. constructor. constructor.
  - eapply (alike_bind (fun a a' => fst a' = fst a /\ resized_field (snd a) (snd a'))).
    + apply alike_ok_or. pose proof (resized_find on fs fs' Hf 0) as K. destruct (find_mfield on 0 fs) as [[j f]|], (find_mfield on 0 fs') as [[j' f']|]; try contradiction; [|exact I].
      destruct K as [-> K]. auto.
    + intros [j f] [j' f'] [E K]. cbn [fst snd] in E, K. subst j'. eapply alike_bind; [apply alike_ok_or, alike_get, Hu|]. intros u u' Hu'.
      destruct K as [name ty ty' opt size endi K]. cbn [mf_ty mf_name].
      destruct K as [ty|r r' Hr| |ty ty' Ht|ty ty' s Ht|ty ty' y y' Ht Hy|u1 u1' on' i Hu1|]; try reflexivity.
      destruct Hr as [s|y y' Hy]; [|reflexivity]. destruct Hu' as [un d cs cs' usz Hcs]. cbn [u_disc u_size]. destruct (s_id (d_root d) =? s_id s); [|reflexivity].
      cbn. split; [|reflexivity]. constructor. constructor. constructor. exact Hcs.
  - apply List, LR, Hab.
  - apply Text, LR, Hab.
Qed.
Lemma resized_members_model : forall e structs ms ms' us us', entries_alike resized ms ms' -> entries_alike resized_union us us' -> forall l l', Forall2 (other_member L) l l' ->
  forall fs fs' n dyn marks, Forall2 resized_field fs fs' ->
  ends_alike (fun a a' => Forall2 resized_field (fst (fst (fst a))) (fst (fst (fst a'))) /\ snd (fst (fst a')) = snd (fst (fst a)) /\
      snd (fst a') = snd (fst a) /\ snd a' = snd a)
    (mfields_from_model {| pe_endianness := e; pe_structs := structs; pe_messages := ms; pe_unions := us |} fs n dyn marks l)
    (mfields_from_model {| pe_endianness := e; pe_structs := structs; pe_messages := ms'; pe_unions := us' |} fs' n dyn marks l').
Proof.
  intros e structs ms ms' us us' Hm Hu l l' F. induction F as [|v v' l l' Hv F IH]; intros fs fs' n dyn marks Hf; cbn [mfields_from_model]; [cbn; auto|].
  eapply alike_bind; [apply resized_member_model; eassumption|]. intros [f mk] [f' mk'] [Hff Hmk]. cbn [fst snd] in Hff, Hmk. subst mk'. cbv zeta.
  rewrite (proj2 (resized_mf_name _ _ Hff)). destruct ((0 <? n) && (is_dyn_sized (mf_size f) || is_element_dyn_sized (mf_size f))); [reflexivity|].
  destruct (1 <? (if is_element_dyn_sized (mf_size f) then n + 1 else n)); [reflexivity|]. apply IH. apply Forall2_app; [exact Hf|]. constructor; [exact Hff|constructor].
Qed.
Lemma resized_message_model : forall e structs ms ms' us us' id x x', entries_alike resized ms ms' -> entries_alike resized_union us us' -> other_message L x x' ->
  ends_alike (fun a a' => resized (fst a) (fst a') /\ snd a' = snd a)
    (message_from_model {| pe_endianness := e; pe_structs := structs; pe_messages := ms; pe_unions := us |} id x)
    (message_from_model {| pe_endianness := e; pe_structs := structs; pe_messages := ms'; pe_unions := us' |} id x').
Proof.
  intros e structs ms ms' us us' id x x' Hm Hu [En F]. unfold message_from_model. eapply alike_bind; [apply (resized_members_model e structs ms ms' us us' Hm Hu _ _ F [] []); constructor|].
  intros [[[fs n] dyn] mk] [[[fs' n'] dyn'] mk'] (Hf & E1 & E2 & E3). cbn [fst snd] in Hf, E1, E2, E3. subst n' dyn' mk'. cbn. rewrite En. split; [constructor; exact Hf|reflexivity].
Qed.

Lemma resized_enum_step : forall p p' v v', resized_protocol p p' -> v = v' -> ends_alike resized_protocol (define_enum p v) (define_enum p' v').
Proof.
  intros p p' v v' (A1 & A2 & A3 & A4 & A5 & A6 & A7 & A8 & A9 & A10 & A11) <-. unfold define_enum. eapply alike_bind; [apply (alike_refl eq); reflexivity|].
  intros y y' <-. cbn. unfold SpecLimit.resized_protocol. cbn. rewrite A1, A2, A3, A4, A6, A8, A10. repeat (split; [first [reflexivity|assumption]|]). assumption.
Qed.
Definition both (P : protocol -> protocol -> Prop) (a a' : protocol * world) : Prop := P (fst a) (fst a') /\ snd a' = snd a.
Lemma resized_struct_step : forall m a a' v v', both resized_protocol a a' -> v = v' -> ends_alike (both resized_protocol) (define_struct m a v) (define_struct m a' v').
Proof.
  intros m [p w] [p' w'] v v' [(A1 & A2 & A3 & A4 & A5 & A6 & A7 & A8 & A9 & A10 & A11) Ew] <-. cbn [fst snd] in *. subst w'. unfold define_struct. rewrite A2, A4, A6.
  eapply alike_bind; [apply (alike_refl eq); reflexivity|]. intros y y' <-. cbn. split; [|reflexivity]. unfold SpecLimit.resized_protocol. cbn.
  rewrite A1, A2, A3, A4, A6, A8, A10. repeat (split; [first [reflexivity|assumption]|]). assumption.
Qed.
Lemma resized_union_step : forall p p' v v', resized_protocol p p' -> v = v' -> ends_alike resized_protocol (define_union p v) (define_union p' v').
Proof.
  intros p p' v v' (A1 & A2 & A3 & A4 & A5 & A6 & A7 & A8 & A9 & A10 & A11) <-. unfold define_union. rewrite A4. eapply alike_bind; [apply resized_union_model, A5|].
  intros u u' Hu. assert (En : u_name u' = u_name u) by (destruct Hu; reflexivity). cbn. unfold SpecLimit.resized_protocol. cbn. rewrite En, A1, A2, A3, A4, A6, A8, A10.
  repeat (split; [first [reflexivity|assumption]|]). split; [constructor; [cbn; auto|exact A7]|]. repeat (split; [first [reflexivity|assumption]|]).
  apply Forall2_app; [assumption|]. constructor; [exact Hu|constructor].
Qed.
Lemma resized_message_step : forall a a' v v', both resized_protocol a a' -> other_message L v v' -> ends_alike (both resized_protocol) (define_message a v) (define_message a' v').
Proof.
  intros [p w] [p' w'] v v' [(A1 & A2 & A3 & A4 & A5 & A6 & A7 & A8 & A9 & A10 & A11) Ew] Hv. cbn [fst snd] in *. subst w'. unfold define_message. rewrite A2, A4.
  eapply alike_bind; [apply resized_message_model; eassumption|]. intros [x mk] [x' mk'] [Hx Hmk]. cbn [fst snd] in Hx, Hmk. subst mk'.
  cbn. split; [|reflexivity]. unfold SpecLimit.resized_protocol. cbn. rewrite (proj2 (proj2 (resized_size _ _ Hx))), A1, A2, A3, A4, A6, A8, A10.
  split; [reflexivity|]. split; [reflexivity|]. split; [reflexivity|]. split; [reflexivity|]. split; [constructor; [cbn; auto|exact A5]|].
  repeat (split; [first [reflexivity|assumption]|]). split; [apply Forall2_app; [assumption|]; constructor; [exact Hx|constructor]|]. split; [reflexivity|assumption].
Qed.
Definition sees_alike (s s' : resolver) : Prop := (forall n t, r_path s' n t = r_path s n t) /\
  forall n, match r_protocol s n, r_protocol s' n with Some p, Some p' => resized_protocol p p' | None, None => True | _, _ => False end.
Lemma resized_import_step : forall s s', sees_alike s s' -> forall p p' v v', resized_protocol p p' -> v = v' -> ends_alike resized_protocol (import_one s p v) (import_one s' p' v').
Proof.
  intros s s' [Hpath Hs] p p' v v' (A1 & A2 & A3 & A4 & A5 & A6 & A7 & A8 & A9 & A10 & A11) <-. unfold import_one. eapply alike_bind; [apply alike_ok_or, Hs|].
  intros q q' (B1 & B2 & B3 & B4 & B5 & B6 & B7 & B8 & B9 & B10 & B11). cbv zeta. rewrite B4, B6, Hpath. destruct (sget (si_type v) (p_structs_by_name q)) as [t|].
  { eapply alike_bind; [apply (alike_refl eq); reflexivity|]. intros y y' <-. cbn. unfold SpecLimit.resized_protocol. cbn. rewrite A1, A2, A3, A4, A6, A8, A10.
    repeat (split; [first [reflexivity|assumption]|]). assumption. }
  destruct (sget (si_type v) (p_enums_by_name q)) as [t|].
  { eapply alike_bind; [apply (alike_refl eq); reflexivity|]. intros y y' <-. cbn. unfold SpecLimit.resized_protocol. cbn. rewrite A1, A2, A3, A4, A6, A8, A10.
    repeat (split; [first [reflexivity|assumption]|]). assumption. }
  pose proof (alike_get _ (si_type v) _ _ B7) as K. destruct (sget (si_type v) (p_unions_by_name q)) as [u|], (sget (si_type v) (p_unions_by_name q')) as [u'|]; try contradiction.
  { eapply alike_bind; [apply (alike_refl eq); reflexivity|]. intros y y' <-. assert (En : u_name u' = u_name u) by (destruct K; reflexivity).
    cbn. unfold SpecLimit.resized_protocol. cbn. rewrite En, A1, A2, A3, A4, A6, A8, A10.
    repeat (split; [first [reflexivity|assumption]|]). split; [constructor; [cbn; auto|exact A7]|]. repeat (split; [first [reflexivity|assumption]|]). assumption. }
  eapply alike_bind; [apply alike_ok_or, alike_get, B5|]. intros x x' Hx. eapply alike_bind; [apply (alike_refl eq); reflexivity|]. intros y y' <-.
  cbn. unfold SpecLimit.resized_protocol. cbn. rewrite (proj2 (proj2 (resized_size _ _ Hx))), A1, A2, A3, A4, A6, A8, A10.
  split; [reflexivity|]. split; [reflexivity|]. split; [reflexivity|]. split; [reflexivity|]. split; [constructor; [cbn; auto|exact A5]|].
  repeat (split; [first [reflexivity|assumption]|]). assumption.
Qed.
Theorem resized_compile : forall m s s' w d d', sees_alike s s' -> other_limits L d d' ->
  ends_alike (both resized_protocol) (protocol_from_model m s w d) (protocol_from_model m s' w d').
Proof.
  intros m s s' w d d' Hs (E1 & E2 & E3 & E4 & E5 & E6 & F). unfold protocol_from_model. rewrite E1, E3, E4, E5, E6.
  eapply (alike_bind resized_protocol).
  { eapply (alike_foldM resized_protocol eq); [intros; eapply resized_import_step; eassumption|apply forall2_refl; reflexivity|].
    unfold SpecLimit.resized_protocol, protocol_empty. cbn. repeat (split; [first [reflexivity|constructor]|]). constructor. }
  intros p1 p1' H1. eapply (alike_bind resized_protocol).
  { eapply (alike_foldM resized_protocol eq); [apply resized_enum_step|apply forall2_refl; reflexivity|exact H1]. }
  intros p2 p2' H2. eapply (alike_bind (both resized_protocol)).
  { eapply (alike_foldM (both resized_protocol) eq); [intros; apply resized_struct_step; assumption|apply forall2_refl; reflexivity|split; [exact H2|reflexivity]]. }
  intros [p3 w3] [p3' w3'] [H3 Ew]. cbn [fst snd] in H3, Ew. subst w3'. eapply (alike_bind resized_protocol).
  { eapply (alike_foldM resized_protocol eq); [apply resized_union_step|apply forall2_refl; reflexivity|exact H3]. }
  intros p4 p4' H4. eapply (alike_foldM (both resized_protocol) (other_message L)); [intros; apply resized_message_step; assumption|exact F|split; [exact H4|reflexivity]].
Qed.

Definition solvers_alike (s s' : import_solver) : Prop := is_separator s' = is_separator s /\
  entries_alike (fun a a' => fst a' = fst a /\ resized_protocol (snd a) (snd a')) (is_map s) (is_map s').
Lemma solvers_see : forall s s', solvers_alike s s' -> sees_alike (solver_resolver s) (solver_resolver s').
Proof.
  intros s s' [E F]. split.
  - intros n t. cbn. pose proof (alike_get _ n _ _ F) as K. destruct (sget n (is_map s)) as [[b p]|], (sget n (is_map s')) as [[b' p']|]; try contradiction; [|reflexivity].
    destruct K as [K _]. cbn in K. subst b'. rewrite E. reflexivity.
  - intro n. cbn. pose proof (alike_get _ n _ _ F) as K. destruct (sget n (is_map s)) as [[b p]|], (sget n (is_map s')) as [[b' p']|]; try contradiction; [|exact I]. exact (proj2 K).
Qed.
Lemma imported_alike : forall l l', Forall2 (other_call L) l l' -> Forall2 (fun a a' => fst a' = fst a /\ other_limits L (snd a) (snd a')) (imported l) (imported l') /\
  Forall2 (other_limits L) (loaded l) (loaded l').
Proof.
  intros l l' F. induction F as [|c c' l l' H F [IH1 IH2]]; cbn; [split; constructor|]. destruct c as [d|p d], c' as [d'|p' d']; try contradiction; cbn.
  - split; [exact IH1|]. constructor; assumption.
  - split; [|exact IH2]. constructor; [exact H|exact IH1].
Qed.
Lemma loader_lists : forall l, ld_imported (loader_after l) = imported l /\ ld_models (loader_after l) = loaded l.
Proof.
  intro l. unfold loader_after. assert (K : forall l x, ld_imported (fold_left (fun x c => match c with LLoad v => loader_load x v | LImport p v => loader_import x p v end) l x) = (ld_imported x ++ imported l)%list /\
    ld_models (fold_left (fun x c => match c with LLoad v => loader_load x v | LImport p v => loader_import x p v end) l x) = (ld_models x ++ loaded l)%list).
  { clear l. induction l as [|c l IH]; intro x; cbn [fold_left imported loaded flat_map]; [rewrite !app_nil_r; auto|]. destruct (IH (match c with LLoad v => loader_load x v | LImport p v => loader_import x p v end)) as [-> ->].
    destruct c as [v|p v]; cbn; rewrite <- ?app_assoc; auto. }
  exact (K l loader_new).
Qed.
(** The whole run. *)
Theorem resized_run : forall m sep l l', Forall2 (other_call L) l l' ->
  ends_alike (fun a a' => Forall2 resized_protocol (fst a) (fst a') /\ snd a' = snd a)
    (loader_compile m (loader_after l) (solver_new sep)) (loader_compile m (loader_after l') (solver_new sep)).
Proof.
  intros m sep l l' F. destruct (imported_alike _ _ F) as [Fi Fl]. unfold loader_compile. destruct (loader_lists l) as [-> ->]. destruct (loader_lists l') as [-> ->].
  eapply (alike_bind (fun a a' => solvers_alike (fst a) (fst a') /\ snd a' = snd a)).
  { eapply alike_foldM; [|exact Fi|split; [split; [reflexivity|constructor]|reflexivity]]. intros [s w] [s' w'] [p d] [p' d'] [Hs Ew] [Ep Hd]. cbn [fst snd] in *. subst w' p'.
    unfold compile_imported. cbn [fst snd]. eapply alike_bind; [apply resized_compile; [apply solvers_see, Hs|exact Hd]|]. intros [q v] [q' v'] [Hq Ev]. cbn [fst snd] in *. subst v'.
    destruct Hs as [Es Hs]. cbn. split; [|reflexivity]. split; [exact Es|]. cbn. constructor; [|exact Hs]. cbn. rewrite (proj1 Hq). auto. }
  intros [s w] [s' w'] [Hs Ew]. cbn [fst snd] in *. subst w'. eapply alike_foldM; [|exact Fl|split; [constructor|reflexivity]].
  intros [ps v] [ps' v'] d d' [Hp Ev] Hd. cbn [fst snd] in *. subst v'. unfold compile_loaded. eapply alike_bind; [apply resized_compile; [apply solvers_see, Hs|exact Hd]|].
  intros [q v1] [q' v1'] [Hq Ev]. cbn [fst snd] in *. subst v1'. cbn. split; [|reflexivity]. apply Forall2_app; [exact Hp|]. constructor; [exact Hq|constructor].
Qed.
End Limits.

(** With [eq] the messages are the same. *)
Lemma resized_eq : forall x x', resized eq x x' -> x' = x
with resized_eq_field : forall f f', resized_field eq f f' -> f' = f
with resized_eq_type : forall t t', resized_type eq t t' -> t' = t
with resized_eq_ref : forall t t', resized_ref eq t t' -> t' = t
with resized_eq_union : forall t t', resized_union eq t t' -> t' = t
with resized_eq_case : forall t t', resized_case eq t t' -> t' = t.
Proof.
  - intros x x' []. f_equal. induction H; [reflexivity|]. f_equal; [apply resized_eq_field; assumption|exact IHForall2].
  - intros f f' []. f_equal. apply resized_eq_type; assumption.
  - intros t t' []; subst; try reflexivity; f_equal; [apply resized_eq_ref|apply resized_eq|apply resized_eq_union]; assumption.
  - intros t t' []; [reflexivity|]. f_equal. apply resized_eq; assumption.
  - intros t t' []. f_equal. induction H; [reflexivity|]. f_equal; [apply resized_eq_case; assumption|exact IHForall2].
  - intros t t' []; [reflexivity|]. do 2 f_equal. apply resized_eq_ref; assumption.
Qed.
