(** Proofs about import resolution (C21). *)

From Coq Require Import Arith NArith ZArith Ascii String List Bool Lia.
From Verif Require Import Base Schema Compiler SpecComp SpecStruct StructFacts EnumThms CompFacts CompThms ScopeThms.
Import ListNotations.
Local Open Scope N_scope.

(** Names used as keys are the names of the values. *)
Record named (p : protocol) : Prop := {
  nm_e : forall k v, sget k (p_enums_by_name p) = Some v -> e_name v = k;
  nm_s : forall k v, sget k (p_structs_by_name p) = Some v -> s_name v = k;
  nm_u : forall k v, sget k (p_unions_by_name p) = Some v -> u_name v = k;
  nm_m : forall k v, sget k (p_messages_by_name p) = Some v -> m_name v = k }.

Lemma ins_named : forall {A} (nm : A -> string) (l : smap A) k v, nm v = k ->
  (forall k v, sget k l = Some v -> nm v = k) ->
  forall k' v', sget k' (sinsert k v l) = Some v' -> nm v' = k'.
Proof.
  intros A nm l k v Hv Hl k' v' H. cbn in H. destruct (String.eqb_spec k' k) as [->|]; [|eauto].
  congruence.
Qed.

Lemma import_named : forall solver p v p',
  (forall n q, r_protocol solver n = Some q -> named q) -> named p -> import_one solver p v = Ok p' -> named p'.
Proof.
  intros solver p v p' Hq [A B C D] H. unfold import_one in H.
  apply bind_ok in H. destruct H as (r & Hr & H). apply ok_or_ok in Hr. destruct (Hq _ _ Hr) as [A' B' C' D'].
  destruct (sget _ (p_structs_by_name r)) eqn:E1.
  { apply bind_ok in H. destruct H as (tp & _ & H). inversion H; subst. constructor; cbn; try assumption.
    apply ins_named; [apply B'|]; assumption. }
  destruct (sget _ (p_enums_by_name r)) eqn:E2.
  { apply bind_ok in H. destruct H as (tp & _ & H). inversion H; subst. constructor; cbn; try assumption.
    apply ins_named; [apply A'|]; assumption. }
  destruct (sget _ (p_unions_by_name r)) eqn:E3.
  { apply bind_ok in H. destruct H as (tp & _ & H). inversion H; subst. constructor; cbn; try assumption.
    apply ins_named; [apply C'|]; assumption. }
  apply bind_ok in H. destruct H as (msg & E4 & H). apply ok_or_ok in E4.
  apply bind_ok in H. destruct H as (tp & _ & H). inversion H; subst. constructor; cbn; try assumption.
  apply ins_named; [apply D'|]; assumption.
Qed.

Lemma compiled_named : forall m p, compiled m p -> named p.
Proof.
  intros m p H. induction H as [solver w v p w' _ IH H].
  destruct (protocol_phases _ _ _ _ _ _ H) as (p1 & p2 & p3 & w3 & p4 & H1 & H2 & H3 & H4 & H5).
  assert (K1 : named p1).
  { eapply (foldM_inv named); [| |exact H1].
    - intros s x s' _ Hs Hx. eapply import_named; eassumption.
    - constructor; intros k y Hk; discriminate. }
  assert (K2 : named p2).
  { eapply (foldM_inv named); [|exact K1|exact H2]. intros s x s' _ [A B C D] Hx. unfold define_enum in Hx.
    apply bind_ok in Hx. destruct Hx as (e & _ & Hx). inversion Hx; subst. constructor; cbn; try assumption.
    apply ins_named; [reflexivity|assumption]. }
  assert (K3 : named p3).
  { change p3 with (fst (p3, w3)).
    eapply (foldM_inv (fun x => named (fst x))); [|exact (K2 : named (fst (p2, w)))|exact H3].
    intros (s & ws) x (s' & ws') _ [A B C D] Hx. cbn [fst] in *. unfold define_struct in Hx.
    apply bind_ok in Hx. destruct Hx as (e & _ & Hx). inversion Hx; subst. constructor; cbn; try assumption.
    apply ins_named; [reflexivity|assumption]. }
  assert (K4 : named p4).
  { eapply (foldM_inv named); [|exact K3|exact H4]. intros s x s' _ [A B C D] Hx. unfold define_union in Hx.
    apply bind_ok in Hx. destruct Hx as (e & _ & Hx). inversion Hx; subst. constructor; cbn; try assumption.
    apply ins_named; [reflexivity|assumption]. }
  change p with (fst (p, w')).
  eapply (foldM_inv (fun x => named (fst x))); [|exact (K4 : named (fst (p4, w3)))|exact H5].
  intros (s & ws) x (s' & ws') _ [A B C D] Hx. cbn [fst] in *. unfold define_message in Hx.
  apply bind_ok in Hx. destruct Hx as ((e & mk) & _ & Hx). inversion Hx; subst. constructor; cbn; try assumption.
  apply ins_named; [reflexivity|assumption].
Qed.

Definition same_at (t : string) (p p' : protocol) : Prop :=
  sget t (p_structs_by_name p') = sget t (p_structs_by_name p) /\
  sget t (p_enums_by_name p') = sget t (p_enums_by_name p) /\
  sget t (p_unions_by_name p') = sget t (p_unions_by_name p) /\
  sget t (p_messages_by_name p') = sget t (p_messages_by_name p) /\
  sget t (p_type_path_by_name p') = sget t (p_type_path_by_name p).

Lemma same_refl : forall t p, same_at t p p.
Proof. intros t p. unfold same_at. auto. Qed.
Lemma same_trans : forall t p q r, same_at t p q -> same_at t q r -> same_at t p r.
Proof. unfold same_at. intros t p q r (A & B & C & D & E) (A' & B' & C' & D' & E'). repeat split; congruence. Qed.
Lemma same_imports : forall q t p p', same_at t p p' -> imports_as q p t -> imports_as q p' t.
Proof.
  intros q t p p' (A & B & C & D & E) H. destruct H;
    [eapply ia_struct|eapply ia_enum|eapply ia_union|eapply ia_message]; try eassumption; congruence.
Qed.
Lemma sget_other : forall {A} t k (v : A) l, t <> k -> sget t (sinsert k v l) = sget t l.
Proof. intros A t k v l H. cbn. destruct (String.eqb_spec t k); [contradiction|reflexivity]. Qed.
Lemma sget_same : forall {A} k (v : A) l, sget k (sinsert k v l) = Some v.
Proof. intros A k v l. cbn. rewrite String.eqb_refl. reflexivity. Qed.

Lemma import_same : forall solver p v p' t,
  (forall n q, r_protocol solver n = Some q -> named q) ->
  import_one solver p v = Ok p' -> t <> si_type v -> same_at t p p'.
Proof.
  intros solver p v p' t Hq H Ht. unfold import_one in H.
  apply bind_ok in H. destruct H as (r & Hr & H). apply ok_or_ok in Hr. destruct (Hq _ _ Hr) as [A B C D].
  destruct (sget _ (p_structs_by_name r)) eqn:E1.
  { apply bind_ok in H. destruct H as (tp & _ & H). inversion H; subst. rewrite (B _ _ E1).
    unfold same_at, add_path, add_struct. cbn [p_structs_by_name p_enums_by_name p_unions_by_name p_messages_by_name p_type_path_by_name].
    rewrite !sget_other by assumption. auto. }
  destruct (sget _ (p_enums_by_name r)) eqn:E2.
  { apply bind_ok in H. destruct H as (tp & _ & H). inversion H; subst. rewrite (A _ _ E2).
    unfold same_at, add_path, add_enum. cbn [p_structs_by_name p_enums_by_name p_unions_by_name p_messages_by_name p_type_path_by_name].
    rewrite !sget_other by assumption. auto. }
  destruct (sget _ (p_unions_by_name r)) eqn:E3.
  { apply bind_ok in H. destruct H as (tp & _ & H). inversion H; subst. rewrite (C _ _ E3).
    unfold same_at, add_path, add_union. cbn [p_structs_by_name p_enums_by_name p_unions_by_name p_messages_by_name p_type_path_by_name].
    rewrite !sget_other by assumption. auto. }
  apply bind_ok in H. destruct H as (msg & E4 & H). apply ok_or_ok in E4.
  apply bind_ok in H. destruct H as (tp & _ & H). inversion H; subst. rewrite (D _ _ E4).
  unfold same_at, add_path, add_message. cbn [p_structs_by_name p_enums_by_name p_unions_by_name p_messages_by_name p_type_path_by_name].
  rewrite !sget_other by assumption. auto.
Qed.

Lemma import_here : forall solver p v p',
  (forall n q, r_protocol solver n = Some q -> named q) ->
  import_one solver p v = Ok p' ->
  exists q path, r_protocol solver (si_protocol v) = Some q /\
    r_path solver (si_protocol v) (si_type v) = Some path /\
    imports_as q p' (si_type v) /\ sget (si_type v) (p_type_path_by_name p') = Some path.
Proof.
  intros solver p v p' Hq H. unfold import_one in H.
  apply bind_ok in H. destruct H as (r & Hr & H). apply ok_or_ok in Hr. destruct (Hq _ _ Hr) as [A B C D].
  destruct (sget _ (p_structs_by_name r)) eqn:E1.
  { apply bind_ok in H. destruct H as (tp & Htp & H). apply ok_or_ok in Htp. inversion H; subst.
    rewrite (B _ _ E1). exists r, tp. split; [assumption|]. split; [assumption|]. split.
    - eapply ia_struct; [exact E1|]. apply sget_same.
    - apply sget_same. }
  destruct (sget _ (p_enums_by_name r)) eqn:E2.
  { apply bind_ok in H. destruct H as (tp & Htp & H). apply ok_or_ok in Htp. inversion H; subst.
    rewrite (A _ _ E2). exists r, tp. split; [assumption|]. split; [assumption|]. split.
    - eapply ia_enum; [exact E1|exact E2|]. apply sget_same.
    - apply sget_same. }
  destruct (sget _ (p_unions_by_name r)) eqn:E3.
  { apply bind_ok in H. destruct H as (tp & Htp & H). apply ok_or_ok in Htp. inversion H; subst.
    rewrite (C _ _ E3). exists r, tp. split; [assumption|]. split; [assumption|]. split.
    - eapply ia_union; [exact E1|exact E2|exact E3|]. apply sget_same.
    - apply sget_same. }
  apply bind_ok in H. destruct H as (msg & E4 & H). apply ok_or_ok in E4.
  apply bind_ok in H. destruct H as (tp & Htp & H). apply ok_or_ok in Htp. inversion H; subst.
  rewrite (D _ _ E4). exists r, tp. split; [assumption|]. split; [assumption|]. split.
  - eapply ia_message; [exact E1|exact E2|exact E3|exact E4|]. apply sget_same.
  - apply sget_same.
Qed.

Lemma import_resolves : forall m solver w v p w' i,
  (forall n q, r_protocol solver n = Some q -> compiled m q) ->
  protocol_from_model m solver w v = Ok (p, w') ->
  In i (sp_imports v) -> NoDup (map si_type (sp_imports v)) ->
  ~ some_struct v (si_type i) -> ~ some_enum v (si_type i) -> ~ some_union v (si_type i) ->
  ~ In (si_type i) (map sm_name (sp_messages v)) ->
  exists q path, r_protocol solver (si_protocol i) = Some q /\
    r_path solver (si_protocol i) (si_type i) = Some path /\
    imports_as q p (si_type i) /\
    type_path_get (p_type_path_by_name p) (si_type i) = path.
Proof.
  intros m solver w v p w' i Hq H Hi Hnd Hs He Hu Hm. set (t := si_type i) in *.
  assert (Hq' : forall n q, r_protocol solver n = Some q -> named q)
    by (intros n q Hn; eapply compiled_named; eapply Hq; exact Hn).
  destruct (protocol_phases _ _ _ _ _ _ H) as (p1 & p2 & p3 & w3 & p4 & H1 & H2 & H3 & H4 & H5).
  apply In_nth_error in Hi. destruct Hi as (k & Hk).
  destruct (foldM_nth _ _ _ _ _ _ H1 Hk) as (a & b & _ & Hb & Hrest).
  destruct (import_here _ _ _ _ Hq' Hb) as (q & path & Hr & Hp & Has & Hpath).
  exists q, path. split; [assumption|]. split; [assumption|]. fold t in Has, Hpath.
  assert (Hsame : same_at t b p).
  { apply same_trans with p1.
    { eapply (foldM_inv (fun s => same_at t b s)); [|apply same_refl|exact Hrest].
      intros s x s' Hx Hss Hxx. eapply same_trans; [exact Hss|]. eapply import_same; try eassumption.
      intro Heq. rewrite <- (firstn_skipn (S k) (sp_imports v)) in Hnd. rewrite map_app in Hnd.
      assert (In t (map si_type (firstn (S k) (sp_imports v)))).
      { unfold t. apply in_map. eapply nth_error_In with (n := k).
        rewrite <- Hk. clear. revert k. induction (sp_imports v) as [|z l IH]; intros [|k]; cbn; try reflexivity. apply IH. }
      assert (In t (map si_type (skipn (S k) (sp_imports v)))) by (rewrite Heq; apply in_map; assumption).
      exfalso. clear -Hnd H0 H6. induction (map si_type (firstn (S k) (sp_imports v))) as [|z l IH]; cbn in *; [tauto|].
      inversion Hnd; subst. destruct H0 as [->|H0]; [apply H2; apply in_or_app; auto|auto]. }
    apply same_trans with p2.
    { eapply (foldM_inv (fun s => same_at t p1 s)); [|apply same_refl|exact H2].
      intros s x s' Hx Hss Hxx. eapply same_trans; [exact Hss|]. unfold define_enum in Hxx.
      apply bind_ok in Hxx. destruct Hxx as (e & Hen & Hxx). inversion Hxx; subst.
      apply enum_sorted in Hen. destruct Hen as (Hn & _). unfold same_at, add_enum. cbn [p_structs_by_name p_enums_by_name p_unions_by_name p_messages_by_name p_type_path_by_name].
      rewrite sget_other; [auto|]. intro Hc. apply He. unfold some_enum. rewrite Hc, Hn. apply in_map. assumption. }
    apply same_trans with p3.
    { change p3 with (fst (p3, w3)).
      eapply (foldM_inv (fun s => same_at t p2 (fst s))); [|apply same_refl with (p := fst (p2, w))|exact H3].
      intros (s & ws) x (s' & ws') Hx Hss Hxx. cbn [fst] in *. eapply same_trans; [exact Hss|]. unfold define_struct in Hxx.
      apply bind_ok in Hxx. destruct Hxx as (e & Hen & Hxx). inversion Hxx; subst.
      apply structure_layout in Hen. destruct Hen as (_ & Hn & _). unfold same_at, add_struct. cbn [p_structs_by_name p_enums_by_name p_unions_by_name p_messages_by_name p_type_path_by_name].
      rewrite sget_other; [auto|]. intro Hc. apply Hs. unfold some_struct. rewrite Hc, Hn. apply in_map. assumption. }
    apply same_trans with p4.
    { eapply (foldM_inv (fun s => same_at t p3 s)); [|apply same_refl|exact H4].
      intros s x s' Hx Hss Hxx. eapply same_trans; [exact Hss|]. unfold define_union in Hxx.
      apply bind_ok in Hxx. destruct Hxx as (e & Hen & Hxx). inversion Hxx; subst.
      apply union_name in Hen. unfold same_at, add_union. cbn [p_structs_by_name p_enums_by_name p_unions_by_name p_messages_by_name p_type_path_by_name].
      rewrite sget_other; [auto|]. intro Hc. apply Hu. unfold some_union. rewrite Hc, Hen. apply in_map. assumption. }
    change p with (fst (p, w')).
    eapply (foldM_inv (fun s => same_at t p4 (fst s))); [|apply same_refl with (p := fst (p4, w3))|exact H5].
    intros (s & ws) x (s' & ws') Hx Hss Hxx. cbn [fst] in *. eapply same_trans; [exact Hss|]. unfold define_message in Hxx.
    apply bind_ok in Hxx. destruct Hxx as ((e & mk) & Hen & Hxx). inversion Hxx; subst.
    apply message_fields in Hen. destruct Hen as (Hn & _). unfold same_at, add_message. cbn [p_structs_by_name p_enums_by_name p_unions_by_name p_messages_by_name p_type_path_by_name].
    rewrite sget_other; [auto|]. intro Hc. apply Hm. rewrite Hc, Hn. apply in_map. assumption. }
  split; [eapply same_imports; eassumption|].
  destruct Hsame as (_ & _ & _ & _ & Hpp). unfold type_path_get. rewrite Hpp, Hpath. reflexivity.
Qed.

(** The solver used by the driver. *)
Lemma solver_lookup : forall sep regs base p,
  In (base, p) regs -> NoDup (map (fun r => p_name (snd r)) regs) ->
  let r := solver_resolver (fold_left (fun s x => solver_register s (fst x) (snd x)) regs (solver_new sep)) in
  r_protocol r (p_name p) = Some p /\
  forall t, r_path r (p_name p) t = Some (base ++ sep ++ t)%string.
Proof.
  intros sep regs base p Hin Hnd.
  assert (G : forall regs s, In (base, p) regs -> NoDup (map (fun r => p_name (snd r)) regs) ->
    sget (p_name p) (is_map (fold_left (fun s x => solver_register s (fst x) (snd x)) regs s)) = Some (base, p) /\
    is_separator (fold_left (fun s x => solver_register s (fst x) (snd x)) regs s) = is_separator s).
  { clear. assert (Hkeep : forall regs s, ~ In (p_name p) (map (fun r => p_name (snd r)) regs) ->
      sget (p_name p) (is_map (fold_left (fun s x => solver_register s (fst x) (snd x)) regs s)) = sget (p_name p) (is_map s) /\
      is_separator (fold_left (fun s x => solver_register s (fst x) (snd x)) regs s) = is_separator s).
    { induction regs as [|(b & q) regs IH]; intros s Hn; cbn [fold_left]; [auto|].
      cbn in Hn. destruct (IH (solver_register s b q)) as (I1 & I2); [tauto|]. cbn [fst snd].
      rewrite I1, I2. split; [|reflexivity]. unfold solver_register. cbn [is_map]. apply sget_other. intro Hc. apply Hn. auto. }
    induction regs as [|(b & q) regs IH]; intros s Hin Hnd; [destruct Hin|].
    cbn in Hnd. inversion Hnd; subst. cbn [fold_left fst snd]. destruct Hin as [Heq|Hin].
    - inversion Heq; subst b q. destruct (Hkeep regs (solver_register s base p) H1) as (I1 & I2).
      rewrite I1, I2. split; [apply sget_same|reflexivity].
    - destruct (IH (solver_register s b q) Hin H2) as (I1 & I2). rewrite I1, I2. auto. }
  destruct (G regs (solver_new sep) Hin Hnd) as (I1 & I2). cbn. rewrite I1. split; [reflexivity|].
  intro t. rewrite I2. reflexivity.
Qed.

Lemma import_unknown : forall solver p v,
  (r_protocol solver (si_protocol v) = None ->
     import_one solver p v = Err (EUndefinedReference (si_protocol v))) /\
  (forall q, r_protocol solver (si_protocol v) = Some q ->
     sget (si_type v) (p_structs_by_name q) = None -> sget (si_type v) (p_enums_by_name q) = None ->
     sget (si_type v) (p_unions_by_name q) = None -> sget (si_type v) (p_messages_by_name q) = None ->
     import_one solver p v = Err (EUndefinedReference (si_protocol v ++ "::" ++ si_type v))).
Proof.
  intros solver p v. unfold import_one. split.
  - intros ->. reflexivity.
  - intros q -> A B C D. cbn [ok_or bind]. rewrite A, B, C, D. reflexivity.
Qed.

(** The names printed for types. *)
Lemma find_app_eq : forall {A} (f : A -> bool) l r,
  find f (l ++ r) = match find f l with Some x => Some x | None => find f r end.
Proof. induction l as [|x l IH]; intro r; cbn; [reflexivity|]. destruct (f x); [reflexivity|apply IH]. Qed.

Lemma imports_paths : forall solver t l p p',
  (forall n q, r_protocol solver n = Some q -> named q) ->
  foldM (import_one solver) p l = Ok p' ->
  match find (fun i => String.eqb (si_type i) t) (rev l) with
  | Some i => exists path, r_path solver (si_protocol i) t = Some path /\ sget t (p_type_path_by_name p') = Some path
  | None => sget t (p_type_path_by_name p') = sget t (p_type_path_by_name p)
  end.
Proof.
  intros solver t l. induction l as [|i l IH]; intros p p' Hq H; cbn [foldM] in H.
  - inversion H; subst. reflexivity.
  - apply bind_ok in H. destruct H as (p1 & H1 & H). specialize (IH _ _ Hq H). cbn [rev].
    rewrite find_app_eq. destruct (find _ (rev l)) as [j|] eqn:E; [exact IH|].
    rewrite IH. cbn [find]. destruct (String.eqb_spec (si_type i) t) as [Ht|Ht].
    + destruct (import_here _ _ _ _ Hq H1) as (q & path & _ & Hp & _ & Hs). rewrite Ht in *. exists path. auto.
    + destruct (import_same solver p i p1 t Hq H1) as (_ & _ & _ & _ & Hp); [congruence|exact Hp].
Qed.

Lemma paths_printed : forall m solver w v p w' t,
  (forall n q, r_protocol solver n = Some q -> compiled m q) ->
  protocol_from_model m solver w v = Ok (p, w') ->
  type_path_get (p_type_path_by_name p) t = printed_name solver v t /\
  forall prefix, type_path_get_with_default_prefix (p_type_path_by_name p) t prefix = printed_name_with solver v prefix t.
Proof.
  intros m solver w v p w' t Hq H.
  assert (Hq' : forall n q, r_protocol solver n = Some q -> named q)
    by (intros n q Hn; eapply compiled_named; eapply Hq; exact Hn).
  destruct (protocol_phases _ _ _ _ _ _ H) as (p1 & p2 & p3 & w3 & p4 & H1 & H2 & H3 & H4 & H5).
  assert (K : p_type_path_by_name p = p_type_path_by_name p1).
  { transitivity (p_type_path_by_name p4).
    { change p with (fst (p, w')).
      eapply (foldM_inv (fun s => p_type_path_by_name (fst s) = p_type_path_by_name p4));
        [|exact (eq_refl (p_type_path_by_name (fst (p4, w3))))|exact H5].
      intros (s & ws) x (s' & ws') Hx Hss Hxx. cbn [fst] in *. unfold define_message in Hxx.
      apply bind_ok in Hxx. destruct Hxx as ((e & mk) & _ & Hxx). inversion Hxx; subst. exact Hss. }
    transitivity (p_type_path_by_name p3).
    { eapply (foldM_inv (fun s => p_type_path_by_name s = p_type_path_by_name p3)); [|reflexivity|exact H4].
      intros s x s' Hx Hss Hxx. unfold define_union in Hxx.
      apply bind_ok in Hxx. destruct Hxx as (e & _ & Hxx). inversion Hxx; subst. exact Hss. }
    transitivity (p_type_path_by_name p2).
    { change p3 with (fst (p3, w3)).
      eapply (foldM_inv (fun s => p_type_path_by_name (fst s) = p_type_path_by_name p2));
        [|exact (eq_refl (p_type_path_by_name (fst (p2, w))))|exact H3].
      intros (s & ws) x (s' & ws') Hx Hss Hxx. cbn [fst] in *. unfold define_struct in Hxx.
      apply bind_ok in Hxx. destruct Hxx as (e & _ & Hxx). inversion Hxx; subst. exact Hss. }
    eapply (foldM_inv (fun s => p_type_path_by_name s = p_type_path_by_name p1)); [|reflexivity|exact H2].
    intros s x s' Hx Hss Hxx. unfold define_enum in Hxx.
    apply bind_ok in Hxx. destruct Hxx as (e & _ & Hxx). inversion Hxx; subst. exact Hss. }
  unfold type_path_get, printed_name, type_path_get_with_default_prefix, printed_name_with. rewrite K. pose proof (imports_paths _ t _ _ _ Hq' H1) as G.
  destruct (find _ (rev (sp_imports v))) as [i|].
  - destruct G as (path & A & B). rewrite A, B. split; reflexivity.
  - rewrite G. split; reflexivity.
Qed.
Lemma names_printed : forall m solver w v p w' t,
  (forall n q, r_protocol solver n = Some q -> compiled m q) ->
  protocol_from_model m solver w v = Ok (p, w') ->
  type_path_get (p_type_path_by_name p) t = printed_name solver v t.
Proof. intros m solver w v p w' t Hq H. exact (proj1 (paths_printed m solver w v p w' t Hq H)). Qed.
Lemma names_prefixed : forall m solver w v p w' t prefix,
  (forall n q, r_protocol solver n = Some q -> compiled m q) ->
  protocol_from_model m solver w v = Ok (p, w') ->
  type_path_get_with_default_prefix (p_type_path_by_name p) t prefix = printed_name_with solver v prefix t.
Proof. intros m solver w v p w' t prefix Hq H. exact (proj2 (paths_printed m solver w v p w' t Hq H) prefix). Qed.
