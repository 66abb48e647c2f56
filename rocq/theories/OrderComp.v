(** Compiling protocols whose definitions are in another order, for C87. *)

From Coq Require Import Arith NArith ZArith String List Bool Lia Permutation.
From Verif Require Import Base Schema Compiler SpecWire StructFacts MsgFacts CompFacts SpecComp SpecItems ItemsThms ImportExact SpecGrow GrowThms GrowComp
  SpecOrder OrderThms.
Import ListNotations.
Local Open Scope N_scope.

(** ** The items of two protocols *)
Definition meet {A} (R : A -> A -> Prop) (a a' : smap A) : Prop := forall n x x', sget n a = Some x -> sget n a' = Some x' -> R x x'.
Section Items.
Variable same : N -> N -> Prop.
Definition meet_ref (structs structs' : smap structure) (messages messages' : smap message) : Prop := forall n t t',
  referenced_lookup structs messages n = Some t -> referenced_lookup structs' messages' n = Some t' -> moved_ref same t t'.
Lemma view_moved : forall m enums enums' ty bits v a a', meet eq enums enums' ->
  view_from_model m enums ty bits v = Ok a -> view_from_model m enums' ty bits v = Ok a' -> a' = a.
Proof.
  intros m enums enums' ty bits v a a' H A B. unfold view_from_model in A, B. destruct v as [[n| |]|]; try congruence.
  destruct (negb _); [discriminate|]. unb A. unb B. apply ok_or_ok in E. apply ok_or_ok in E0. rewrite <- (H _ _ _ E E0) in B. congruence.
Qed.
Lemma field_moved : forall m endi enums enums' structs structs' off v f o f' o', meet eq enums enums' -> meet renumbered structs structs' ->
  field_from_model m endi enums structs off v = Ok (f, o) -> field_from_model m endi enums' structs' off v = Ok (f', o') ->
  twin_field (fun _ _ => True) f f' /\ o' = o.
Proof.
  intros m endi enums enums' structs structs' off v f o f' o' HE H A B. unfold field_from_model in A, B.
  destruct (sf_info v) as [t|t|t|t|t]; [| | | |unb A; unb B; unb A; unb B; apply ok_or_ok in E; apply ok_or_ok in E0].
  5:{ pose proof (H _ _ _ E E0) as T. pose proof (twin_bits _ _ _ T) as Tb. rewrite Tb in *.
      inversion A; inversion B; subst. split; [constructor; exact T|congruence]. }
  all: unb A; unb B; unb A; unb B; rewrite E in E0; inversion E0; subst; rewrite (view_moved _ _ _ _ _ _ _ _ HE E1 E2) in *; clear E0 E2;
    rewrite A in B; inversion B; subst; clear B; (split; [|reflexivity]).
  all: unb A; unb A; match type of A with (if ?c then _ else _) = _ => destruct c end;
    [match type of A with (if ?c then _ else _) = _ => destruct c; [discriminate|] end|]; unb A; inversion A; subst; constructor.
Qed.
Lemma fields_moved : forall m endi enums enums' structs structs', meet eq enums enums' -> meet renumbered structs structs' ->
  forall l off fs o fs' o', fields_from_model m endi enums structs off l = Ok (fs, o) -> fields_from_model m endi enums' structs' off l = Ok (fs', o') ->
  Forall2 (twin_field (fun _ _ => True)) fs fs' /\ o' = o.
Proof.
  intros m endi enums enums' structs structs' HE H. induction l as [|v l IH]; intros off fs o fs' o' A B; cbn [fields_from_model] in A, B.
  - inversion A; inversion B; subst. split; [constructor|congruence].
  - apply bind_ok in A. destruct A as ([f o1] & A1 & A). apply bind_ok in A. destruct A as ([fs1 o2] & A2 & A).
    apply bind_ok in B. destruct B as ([f' o1'] & B1 & B). apply bind_ok in B. destruct B as ([fs1' o2'] & B2 & B).
    destruct (field_moved _ _ _ _ _ _ _ _ _ _ _ _ HE H A1 B1) as (T & ->). destruct (IH _ _ _ _ _ A2 B2) as (F & ->).
    inversion A; inversion B; subst. split; [constructor; assumption|reflexivity].
Qed.
Lemma structure_moved : forall m endi enums enums' structs structs' id id' v s s', meet eq enums enums' -> meet renumbered structs structs' ->
  structure_from_model m endi enums structs id v = Ok s -> structure_from_model m endi enums' structs' id' v = Ok s' -> renumbered s s'.
Proof.
  intros m endi enums enums' structs structs' id id' v s s' HE H A B.
  unfold structure_from_model in A, B. apply bind_ok in A. destruct A as ([fs o] & A1 & A). apply bind_ok in B. destruct B as ([fs' o'] & B1 & B).
  destruct (fields_moved _ _ _ _ _ _ HE H _ _ _ _ _ _ A1 B1) as (F & ->). inversion A; inversion B; subst. constructor; [exact I|assumption].
Qed.
Lemma disc_moved : forall structs structs' v d d', meet renumbered structs structs' -> disc_from_model structs v = Ok d ->
  disc_from_model structs' v = Ok d' -> renumbered_discriminant d d'.
Proof.
  intros structs structs' v d d' J A B. unfold disc_from_model in A, B. destruct (split_dot v) as [nm parts].
  unb A. unb B. apply ok_or_ok in E. apply ok_or_ok in E0. pose proof (J _ _ _ E E0) as T.
  apply bind_ok in A. destruct A as ([l idx] & A1 & A). apply bind_ok in B. destruct B as ([l' idx'] & B1 & B).
  destruct (walk_grown _ _ _ _ _ _ _ _ _ _ T A1 B1) as (T2 & ->). unb A. unb B. rewrite E1 in E2. inversion E2; subst.
  inversion A; inversion B; subst. repeat split; assumption.
Qed.
Lemma case_moved : forall structs structs' messages messages' f v c c', meet_ref structs structs' messages messages' ->
  ucase_from_model structs messages f v = Ok c -> ucase_from_model structs' messages' f v = Ok c' -> moved_case same c c'.
Proof.
  intros structs structs' messages messages' f v c c' J A B. unfold ucase_from_model in A, B. unb A. unb B. rewrite E in E0. inversion E0; subst x0.
  unb A. unb B. inversion A; inversion B; subst. destruct (su_item_type v) as [n|].
  - unb E1. unb E2. apply ok_or_ok in E3. apply ok_or_ok in E4. pose proof (J _ _ _ E3 E4) as G.
    inversion E1; inversion E2; subst. constructor. exact G.
  - inversion E1; inversion E2; subst. constructor.
Qed.
Lemma ucases_moved : forall structs structs' messages messages' d d', meet_ref structs structs' messages messages' -> renumbered_discriminant d d' ->
  forall l cs cs', ucases_from_model structs messages d l = Ok cs -> ucases_from_model structs' messages' d' l = Ok cs' -> Forall2 (moved_case same) cs cs'.
Proof.
  intros structs structs' messages messages' d d' J D. induction l as [|v l IH]; intros cs cs' A B; cbn [ucases_from_model] in A, B.
  - inversion A; inversion B; subst. constructor.
  - unb A. unb B. unb A. unb B. unb A. unb B. inversion A; inversion B; subst.
    rewrite (leaf_grown _ _ _ _ _ D E E0) in *. constructor; [eapply case_moved; eassumption|eapply IH; eassumption].
Qed.
Lemma moved_size : forall x x', moved same x x' -> m_size x' = m_size x.
Proof. intros x x' []. reflexivity. Qed.
Lemma moved_name : forall x x', moved same x x' -> m_name x' = m_name x.
Proof. intros x x' []. reflexivity. Qed.
Lemma moved_same : forall x x', moved same x x' -> same (m_id x) (m_id x').
Proof. intros x x' []. assumption. Qed.
Lemma sizes_moved : forall g cs cs', Forall2 (moved_case same) cs cs' ->
  existsb (fun c => match uc_item c with Some (RMessage x) => g (m_size x) | _ => false end) cs' =
  existsb (fun c => match uc_item c with Some (RMessage x) => g (m_size x) | _ => false end) cs.
Proof.
  intros g cs cs' F. induction F as [|c c' cs cs' H F IH]; [reflexivity|]. cbn [existsb]. rewrite IH.
  destruct H as [|n k t t' [|y y' T]]; cbn [uc_item]; try reflexivity. rewrite (moved_size _ _ T). reflexivity.
Qed.
Lemma union_moved : forall structs structs' messages messages' v u u', meet renumbered structs structs' -> meet_ref structs structs' messages messages' ->
  union_from_model structs messages v = Ok u -> union_from_model structs' messages' v = Ok u' -> moved_union same u u'.
Proof.
  intros structs structs' messages messages' v u u' J K A B. unfold union_from_model in A, B.
  unb A. unb B. pose proof (disc_moved _ _ _ _ _ J E E0) as D. unb A. unb B.
  pose proof (ucases_moved _ _ _ _ _ _ K D _ _ _ E1 E2) as F. cbv zeta in A, B. rewrite !(sizes_moved _ _ _ F) in B.
  inversion A; inversion B; subst. constructor; assumption.
Qed.
Lemma find_member_moved : forall nm fs fs', Forall2 (moved_field same) fs fs' -> forall i,
  match find_mfield nm i fs, find_mfield nm i fs' with
  | Some (k, f), Some (k', f') => k' = k /\ moved_field same f f'
  | None, None => True
  | _, _ => False
  end.
Proof.
  intros nm fs fs' F. induction F as [|f f' fs fs' H F IH]; intro i; [exact I|]. cbn [find_mfield].
  assert (E : mf_name f' = mf_name f) by (destruct H; reflexivity). rewrite E. destruct (String.eqb (mf_name f) nm); [|apply IH]. auto.
Qed.
Section Env.
Variables env env' : proto_env.
Hypotheses (He : pe_endianness env' = pe_endianness env)
  (Hl : meet_ref (pe_structs env) (pe_structs env') (pe_messages env) (pe_messages env')) (Hu : meet (moved_union same) (pe_unions env) (pe_unions env')).
Lemma mfield_moved : forall fs fs' v f mk f' mk', Forall2 (moved_field same) fs fs' ->
  mfield_from_model env fs v = Ok (f, mk) -> mfield_from_model env' fs' v = Ok (f', mk') -> moved_field same f f'.
Proof.
  intros fs fs' v f mk f' mk' F A B. unfold mfield_from_model in A, B.
  rewrite He in B. destruct (smf_info v) as [n|mx n|[mx|]| |on n].
  - unb A. unb B. apply ok_or_ok in E. apply ok_or_ok in E0. pose proof (Hl _ _ _ E E0) as G. destruct G as [s s' T|y y' T].
    + rewrite (flat_grown _ _ _ T) in B. destruct (flattened s); inversion A; inversion B; subst; repeat constructor. exact T.
    + rewrite (moved_size _ _ T) in B. inversion A; inversion B; subst; repeat constructor. exact T.
  - unb A. unb B. apply ok_or_ok in E. apply ok_or_ok in E0. pose proof (Hl _ _ _ E E0) as G.
    unb A. unb B. rewrite E1 in E2. inversion E2; subst. destruct G as [s s' T|y y' T].
    + inversion A; inversion B; subst; repeat constructor. exact T.
    + inversion A; inversion B; subst; repeat constructor. exact T.
  - unb A. unb B. rewrite E in E0. inversion E0; inversion A; inversion B; subst. repeat constructor.
  - inversion A; inversion B; subst. repeat constructor.
  - inversion A; inversion B; subst. repeat constructor.
  - apply bind_ok in A. destruct A as ([k g] & A1 & A). apply bind_ok in B. destruct B as ([k' g'] & B1 & B).
    apply ok_or_ok in A1. apply ok_or_ok in B1. pose proof (find_member_moved on _ _ F 0%nat) as Q. rewrite A1, B1 in Q. destruct Q as (-> & Q).
    unb A. unb B. apply ok_or_ok in E. apply ok_or_ok in E0. pose proof (Hu _ _ _ E E0) as Z.
    assert (Zs : u_size x0 = u_size x) by (destruct Z; reflexivity).
    destruct Q as [nm t t' opt sz endi T]. cbn [mf_ty mf_name] in A, B. destruct t as [|[s|]| | | | | |]; try discriminate.
    inversion T as [|? ? R| | | | | |]; subst. inversion R; subst.
    destruct (_ =? _); [|discriminate]. destruct (_ =? _) in B; [|discriminate]. rewrite Zs in B. inversion A; inversion B; subst. repeat constructor. exact Z.
Qed.
Lemma mfields_moved : forall l fs fs' mk mk' dc dyn gs c1 d1 m1 gs' c1' d1' m1',
  Forall2 (moved_field same) fs fs' ->
  mfields_from_model env fs dc dyn mk l = Ok (gs, c1, d1, m1) -> mfields_from_model env' fs' dc dyn mk' l = Ok (gs', c1', d1', m1') ->
  Forall2 (moved_field same) gs gs' /\ c1' = c1 /\ d1' = d1.
Proof.
  induction l as [|v l IH]; intros fs fs' mk mk' dc dyn gs c1 d1 m1 gs' c1' d1' m1' F A B; cbn [mfields_from_model] in A, B.
  - inversion A; inversion B; subst. auto.
  - apply bind_ok in A. destruct A as ([f k] & A1 & A). apply bind_ok in B. destruct B as ([f' k'] & B1 & B).
    pose proof (mfield_moved _ _ _ _ _ _ _ F A1 B1) as G. cbv zeta in A, B.
    assert (Z : mf_size f' = mf_size f) by (destruct G; reflexivity). rewrite Z in B.
    destruct (_ && _) in A; [discriminate|]. destruct (_ && _) in B; [discriminate|].
    destruct (1 <? _) in A; [discriminate|]. destruct (1 <? _) in B; [discriminate|].
    eapply IH; [|exact A|exact B]. apply Forall2_app; [assumption|]. constructor; [exact G|constructor].
Qed.
Lemma message_moved : forall id id' v x mk x' mk', same id id' ->
  message_from_model env id v = Ok (x, mk) -> message_from_model env' id' v = Ok (x', mk') -> moved same x x'.
Proof.
  intros id id' v x mk x' mk' Hi A B. unfold message_from_model in A, B.
  apply bind_ok in A. destruct A as ([[[fs c] d] k] & A1 & A). apply bind_ok in B. destruct B as ([[[fs' c'] d'] k'] & B1 & B).
  destruct (mfields_moved _ _ _ _ _ _ _ _ _ _ _ _ _ _ _ (Forall2_nil _) A1 B1) as (F & -> & ->).
  inversion A; inversion B; subst. constructor; assumption.
Qed.
End Env.
End Items.
