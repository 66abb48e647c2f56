(** Proofs for C96: messages over structures whose fields have other kinds and views. *)

From Coq Require Import Arith NArith ZArith String List Bool Lia ZifyBool ZifyN ZifyNat.
From Verif Require Import Base Schema Codec Compiler Access Runtime Gen SpecStruct SpecReadable SpecWire SpecLimit LimitComp StructFacts SpecKind KindComp.
Import ListNotations.
Local Open Scope N_scope.
Ltac Zify.zify_post_hook ::= idtac.

(** Member [i] is a structure that is always there. *)
Definition struct_at (pre : list mfield) (i : nat) : Prop :=
  exists f s, nth_error pre i = Some f /\ mf_ty f = TRef (RStruct s) /\ mf_optional f = false.

Inductive like_ref : referenced -> referenced -> Prop :=
| lr_struct : forall s s', like_struct s s' -> like_ref (RStruct s) (RStruct s')
| lr_msg : forall x x', like_msg x x' -> like_ref (RMessage x) (RMessage x')
with like_ty : endianness -> list mfield -> list mfield -> mfield_type -> mfield_type -> Prop :=
| lt_fixed : forall e pre pre' t t', get_byte_size t' = get_byte_size t -> like_ty e pre pre' (TFixed t) (TFixed t')
| lt_bytes : forall pre pre' t s, N.of_nat (get_byte_size t) = s_byte_size s -> like_ty Little pre pre' (TFixed t) (TRef (RStruct s))
| lt_number : forall pre pre' t s, N.of_nat (get_byte_size t) = s_byte_size s -> like_ty Little pre pre' (TRef (RStruct s)) (TFixed t)
| lt_ref : forall e pre pre' r r', like_ref r r' -> like_ty e pre pre' (TRef r) (TRef r')
| lt_nts : forall e pre pre', like_ty e pre pre' TNullTerminatedString TNullTerminatedString
| lt_varchar : forall e pre pre' t, like_ty e pre pre' (TVarcharString t) (TVarcharString t)
| lt_array : forall e pre pre' t s s', s_byte_size s' = s_byte_size s -> like_ty e pre pre' (TArray t s) (TArray t s')
| lt_union : forall e pre pre' u u' on i, like_union u u' -> (struct_at pre i <-> struct_at pre' i) ->
    like_ty e pre pre' (TUnion u on i) (TUnion u' on i)
| lt_list : forall e pre pre' t x x', like_msg x x' -> like_ty e pre pre' (TList t x) (TList t x')
| lt_payload : forall e pre pre', like_ty e pre pre' TPayload TPayload
with like_mf : list mfield -> list mfield -> mfield -> mfield -> Prop :=
| lf_mk : forall pre pre' n t t' o z e, like_ty e pre pre' t t' -> like_mf pre pre' (MkMField n t o z e) (MkMField n t' o z e)
with like_fs : list mfield -> list mfield -> list mfield -> list mfield -> Prop :=
| ls_nil : forall pre pre', like_fs pre pre' [] []
| ls_cons : forall pre pre' f f' r r', like_mf pre pre' f f' -> like_fs (pre ++ [f]) (pre' ++ [f']) r r' -> like_fs pre pre' (f :: r) (f' :: r')
with like_msg : message -> message -> Prop :=
| lm_mk : forall i n fs fs' z, like_fs [] [] fs fs' -> like_msg (MkMessage i n fs z) (MkMessage i n fs' z)
with like_cases : list ucase -> list ucase -> Prop :=
| lc_nil : like_cases [] []
| lc_none : forall n k r r', like_cases r r' -> like_cases (MkUCase n k None :: r) (MkUCase n k None :: r')
| lc_some : forall n k t t' r r', like_ref t t' -> like_cases r r' -> like_cases (MkUCase n k (Some t) :: r) (MkUCase n k (Some t') :: r')
with like_union : union_ -> union_ -> Prop :=
| lu_mk : forall n d d' cs cs' z, like_struct (d_root d) (d_root d') -> d_index_list d' = d_index_list d -> like_cases cs cs' ->
    like_union (MkUnion n d cs z) (MkUnion n d' cs' z).

Scheme like_ref_mut := Minimality for like_ref Sort Prop
with like_ty_mut := Minimality for like_ty Sort Prop
with like_mf_mut := Minimality for like_mf Sort Prop
with like_fs_mut := Minimality for like_fs Sort Prop
with like_msg_mut := Minimality for like_msg Sort Prop
with like_cases_mut := Minimality for like_cases Sort Prop
with like_union_mut := Minimality for like_union Sort Prop.
Combined Scheme like_mut from like_ref_mut, like_ty_mut, like_mf_mut, like_fs_mut, like_msg_mut, like_cases_mut, like_union_mut.

(** Everything is like itself. *)
Fixpoint like_ref_refl (r : referenced) : like_ref r r :=
  match r with RStruct s => lr_struct s s (like_struct_refl s) | RMessage x => lr_msg x x (like_msg_refl x) end
with like_ty_refl (e : endianness) (pre : list mfield) (t : mfield_type) : like_ty e pre pre t t :=
  match t with
  | TFixed t => lt_fixed e pre pre t t eq_refl
  | TRef r => lt_ref e pre pre r r (like_ref_refl r)
  | TNullTerminatedString => lt_nts e pre pre
  | TVarcharString t => lt_varchar e pre pre t
  | TArray t s => lt_array e pre pre t s s eq_refl
  | TUnion u on i => lt_union e pre pre u u on i (like_union_refl u) (iff_refl _)
  | TList t x => lt_list e pre pre t x x (like_msg_refl x)
  | TPayload => lt_payload e pre pre
  end
with like_mf_refl (pre : list mfield) (f : mfield) : like_mf pre pre f f :=
  match f with MkMField n t o z e => lf_mk pre pre n t t o z e (like_ty_refl e pre t) end
with like_msg_refl (x : message) : like_msg x x :=
  match x with
  | MkMessage i n fs z => lm_mk i n fs fs z
      ((fix go (l : list mfield) (pre : list mfield) : like_fs pre pre l l :=
          match l with [] => ls_nil pre pre | f :: r => ls_cons pre pre f f r r (like_mf_refl pre f) (go r (pre ++ [f])) end) fs [])
  end
with like_union_refl (u : union_) : like_union u u :=
  match u with
  | MkUnion n d cs z => lu_mk n d d cs cs z (like_struct_refl (d_root d)) eq_refl
      ((fix go (l : list ucase) : like_cases l l :=
          match l with
          | [] => lc_nil
          | MkUCase n k None :: r => lc_none n k r r (go r)
          | MkUCase n k (Some t) :: r => lc_some n k t t r r (like_ref_refl t) (go r)
          end) cs)
  end.

(** ** Compiling *)

Lemma like_msg_head : forall x x', like_msg x x' -> m_id x' = m_id x /\ m_name x' = m_name x /\ m_size x' = m_size x.
Proof. intros x x' []. cbn. auto. Qed.
Lemma like_union_head : forall u u', like_union u u' -> u_name u' = u_name u /\ u_size u' = u_size u /\ s_id (d_root (u_disc u')) = s_id (d_root (u_disc u)).
Proof. intros u u' [n d d' cs cs' z H _ _]. cbn. pose proof (proj1 (like_sizes _ _ H)). auto. Qed.
Lemma like_find : forall n fs fs', Forall2 like_field fs fs' -> forall i,
  match find_field n i fs, find_field n i fs' with Some (j, f), Some (j', f') => j' = j /\ like_field f f' | None, None => True | _, _ => False end.
Proof.
  intros n fs fs' F. induction F as [|f f' l l' H F IH]; intro i; cbn [find_field]; [exact I|].
  assert (En : field_name f' = field_name f) by (destruct H; cbn; auto). rewrite En. destruct (String.eqb (field_name f) n); [auto|apply IH].
Qed.
Lemma like_walk : forall rn parts s s' il, like_struct s s' ->
  both (fun a a' => like_struct (fst a) (fst a') /\ snd a' = snd a) (disc_walk rn s il parts) (disc_walk rn s' il parts).
Proof.
  intros rn parts. induction parts as [|p parts IH]; intros s s' il H; cbn [disc_walk]; [cbn; auto|].
  pose proof (like_find p _ _ (like_fields_of _ _ H) 0) as K.
  destruct (find_field p 0 (s_fields s)) as [[j f]|], (find_field p 0 (s_fields s')) as [[j' f']|]; try contradiction; cbn [ok_or bind]; [|exact I].
  destruct K as [-> K]. destruct K as [f f' _ _ _|f f' _ _ _ _|n r r' l K]; [cbn; auto|exact I|]. apply IH, K.
Qed.
Lemma like_disc : forall structs structs' n, entries_alike like_struct structs structs' ->
  both (fun d d' => like_struct (d_root d) (d_root d') /\ d_index_list d' = d_index_list d) (disc_from_model structs n) (disc_from_model structs' n).
Proof.
  intros structs structs' n Hs. unfold disc_from_model. destruct (split_dot n) as [name parts].
  eapply both_bind; [apply (both_ok_or like_struct)|].
  - pose proof (alike_get like_struct name _ _ Hs) as K. destruct (sget name structs), (sget name structs'); auto.
  - intros r r' _ _ Hr. eapply both_bind; [apply like_walk, Hr|]. intros [l il] [l' il'] _ _ [_ Hi]. cbn in Hi. subst il'.
    eapply both_bind; [apply both_true|]. intros k k' _ _ _. cbn. auto.
Qed.

Section Env.
Variables (structs structs' : smap structure) (ms ms' : smap message).
Hypothesis Hs : entries_alike like_struct structs structs'.
Hypothesis Hf : entries_alike flat_alike structs structs'.
Hypothesis Hm : entries_alike like_msg ms ms'.

Definition found_alike (r r' : referenced) : Prop :=
  match r, r' with RStruct s, RStruct s' => like_struct s s' /\ flat_alike s s' | RMessage x, RMessage x' => like_msg x x' | _, _ => False end.
Lemma like_lookup : forall n, match referenced_lookup structs ms n, referenced_lookup structs' ms' n with
  Some a, Some a' => found_alike a a' | None, None => True | _, _ => False end.
Proof.
  intro n. unfold referenced_lookup. pose proof (alike_get _ n _ _ Hs) as K. pose proof (alike_get _ n _ _ Hf) as K1. pose proof (alike_get _ n _ _ Hm) as K2.
  destruct (sget n structs), (sget n structs'); try contradiction; [split; assumption|]. destruct (sget n ms), (sget n ms'); try contradiction; auto.
Qed.
Lemma found_like : forall r r', found_alike r r' -> like_ref r r'.
Proof. intros [s|x] [s'|x'] H; try contradiction; constructor; apply H. Qed.
Lemma look_up : forall n, both found_alike (ok_or (referenced_lookup structs ms n) (EUndefinedReference n)) (ok_or (referenced_lookup structs' ms' n) (EUndefinedReference n)).
Proof. intro n. apply both_ok_or. pose proof (like_lookup n) as K. destruct (referenced_lookup structs ms n), (referenced_lookup structs' ms' n); auto. Qed.

(** But for their numbers. *)
Definition item_alike (c c' : ucase) : Prop :=
  uc_name c' = uc_name c /\ match uc_item c, uc_item c' with Some r, Some r' => like_ref r r' | None, None => True | _, _ => False end.
Lemma like_ucase : forall d d' c c', su_name c' = su_name c -> su_item_type c' = su_item_type c ->
  both item_alike (ucase_from_model structs ms d c) (ucase_from_model structs' ms' d' c').
Proof.
  intros d d' c c' En Ei. unfold ucase_from_model. rewrite En, Ei. eapply both_bind; [apply both_true|]. intros k k' _ _ _.
  eapply (both_bind (fun o o' => match o, o' with Some a, Some a' => like_ref a a' | None, None => True | _, _ => False end)).
  - destruct (su_item_type c) as [t|]; cbn [both]; [|exact I]. eapply both_bind; [apply look_up|]. intros r r' _ _ Hr. cbn. apply found_like, Hr.
  - intros o o' _ _ Ho. cbn. split; [reflexivity|exact Ho].
Qed.
Lemma like_ucases : forall d d' l l', Forall2 (fun c c' => su_name c' = su_name c /\ su_item_type c' = su_item_type c) l l' ->
  both (Forall2 item_alike) (ucases_from_model structs ms d l) (ucases_from_model structs' ms' d' l').
Proof.
  intros d d' l l' F. induction F as [|c c' l l' [En Ei] F IH]; cbn [ucases_from_model]; [constructor|].
  eapply both_bind; [apply both_true|]. intros f f' _ _ _. eapply both_bind; [apply like_ucase; assumption|]. intros k k' _ _ Hk.
  eapply both_bind; [exact IH|]. intros ks ks' _ _ Hks. cbn. constructor; assumption.
Qed.
Lemma numbers_cases : forall cs cs', Forall2 item_alike cs cs' -> map uc_case cs' = map uc_case cs -> like_cases cs cs'.
Proof.
  intros cs cs' F. induction F as [|[n k o] [n' k' o'] l l' [En Ho] F IH]; intro Hk; [constructor|]. cbn in *. injection Hk as -> Hk. subst n'.
  destruct o as [r|], o' as [r'|]; try contradiction; constructor; auto.
Qed.
Lemma items_size : forall (g : size_info -> bool) cs cs', Forall2 item_alike cs cs' ->
  existsb (fun c => match uc_item c with Some (RMessage x) => g (m_size x) | _ => false end) cs' =
  existsb (fun c => match uc_item c with Some (RMessage x) => g (m_size x) | _ => false end) cs.
Proof.
  intros g cs cs' F. induction F as [|c c' l l' [_ H] F IH]; cbn [existsb]; [reflexivity|]. rewrite IH. f_equal.
  destruct (uc_item c) as [r|], (uc_item c') as [r'|]; try contradiction; [|reflexivity].
  destruct H as [s s' _|x x' H]; [reflexivity|]. rewrite (proj2 (proj2 (like_msg_head _ _ H))). reflexivity.
Qed.
Lemma like_union_model : forall v v', retyped_union v v' ->
  both (fun u u' => u_name u' = u_name u /\ (same_numbers u u' -> like_union u u')) (union_from_model structs ms v) (union_from_model structs' ms' v').
Proof.
  intros v v' (En & Ed & F). unfold union_from_model. rewrite Ed, En. eapply both_bind; [apply like_disc, Hs|]. intros d d' _ _ [Hr Hi].
  eapply both_bind; [apply like_ucases, F|]. intros cs cs' _ _ Hcs. cbv zeta.
  rewrite (items_size is_dyn_sized _ _ Hcs), (items_size is_element_dyn_sized _ _ Hcs). cbn. split; [reflexivity|].
  intro Hn. constructor; [exact Hr|exact Hi|]. apply numbers_cases; assumption.
Qed.

Lemma fs_snoc : forall pre pre' fs fs' f f', like_fs pre pre' fs fs' -> like_mf (pre ++ fs) (pre' ++ fs') f f' -> like_fs pre pre' (fs ++ [f]) (fs' ++ [f']).
Proof.
  intros pre pre' fs fs' f f' H. induction H as [pre pre'|pre pre' g g' r r' Hg H IH]; intro Hf0; cbn [app].
  - rewrite !app_nil_r in Hf0. constructor; [exact Hf0|constructor].
  - constructor; [exact Hg|]. apply IH. rewrite <- !app_assoc. exact Hf0.
Qed.
Lemma fs_find : forall n pre pre' fs fs', like_fs pre pre' fs fs' -> forall i,
  match find_mfield n i fs, find_mfield n i fs' with
  | Some (j, f), Some (j', f') => j' = j /\ mf_name f' = mf_name f /\ mf_optional f' = mf_optional f /\
      (exists k, (j = i + k)%nat /\ nth_error fs k = Some f /\ nth_error fs' k = Some f')
  | None, None => True
  | _, _ => False
  end.
Proof.
  intros n pre pre' fs fs' H. induction H as [pre pre'|pre pre' g g' r r' Hg H IH]; intro i; cbn [find_mfield]; [exact I|].
  destruct Hg as [pre pre' nm t t' o z e Ht]. cbn [mf_name]. destruct (String.eqb nm n).
  - cbn. repeat (split; [reflexivity|]). exists O. cbn. rewrite Nat.add_0_r. auto.
  - specialize (IH (S i)). destruct (find_mfield n (S i) r) as [[j f]|], (find_mfield n (S i) r') as [[j' f']|]; try contradiction; [|exact I].
    destruct IH as (E1 & E2 & E3 & k & Ek & K1 & K2). repeat (split; [assumption|]). exists (S k). cbn. split; [lia|auto].
Qed.

Variables (us us' : smap union_).
Hypothesis Hu : entries_alike like_union us us'.
Definition env : proto_env := {| pe_endianness := Little; pe_structs := structs; pe_messages := ms; pe_unions := us |}.
Definition env' : proto_env := {| pe_endianness := Little; pe_structs := structs'; pe_messages := ms'; pe_unions := us' |}.

Lemma like_member_model : forall fs fs' v, like_fs [] [] fs fs' ->
  both (fun a a' => like_mf fs fs' (fst a) (fst a') /\ mf_size (fst a') = mf_size (fst a) /\ snd a' = snd a) (mfield_from_model env fs v) (mfield_from_model env' fs' v).
Proof.
  intros fs fs' v F. unfold mfield_from_model. cbn [env env' pe_endianness pe_structs pe_messages pe_unions]. destruct (smf_info v) as [n|k n|[k|]| |on n].
  - eapply both_bind; [apply look_up|]. intros r r' _ _ Hr. destruct r as [s|x], r' as [s'|x']; try contradiction.
    + destruct Hr as [Hr Hfl]. unfold flat_alike in Hfl. destruct (like_sizes _ _ Hr) as (_ & _ & _ & Hk).
      destruct (flattened s) as [g|], (flattened s') as [g'|]; cbn; (split; [constructor|auto]).
      * constructor. exact Hfl.
      * constructor. exact Hfl.
      * constructor. exact Hfl.
      * constructor. constructor. exact Hr.
    + cbn. destruct (like_msg_head _ _ Hr) as (_ & _ & Hz). rewrite Hz. split; [constructor; constructor; constructor; exact Hr|auto].
  - eapply both_bind; [apply look_up|]. intros r r' _ _ Hr. eapply both_bind; [apply both_same|]. intros ty ty' _ _ <-.
    destruct r as [s|x], r' as [s'|x']; try contradiction; cbn.
    + split; [constructor; constructor; apply (like_sizes _ _ (proj1 Hr))|auto].
    + destruct (like_msg_head _ _ Hr) as (Hi & _ & _). rewrite Hi. split; [constructor; constructor; exact Hr|auto].
  - eapply both_bind; [apply both_same|]. intros ty ty' _ _ <-. cbn. split; [constructor; constructor|auto].
  - cbn. split; [constructor; constructor|auto].
  - cbn. split; [constructor; constructor|auto].
  - pose proof (fs_find on _ _ _ _ F 0) as K. destruct (find_mfield on 0 fs) as [[j f]|], (find_mfield on 0 fs') as [[j' f']|]; try contradiction; cbn [ok_or bind]; [|exact I].
    destruct K as (-> & Enm & Eo & k & Ek & N1 & N2). cbn in Ek. subst k.
    eapply both_bind; [apply (both_ok_or like_union)|].
    { pose proof (alike_get _ n _ _ Hu) as K. destruct (sget n us), (sget n us'); auto. }
    intros u u' _ _ Hlu. destruct (like_union_head _ _ Hlu) as (_ & Hz & _).
    destruct (mf_ty f) as [|[s|]| | | | | |] eqn:T; try exact I; try (destruct (mf_ty f') as [|[s'|]| | | | | |]; try exact I; destruct (_ =? _); exact I).
    destruct (mf_ty f') as [|[s'|]| | | | | |] eqn:T'; try (destruct (_ =? _); exact I).
    destruct (_ =? _), (_ =? _); try exact I. cbn. rewrite Enm, Hz. split; [|auto]. constructor. constructor; [exact Hlu|].
    unfold struct_at. split; intros (g & q & G1 & G2 & G3).
    + rewrite N1 in G1. injection G1 as <-. exists f', s'. rewrite Eo. auto.
    + rewrite N2 in G1. injection G1 as <-. exists f, s. rewrite <- Eo. auto.
Qed.
Lemma like_members_model : forall l fs fs' c dyn marks, like_fs [] [] fs fs' ->
  both (fun a a' => like_fs [] [] (fst (fst (fst a))) (fst (fst (fst a'))) /\ snd (fst (fst a')) = snd (fst (fst a)) /\ snd (fst a') = snd (fst a) /\ snd a' = snd a)
    (mfields_from_model env fs c dyn marks l) (mfields_from_model env' fs' c dyn marks l).
Proof.
  induction l as [|v l IH]; intros fs fs' c dyn marks F; cbn [mfields_from_model]; [cbn; auto|].
  eapply both_bind; [apply like_member_model, F|]. intros [f mk] [f' mk'] _ _ (Hf0 & Hz & Hk). cbn in Hf0, Hz, Hk. subst mk'. cbv zeta. rewrite Hz.
  destruct (_ && _); [exact I|]. destruct (1 <? _); [exact I|]. apply IH. apply fs_snoc; [exact F|]. exact Hf0.
Qed.
Lemma like_message_model : forall i v,
  both (fun a a' => like_msg (fst a) (fst a') /\ snd a' = snd a) (message_from_model env i v) (message_from_model env' i v).
Proof.
  intros i v. unfold message_from_model. eapply both_bind; [apply like_members_model; constructor|].
  intros [[[fs c] dyn] mk] [[[fs' c'] dyn'] mk'] _ _ (F & E1 & E2 & E3). cbn in *. subst. split; [constructor; exact F|reflexivity].
Qed.
End Env.
