(** Code generation for whole protocols: when it succeeds, and its files (C46). *)

From Coq Require Import Arith NArith Ascii String List Bool Lia ZifyBool ZifyN ZifyNat.
From Verif Require Import Base Schema Codec Compiler Access Runtime Gen Template Templates SpecTemplate TemplateThms
  Driver SpecComp SpecStruct StructFacts StructThms CompFacts GenText SpecGen SpecCode GenThms GenMsgThms.
Import ListNotations.
Local Open Scope string_scope.

(** ** Discriminants of compiled unions *)
(** The structure reached after a list of indices that are all structures. *)
Fixpoint reach (s : structure) (idx : list nat) : option structure :=
  match idx with
  | [] => Some s
  | i :: r => match nth_error (s_fields s) i with Some (FStruct _ t _) => reach t r | _ => None end
  end.
Lemma reach_chain : forall idx s t, reach s idx = Some t -> disc_chain s idx <> None.
Proof.
  induction idx as [|i idx IH]; intros s t H; cbn [reach disc_chain] in *; [discriminate|].
  destruct (nth_error (s_fields s) i) as [[f|f|n r l]|]; try discriminate.
  specialize (IH _ _ H). destruct (disc_chain r idx); cbn; congruence.
Qed.
Lemma reach_snoc : forall idx s t i n r l, reach s idx = Some t ->
  nth_error (s_fields t) i = Some (FStruct n r l) -> reach s (idx ++ [i])%list = Some r.
Proof.
  induction idx as [|j idx IH]; intros s t i n r l H Hn; cbn [reach List.app] in *.
  - injection H as ->. rewrite Hn. reflexivity.
  - destruct (nth_error (s_fields s) j) as [[f|f|n' r' l']|]; try discriminate. eapply IH; eassumption.
Qed.
Lemma chain_snoc : forall idx s t i f, reach s idx = Some t ->
  nth_error (s_fields t) i = Some (FFixed f) -> disc_chain s (idx ++ [i])%list <> None.
Proof.
  induction idx as [|j idx IH]; intros s t i f H Hn; cbn [reach List.app disc_chain] in *.
  - injection H as ->. rewrite Hn. discriminate.
  - destruct (nth_error (s_fields s) j) as [[g|g|n' r' l']|]; try discriminate.
    specialize (IH _ _ _ _ H Hn). destruct (disc_chain r' _); cbn; congruence.
Qed.
Lemma find_field_nth : forall n l i k f, find_field n i l = Some (k, f) -> (i <= k)%nat /\ nth_error l (k - i) = Some f.
Proof.
  intros n l. induction l as [|g l IH]; intros i k f H; cbn [find_field] in H; [discriminate|].
  destruct (String.eqb (field_name g) n).
  - injection H as <- <-. rewrite Nat.sub_diag. split; [lia|reflexivity].
  - destruct (IH _ _ _ H) as (Hk & Hn). split; [lia|].
    replace (k - i)%nat with (Datatypes.S (k - Datatypes.S i)) by lia. exact Hn.
Qed.
Lemma disc_walk_chain : forall rn root parts leaf idx leaf' idx',
  reach root idx = Some leaf -> disc_walk rn leaf idx parts = Ok (leaf', idx') -> disc_chain root idx' <> None.
Proof.
  intros rn root parts. induction parts as [|sub parts IH]; intros leaf idx leaf' idx' Hr H; cbn [disc_walk] in H.
  - injection H as <- <-. eapply reach_chain. exact Hr.
  - apply bind_ok in H. destruct H as ((k & f) & Hf & H). apply ok_or_ok in Hf.
    apply find_field_nth in Hf. destruct Hf as (_ & Hn). rewrite Nat.sub_0_r in Hn.
    destruct f as [g|g|n r l]; [|discriminate|].
    + injection H as <- <-. eapply chain_snoc; eassumption.
    + eapply IH; [|exact H]. eapply reach_snoc; eassumption.
Qed.
Lemma compiled_union_generates : forall structs messages v u,
  union_from_model structs messages v = Ok u -> union_generates u.
Proof.
  intros structs messages v u H. unfold union_from_model in H. apply bind_ok in H. destruct H as (d & Hd & H).
  apply bind_ok in H. destruct H as (cases & _ & H). injection H as <-.
  unfold union_generates. cbn [u_disc]. unfold disc_from_model in Hd.
  destruct (split_dot (sun_discriminant v)) as [name parts].
  apply bind_ok in Hd. destruct Hd as (root & _ & Hd).
  apply bind_ok in Hd. destruct Hd as ((leaf & idx) & Hw & Hd).
  apply bind_ok in Hd. destruct Hd as (k & _ & Hd). injection Hd as <-. cbn [d_root d_index_list].
  eapply disc_walk_chain; [|exact Hw]. reflexivity.
Qed.
Lemma compiled_unions : forall m p, compiled m p -> Forall union_generates (p_unions p).
Proof.
  intros m p H. apply Forall_forall. intros u Hu.
  refine (pi_lunions (fun _ => True) (fun _ => True) union_generates (fun _ => True) p _ u Hu).
  apply (inv_compiled m); auto. intros structs messages v u' _ _ He. eapply compiled_union_generates. exact He.
Qed.

(** ** Files *)
Lemma Forall_dec_prop : forall {A} (P : A -> Prop) l, (forall x, P x \/ ~ P x) -> Forall P l \/ ~ Forall P l.
Proof.
  intros A P l Hd. induction l as [|x l [IH|IH]]; [left; constructor| |right; intro H; inversion H; auto].
  destruct (Hd x); [left; constructor; assumption|right; intro H0; inversion H0; auto].
Qed.
Lemma mfield_generates_dec : forall f, mfield_generates f \/ ~ mfield_generates f.
Proof. intros [n ty o s e]. unfold mfield_generates. cbn [mf_ty mf_name]. destruct ty; auto using capitalizable_dec. Qed.

Definition as_file (t : file_type * string * string) : file :=
  {| fi_ty := fst (fst t); fi_name := snd (fst t); fi_data := snd t |}.

Lemma map_join_lines : forall {A} (f : A -> gres string) (g : A -> list string) l,
  (forall x, In x l -> f x = Ok (lines (g x))) -> map_join lf f l = Ok (joined (map g l)).
Proof.
  intros A f g l H. rewrite (map_join_ok lf f (fun x => lines (g x))) by exact H.
  unfold joined. rewrite map_map. reflexivity.
Qed.
Theorem rust_files_text : forall fm emb p, Forall union_generates (p_unions p) -> generates p ->
  rust_files fm emb p = Ok (map as_file (expected_files fm emb p)).
Proof.
  intros fm emb p HU [HS HM]. unfold rust_files. rewrite Forall_forall in HU, HS, HM.
  fold lf.
  rewrite (map_join_lines _ (message_lines (type_path_get (p_type_path_by_name p)))) by (intros x Hx; apply gen_message_text, HM, Hx).
  rewrite (map_join_lines _ (from_slice_lines (type_path_get (p_type_path_by_name p)) emb)) by (intros; apply gen_from_slice_text).
  rewrite (map_join_lines _ (write_to_lines (type_path_get (p_type_path_by_name p)) emb)) by (intros; apply gen_write_text).
  rewrite (map_join_lines _ (structure_lines (type_path_get (p_type_path_by_name p)) (fm_f64 fm) (to_upper (fm_casing fm))))
    by (intros x Hx; apply gen_structure_text, HS, Hx).
  rewrite (map_join_lines _ (fun e => enum_lines (e_name e) (e_variants e))) by (intros; apply gen_enum_text).
  rewrite (map_join_lines _ (union_lines (type_path_get (p_type_path_by_name p)))) by (intros x Hx; apply gen_union_text, HU, Hx).
  rewrite (map_join_lines _ (offsets_lines (type_path_get (p_type_path_by_name p)) emb)) by (intros; apply gen_offsets_text).
  reflexivity.
Qed.
Theorem rust_files_panic : forall fm emb p, ~ generates p -> rust_files fm emb p = Panic.
Proof.
  intros fm emb p H. unfold rust_files. fold lf.
  destruct (Forall_dec_prop (fun x => Forall mfield_generates (m_fields x)) (p_messages p)) as [HM|HM].
  { intro x. apply Forall_dec_prop, mfield_generates_dec. }
  - assert (HS : ~ Forall (fun s => Forall field_generates (s_fields s)) (p_structs p)).
    { intro HS. apply H. split; assumption. }
    rewrite Forall_forall in HM.
    rewrite (map_join_lines _ (message_lines (type_path_get (p_type_path_by_name p)))) by (intros x Hx; apply gen_message_text, HM, Hx).
    rewrite (map_join_lines _ (from_slice_lines (type_path_get (p_type_path_by_name p)) emb)) by (intros; apply gen_from_slice_text).
    rewrite (map_join_lines _ (write_to_lines (type_path_get (p_type_path_by_name p)) emb)) by (intros; apply gen_write_text).
    cbn [bind]. unfold map_join at 1.
    rewrite (mapM_panic _ (fun s => Forall field_generates (s_fields s))); [reflexivity| | | |exact HS].
    + intros s Hs. eexists. apply gen_structure_text, Hs.
    + intros s Hs. apply gen_structure_panic, Hs.
    + intro s. apply Forall_dec_prop, field_generates_dec.
  - unfold map_join at 1.
    rewrite (mapM_panic _ (fun x => Forall mfield_generates (m_fields x))); [reflexivity| | | |exact HM].
    + intros x Hx. eexists. apply gen_message_text, Hx.
    + intros x Hx. apply gen_message_panic, Hx.
    + intro x. apply Forall_dec_prop, mfield_generates_dec.
Qed.

(** ** From declarations *)
Lemma field_from_decl : forall m endi enums structs off d f off',
  (forall b, get_bit_size (sf_info d) = Some b -> (b < usize_mod)%N) ->
  field_from_model m endi enums structs off d = Ok (f, off') -> (field_generates f <-> sfield_generates d).
Proof.
  intros m endi enums structs off [name info view alen] f off' Hu H. cbn [sf_info] in Hu.
  unfold field_from_model in H. cbn [sf_info sf_name sf_view sf_array_len] in H.
  unfold sfield_generates. cbn [sf_info sf_array_len].
  assert (HS : match info with STStruct _ => False | _ => True end ->
    (field_generates f <-> match get_bit_size info with
      | None => True
      | Some bits => match alen with Some 0%N => False | Some 1%N | None => (1 <= bits <= 64)%N | Some _ => True end
      end)).
  { intro HI.
    assert (H' : (let array_len := match alen with Some n => n | None => 1%N end in
      bit_size0 <- ok_or (get_bit_size info) EMissingBitSize ;;
      view <- view_from_model m enums (get_simple_type info) bit_size0 view ;;
      bit_size <- umul m bit_size0 array_len ;;
      ty <- fixed_from_model info ;;
      let loc := location_from_model bit_size off in
      if (1 <? array_len)%N then
        if negb (bit_size mod 8 =? 0)%N then Err EUnalignedArrayCodec
        else
          off <- uadd m off bit_size ;;
          Ok (FArray {| fa_name := name; fa_ty := ty; fa_array_len := array_len;
                        fa_loc := loc; fa_endianness := endi |}, off)
      else
        off <- uadd m off bit_size ;;
        Ok (FFixed {| ff_name := name; ff_ty := ty; ff_loc := loc; ff_view := view;
                      ff_endianness := endi |}, off)) = Ok (f, off'))
      by (destruct info; [exact H..|contradiction]).
    clear H HI. cbv zeta in H'.
    apply bind_ok in H'. destruct H' as (bits & Hb & H'). apply ok_or_ok in Hb. rewrite Hb.
    apply bind_ok in H'. destruct H' as (vw & _ & H').
    apply bind_ok in H'. destruct H' as (bs & Hm & H').
    apply bind_ok in H'. destruct H' as (ty & _ & H').
    set (n := match alen with Some n => n | None => 1%N end) in *.
    destruct (N.ltb_spec 1 n) as [C|C].
    - destruct (negb (bs mod 8 =? 0)%N); [discriminate|].
      apply bind_ok in H'. destruct H' as (o & _ & H'). injection H' as <- _. cbn [field_generates fa_array_len].
      subst n. destruct alen as [[|[q|q|]]|]; try lia; split; auto; lia.
    - apply bind_ok in H'. destruct H' as (o & _ & H'). injection H' as <- _.
      cbn [field_generates ff_loc]. unfold location_from_model. cbn [l_bit_size].
      unfold umul, overflow in Hm.
      assert (Hn : n = 0%N \/ n = 1%N) by lia.
      destruct Hn as [Hn|Hn]; rewrite Hn in Hm.
      + rewrite N.mul_0_r in Hm. assert (bs = 0%N).
        { destruct m; cbn in Hm; congruence. }
        subst bs n. destruct alen as [[|[q|q|]]|]; try lia; split; lia.
      + rewrite N.mul_1_r in Hm.
        destruct (N.ltb_spec bits usize_mod) as [L|L]; [|specialize (Hu _ Hb); lia].
        injection Hm as <-. subst n. destruct alen as [[|[q|q|]]|]; try lia; reflexivity. }
  destruct info as [b|b|b|b|it]; try (apply HS; exact I).
  cbn [get_bit_size]. apply bind_ok in H. destruct H as (r & _ & H). apply bind_ok in H. destruct H as (o & _ & H).
  injection H as <- _. cbn [field_generates]. tauto.
Qed.
Lemma Forall_iff2 : forall {A B} (P : A -> Prop) (Q : B -> Prop) l l',
  Forall2 (fun a b => P a <-> Q b) l l' -> (Forall P l <-> Forall Q l').
Proof.
  intros A B P Q l l' H. induction H as [|a b l l' Hab H IH]; [split; constructor|].
  split; intro F; inversion F; subst; constructor; tauto.
Qed.
Lemma fields_from_decl : forall m endi enums structs l off fs off',
  Forall (fun f => forall b, get_bit_size (sf_info f) = Some b -> (b < usize_mod)%N) l ->
  fields_from_model m endi enums structs off l = Ok (fs, off') ->
  Forall2 (fun f d => field_generates f <-> sfield_generates d) fs l.
Proof.
  intros m endi enums structs. induction l as [|d l IH]; intros off fs off' Hu H; cbn [fields_from_model] in H.
  - injection H as <- _. constructor.
  - inversion Hu; subst.
    apply bind_ok in H. destruct H as ((f & o) & Hf & H). apply bind_ok in H. destruct H as ((r & o') & Hr & H).
    injection H as <- _. constructor; [eapply field_from_decl; eassumption|eapply IH; eassumption].
Qed.
Lemma structure_from_decl : forall m endi enums structs id d s,
  Forall (fun f => forall b, get_bit_size (sf_info f) = Some b -> (b < usize_mod)%N) (ss_fields d) ->
  structure_from_model m endi enums structs id d = Ok s ->
  (Forall field_generates (s_fields s) <-> Forall sfield_generates (ss_fields d)).
Proof.
  intros m endi enums structs id d s Hu H. unfold structure_from_model in H.
  apply bind_ok in H. destruct H as ((fs & o) & Hf & H). injection H as <-. cbn [s_fields].
  apply Forall_iff2. eapply fields_from_decl; eassumption.
Qed.
Lemma mfield_from_decl : forall env un d f mk, mfield_from_model env un d = Ok (f, mk) ->
  (mfield_generates f <-> smfield_generates d).
Proof.
  intros env un [name info opt] f mk H. unfold mfield_from_model in H. cbn [smf_info smf_name smf_optional] in H.
  unfold smfield_generates. cbn [smf_info smf_name].
  destruct info as [it|ml it|[ml|]| |on it].
  - apply bind_ok in H. destruct H as ([s|x] & _ & H).
    + destruct (flattened s); injection H as <- _; unfold mfield_generates; cbn; tauto.
    + injection H as <- _; unfold mfield_generates; cbn; tauto.
  - apply bind_ok in H. destruct H as (r & _ & H). apply bind_ok in H. destruct H as (ty & _ & H).
    destruct r; injection H as <- _; unfold mfield_generates; cbn [mf_ty mf_name]; tauto.
  - apply bind_ok in H. destruct H as (ty & _ & H). injection H as <- _; unfold mfield_generates; cbn; tauto.
  - injection H as <- _; unfold mfield_generates; cbn; tauto.
  - injection H as <- _; unfold mfield_generates; cbn; tauto.
  - apply bind_ok in H. destruct H as ((i & g) & _ & H). apply bind_ok in H. destruct H as (r & _ & H).
    destruct (mf_ty g) as [t|[s|x]| |t|t s|u o k|t x|]; try discriminate.
    destruct (s_id _ =? s_id s)%N; [|discriminate]. injection H as <- _; unfold mfield_generates; cbn; tauto.
Qed.
Lemma mfields_from_decl : forall env l fields n b mk fields' n' b' mk',
  mfields_from_model env fields n b mk l = Ok (fields', n', b', mk') ->
  exists fs, fields' = (fields ++ fs)%list /\ Forall2 (fun f d => mfield_generates f <-> smfield_generates d) fs l.
Proof.
  intros env. induction l as [|d l IH]; intros fields n b mk fields' n' b' mk' H; cbn [mfields_from_model] in H.
  - injection H as <- _ _ _. exists []. rewrite app_nil_r. split; [reflexivity|constructor].
  - apply bind_ok in H. destruct H as ((f & mk1) & Hf & H).
    destruct ((0 <? n)%N && _); [discriminate|].
    destruct ((1 <? _)%N); [discriminate|].
    apply IH in H. destruct H as (fs & -> & HF). exists (f :: fs). rewrite <- app_assoc.
    split; [reflexivity|]. constructor; [eapply mfield_from_decl; eassumption|exact HF].
Qed.
Lemma message_from_decl : forall env id d x mk, message_from_model env id d = Ok (x, mk) ->
  (Forall mfield_generates (m_fields x) <-> Forall smfield_generates (sm_fields d)).
Proof.
  intros env id d x mk H. unfold message_from_model in H.
  apply bind_ok in H. destruct H as ((((fs & n) & b) & mk') & Hf & H). injection H as <- _. cbn [m_fields].
  apply mfields_from_decl in Hf. destruct Hf as (fs' & -> & HF). cbn [List.app]. apply Forall_iff2. exact HF.
Qed.

(** The structures and messages of a compiled protocol are those declared, in order. *)
Definition same_items (p q : protocol) : Prop := p_structs q = p_structs p /\ p_messages q = p_messages p.
Lemma same_refl : forall p, same_items p p.
Proof. split; reflexivity. Qed.
Lemma same_trans : forall p q r, same_items p q -> same_items q r -> same_items p r.
Proof. intros p q r [] []. split; congruence. Qed.
Lemma import_same : forall solver p v p', import_one solver p v = Ok p' -> same_items p p'.
Proof.
  intros solver p v p' H. unfold import_one in H.
  apply bind_ok in H. destruct H as (r & _ & H).
  destruct (sget (si_type v) (p_structs_by_name r)).
  { apply bind_ok in H. destruct H as (tp & _ & H). injection H as <-. split; reflexivity. }
  destruct (sget (si_type v) (p_enums_by_name r)).
  { apply bind_ok in H. destruct H as (tp & _ & H). injection H as <-. split; reflexivity. }
  destruct (sget (si_type v) (p_unions_by_name r)).
  { apply bind_ok in H. destruct H as (tp & _ & H). injection H as <-. split; reflexivity. }
  apply bind_ok in H. destruct H as (x & _ & H).
  apply bind_ok in H. destruct H as (tp & _ & H). injection H as <-. split; reflexivity.
Qed.
Lemma foldM_same : forall {E A} (f : protocol -> A -> outcome E protocol) l p p',
  (forall p x p', f p x = Ok p' -> same_items p p') -> foldM f p l = Ok p' -> same_items p p'.
Proof.
  intros E A f l p p' Hf H. revert p H. induction l as [|x l IH]; intros p H; cbn [foldM] in H.
  - injection H as <-. apply same_refl.
  - apply bind_ok in H. destruct H as (q & Hq & H). eapply same_trans; [eapply Hf; exact Hq|apply IH; exact H].
Qed.
Lemma enum_same : forall p v p', define_enum p v = Ok p' -> same_items p p'.
Proof. intros p v p' H. unfold define_enum in H. apply bind_ok in H. destruct H as (e & _ & H). injection H as <-. split; reflexivity. Qed.
Lemma union_same : forall p v p', define_union p v = Ok p' -> same_items p p'.
Proof. intros p v p' H. unfold define_union in H. apply bind_ok in H. destruct H as (e & _ & H). injection H as <-. split; reflexivity. Qed.
Lemma structs_declared : forall m l p w p' w', foldM (define_struct m) (p, w) l = Ok (p', w') ->
  p_messages p' = p_messages p /\
  exists ss, p_structs p' = (p_structs p ++ ss)%list /\
    Forall2 (fun s d => exists endi enums structs id, structure_from_model m endi enums structs id d = Ok s) ss l.
Proof.
  intros m. induction l as [|d l IH]; intros p w p' w' H; cbn [foldM] in H.
  - injection H as <- _. split; [reflexivity|]. exists []. rewrite app_nil_r. split; [reflexivity|constructor].
  - apply bind_ok in H. destruct H as ((q & w1) & Hq & H). unfold define_struct in Hq.
    apply bind_ok in Hq. destruct Hq as (s & Hs & Hq). injection Hq as <- <-.
    apply IH in H. destruct H as (Hm & ss & Hss & HF). cbn in Hm, Hss. split; [exact Hm|].
    exists (s :: ss). rewrite Hss, <- app_assoc. split; [reflexivity|]. constructor; [eauto 6|exact HF].
Qed.
Lemma messages_declared : forall l p w p' w', foldM define_message (p, w) l = Ok (p', w') ->
  p_structs p' = p_structs p /\
  exists xs, p_messages p' = (p_messages p ++ xs)%list /\
    Forall2 (fun x d => exists env id mk, message_from_model env id d = Ok (x, mk)) xs l.
Proof.
  induction l as [|d l IH]; intros p w p' w' H; cbn [foldM] in H.
  - injection H as <- _. split; [reflexivity|]. exists []. rewrite app_nil_r. split; [reflexivity|constructor].
  - apply bind_ok in H. destruct H as ((q & w1) & Hq & H). unfold define_message in Hq.
    apply bind_ok in Hq. destruct Hq as ((x & mk) & Hs & Hq). injection Hq as <- <-.
    apply IH in H. destruct H as (Hm & ss & Hss & HF). cbn in Hm, Hss. split; [exact Hm|].
    exists (x :: ss). rewrite Hss, <- app_assoc. split; [reflexivity|]. constructor; [eauto 6|exact HF].
Qed.
Lemma Forall2_impl_in : forall {A B} (P Q : A -> B -> Prop) l l',
  (forall a b, In b l' -> P a b -> Q a b) -> Forall2 P l l' -> Forall2 Q l l'.
Proof.
  intros A B P Q l l' H F. induction F as [|a b l l' Hab F IH]; constructor.
  - apply H; [left; reflexivity|exact Hab].
  - apply IH. intros. apply H; [right; assumption|assumption].
Qed.
Theorem declaration_generates_iff : forall m solver w v p w', widths_usize v ->
  protocol_from_model m solver w v = Ok (p, w') -> (generates p <-> declaration_generates v).
Proof.
  intros m solver w v p w' Hu H. unfold protocol_from_model in H.
  apply bind_ok in H. destruct H as (p1 & H1 & H).
  apply bind_ok in H. destruct H as (p2 & H2 & H).
  apply bind_ok in H. destruct H as ((p3 & w3) & H3 & H).
  apply bind_ok in H. destruct H as (p4 & H4 & H5).
  apply (foldM_same _ _ _ _ (import_same solver)) in H1.
  apply (foldM_same _ _ _ _ enum_same) in H2.
  apply (foldM_same _ _ _ _ union_same) in H4.
  apply structs_declared in H3. destruct H3 as (Hm3 & ss & Hs3 & HF3).
  apply messages_declared in H5. destruct H5 as (Hs5 & xs & Hm5 & HF5).
  destruct H1 as (A1 & B1), H2 as (A2 & B2), H4 as (A4 & B4). cbn in A1, B1.
  assert (Es : p_structs p = ss) by (rewrite Hs5, A4, Hs3, A2, A1; reflexivity).
  assert (Em : p_messages p = xs) by (rewrite Hm5, B4, Hm3, B2, B1; reflexivity).
  unfold generates, declaration_generates. rewrite Es, Em. unfold widths_usize in Hu. rewrite Forall_forall in Hu.
  assert (I1 : Forall (fun s => Forall field_generates (s_fields s)) ss <->
               Forall (fun d => Forall sfield_generates (ss_fields d)) (sp_structs v)).
  { apply Forall_iff2. eapply Forall2_impl_in; [|exact HF3].
    intros s d Hd (endi & enums & structs & id & Hs). eapply structure_from_decl; [apply Hu; exact Hd|exact Hs]. }
  assert (I2 : Forall (fun s => Forall mfield_generates (m_fields s)) xs <->
               Forall (fun d => Forall smfield_generates (sm_fields d)) (sp_messages v)).
  { apply Forall_iff2. eapply Forall2_impl_in; [|exact HF5].
    intros x d Hd (env & id & mk & Hs). eapply message_from_decl. exact Hs. }
  tauto.
Qed.

(** Exactly the protocols whose declarations meet the condition can be generated. *)
Theorem generation : forall m fm emb solver w v p w',
  (forall name q, r_protocol solver name = Some q -> compiled m q) -> widths_usize v ->
  protocol_from_model m solver w v = Ok (p, w') ->
  (declaration_generates v /\ rust_files fm emb p = Ok (map as_file (expected_files fm emb p))) \/
  (~ declaration_generates v /\ rust_files fm emb p = Panic).
Proof.
  intros m fm emb solver w v p w' Hs Hu H.
  pose proof (declaration_generates_iff _ _ _ _ _ _ Hu H) as Hi.
  assert (Hc : compiled m p) by (econstructor; eassumption).
  assert (Hd : generates p \/ ~ generates p).
  { unfold generates.
    destruct (Forall_dec_prop (fun s => Forall field_generates (s_fields s)) (p_structs p))
      as [A|A]; [intro; apply Forall_dec_prop, field_generates_dec| |right; tauto].
    destruct (Forall_dec_prop (fun x => Forall mfield_generates (m_fields x)) (p_messages p))
      as [B|B]; [intro; apply Forall_dec_prop, mfield_generates_dec|left; tauto|right; tauto]. }
  destruct Hd as [Hd|Hd]; [left|right]; (split; [tauto|]).
  - apply rust_files_text; [eapply compiled_unions; exact Hc|exact Hd].
  - apply rust_files_panic. exact Hd.
Qed.

(** ** Accessors from declarations *)
Lemma gen_fixed_placed : forall E m enums structs id d s i f o w,
  structure_from_model m Little enums structs id d = Ok s ->
  no_overflow m structs d ->
  nth_error (s_fields s) i = Some (FFixed f) -> declared_at structs d i o w ->
  (0 < w <= 64)%N -> gen_fixed (E := E) f = Ok (placed o w).
Proof.
  intros E m enums structs id d s i f o w H Hno Hf Hd Hw.
  destruct (fixed_in_structure _ _ _ _ _ _ _ _ _ _ H Hno Hf Hd) as (Hloc & _ & _). cbn [field_loc] in Hloc.
  pose proof (fixed_little _ _ _ _ _ _ _ _ H Hf) as He.
  destruct (gen_fixed_ok (E := E) f) as (b & Hb & Hs & Hen & Hr & Hrb & Hbit & Hal & Hord);
    [rewrite Hloc; exact Hw|].
  rewrite Hb. f_equal.
  assert (Hraw : ac_raw b = storage_bytes w).
  { unfold gen_fixed in Hb. rewrite Hloc in Hb.
    unfold get_unsigned_integer_type, fixed_from_model in Hb.
    change (l_bit_size (location_from_model w o)) with w in Hb.
    cbn [get_bit_size get_simple_type ok_or bind simple_eqb andb map_numeric] in Hb. unfold storage_bytes.
    destruct (N.ltb_spec 32 w), (N.leb_spec w 64), (N.ltb_spec 16 w), (N.leb_spec w 32),
      (N.ltb_spec 8 w), (N.leb_spec w 16), (N.ltb_spec 0 w), (N.leb_spec w 8); try lia;
      cbn [bind get_byte_size] in Hb; injection Hb as <-; reflexivity. }
  destruct b as [st en raw bit al ord]. cbn [ac_start ac_end ac_raw ac_bit ac_aligned ac_order] in *.
  rewrite Hloc in *. rewrite loc_byte_size, loc_byte_offset, loc_bit_offset in *.
  change (l_bit_size (location_from_model w o)) with w in *.
  unfold placed. subst. rewrite He. reflexivity.
Qed.
Lemma accessor_text : forall m enums structs id d s i f o w path show,
  structure_from_model m Little enums structs id d = Ok s ->
  no_overflow m structs d ->
  nth_error (s_fields s) i = Some (FFixed f) -> declared_at structs d i o w ->
  (0 < w <= 64)%N ->
  let a := placed o w in
  getter_lines path show (FFixed f) = (raw_getter_lines (ff_name f) a ++ view_getter_lines path show f a)%list /\
  setter_lines path show (FFixed f) = (raw_setter_lines (ff_name f) a ++ view_setter_lines path show f a)%list /\
  (forall E mr data, get_raw (E := E) mr f data = ac_get mr a data) /\
  (forall E mr data v, set_raw (E := E) mr f data v = ac_set mr a data v).
Proof.
  intros m enums structs id d s i f o w path show H Hno Hf Hd Hw a.
  assert (HA : forall E, gen_fixed (E := E) f = Ok a)
    by (intro E; exact (gen_fixed_placed E _ _ _ _ _ _ _ _ _ _ H Hno Hf Hd Hw)).
  unfold getter_lines, setter_lines, get_raw, set_raw. rewrite HA.
  repeat split; intros; rewrite HA; reflexivity.
Qed.

(** ** The files of a successful generation *)
Lemma rust_files_exact : forall m fm emb p files, compiled m p -> rust_files fm emb p = Ok files ->
  files = map as_file (expected_files fm emb p).
Proof.
  intros m fm emb p files Hc H.
  assert (Hd : generates p \/ ~ generates p).
  { unfold generates.
    destruct (Forall_dec_prop (fun s => Forall field_generates (s_fields s)) (p_structs p))
      as [A|A]; [intro; apply Forall_dec_prop, field_generates_dec| |right; tauto].
    destruct (Forall_dec_prop (fun x => Forall mfield_generates (m_fields x)) (p_messages p))
      as [B|B]; [intro; apply Forall_dec_prop, mfield_generates_dec|left; tauto|right; tauto]. }
  destruct Hd as [Hd|Hd].
  - rewrite (rust_files_text fm emb p (compiled_unions _ _ Hc) Hd) in H. injection H as <-. reflexivity.
  - rewrite (rust_files_panic fm emb p Hd) in H. discriminate.
Qed.
Section Exact.
Context (m : mode) (fm : formats) (emb : N -> bool) (p : protocol) (files : list file)
  (Hc : compiled m p) (H : rust_files fm emb p = Ok files).
Let path := type_path_get (p_type_path_by_name p).
Lemma structures_file :
  In {| fi_ty := StructureFile; fi_name := "structures.rs";
        fi_data := joined (map (structure_lines path (fm_f64 fm) (to_upper (fm_casing fm))) (p_structs p)) |} files.
Proof. rewrite (rust_files_exact _ _ _ _ _ Hc H). cbn. auto 8. Qed.
Lemma enums_file :
  In {| fi_ty := EnumFile; fi_name := "enums.rs";
        fi_data := joined (map (fun e => enum_lines (e_name e) (e_variants e)) (p_enums p)) |} files.
Proof. rewrite (rust_files_exact _ _ _ _ _ Hc H). cbn. auto 8. Qed.
Lemma unions_file :
  In {| fi_ty := UnionFile; fi_name := "unions.rs"; fi_data := joined (map (union_lines path) (p_unions p)) |} files.
Proof. rewrite (rust_files_exact _ _ _ _ _ Hc H). cbn. auto 8. Qed.
Lemma messages_files :
  In {| fi_ty := Message; fi_name := "messages.rs"; fi_data := joined (map (message_lines path) (p_messages p)) |} files /\
  In {| fi_ty := MessageReading; fi_name := "messages_from_slice.rs";
        fi_data := joined (map (from_slice_lines path emb) (p_messages p)) |} files /\
  In {| fi_ty := MessageWriting; fi_name := "messages_write.rs";
        fi_data := joined (map (write_to_lines path emb) (p_messages p)) |} files /\
  In {| fi_ty := MessageReading; fi_name := "messages_offsets.rs";
        fi_data := joined (map (offsets_lines path emb) (p_messages p)) |} files.
Proof. rewrite (rust_files_exact _ _ _ _ _ Hc H). cbn. auto 10. Qed.
End Exact.
