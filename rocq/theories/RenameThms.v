(** Proofs for C77. *)

From Coq Require Import Arith NArith ZArith Ascii String List Bool Lia.
From Verif Require Import Base Schema Codec Compiler Access Runtime Gen SpecWire MsgFacts WriteThms ReadThms OffsetThms EvolveMore
  SpecComp CompThms CaseThms PanicThms SpecRename.
Import ListNotations.
Local Open Scope N_scope.

(** ** Outcomes *)

Lemma same_bind : forall A B A' B' (Q : A -> B -> Prop) (R : A' -> B' -> Prop) x y f g,
  same_outcome Q x y -> (forall a b, Q a b -> same_outcome R (f a) (g b)) -> same_outcome R (bind x f) (bind y g).
Proof.
  intros A B A' B' Q R [a|e|] [b|e'|] f g H K; cbn in H; try contradiction; cbn [bind]; [apply K, H|exact H|exact I].
Qed.
Lemma same_refl_err : forall e, same_error e e.
Proof. intros []; cbn; auto. Qed.
Lemma same_eq : forall A (x : cres A), same_outcome eq x x.
Proof. intros A [a|e|]; cbn; auto using same_refl_err. Qed.
Lemma same_ok_or : forall A B (h : A -> B) o e e', same_error e e' ->
  same_outcome (fun a b => b = h a) (ok_or o e) (ok_or (option_map h o) e').
Proof. intros A B h [a|] e e' H; cbn; auto. Qed.
Lemma same_weaken : forall A B (Q R : A -> B -> Prop) x y, (forall a b, Q a b -> R a b) -> same_outcome Q x y -> same_outcome R x y.
Proof. intros A B Q R [a|e|] [b|e'|] H K; cbn in *; auto. Qed.

Lemma sget_ren : forall A f (g : A -> A) l k, injective f ->
  sget (f k) (map (fun kv => (f (fst kv), g (snd kv))) l) = option_map g (sget k l).
Proof.
  intros A f g l k Hf. induction l as [|[k' v] l IH]; [reflexivity|]. cbn [map sget fst snd].
  destruct (String.eqb_spec k k') as [->|N1]; [rewrite String.eqb_refl; reflexivity|].
  destruct (String.eqb_spec (f k) (f k')) as [E|_]; [destruct (N1 (Hf _ _ E))|exact IH].
Qed.

Section Compile.
Variable r : renaming.
Hypothesis Hr : proper r.

Let Hp : injective (r_proto r).
Proof. apply Hr. Qed.
Let Ht : injective (r_type r).
Proof. apply Hr. Qed.
Let Hf : injective (r_field r).
Proof. apply Hr. Qed.
Let Hm : injective (r_member r).
Proof. apply Hr. Qed.
Let Hv : injective (r_variant r).
Proof. apply Hr. Qed.

Lemma get_ren : forall A (g : A -> A) l k, sget (r_type r k) (ren_map r g l) = option_map g (sget k l).
Proof. intros. apply sget_ren. exact Ht. Qed.

(** ** Enums *)

Definition ren_kv (kv : string * N) : string * N := (r_variant r (fst kv), snd kv).
Lemma insert_ren : forall x l, insert_variant (ren_kv x) (map ren_kv l) = map ren_kv (insert_variant x l).
Proof.
  intros x l. induction l as [|y l IH]; [reflexivity|]. cbn [map insert_variant]. change (snd (ren_kv x)) with (snd x).
  change (snd (ren_kv y)) with (snd y). destruct (snd x <=? snd y); [reflexivity|]. cbn [map]. rewrite IH. reflexivity.
Qed.
Lemma sort_ren : forall l, sort_variants (map ren_kv l) = map ren_kv (sort_variants l).
Proof.
  unfold sort_variants. induction l as [|x l IH]; [reflexivity|]. cbn [map fold_right]. rewrite IH. apply insert_ren.
Qed.
Lemma emap_ren : forall l acc,
  fold_left (fun m kv => sinsert (fst kv) (snd kv) m) (map ren_kv l) (map ren_kv acc) =
  map ren_kv (fold_left (fun m kv => sinsert (fst kv) (snd kv) m) l acc).
Proof.
  induction l as [|x l IH]; intro acc; [reflexivity|]. cbn [map fold_left]. rewrite <- IH. reflexivity.
Qed.
Lemma enum_ren : forall d, same_outcome (fun e e' => e' = ren_enum r e) (enum_from_model d) (enum_from_model (ren_senum r d)).
Proof.
  intro d. unfold enum_from_model. cbn [ren_senum se_variants se_name].
  change (map (fun kv : string * N => (r_variant r (fst kv), snd kv)) (se_variants d)) with (map ren_kv (se_variants d)).
  cbv zeta. rewrite sort_ren, <- map_rev. change (@nil (string * N)) with (map ren_kv []). 
  apply (same_bind _ _ _ _ eq).
  - destruct (rev (sort_variants (se_variants d))) as [|[k n] l]; cbn; auto.
  - intros n _ <-. cbn [same_outcome]. unfold ren_enum. cbn [e_name e_largest e_variants e_map]. rewrite emap_ren. reflexivity.
Qed.

(** ** Structures *)

Lemma view_ren : forall m enums ty b v,
  same_outcome (fun x x' => x' = ren_view r x) (view_from_model m enums ty b v)
    (view_from_model m (ren_map r (ren_enum r) enums) ty b (option_map (ren_sview r) v)).
Proof.
  intros m enums ty b [[n|lo hi|k]|]; cbn [option_map ren_sview view_from_model].
  - destruct (negb _); [cbn; auto|]. rewrite get_ren. apply (same_bind _ _ _ _ (fun a b => b = ren_enum r a)).
    + apply same_ok_or. cbn. auto.
    + intros e _ ->. reflexivity.
  - destruct (negb _); [cbn; auto|]. apply (same_bind _ _ _ _ eq); [apply same_eq|]. intros x _ <-.
    apply (same_bind _ _ _ _ eq); [apply same_eq|]. intros y _ <-. reflexivity.
  - destruct (negb _); cbn; auto.
  - destruct (_ && _ && _); [cbn; auto|]. destruct (_ && _).
    + apply (same_bind _ _ _ _ eq); [apply same_eq|]. intros x _ <-.
      apply (same_bind _ _ _ _ eq); [apply same_eq|]. intros y _ <-.
      apply (same_bind _ _ _ _ eq); [apply same_eq|]. intros z _ <-. reflexivity.
    + destruct (simple_eqb _ _); reflexivity.
Qed.

Lemma ren_struct_bits : forall s, s_bit_size (ren_struct r s) = s_bit_size s.
Proof. intros []. reflexivity. Qed.
Lemma ren_struct_bytes : forall s, s_byte_size (ren_struct r s) = s_byte_size s.
Proof. intros []. reflexivity. Qed.
Lemma ren_struct_id : forall s, s_id (ren_struct r s) = s_id s.
Proof. intros []. reflexivity. Qed.
Lemma ren_struct_name : forall s, s_name (ren_struct r s) = r_type r (s_name s).
Proof. intros []. reflexivity. Qed.
Lemma ren_struct_fields : forall s, s_fields (ren_struct r s) = map (ren_field r) (s_fields s).
Proof. intros []. reflexivity. Qed.

Lemma field_ren : forall m endi enums structs off v,
  same_outcome (fun a b => b = (ren_field r (fst a), snd a))
    (field_from_model m endi enums structs off v)
    (field_from_model m endi (ren_map r (ren_enum r) enums) (ren_map r (ren_struct r) structs) off (ren_sfield r v)).
Proof.
  intros m endi enums structs off [name info view alen].
  assert (G : forall t, match t with STStruct _ => False | _ => True end ->
    same_outcome (fun a b => b = (ren_field r (fst a), snd a))
     (let array_len := match alen with Some n => n | None => 1 end in
      bit_size0 <- ok_or (get_bit_size t) EMissingBitSize ;;
      view <- view_from_model m enums (get_simple_type t) bit_size0 view ;;
      bit_size <- umul m bit_size0 array_len ;;
      ty <- fixed_from_model t ;;
      let loc := location_from_model bit_size off in
      if 1 <? array_len then
        if negb (bit_size mod 8 =? 0) then Err EUnalignedArrayCodec
        else
          off <- uadd m off bit_size ;;
          Ok (FArray {| fa_name := name; fa_ty := ty; fa_array_len := array_len;
                        fa_loc := loc; fa_endianness := endi |}, off)
      else
        off <- uadd m off bit_size ;;
        Ok (FFixed {| ff_name := name; ff_ty := ty; ff_loc := loc; ff_view := view;
                      ff_endianness := endi |}, off))
     (let array_len := match alen with Some n => n | None => 1 end in
      bit_size0 <- ok_or (get_bit_size t) EMissingBitSize ;;
      view <- view_from_model m (ren_map r (ren_enum r) enums) (get_simple_type t) bit_size0 (option_map (ren_sview r) view) ;;
      bit_size <- umul m bit_size0 array_len ;;
      ty <- fixed_from_model t ;;
      let loc := location_from_model bit_size off in
      if 1 <? array_len then
        if negb (bit_size mod 8 =? 0) then Err EUnalignedArrayCodec
        else
          off <- uadd m off bit_size ;;
          Ok (FArray {| fa_name := r_field r name; fa_ty := ty; fa_array_len := array_len;
                        fa_loc := loc; fa_endianness := endi |}, off)
      else
        off <- uadd m off bit_size ;;
        Ok (FFixed {| ff_name := r_field r name; ff_ty := ty; ff_loc := loc; ff_view := view;
                      ff_endianness := endi |}, off))).
  { intros t _. cbv zeta. apply (same_bind _ _ _ _ eq); [apply same_eq|]. intros b0 _ <-.
    apply (same_bind _ _ _ _ (fun x x' => x' = ren_view r x)); [apply view_ren|]. intros vw _ ->.
    apply (same_bind _ _ _ _ eq); [apply same_eq|]. intros bs _ <-.
    apply (same_bind _ _ _ _ eq); [apply same_eq|]. intros ty _ <-.
    destruct (1 <? _); [destruct (negb _); [cbn; auto|]|];
      (apply (same_bind _ _ _ _ eq); [apply same_eq|]; intros o _ <-; reflexivity). }
  destruct info as [b|b|b|b|n];
    [exact (G (STSigned b) I)|exact (G (STUnsigned b) I)|exact (G (STFloat b) I)|exact (G (STBoolean b) I)|].
  unfold field_from_model. cbn [ren_sfield sf_info sf_name ren_sftype]. rewrite get_ren.
  apply (same_bind _ _ _ _ (fun a b => b = ren_struct r a)); [apply same_ok_or; cbn; auto|]. intros s _ ->.
  rewrite ren_struct_bits. apply (same_bind _ _ _ _ eq); [apply same_eq|]. intros o _ <-. reflexivity.
Qed.

Lemma fields_ren : forall m endi enums structs l off,
  same_outcome (fun a b => b = (map (ren_field r) (fst a), snd a))
    (fields_from_model m endi enums structs off l)
    (fields_from_model m endi (ren_map r (ren_enum r) enums) (ren_map r (ren_struct r) structs) off (map (ren_sfield r) l)).
Proof.
  intros m endi enums structs l. induction l as [|v l IH]; intro off; cbn [map fields_from_model]; [reflexivity|].
  apply (same_bind _ _ _ _ (fun a b => b = (ren_field r (fst a), snd a))); [apply field_ren|]. intros [f o] _ ->. cbn [fst snd].
  apply (same_bind _ _ _ _ (fun a b => b = (map (ren_field r) (fst a), snd a))); [apply IH|]. intros [fs o'] _ ->. reflexivity.
Qed.

Lemma structure_ren : forall m endi enums structs id d,
  same_outcome (fun s s' => s' = ren_struct r s) (structure_from_model m endi enums structs id d)
    (structure_from_model m endi (ren_map r (ren_enum r) enums) (ren_map r (ren_struct r) structs) id (ren_sstruct r d)).
Proof.
  intros. unfold structure_from_model. cbn [ren_sstruct ss_fields ss_name].
  apply (same_bind _ _ _ _ (fun a b => b = (map (ren_field r) (fst a), snd a))); [apply fields_ren|].
  intros [fs o] _ ->. reflexivity.
Qed.

(** ** Unions *)

Lemma lookup_ren : forall structs messages n,
  referenced_lookup (ren_map r (ren_struct r) structs) (ren_map r (ren_message r) messages) (r_type r n) =
  option_map (ren_ref r) (referenced_lookup structs messages n).
Proof.
  intros. unfold referenced_lookup. rewrite !get_ren. destruct (sget n structs); [reflexivity|].
  destruct (sget n messages); reflexivity.
Qed.

Lemma digit_like : forall c d, digit_of c = Some d -> In c ["0"; "1"; "2"; "3"; "4"; "5"; "6"; "7"; "8"; "9"; "+"; "-"]%char.
Proof.
  intros [b0 b1 b2 b3 b4 b5 b6 b7] d H. unfold digit_of in H.
  destruct b0, b1, b2, b3, b4, b5, b6, b7; vm_compute in H; try discriminate; cbn; tauto.
Qed.
Lemma digits_like : forall s n, parse_nat_digits s = Some n -> like_number s.
Proof.
  intros [|c s] n H; [discriminate|]. cbn [parse_nat_digits parse_digits] in H.
  destruct (digit_of c) eqn:E; [|discriminate]. exists c, s. split; [reflexivity|]. eapply digit_like, E.
Qed.
Lemma usize_like : forall s n, parse_usize s = Some n -> like_number s.
Proof.
  intros s n H. unfold parse_usize in H. destruct s as [|c s]; [discriminate|].
  destruct (Ascii.eqb_spec c "+"%char) as [->|Hc]; [exists "+"%char, s; split; [reflexivity|cbn; tauto]|].
  assert (E : (match String c s with String "+"%char q => q | _ => String c s end) = String c s).
  { destruct c as [[] [] [] [] [] [] [] []]; try reflexivity; destruct Hc; reflexivity. }
  rewrite E in H. destruct (parse_nat_digits (String c s)) eqn:D; [|discriminate]. eapply digits_like, D.
Qed.
Lemma isize_like : forall s n, parse_isize s = Some n -> like_number s.
Proof.
  intros s n H. destruct s as [|c s]; [discriminate|].
  destruct (Ascii.eqb_spec c "+"%char) as [->|Hc]; [exists "+"%char, s; split; [reflexivity|cbn; tauto]|].
  destruct (Ascii.eqb_spec c "-"%char) as [->|Hd]; [exists "-"%char, s; split; [reflexivity|cbn; tauto]|].
  assert (E : parse_isize (String c s) = match parse_nat_digits (String c s) with
      | Some n => if n <? 2 ^ 63 then Some (Z.of_N n) else None | None => None end).
  { destruct c as [[] [] [] [] [] [] [] []]; try reflexivity; [destruct Hc|destruct Hd]; reflexivity. }
  rewrite E in H. destruct (parse_nat_digits (String c s)) eqn:D; [|discriminate]. eapply digits_like, D.
Qed.
(** A label is a number before if and only if it is one after, and then the same. *)
Lemma label_ren : forall A (parse : string -> option A), (forall s n, parse s = Some n -> like_number s) ->
  forall s, parse (r_variant r s) = parse s.
Proof.
  intros A parse Hl s. assert (Hk : forall s, like_number s -> r_variant r s = s) by apply Hr.
  destruct (parse s) as [n|] eqn:E; [rewrite (Hk s (Hl _ _ E)); exact E|].
  destruct (parse (r_variant r s)) as [n|] eqn:E'; [|reflexivity].
  pose proof (Hk _ (Hl _ _ E')) as K. apply Hv in K. rewrite K in E'. congruence.
Qed.

Lemma ucase_ren : forall structs messages f c,
  same_outcome (fun a b => b = ren_ucase r a) (ucase_from_model structs messages f c)
    (ucase_from_model (ren_map r (ren_struct r) structs) (ren_map r (ren_message r) messages) (ren_fixed r f) (ren_sucase r c)).
Proof.
  intros structs messages f c. unfold ucase_from_model. apply (same_bind _ _ _ _ eq).
  - cbn [ren_fixed ff_view]. destruct (ff_view f) as [a b a' b'|e| |mp|]; cbn [ren_view ren_sucase su_case]; [cbn; auto|..].
    + cbn [ren_enum e_map]. rewrite (sget_ren N (r_variant r) (fun x => x) (e_map e) (su_case c) Hv).
      destruct (sget (su_case c) (e_map e)); cbn; auto.
    + rewrite (label_ren _ parse_isize isize_like). destruct (parse_isize (su_case c)); cbn; auto.
    + rewrite (label_ren _ parse_isize isize_like). destruct (parse_isize (su_case c)); cbn; auto.
    + rewrite (label_ren _ parse_usize usize_like). destruct (parse_usize (su_case c)); cbn; auto.
  - intros k _ <-. cbn [ren_sucase su_item_type su_name]. destruct (su_item_type c) as [n|]; cbn [option_map]; [|reflexivity].
    rewrite lookup_ren. destruct (referenced_lookup structs messages n) as [x|]; cbn; auto.
Qed.

Lemma field_name_ren : forall f, field_name (ren_field r f) = r_field r (field_name f).
Proof. intros [|[]|]; reflexivity. Qed.
Lemma find_ren : forall n l i, find_field (r_field r n) i (map (ren_field r) l) =
  option_map (fun p => (fst p, ren_field r (snd p))) (find_field n i l).
Proof.
  intros n. induction l as [|f l IH]; intro i; [reflexivity|]. cbn [map find_field]. rewrite field_name_ren.
  destruct (String.eqb_spec (field_name f) n) as [->|N1]; [rewrite String.eqb_refl; reflexivity|].
  destruct (String.eqb_spec (r_field r (field_name f)) (r_field r n)) as [E|_]; [destruct (N1 (Hf _ _ E))|apply IH].
Qed.
Lemma walk_ren : forall parts nm nm' leaf idx,
  same_outcome (fun a b => b = (ren_struct r (fst a), snd a)) (disc_walk nm leaf idx parts)
    (disc_walk nm' (ren_struct r leaf) idx (map (r_field r) parts)).
Proof.
  induction parts as [|s parts IH]; intros nm nm' leaf idx; cbn [map disc_walk]; [reflexivity|].
  rewrite ren_struct_fields, find_ren.
  apply (same_bind _ _ _ _ (fun a b => b = (fst a, ren_field r (snd a)))); [apply same_ok_or; cbn; auto|].
  intros [i f] _ ->. cbn [fst snd]. destruct f as [f|f|n x l]; cbn [ren_field]; [reflexivity|cbn; auto|apply IH].
Qed.
Lemma disc_ren : forall structs d d' n parts, joined d (n :: parts) -> Forall no_dot (n :: parts) ->
  joined d' (r_type r n :: map (r_field r) parts) ->
  same_outcome (fun a b => b = ren_disc r a) (disc_from_model structs d) (disc_from_model (ren_map r (ren_struct r) structs) d').
Proof.
  intros structs d d' n parts J D J'. unfold disc_from_model.
  assert (D' : Forall no_dot (r_type r n :: map (r_field r) parts)).
  { inversion D as [|? ? D1 D2]; subst. constructor; [apply Hr, D1|]. apply Forall_map. eapply Forall_impl; [|exact D2].
    intros s Hs. apply Hr, Hs. }
  rewrite (split_dot_unique _ _ _ J D), (split_dot_unique _ _ _ J' D'). rewrite get_ren.
  apply (same_bind _ _ _ _ (fun a b => b = ren_struct r a)); [apply same_ok_or; cbn; auto|]. intros root _ ->.
  apply (same_bind _ _ _ _ (fun a b => b = (ren_struct r (fst a), snd a))); [apply walk_ren|]. intros [leaf idx] _ ->.
  cbn [fst snd]. apply (same_bind _ _ _ _ eq); [apply same_eq|]. intros k _ <-. reflexivity.
Qed.

Lemma leaf_ren : forall d, same_outcome (fun a b => b = ren_fixed r a) (get_leaf d) (get_leaf (ren_disc r d)).
Proof.
  intros d. unfold get_leaf. cbn [ren_disc d_leaf d_leaf_index]. rewrite ren_struct_fields, nth_error_map.
  destruct (nth_error (s_fields (d_leaf d)) (d_leaf_index d)) as [[f|f|n x l]|]; cbn; auto.
Qed.
Lemma ucases_ren : forall structs messages d l,
  same_outcome (fun a b => b = map (ren_ucase r) a) (ucases_from_model structs messages d l)
    (ucases_from_model (ren_map r (ren_struct r) structs) (ren_map r (ren_message r) messages) (ren_disc r d) (map (ren_sucase r) l)).
Proof.
  intros structs messages d l. induction l as [|c l IH]; cbn [map ucases_from_model]; [reflexivity|].
  apply (same_bind _ _ _ _ (fun a b => b = ren_fixed r a)); [apply leaf_ren|]. intros f _ ->.
  apply (same_bind _ _ _ _ (fun a b => b = ren_ucase r a)); [apply ucase_ren|]. intros x _ ->.
  apply (same_bind _ _ _ _ (fun a b => b = map (ren_ucase r) a)); [apply IH|]. intros xs _ ->. reflexivity.
Qed.

Lemma message_size_ren : forall x, m_size (ren_message r x) = m_size x.
Proof. intros []. reflexivity. Qed.
Lemma message_id_ren : forall x, m_id (ren_message r x) = m_id x.
Proof. intros []. reflexivity. Qed.
Lemma message_name_ren : forall x, m_name (ren_message r x) = r_type r (m_name x).
Proof. intros []. reflexivity. Qed.
Lemma message_fields_ren : forall x, m_fields (ren_message r x) = map (ren_mfield r) (m_fields x).
Proof. intros []. reflexivity. Qed.

Lemma union_ren : forall structs messages d d', renamed_union r d d' ->
  same_outcome (fun a b => b = ren_union r a) (union_from_model structs messages d)
    (union_from_model (ren_map r (ren_struct r) structs) (ren_map r (ren_message r) messages) d').
Proof.
  intros structs messages d d' (En & Ec & n & parts & J & D & J'). unfold union_from_model.
  apply (same_bind _ _ _ _ (fun a b => b = ren_disc r a)); [eapply disc_ren; eauto|]. intros x _ ->. rewrite Ec.
  apply (same_bind _ _ _ _ (fun a b => b = map (ren_ucase r) a)); [apply ucases_ren|]. intros xs _ ->. cbn [same_outcome].
  rewrite En.
  assert (S : forall f, existsb (fun c => match uc_item c with Some (RMessage x) => f (m_size x) | _ => false end) (map (ren_ucase r) xs) =
                existsb (fun c => match uc_item c with Some (RMessage x) => f (m_size x) | _ => false end) xs).
  { intro f. induction xs as [|[k c i] xs IH]; [reflexivity|]. cbn [map existsb]. rewrite IH. f_equal.
    destruct i as [[s|y]|]; try reflexivity. cbn. rewrite message_size_ren. reflexivity. }
  cbn [ren_union]. rewrite !S. reflexivity.
Qed.

(** ** Messages *)

Definition ren_env (env : proto_env) : proto_env :=
  {| pe_endianness := pe_endianness env; pe_structs := ren_map r (ren_struct r) (pe_structs env);
     pe_messages := ren_map r (ren_message r) (pe_messages env); pe_unions := ren_map r (ren_union r) (pe_unions env) |}.

Lemma flattened_ren : forall s, flattened (ren_struct r s) = option_map (ren_fixed r) (flattened s).
Proof.
  intros s. unfold flattened. rewrite ren_struct_fields. destruct (s_fields s) as [|[f|f|n x l] [|g fs]]; try reflexivity.
  cbn [map ren_field ren_fixed ff_view ff_loc]. replace (is_transmute (ren_view r (ff_view f))) with (is_transmute (ff_view f))
    by (destruct (ff_view f); reflexivity). destruct (_ && _); reflexivity.
Qed.
Lemma mf_name_ren : forall f, mf_name (ren_mfield r f) = r_member r (mf_name f).
Proof. intros []. reflexivity. Qed.
Lemma mf_ty_ren : forall f, mf_ty (ren_mfield r f) = ren_ty r (mf_ty f).
Proof. intros []. reflexivity. Qed.
Lemma mf_size_ren : forall f, mf_size (ren_mfield r f) = mf_size f.
Proof. intros []. reflexivity. Qed.
Lemma find_mfield_ren : forall n l i, find_mfield (r_member r n) i (map (ren_mfield r) l) =
  option_map (fun p => (fst p, ren_mfield r (snd p))) (find_mfield n i l).
Proof.
  intros n. induction l as [|f l IH]; intro i; [reflexivity|]. cbn [map find_mfield]. rewrite mf_name_ren.
  destruct (String.eqb_spec (mf_name f) n) as [->|N1]; [rewrite String.eqb_refl; reflexivity|].
  destruct (String.eqb_spec (r_member r (mf_name f)) (r_member r n)) as [E|_]; [destruct (N1 (Hm _ _ E))|apply IH].
Qed.
Lemma union_root_ren : forall u, d_root (u_disc (ren_union r u)) = ren_struct r (d_root (u_disc u)).
Proof. intros []. reflexivity. Qed.
Lemma union_size_ren : forall u, u_size (ren_union r u) = u_size u.
Proof. intros []. reflexivity. Qed.

Lemma mfield_ren : forall env l v,
  same_outcome (fun a b => b = (ren_mfield r (fst a), snd a)) (mfield_from_model env l v)
    (mfield_from_model (ren_env env) (map (ren_mfield r) l) (ren_smfield r v)).
Proof.
  intros env l [name info opt]. unfold mfield_from_model. cbv zeta.
  cbn [ren_smfield smf_name smf_info smf_optional ren_env pe_endianness pe_structs pe_messages pe_unions].
  destruct info as [n|k n|[k|]| |on n]; cbn [ren_mftype].
  - rewrite lookup_ren. apply (same_bind _ _ _ _ (fun a b => b = ren_ref r a)); [apply same_ok_or; cbn; auto|].
    intros [s|x] _ ->; cbn [ren_ref].
    + rewrite flattened_ren. destruct (flattened s); reflexivity.
    + rewrite message_size_ren. reflexivity.
  - rewrite lookup_ren. apply (same_bind _ _ _ _ (fun a b => b = ren_ref r a)); [apply same_ok_or; cbn; auto|].
    intros x _ ->. apply (same_bind _ _ _ _ eq); [apply same_eq|]. intros ty _ <-.
    destruct x as [s|x]; cbn [ren_ref]; [reflexivity|]. rewrite message_id_ren. reflexivity.
  - apply (same_bind _ _ _ _ eq); [apply same_eq|]. intros ty _ <-. reflexivity.
  - reflexivity.
  - reflexivity.
  - rewrite find_mfield_ren.
    apply (same_bind _ _ _ _ (fun a b => b = (fst a, ren_mfield r (snd a)))); [apply same_ok_or; cbn; auto|].
    intros [i f] _ ->. cbn [fst snd]. rewrite get_ren.
    apply (same_bind _ _ _ _ (fun a b => b = ren_union r a)); [apply same_ok_or; cbn; auto|]. intros u _ ->.
    rewrite mf_ty_ren. destruct (mf_ty f) as [ty|[s|x]| |ty|ty s|u' on' i'|ty x|]; cbn [ren_ty ren_ref]; try (cbn; auto; fail).
    rewrite union_root_ren, !ren_struct_id. destruct (_ =? _); [|cbn; auto].
    cbn [same_outcome fst snd ren_mfield ren_ty]. rewrite mf_name_ren, union_size_ren. reflexivity.
Qed.

Lemma mfields_ren : forall env l fs k dyn marks,
  same_outcome (fun a b => b = (let '(gs, k', d', mk) := a in (map (ren_mfield r) gs, k', d', mk)))
    (mfields_from_model env fs k dyn marks l)
    (mfields_from_model (ren_env env) (map (ren_mfield r) fs) k dyn marks (map (ren_smfield r) l)).
Proof.
  intros env. induction l as [|v l IH]; intros fs k dyn marks; cbn [map mfields_from_model]; [reflexivity|].
  apply (same_bind _ _ _ _ (fun a b => b = (ren_mfield r (fst a), snd a))); [apply mfield_ren|]. intros [f mk] _ ->.
  cbn [fst snd]. cbv zeta. rewrite mf_size_ren. destruct (_ && _); [cbn; auto|]. destruct (1 <? _); [cbn; auto|].
  specialize (IH (fs ++ [f])%list (if is_element_dyn_sized (mf_size f) then k + 1 else k) (dyn || is_dyn_sized (mf_size f)) (marks ++ mk)%list).
  rewrite map_app in IH. exact IH.
Qed.

Lemma message_ren : forall env id d,
  same_outcome (fun a b => b = (ren_message r (fst a), snd a)) (message_from_model env id d)
    (message_from_model (ren_env env) id (ren_smessage r d)).
Proof.
  intros env id d. unfold message_from_model. cbn [ren_smessage sm_fields sm_name].
  change (@nil mfield) with (map (ren_mfield r) []) at 2.
  eapply same_bind; [apply mfields_ren|]. intros [[[fs k] dyn] mk] _ ->. reflexivity.
Qed.

(** ** Protocols *)

Lemma foldM_ren : forall A B S S' (R : S -> S' -> Prop) (Q : A -> B -> Prop) (f : S -> A -> cres S) (g : S' -> B -> cres S'),
  (forall s s' a b, R s s' -> Q a b -> same_outcome R (f s a) (g s' b)) ->
  forall l l', Forall2 Q l l' -> forall s s', R s s' -> same_outcome R (foldM f s l) (foldM g s' l').
Proof.
  intros A B S S' R Q f g H l l' F. induction F as [|a b l l' Hab F IH]; intros s s' Hs; cbn [foldM]; [exact Hs|].
  eapply same_bind; [apply (H _ _ _ _ Hs Hab)|]. intros x y Hxy. apply IH, Hxy.
Qed.
Lemma F2_map : forall A B (h : A -> B) l, Forall2 (fun a b => b = h a) l (map h l).
Proof. intros A B h l. induction l; constructor; auto. Qed.

Lemma alike_struct : forall p p' push k s, alike r p p' ->
  alike r (add_struct push p k s) (add_struct push p' (r_type r k) (ren_struct r s)).
Proof.
  intros p p' push k s (A1 & A2 & A3 & A4 & A5 & A6 & A7 & A8 & A9 & A10). repeat (split; [assumption || idtac|]); cbn; auto.
  all: try (rewrite A3; reflexivity). destruct push; [rewrite A7, map_app; reflexivity|exact A7].
Qed.
Lemma alike_message : forall p p' push k s, alike r p p' ->
  alike r (add_message push p k s) (add_message push p' (r_type r k) (ren_message r s)).
Proof.
  intros p p' push k s (A1 & A2 & A3 & A4 & A5 & A6 & A7 & A8 & A9 & A10). repeat (split; [assumption || idtac|]); cbn; auto.
  all: try (rewrite A4; reflexivity). destruct push; [rewrite A8, map_app; reflexivity|exact A8].
Qed.
Lemma alike_enum : forall p p' push k s, alike r p p' ->
  alike r (add_enum push p k s) (add_enum push p' (r_type r k) (ren_enum r s)).
Proof.
  intros p p' push k s (A1 & A2 & A3 & A4 & A5 & A6 & A7 & A8 & A9 & A10). repeat (split; [assumption || idtac|]); cbn; auto.
  all: try (rewrite A5; reflexivity). destruct push; [rewrite A9, map_app; reflexivity|exact A9].
Qed.
Lemma alike_union : forall p p' push k s, alike r p p' ->
  alike r (add_union push p k s) (add_union push p' (r_type r k) (ren_union r s)).
Proof.
  intros p p' push k s (A1 & A2 & A3 & A4 & A5 & A6 & A7 & A8 & A9 & A10). repeat (split; [assumption || idtac|]); cbn; auto.
  all: try (rewrite A6; reflexivity). destruct push; [rewrite A10, map_app; reflexivity|exact A10].
Qed.
Lemma alike_path : forall p p' k v k' v', alike r p p' -> alike r (add_path p k v) (add_path p' k' v').
Proof. intros p p' k v k' v' H. exact H. Qed.

Lemma path_same : forall solver solver' n t, solvers_alike r solver solver' ->
  same_outcome (fun _ _ => True) (ok_or (r_path solver n t) ESolverError)
    (ok_or (r_path solver' (r_proto r n) (r_type r t)) ESolverError).
Proof.
  intros solver solver' n t (_ & H). specialize (H n t).
  destruct (r_path solver n t), (r_path solver' (r_proto r n) (r_type r t)); cbn; auto;
    [destruct H as [_ H]|destruct H as [H _]]; discriminate (H eq_refl).
Qed.

Lemma import_ren : forall solver solver' p p' v, solvers_alike r solver solver' -> alike r p p' ->
  same_outcome (alike r) (import_one solver p v) (import_one solver' p' (ren_simport r v)).
Proof.
  intros solver solver' p p' v Hs Ha. unfold import_one. cbn [ren_simport si_protocol si_type].
  pose proof (proj1 Hs (si_protocol v)) as K.
  destruct (r_protocol solver (si_protocol v)) as [q|], (r_protocol solver' (r_proto r (si_protocol v))) as [q'|]; try contradiction;
    [|cbn; auto]. cbn [ok_or bind]. cbv zeta.
  destruct K as (_ & _ & K3 & K4 & K5 & K6 & _). rewrite K3, K4, K5, K6, !get_ren.
  pose proof (path_same solver solver' (si_protocol v) (si_type v) Hs) as P.
  destruct (sget (si_type v) (p_structs_by_name q)); cbn [option_map].
  { eapply same_bind; [exact P|]. intros a b _. cbn [same_outcome]. apply alike_path, alike_struct, Ha. }
  destruct (sget (si_type v) (p_enums_by_name q)); cbn [option_map].
  { eapply same_bind; [exact P|]. intros a b _. cbn [same_outcome]. apply alike_path, alike_enum, Ha. }
  destruct (sget (si_type v) (p_unions_by_name q)); cbn [option_map].
  { eapply same_bind; [exact P|]. intros a b _. cbn [same_outcome]. apply alike_path, alike_union, Ha. }
  destruct (sget (si_type v) (p_messages_by_name q)); cbn [option_map ok_or bind]; [|cbn; auto].
  eapply same_bind; [exact P|]. intros a b _. cbn [same_outcome]. apply alike_path, alike_message, Ha.
Qed.

Definition alike_w (a b : protocol * world) : Prop := alike r (fst a) (fst b) /\ snd b = snd a.

Theorem protocol_ren : forall m solver solver' w d d', solvers_alike r solver solver' -> renamed r d d' ->
  same_outcome alike_w (protocol_from_model m solver w d) (protocol_from_model m solver' w d').
Proof.
  intros m solver solver' w d d' Hs (E1 & _ & E2 & E3 & E4 & E5 & E6). unfold protocol_from_model. rewrite E1, E2, E3, E4, E6.
  eapply (same_bind _ _ _ _ (alike r)).
  { eapply foldM_ren; [|apply F2_map|]; [|repeat split]. intros s s' a _ Ha ->. apply import_ren; assumption. }
  intros p1 p1' A1. eapply (same_bind _ _ _ _ (alike r)).
  { eapply foldM_ren; [|apply F2_map|exact A1]. intros s s' a _ Ha ->. unfold define_enum.
    eapply same_bind; [apply enum_ren|]. intros e _ ->. cbn [same_outcome]. apply alike_enum, Ha. }
  intros p2 p2' A2. eapply (same_bind _ _ _ _ alike_w).
  { eapply foldM_ren; [|apply F2_map|split; [exact A2|reflexivity]]. intros [q x] [q' x'] a _ (Ha & Ew) ->. cbn [fst snd] in Ha, Ew.
    subst x'. unfold define_struct. pose proof Ha as (B1 & B2 & B3 & B4 & B5 & B6 & _). rewrite B2, B3, B5.
    eapply same_bind; [apply structure_ren|]. intros s _ ->. cbn [same_outcome]. split; [|reflexivity]. cbn [fst].
    rewrite ren_struct_name. apply alike_struct, Ha. }
  intros [p3 w3] [p3' w3'] (A3 & Ew). cbn [fst snd] in A3, Ew. subst w3'. eapply (same_bind _ _ _ _ (alike r)).
  { eapply foldM_ren; [|exact E5|exact A3]. intros s s' a b Ha Hu. unfold define_union.
    pose proof Ha as (B1 & B2 & B3 & B4 & B5 & B6 & _). rewrite B3, B4.
    eapply same_bind; [apply union_ren, Hu|]. intros u _ ->. cbn [same_outcome].
    replace (u_name (ren_union r u)) with (r_type r (u_name u)) by (destruct u; reflexivity). apply alike_union, Ha. }
  intros p4 p4' A4.
  eapply foldM_ren; [|apply F2_map|split; [exact A4|reflexivity]]. intros [q x] [q' x'] a _ (Ha & Ew2) ->. cbn [fst snd] in Ha, Ew2.
  subst x'. unfold define_message. pose proof Ha as (B1 & B2 & B3 & B4 & B5 & B6 & _). rewrite B2, B3, B4, B6.
  pose proof (message_ren {| pe_endianness := p_endianness q; pe_structs := p_structs_by_name q;
        pe_messages := p_messages_by_name q; pe_unions := p_unions_by_name q |} (w_next x) a) as M.
  eapply same_bind; [exact M|]. intros [y mk] _ ->. cbn [same_outcome fst snd]. split; [|reflexivity]. cbn [fst].
  rewrite message_name_ren. apply alike_message, Ha.
Qed.

End Compile.

(** ** What programs do *)

Section Run.
Variable r : renaming.

Lemma get_view_ren : forall m f data, get_view (E:=rerror) m (ren_fixed r f) data = get_view m f data.
Proof.
  intros m [n ty loc v e] data. unfold get_view. cbn [ren_fixed]. change (gen_fixed (E:=rerror) _) with
    (gen_fixed (E:=rerror) {| ff_name := n; ff_ty := ty; ff_loc := loc; ff_view := v; ff_endianness := e |}).
  destruct (gen_fixed _) as [a|?|]; [|reflexivity..]. cbn [bind]. destruct (ac_get m a data) as [raw|?|]; [|reflexivity..]. cbn [bind].
  destruct v; reflexivity.
Qed.
Lemma set_view_ren : forall m f data x, set_view (E:=rerror) m (ren_fixed r f) data x = set_view m f data x.
Proof.
  intros m [n ty loc v e] data x. unfold set_view. cbn [ren_fixed]. change (gen_fixed (E:=rerror) _) with
    (gen_fixed (E:=rerror) {| ff_name := n; ff_ty := ty; ff_loc := loc; ff_view := v; ff_endianness := e |}).
  destruct (gen_fixed _) as [a|?|]; [|reflexivity..]. cbn [bind].
  replace (view_set (E:=rerror) (ren_fixed r {| ff_name := n; ff_ty := ty; ff_loc := loc; ff_view := v; ff_endianness := e |}) (ac_raw a) x)
    with (view_set (E:=rerror) {| ff_name := n; ff_ty := ty; ff_loc := loc; ff_view := v; ff_endianness := e |} (ac_raw a) x)
    by (destruct v; reflexivity). reflexivity.
Qed.

Lemma path_get_ren : forall m path s data, path_get (E:=rerror) m (ren_struct r s) path data = path_get m s path data.
Proof.
  intros m. induction path as [|i path IH]; intros s data; [reflexivity|]. cbn [path_get].
  rewrite ren_struct_fields, nth_error_map. destruct (nth_error (s_fields s) i) as [[f|f|n x l]|]; cbn [option_map ren_field];
    [destruct path; reflexivity..| |reflexivity]. destruct (slice data _ _) as [w|?|]; [|reflexivity..]. cbn [bind]. apply IH.
Qed.
Lemma path_set_ren : forall m path s data v, path_set (E:=rerror) m (ren_struct r s) path data v = path_set m s path data v.
Proof.
  intros m. induction path as [|i path IH]; intros s data v; [reflexivity|]. cbn [path_set].
  rewrite ren_struct_fields, nth_error_map. destruct (nth_error (s_fields s) i) as [[f|f|n x l]|]; cbn [option_map ren_field];
    [destruct path; reflexivity..| |reflexivity]. unfold update_slice. destruct (slice data _ _) as [w|?|]; [|reflexivity..].
  cbn [bind]. rewrite IH. reflexivity.
Qed.
Lemma struct_ren_access : forall s, same_access r s (ren_struct r s).
Proof.
  intros s. split; [apply ren_struct_bytes|]. rewrite ren_struct_fields. split; [apply map_length|].
  split; [intros; apply path_get_ren|]. split; [intros; apply path_set_ren|].
  intro i. rewrite nth_error_map. destruct (nth_error (s_fields s) i) as [[f|f|n x l]|]; cbn [option_map ren_field]; [| |auto|exact I].
  - split; [reflexivity|]. intros m data. split; [apply get_view_ren|intro; apply set_view_ren].
  - split; [reflexivity|]. intros m data. repeat split; reflexivity.
Qed.

Lemma read_disc_ren : forall m d on, read_discriminant m (ren_disc r d) on = read_discriminant m d on.
Proof. intros m d [[| data| | | | | |]|]; try reflexivity. cbn [read_discriminant ren_disc d_root d_index_list]. apply path_get_ren. Qed.
Lemma u_disc_ren : forall u, u_disc (ren_union r u) = ren_disc r (u_disc u).
Proof. intros []. reflexivity. Qed.
Lemma u_cases_ren : forall u, u_cases (ren_union r u) = map (ren_ucase r) (u_cases u).
Proof. intros []. reflexivity. Qed.
Lemma uc_case_ren : forall c, uc_case (ren_ucase r c) = uc_case c.
Proof. intros []. reflexivity. Qed.
Lemma uc_item_ren : forall c, uc_item (ren_ucase r c) = option_map (ren_ref r) (uc_item c).
Proof. intros [n k [x|]]; reflexivity. Qed.
Lemma find_case_ren : forall disc l i, find_case disc i (map (ren_ucase r) l) =
  option_map (fun p => (fst p, ren_ucase r (snd p))) (find_case disc i l).
Proof.
  intros disc. induction l as [|c l IH]; intro i; [reflexivity|]. cbn [map find_case]. rewrite uc_case_ren.
  destruct (disc =? uc_case c); [reflexivity|apply IH].
Qed.

Lemma read_ref_ren : forall m emb x, (forall y, x = RMessage y -> same_reader (read_msg m emb (ren_message r y)) (read_msg m emb y)) ->
  same_reader (read_ref m emb (ren_ref r x)) (read_ref m emb x).
Proof.
  intros m emb [s|x] H b; cbn [ren_ref read_ref]; [rewrite ren_struct_bytes; reflexivity|apply (H x eq_refl)].
Qed.
Lemma read_ty_ren : forall m emb e endi prev t,
  (forall y, inside t y -> same_reader (read_msg m emb (ren_message r y)) (read_msg m emb y)) ->
  same_reader (read_ty m emb e endi prev (ren_ty r t)) (read_ty m emb e endi prev t).
Proof.
  intros m emb e endi prev t H. destruct t as [ty|x| |ty|ty st|u on idx|ty z|]; cbn [ren_ty]; try (intro; reflexivity).
  - rewrite !read_ty_ref. apply read_ref_ren. intros y ->. apply H. constructor.
  - intro b. cbn [read_ty]. rewrite ren_struct_bytes. reflexivity.
  - rewrite !read_ty_union. intro b. rewrite !read_union_eq, u_disc_ren, read_disc_ren.
    destruct (read_discriminant m (u_disc u) _) as [disc|?|]; [|reflexivity..]. cbn [bind].
    rewrite u_cases_ren, find_case_ren. destruct (find_case disc 0 (u_cases u)) as [[i c]|] eqn:F; cbn [option_map fst snd]; [|reflexivity].
    rewrite uc_item_ren. destruct (uc_item c) as [x|] eqn:Ex; cbn [option_map]; [|reflexivity].
    apply find_case_in in F. destruct F as (Fin & _).
    assert (S : same_reader (read_ref m emb (ren_ref r x)) (read_ref m emb x)).
    { apply read_ref_ren. intros y ->. apply H. econstructor; eauto. }
    rewrite (S b : _ = _). reflexivity.
  - rewrite !read_ty_list. intro b. destruct e; [|reflexivity]. unfold rmap, list_from_slice.
    destruct (value_reader endi ty b) as [[k n]|?|]; [|reflexivity..]. cbn [bind].
    destruct (slice_from b k) as [d|?|]; [|reflexivity..]. cbn [bind].
    rewrite (same_loop _ m _ (read_msg m emb z)); [reflexivity|]. apply H. constructor.
Qed.
Lemma read_fields_ren : forall m emb e b fs off prev,
  (forall g y, In g fs -> inside (mf_ty g) y -> same_reader (read_msg m emb (ren_message r y)) (read_msg m emb y)) ->
  read_fields m emb e b (map (ren_mfield r) fs) off prev = read_fields m emb e b fs off prev.
Proof.
  intros m emb e b. induction fs as [|[n ty opt s endi] fs IH]; intros off prev H; [reflexivity|].
  cbn [map ren_mfield read_fields]. destruct (slice_from b off) as [d|?|]; [|reflexivity..]. cbn [bind].
  rewrite (same_optional m opt _ _ (read_ty_ren m emb e endi prev ty (fun y => H _ y (or_introl eq_refl))) d : _ = _).
  destruct (read_optional m opt _ d) as [[k v]|?|]; [|reflexivity..]. cbn [bind].
  destruct (uadd m off k); [|reflexivity..]. cbn [bind]. apply IH. intros g y Hg. apply H. right. exact Hg.
Qed.
Theorem read_ren : forall m emb x b, read_msg m emb (ren_message r x) b = read_msg m emb x b.
Proof.
  intros m emb. apply (message_ind_inside (fun x => forall b, read_msg m emb (ren_message r x) b = read_msg m emb x b)).
  intros x IH b. rewrite !read_msg_eq, message_id_ren, message_fields_ren, read_fields_ren; [reflexivity|].
  intros g y Hg Hy c. apply (IH g y Hg Hy).
Qed.

Lemma offset_field_ren : forall m emb e prev f d,
  (forall y, inside (mf_ty f) y -> forall b, read_msg_offsets m emb (ren_message r y) b = read_msg_offsets m emb y b) ->
  read_field_offsets m emb e prev (ren_mfield r f) d = read_field_offsets m emb e prev f d.
Proof.
  intros m emb e prev [n ty opt s endi] d H. unfold read_field_offsets.
  change (ren_mfield r (MkMField n ty opt s endi)) with (MkMField (r_member r n) (ren_ty r ty) opt s endi).
  cbn [mf_ty mf_optional mf_endi] in *.
  assert (G : same_reader (read_optional m opt (read_ty m emb e endi prev (ren_ty r ty))) (read_optional m opt (read_ty m emb e endi prev ty))).
  { apply same_optional, read_ty_ren. intros y _ b. apply read_ren. }
  assert (K : ('(n, v) <- read_optional m opt (read_ty m emb e endi prev (ren_ty r ty)) d ;; Ok (n, (v, @None offsets))) =
              ('(n, v) <- read_optional m opt (read_ty m emb e endi prev ty) d ;; Ok (n, (v, None)))) by (rewrite (G d : _ = _); reflexivity).
  destruct ty as [ty|[st|y]| |ty|ty st|u on idx|ty z|]; try exact K.
  change (ren_ty r (TRef (RMessage y))) with (TRef (RMessage (ren_message r y))).
  unfold optional_from_slice_with_offsets.
  destruct opt; [|rewrite H by constructor; reflexivity]. destruct (len d <? 1); [reflexivity|].
  destruct (unwrap (nth_error d 0)) as [fl|?|]; [|reflexivity..]. cbn [bind]. destruct (0 <? fl); [|reflexivity].
  destruct (slice_from d 1) as [c|?|]; [|reflexivity..]. cbn [bind]. rewrite H by constructor. reflexivity.
Qed.
Theorem offsets_ren : forall m emb x b, read_msg_offsets m emb (ren_message r x) b = read_msg_offsets m emb x b.
Proof.
  intros m emb. apply (message_ind_inside (fun x => forall b, read_msg_offsets m emb (ren_message r x) b = read_msg_offsets m emb x b)).
  intros x IH b. rewrite !read_msg_offsets_eq, message_id_ren, message_fields_ren.
  assert (G : forall fs off prev offs, incl fs (m_fields x) ->
    read_fields_offsets m emb (emb (m_id x)) b (map (ren_mfield r) fs) off prev offs =
    read_fields_offsets m emb (emb (m_id x)) b fs off prev offs).
  { induction fs as [|f fs IHfs]; intros off prev offs Hi; [reflexivity|]. cbn [map read_fields_offsets].
    destruct (slice_from b off) as [d|?|]; [|reflexivity..]. cbn [bind]. rewrite offset_field_ren.
    - destruct (read_field_offsets m emb (emb (m_id x)) prev f d) as [[k [v o]]|?|]; [|reflexivity..]. cbn [bind].
      destruct (uadd m off k); [|reflexivity..]. cbn [bind]. apply IHfs. intros g Hg. apply Hi. right. exact Hg.
    - intros y Hy. apply (IH f y); [apply Hi; left; reflexivity|exact Hy]. }
  apply G, incl_refl.
Qed.

Section Write.
Variables (m : mode) (St : Type) (w : sink St).
Definition same_writer (a b : wr St) : Prop := forall s, a s = b s.

Lemma has_items_ren : forall l, union_has_items (map (ren_ucase r) l) = union_has_items l.
Proof.
  induction l as [|c l IH]; [reflexivity|]. unfold union_has_items in *. cbn [map existsb]. rewrite IH, uc_item_ren.
  destruct (uc_item c); reflexivity.
Qed.
Lemma write_ref_ren : forall x v, (forall y, x = RMessage y -> same_writer (write_msg m w (ren_message r y) v) (write_msg m w y v)) ->
  same_writer (write_ref m w (ren_ref r x) v) (write_ref m w x v).
Proof.
  intros [s|x] v H c; [|exact (H x eq_refl c)].
  change (write_ref m w (ren_ref r (RStruct s)) v) with
    (match v with VStruct data => struct_write w (s_byte_size (ren_struct r s)) data | _ => wpanic end).
  rewrite ren_struct_bytes. reflexivity.
Qed.
Lemma write_ty_ren : forall endi all t v, (forall y, inside t y -> forall v, same_writer (write_msg m w (ren_message r y) v) (write_msg m w y v)) ->
  same_writer (write_ty m w endi all (ren_ty r t) v) (write_ty m w endi all t v).
Proof.
  intros endi all t v H. destruct t as [ty|x| |ty|ty st|u on idx|ty z|]; cbn [ren_ty]; try (intro; reflexivity).
  - change (same_writer (write_ref m w (ren_ref r x) v) (write_ref m w x v)). apply write_ref_ren. intros y ->. apply H. constructor.
  - change (same_writer (write_union m w (ren_union r u) (nth_error all idx) v) (write_union m w u (nth_error all idx) v)).
    intro s. destruct v as [| | | |k item| | |]; try (destruct u; cbn [ren_union write_union]; rewrite has_items_ren, read_disc_ren; reflexivity).
    rewrite !write_union_eq, u_disc_ren, read_disc_ren, u_cases_ren, has_items_ren.
    destruct (union_has_items (u_cases u)); [|reflexivity]. unfold wlet.
    destruct (read_discriminant m (u_disc u) (nth_error all idx)) as [disc|?|]; [|reflexivity..].
    rewrite nth_error_map. destruct (nth_error (u_cases u) k) as [c|] eqn:Ec; cbn [option_map]; [|reflexivity].
    unfold write_arm. rewrite uc_item_ren, uc_case_ren. destruct (uc_item c) as [x|] eqn:Ex; cbn [option_map]; [|reflexivity].
    destruct item as [i|]; [|reflexivity]. destruct (disc =? uc_case c); [|reflexivity].
    apply write_ref_ren. intros y ->. apply H. econstructor; [eapply nth_error_In; exact Ec|exact Ex].
Qed.
Lemma write_optional_ren : forall opt f g v, (forall v, same_writer (f v) (g v)) ->
  same_writer (write_optional w opt f v) (write_optional w opt g v).
Proof.
  intros [] f g v H s; cbn [write_optional]; [|apply H]. destruct v as [| | | | | | |[x|]]; try reflexivity.
  cbn [optional_write]. unfold wseq. destruct (put w [1] s) as [s' [u|?|]]; [apply H|reflexivity..].
Qed.
Theorem write_ren : forall x v s, write_msg m w (ren_message r x) v s = write_msg m w x v s.
Proof.
  apply (message_ind_inside (fun x => forall v s, write_msg m w (ren_message r x) v s = write_msg m w x v s)).
  intros x IH v s. destruct v as [| | | | |vs| |]; try (destruct x; reflexivity). rewrite !write_msg_eq, message_fields_ren.
  assert (G : forall fs rest, incl fs (m_fields x) ->
    same_writer (write_fields m w vs (map (ren_mfield r) fs) rest) (write_fields m w vs fs rest)).
  { induction fs as [|[n ty opt z endi] fs IHfs]; intros rest Hi c; [reflexivity|]. cbn [map ren_mfield write_fields].
    destruct rest as [|y rest]; [reflexivity|]. unfold wseq.
    rewrite (write_optional_ren opt (write_ty m w endi vs (ren_ty r ty)) (write_ty m w endi vs ty)).
    - destruct (write_optional w opt _ y c) as [c' [u|?|]]; [|reflexivity..].
      apply IHfs. intros g Hg. apply Hi. right. exact Hg.
    - intro v. apply write_ty_ren. intros q Hq u t. apply (IH (MkMField n ty opt z endi) q); [apply Hi; left; reflexivity|exact Hq]. }
  apply G, incl_refl.
Qed.
End Write.

Theorem message_ren_wire : forall x, same_wire x (ren_message r x).
Proof.
  intros x m emb. split; [intro; apply read_ren|]. split; [intro; apply offsets_ren|]. split; [intros; apply write_ren|].
  intro v. unfold size_of_msg, size_of. rewrite write_ren. reflexivity.
Qed.
Lemma set_disc_ren : forall m u k data, set_discriminant m (ren_union r u) k data = set_discriminant m u k data.
Proof.
  intros. unfold set_discriminant. rewrite u_cases_ren, u_disc_ren, nth_error_map.
  destruct (nth_error (u_cases u) k) as [c|]; [|reflexivity]. cbn [option_map unwrap bind ren_disc d_root d_index_list].
  rewrite uc_case_ren. apply path_set_ren.
Qed.

Theorem names_on_wire : forall p p', proper r -> alike r p p' ->
  (forall n x, sget n (p_messages_by_name p) = Some x ->
     exists x', sget (r_type r n) (p_messages_by_name p') = Some x' /\ same_wire x x') /\
  (forall n s, sget n (p_structs_by_name p) = Some s ->
     exists s', sget (r_type r n) (p_structs_by_name p') = Some s' /\ same_access r s s') /\
  (forall n u, sget n (p_unions_by_name p) = Some u ->
     exists u', sget (r_type r n) (p_unions_by_name p') = Some u' /\
       forall m k data, set_discriminant m u' k data = set_discriminant m u k data) /\
  (forall n e, sget n (p_enums_by_name p) = Some e ->
     exists e', sget (r_type r n) (p_enums_by_name p') = Some e' /\
       e_variants e' = map (fun kv => (r_variant r (fst kv), snd kv)) (e_variants e)).
Proof.
  intros p p' Hr (_ & _ & A3 & A4 & A5 & A6 & _). rewrite A3, A4, A5, A6.
  repeat apply conj; intros n y H; (eexists; split; [rewrite (get_ren r Hr), H; reflexivity|]).
  - apply message_ren_wire.
  - apply struct_ren_access.
  - intros. apply set_disc_ren.
  - reflexivity.
Qed.

End Run.

Theorem protocols_renamed : forall r m solver solver' w d d', proper r -> solvers_alike r solver solver' -> renamed r d d' ->
  same_outcome (fun a b => alike r (fst a) (fst b) /\ snd b = snd a)
    (protocol_from_model m solver w d) (protocol_from_model m solver' w d').
Proof. intros r m solver solver' w d d' Hr Hs Hd. exact (protocol_ren r Hr m solver solver' w d d' Hs Hd). Qed.
