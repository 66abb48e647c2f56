(** Proofs for C96: compiling a protocol whose fields have other kinds and views. *)

From Coq Require Import Arith NArith ZArith String List Bool Lia ZifyBool ZifyN ZifyNat.
From Verif Require Import Base Schema Codec Compiler Access Runtime Gen SpecStruct SpecReadable SpecWire SpecLimit LimitComp StructFacts ItemExact ReadableThms SpecKind.
Import ListNotations.
Local Open Scope N_scope.
Ltac Zify.zify_post_hook ::= idtac.

(** Both succeed only with related results. *)
Definition both {A B} (P : A -> B -> Prop) (r : cres A) (r' : cres B) : Prop :=
  match r, r' with Ok a, Ok a' => P a a' | _, _ => True end.
Lemma both_bind : forall {A A' B B'} (P : A -> A' -> Prop) (Q : B -> B' -> Prop) r r' f f', both P r r' ->
  (forall a a', r = Ok a -> r' = Ok a' -> P a a' -> both Q (f a) (f' a')) -> both Q (bind r f) (bind r' f').
Proof. intros A A' B B' P Q [a|e|] [a'|e'|] f f' H K; cbn in *; try exact I; try (destruct (f _); exact I). apply K; auto. Qed.
Lemma both_true : forall {A B} (r : cres A) (r' : cres B), both (fun _ _ => True) r r'.
Proof. intros A B [a|e|] [a'|e'|]; exact I. Qed.
Lemma both_same : forall {A} (r : cres A), both eq r r.
Proof. intros A [a|e|]; cbn; auto. Qed.
Lemma both_ok_or : forall {A B} (P : A -> B -> Prop) o o' (e e' : cerror),
  match o, o' with Some a, Some a' => P a a' | _, _ => True end -> both P (ok_or o e) (ok_or o' e').
Proof. intros A B P [a|] [a'|] e e' H; cbn in *; auto. Qed.
Lemma both_foldM : forall {S A A'} (P : S -> S -> Prop) (L : A -> A' -> Prop) f f', (forall s s' a a', P s s' -> L a a' -> both P (f s a) (f' s' a')) ->
  forall l l', Forall2 L l l' -> forall s s', P s s' -> both P (foldM f s l) (foldM f' s' l').
Proof.
  intros S A A' P L f f' K l l' F. induction F; intros s s' Hs; cbn [foldM]; [exact Hs|]. eapply both_bind; [apply K; eassumption|]. auto.
Qed.

(** ** Structures *)

Inductive like_struct : structure -> structure -> Prop :=
| like_mk : forall i n fs fs' b k, Forall2 like_field fs fs' -> like_struct (MkStructure i n fs b k) (MkStructure i n fs' b k)
with like_field : field -> field -> Prop :=
| like_fixed : forall f f', ff_name f' = ff_name f -> ff_loc f' = ff_loc f -> ff_endianness f' = ff_endianness f ->
    like_field (FFixed f) (FFixed f')
| like_array : forall f f', fa_name f' = fa_name f -> fa_loc f' = fa_loc f -> fa_endianness f' = fa_endianness f ->
    fa_array_len f' = fa_array_len f -> like_field (FArray f) (FArray f')
| like_nested : forall n s s' l, like_struct s s' -> like_field (FStruct n s l) (FStruct n s' l).

Fixpoint like_struct_refl (s : structure) : like_struct s s :=
  match s with
  | MkStructure i n fs b k => like_mk i n fs fs b k
      ((fix go (l : list field) : Forall2 like_field l l :=
          match l with [] => Forall2_nil _ | f :: r => Forall2_cons f f (like_field_refl f) (go r) end) fs)
  end
with like_field_refl (f : field) : like_field f f :=
  match f with
  | FFixed g => like_fixed g g eq_refl eq_refl eq_refl
  | FArray g => like_array g g eq_refl eq_refl eq_refl eq_refl
  | FStruct n s l => like_nested n s s l (like_struct_refl s)
  end.

Lemma forall2_nth : forall {A B} (P : A -> B -> Prop) l l', Forall2 P l l' -> forall i,
  match nth_error l i, nth_error l' i with Some a, Some b => P a b | None, None => True | _, _ => False end.
Proof. intros A B P l l' F. induction F as [|a b l l' H F IH]; intros [|i]; cbn; try exact I; [exact H|apply IH]. Qed.

Lemma like_fields_of : forall s s', like_struct s s' -> Forall2 like_field (s_fields s) (s_fields s').
Proof. intros s s' []. exact H. Qed.
Lemma like_sizes : forall s s', like_struct s s' ->
  s_id s' = s_id s /\ s_name s' = s_name s /\ s_bit_size s' = s_bit_size s /\ s_byte_size s' = s_byte_size s.
Proof. intros s s' []. cbn. auto. Qed.
Lemma like_gen : forall E f f', ff_loc f' = ff_loc f -> ff_endianness f' = ff_endianness f -> gen_fixed (E:=E) f' = gen_fixed f.
Proof. intros E f f' H1 H2. unfold gen_fixed. rewrite H1, H2. reflexivity. Qed.

Lemma update_ext : forall E data a b (f g : bytes -> outcome E bytes), (forall w, f w = g w) -> update_slice data a b f = update_slice data a b g.
Proof. intros E data a b f g H. unfold update_slice. destruct (slice data a b); cbn [bind]; [rewrite H|..]; reflexivity. Qed.

Lemma like_get : forall E (m : mode) path s s' data, like_struct s s' -> path_get (E:=E) m s' path data = path_get m s path data.
Proof.
  intros E m path. induction path as [|i rest IH]; intros s s' data H; [reflexivity|].
  pose proof (forall2_nth _ _ _ (like_fields_of _ _ H) i) as K. cbn [path_get].
  destruct (nth_error (s_fields s) i) as [f|], (nth_error (s_fields s') i) as [f'|]; try contradiction; [|reflexivity].
  destruct K as [f f' _ E1 E2|f f' _ _ _ _|n r r' l K].
  - destruct rest; [|reflexivity]. unfold get_raw. rewrite (like_gen E _ _ E1 E2). reflexivity.
  - reflexivity.
  - destruct (slice data _ _); cbn [bind]; try reflexivity. apply IH, K.
Qed.
Lemma like_set : forall E (m : mode) path s s' data v, like_struct s s' -> path_set (E:=E) m s' path data v = path_set m s path data v.
Proof.
  intros E m path. induction path as [|i rest IH]; intros s s' data v H; [reflexivity|].
  pose proof (forall2_nth _ _ _ (like_fields_of _ _ H) i) as K. cbn [path_set].
  destruct (nth_error (s_fields s) i) as [f|], (nth_error (s_fields s') i) as [f'|]; try contradiction; [|reflexivity].
  destruct K as [f f' _ E1 E2|f f' _ _ _ _|n r r' l K].
  - destruct rest; [|reflexivity]. unfold set_raw. rewrite (like_gen E _ _ E1 E2). reflexivity.
  - reflexivity.
  - apply update_ext. intro w. apply IH, K.
Qed.
Lemma like_bits : forall fs fs', Forall2 like_field fs fs' -> forall i, total_bits (firstn i fs') = total_bits (firstn i fs).
Proof.
  intros fs fs' F. induction F as [|f f' l l' H F IH]; intros [|i]; cbn [firstn total_bits]; try reflexivity. rewrite IH. f_equal.
  destruct H as [f f' _ E _|f f' _ E _ _|n r r' k K]; cbn [field_bits]; rewrite ?E; try reflexivity. apply (like_sizes _ _ K).
Qed.
Lemma like_struct_sym : forall n s s', (forall path o w, length path = n -> like_struct s s' -> (path_at s path o w <-> path_at s' path o w)).
Proof.
  induction n as [|n IH]; intros s s' path o w Hn H.
  - destruct path; [|discriminate]. split; intro K; inversion K.
  - destruct path as [|i rest]; [discriminate|]. cbn in Hn. injection Hn as Hn.
    pose proof (forall2_nth _ _ _ (like_fields_of _ _ H) i) as K. pose proof (like_bits _ _ (like_fields_of _ _ H) i) as Hb.
    split; intro P; inversion P; subst.
    + match goal with E : nth_error (s_fields s) i = _ |- _ => rewrite E in K end. destruct (nth_error (s_fields s') i) eqn:Hf; [|contradiction]. inversion K; subst. rewrite <- Hb.
      match goal with E : ff_loc _ = _ |- _ => rewrite <- E end. apply path_scalar. exact Hf.
    + match goal with E : nth_error (s_fields s) i = _ |- _ => rewrite E in K end. destruct (nth_error (s_fields s') i) eqn:Hf; [|contradiction]. inversion K; subst. rewrite <- Hb.
      eapply path_struct; [exact Hf|]. eapply (IH r); eauto.
    + match goal with E : nth_error (s_fields s') i = _ |- _ => rewrite E in K end. destruct (nth_error (s_fields s) i) eqn:Hf; [|contradiction]. inversion K; subst. rewrite Hb.
      match goal with E : ff_loc _ = _ |- _ => rewrite E end. apply path_scalar. exact Hf.
    + match goal with E : nth_error (s_fields s') i = _ |- _ => rewrite E in K end. destruct (nth_error (s_fields s) i) eqn:Hf; [|contradiction]. inversion K; subst. rewrite Hb.
      eapply path_struct; [exact Hf|]. eapply (IH _ r); eauto.
Qed.

Lemma like_layout : forall s s', like_struct s s' -> same_layout s s'.
Proof.
  intros s s' H. destruct (like_sizes _ _ H) as (_ & Hn & Hb & Hk). split; [exact Hn|]. split; [exact Hb|]. split; [exact Hk|].
  split; [intros path o w; symmetry; eapply like_struct_sym; [reflexivity|exact H]|].
  split; [intros; apply like_get, H|]. split; [intros; apply like_set, H|].
  intros i f Hf. pose proof (forall2_nth _ _ _ (like_fields_of _ _ H) i) as K. rewrite Hf in K.
  destruct (nth_error (s_fields s') i) as [f'|]; [|contradiction]. inversion K as [|g g' En El Ee Ea|]; subst. eexists; split; [reflexivity|].
  assert (Hib : forall E, item_bit_size (E:=E) g' = item_bit_size f) by (intro E; unfold item_bit_size; rewrite El, Ea; reflexivity).
  split.
  - intros E data. unfold arr_len, arr_window. rewrite Hib, El. reflexivity.
  - intros Hsz E m data p. split; [|intro v].
    + unfold arr_get, arr_window. rewrite Hib, El, Ee, Hsz. reflexivity.
    + unfold arr_set. rewrite Hib, El, Ee, Hsz. reflexivity.
Qed.

Lemma like_field_model : forall m endi enums enums' structs structs' off f f', entries_alike like_struct structs structs' -> retyped_field f f' ->
  both (fun a a' => like_field (fst a) (fst a') /\ snd a' = snd a)
    (field_from_model m endi enums structs off f) (field_from_model m endi enums' structs' off f').
Proof.
  intros m endi enums enums' structs structs' off f f' Hs (En & Ea & Hw).
  assert (Scalar : forall t t', (forall n, t <> STStruct n) -> (forall n, t' <> STStruct n) -> get_bit_size t' = get_bit_size t ->
    sf_info f = t -> sf_info f' = t' ->
    both (fun a a' => like_field (fst a) (fst a') /\ snd a' = snd a)
      (field_from_model m endi enums structs off f) (field_from_model m endi enums' structs' off f')).
  { intros t t' Ht Ht' Hb Ei Ei'.
    assert (Hf : field_from_model m endi enums structs off f =
      (bit_size0 <- ok_or (get_bit_size t) EMissingBitSize ;;
       view <- view_from_model m enums (get_simple_type t) bit_size0 (sf_view f) ;;
       bit_size <- umul m bit_size0 (match sf_array_len f with Some n => n | None => 1 end) ;;
       ty <- fixed_from_model t ;;
       let loc := location_from_model bit_size off in
       if 1 <? (match sf_array_len f with Some n => n | None => 1 end) then
         if negb (bit_size mod 8 =? 0) then Err EUnalignedArrayCodec
         else off <- uadd m off bit_size ;;
           Ok (FArray {| fa_name := sf_name f; fa_ty := ty; fa_array_len := match sf_array_len f with Some n => n | None => 1 end;
                         fa_loc := loc; fa_endianness := endi |}, off)
       else off <- uadd m off bit_size ;;
         Ok (FFixed {| ff_name := sf_name f; ff_ty := ty; ff_loc := loc; ff_view := view; ff_endianness := endi |}, off)))
      by (unfold field_from_model; rewrite Ei; destruct t; try reflexivity; destruct (Ht _ eq_refl)).
    assert (Hf' : field_from_model m endi enums' structs' off f' =
      (bit_size0 <- ok_or (get_bit_size t') EMissingBitSize ;;
       view <- view_from_model m enums' (get_simple_type t') bit_size0 (sf_view f') ;;
       bit_size <- umul m bit_size0 (match sf_array_len f' with Some n => n | None => 1 end) ;;
       ty <- fixed_from_model t' ;;
       let loc := location_from_model bit_size off in
       if 1 <? (match sf_array_len f' with Some n => n | None => 1 end) then
         if negb (bit_size mod 8 =? 0) then Err EUnalignedArrayCodec
         else off <- uadd m off bit_size ;;
           Ok (FArray {| fa_name := sf_name f'; fa_ty := ty; fa_array_len := match sf_array_len f' with Some n => n | None => 1 end;
                         fa_loc := loc; fa_endianness := endi |}, off)
       else off <- uadd m off bit_size ;;
         Ok (FFixed {| ff_name := sf_name f'; ff_ty := ty; ff_loc := loc; ff_view := view; ff_endianness := endi |}, off)))
      by (unfold field_from_model; rewrite Ei'; destruct t'; try reflexivity; destruct (Ht' _ eq_refl)).
    rewrite Hf, Hf', Hb, En, Ea. clear Hf Hf'.
    eapply both_bind; [apply both_same|]. intros n n' _ _ <-. eapply both_bind; [apply both_true|]. intros v v' _ _ _.
    eapply both_bind; [apply both_same|]. intros bs bs' _ _ <-. eapply both_bind; [apply both_true|]. intros ty ty' _ _ _. cbv zeta.
    destruct (1 <? _).
    - destruct (negb _); [exact I|]. eapply both_bind; [apply both_same|]. intros o o' _ _ <-. cbn. split; [constructor; reflexivity|reflexivity].
    - eapply both_bind; [apply both_same|]. intros o o' _ _ <-. cbn. split; [constructor; reflexivity|reflexivity]. }
  destruct (sf_info f) as [b|b|b|b|n] eqn:Ei, (sf_info f') as [b'|b'|b'|b'|n'] eqn:Ei'; cbn in Hw; try contradiction; subst;
    try (eapply Scalar; [..|reflexivity|reflexivity]; [discriminate|discriminate|reflexivity]).
  unfold field_from_model. rewrite Ei, Ei'. eapply both_bind; [apply (both_ok_or like_struct)|].
  - pose proof (alike_get like_struct n _ _ Hs) as K. destruct (sget n structs), (sget n structs'); auto.
  - intros r r' _ _ Hr. destruct (like_sizes _ _ Hr) as (_ & _ & Hb & _). rewrite Hb. eapply both_bind; [apply both_same|]. intros o o' _ _ <-.
    cbn. rewrite En. split; [constructor; exact Hr|reflexivity].
Qed.
Lemma like_fields_model : forall m endi enums enums' structs structs' l l', entries_alike like_struct structs structs' -> Forall2 retyped_field l l' ->
  forall off, both (fun a a' => Forall2 like_field (fst a) (fst a') /\ snd a' = snd a)
    (fields_from_model m endi enums structs off l) (fields_from_model m endi enums' structs' off l').
Proof.
  intros m endi enums enums' structs structs' l l' Hs F. induction F as [|f f' l l' H F IH]; intro off; cbn [fields_from_model]; [cbn; auto|].
  eapply both_bind; [apply like_field_model; eassumption|]. intros [g o] [g' o'] _ _ [Hg Ho]. cbn in Hg, Ho. subst o'.
  eapply both_bind; [apply IH|]. intros [gs q] [gs' q'] _ _ [Hgs Hq]. cbn in *. subst q'. auto.
Qed.
Lemma like_model : forall m endi enums enums' structs structs' i d d', entries_alike like_struct structs structs' -> retyped_struct d d' ->
  both like_struct (structure_from_model m endi enums structs i d) (structure_from_model m endi enums' structs' i d').
Proof.
  intros m endi enums enums' structs structs' i d d' Hs (En & F). unfold structure_from_model.
  eapply both_bind; [apply like_fields_model; eassumption|]. intros [fs o] [fs' o'] _ _ [Hf Ho]. cbn in *. subst o'. rewrite En. constructor. exact Hf.
Qed.

(** ** How a structure is put into a message *)

(** A number is put in with its storage type, a structure with its bytes. *)
Definition flat_alike (s s' : structure) : Prop :=
  match flattened s, flattened s' with
  | Some f, Some f' => get_byte_size (ff_ty f') = get_byte_size (ff_ty f)
  | Some f, None => N.of_nat (get_byte_size (ff_ty f)) = s_byte_size s'
  | None, Some f' => N.of_nat (get_byte_size (ff_ty f')) = s_byte_size s
  | None, None => True
  end.
Lemma flat_refl : forall s, flat_alike s s.
Proof. intro s. unfold flat_alike. destruct (flattened s); auto. Qed.

Lemma flat_right : forall m endi enums structs id d s, structure_from_model m endi enums structs id d = Ok s ->
  m = Debug \/ narrow d -> ~ misfit d -> forall g, flattened s = Some g -> N.of_nat (get_byte_size (ff_ty g)) = s_byte_size s.
Proof.
  intros m endi enums structs id d s H Hno Hmis g Hg.
  assert (Hone : exists f b, ss_fields d = [f] /\ get_bit_size (sf_info f) = Some b).
  { apply flattened_shape in Hg. unfold structure_from_model in H. apply bind_ok in H. destruct H as ((fs & off) & H & E). inversion E; subst s; clear E.
    cbn in Hg. subst fs. destruct (ss_fields d) as [|f l] eqn:Hd; cbn [fields_from_model] in H; [discriminate|].
    apply bind_ok in H. destruct H as ((f0 & o) & Hf & H). apply bind_ok in H. destruct H as ((fs & o2) & Hr & H). inversion H; subst; clear H.
    exists f. destruct l; [|cbn [fields_from_model] in Hr; apply bind_ok in Hr; destruct Hr as ((? & ?) & _ & Hr); apply bind_ok in Hr; destruct Hr as ((? & ?) & _ & Hr); discriminate].
    destruct (get_bit_size (sf_info f)) as [b|] eqn:Hb; [exists b; auto|]. exfalso. unfold field_from_model in Hf.
    destruct (sf_info f); cbn in Hb; try discriminate. apply bind_ok in Hf. destruct Hf as (r & _ & Hf). apply bind_ok in Hf. destruct Hf as (? & _ & Hf). discriminate. }
  destruct Hone as (f & b & Hd & Hb).
  refine (proj2 (flat_exact m endi enums structs id d s H _) Hmis g Hg).
  destruct Hno as [->|Hno]; [left; reflexivity|]. right. intros t Ht. apply (Hno f t Hd). rewrite Hd in Ht.
  cbn in Ht |- *. unfold declared_bits in *. destruct (sf_info f); cbn in Hb; try discriminate; exact Ht.
Qed.
Lemma flat_same : forall m endi enums enums' structs structs' id d s s', structure_from_model m endi enums structs id d = Ok s ->
  structure_from_model m endi enums' structs' id d = Ok s' -> like_struct s s' -> flat_alike s s'.
Proof.
  intros m endi enums enums' structs structs' id d s s' H H' Hl.
  assert (Hq : forall f f', s_fields s = [FFixed f] -> s_fields s' = [FFixed f'] -> is_transmute (ff_view f') = is_transmute (ff_view f) /\ ff_ty f' = ff_ty f).
  { intros f f' E E'. unfold structure_from_model in H, H'. apply bind_ok in H. destruct H as ((fs & off) & H & K). inversion K; subst s; clear K.
    apply bind_ok in H'. destruct H' as ((fs' & off') & H' & K). inversion K; subst s'; clear K. cbn in E, E'. subst fs fs'.
    destruct (ss_fields d) as [|df l]; cbn [fields_from_model] in H, H'; [discriminate|].
    apply bind_ok in H. destruct H as ((f0 & o) & Hf & H). apply bind_ok in H. destruct H as ((? & ?) & _ & H). inversion H; subst; clear H.
    apply bind_ok in H'. destruct H' as ((f0 & o') & Hf' & H'). apply bind_ok in H'. destruct H' as ((? & ?) & _ & H'). inversion H'; subst; clear H'.
    assert (G : forall en ss o g q, field_from_model m endi en ss o df = Ok (FFixed g, q) ->
      fixed_from_model (sf_info df) = Ok (ff_ty g) /\ is_transmute (ff_view g) = match sf_view df, get_simple_type (sf_info df), get_bit_size (sf_info df) with
        | Some _, _, _ => false
        | None, Signed, Some b => (b =? 8) || (b =? 16) || (b =? 32) || (b =? 64)
        | None, _, _ => true end).
    { intros en ss o0 g q G. unfold field_from_model in G. assert (Hns : forall n, sf_info df <> STStruct n).
      { intros n En. rewrite En in G. apply bind_ok in G. destruct G as (? & _ & G). apply bind_ok in G. destruct G as (? & _ & G). discriminate. }
      destruct (sf_info df) as [b|b|b|b|n] eqn:Ei; try (destruct (Hns _ eq_refl));
      (cbn [get_bit_size ok_or bind get_simple_type] in G; apply bind_ok in G; destruct G as (v & Hv & G);
       apply bind_ok in G; destruct G as (bs & Hbs & G); apply bind_ok in G; destruct G as (ty & Hty & G); cbv zeta in G;
       destruct (1 <? _); [destruct (negb _); [discriminate|]; apply bind_ok in G; destruct G as (? & _ & G); discriminate|];
       apply bind_ok in G; destruct G as (? & _ & G); inversion G; subst g; cbn [ff_ty ff_view]; split; [exact Hty|]; clear G Hty Hbs;
       unfold view_from_model in Hv; destruct (sf_view df) as [[nm|lo hi|mu]|]; cbn [simple_eqb negb andb] in Hv; try discriminate;
       repeat (apply bind_ok in Hv; destruct Hv as (? & _ & Hv)); cbn [get_simple_type get_bit_size];
       repeat match type of Hv with context [b =? ?k] => destruct (b =? k); cbn [negb andb orb] in Hv |- * end; try discriminate;
       repeat (apply bind_ok in Hv; destruct Hv as (? & _ & Hv)); inversion Hv; reflexivity). }
    destruct (G _ _ _ _ _ Hf) as [G1 G2], (G _ _ _ _ _ Hf') as [G3 G4]. split; [congruence|]. rewrite G1 in G3. inversion G3. reflexivity. }
  pose proof (like_fields_of _ _ Hl) as F. unfold flat_alike, flattened. destruct F as [|f f' l l' Hf F]; [exact I|].
  destruct F as [|? ? ? ? ? F].
  - destruct Hf as [f f' _ El _|f f' _ El _ _|n r r' k K]; try exact I. destruct (Hq f f') as [E1 E2]; try reflexivity.
    rewrite El, E1. destruct (_ && _); [rewrite E2|]; auto.
  - destruct f, f'; exact I.
Qed.
