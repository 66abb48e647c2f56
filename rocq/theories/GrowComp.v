(** Compiling protocols whose unions have got further cases, for C86. *)

From Coq Require Import Arith NArith ZArith String List Bool Lia.
From Verif Require Import Base Schema Compiler SpecWire StructFacts MsgFacts CompFacts SpecGrow GrowThms.
Import ListNotations.
Local Open Scope N_scope.

(** ** Further numbers *)
Section Mono.
Variables (same same1 : N -> N -> Prop).
Hypothesis sub : forall i i', same i i' -> same1 i i'.
Lemma twin_mono : forall s s', twin same s s' -> twin same1 s s'.
Proof.
  fix IH 3. intros s s' [id id' name fs fs' bytes bits S F]. constructor; [apply sub, S|].
  induction F as [|f f' fs fs' H F IHF]; constructor; [|exact IHF]. destruct H as [f|f|nm t t' loc T]; constructor. exact (IH _ _ T).
Qed.
Lemma Forall2_mono : forall A (P Q : A -> A -> Prop) l l', (forall a a', P a a' -> Q a a') -> Forall2 P l l' -> Forall2 Q l l'.
Proof. intros A P Q l l' H F. induction F; constructor; auto. Qed.
Lemma Forall2_len : forall A (P : A -> A -> Prop) l l', Forall2 P l l' -> length l = length l'.
Proof. intros A P l l' F. induction F; cbn; congruence. Qed.
Lemma disc_mono : forall d d', twin_discriminant same d d' -> twin_discriminant same1 d d'.
Proof. intros d d' (A & B & C). split; [apply twin_mono, A|]. split; [apply twin_mono, B|exact C]. Qed.
Lemma grown_mono : forall x x', grown same x x' -> grown same1 x x'.
Proof.
  fix IH 3. intros x x' [id id' name fs fs' size size' S F]. constructor; [apply sub, S|].
  induction F as [|f f' fs fs' H F IHF]; constructor; [|exact IHF]. destruct H as [nm t t' opt sz sz' endi T]. constructor.
  destruct T as [ty|t t' [s s' T|y y' T]| |ty|ty s s' T|ty y y' T|u u' on i [un d d' cs cs' more s1 s2 D C]|]; constructor.
  - constructor. apply twin_mono, T.
  - constructor. exact (IH _ _ T).
  - apply twin_mono, T.
  - exact (IH _ _ T).
  - constructor; [apply disc_mono, D|]. induction C as [|c c' cs cs' H C IHC]; constructor; [|exact IHC].
    destruct H as [cn n|cn n t t' [s s' T|y y' T]]; constructor; constructor; [apply twin_mono, T|exact (IH _ _ T)].
Qed.
Lemma ref_mono : forall t t', grown_ref same t t' -> grown_ref same1 t t'.
Proof. intros t t' [s s' T|y y' T]; constructor; [apply twin_mono, T|apply grown_mono, T]. Qed.
Lemma union_mono : forall u u', grown_union same u u' -> grown_union same1 u u'.
Proof.
  intros u u' [un d d' cs cs' more s1 s2 D C]. constructor; [apply disc_mono, D|]. eapply Forall2_mono; [|exact C].
  intros c c' [cn n|cn n t t' T]; constructor. apply ref_mono, T.
Qed.
Lemma known_mono : forall A (P Q : A -> A -> Prop) a a', (forall x x', P x x' -> Q x x') -> known_alike P a a' -> known_alike Q a a'.
Proof. intros A P Q a a' H K n. specialize (K n). destruct (sget n a), (sget n a'); auto. Qed.
Lemma protocol_mono : forall p p', grown_protocol same p p' -> grown_protocol same1 p p'.
Proof.
  intros p p' (A1 & A2 & A3 & A4 & A5 & A6 & (ss & more & A7 & A8) & A9 & A10 & A11 & A12).
  split; [exact A1|]. split; [exact A2|]. split; [exact A3|]. split; [exact A4|]. split; [exact A5|].
  split; [|split; [|split; [|split; [|split]]]].
  - intro n. specialize (A6 n). destruct (sget n (p_structs_by_name p)), (sget n (p_structs_by_name p')); try exact A6. apply twin_mono, A6.
  - exists ss, more. split; [exact A7|]. eapply Forall2_mono; [apply twin_mono|exact A8].
  - eapply known_mono; [apply grown_mono|exact A9].
  - eapply known_mono; [apply union_mono|exact A10].
  - eapply Forall2_mono; [apply grown_mono|exact A11].
  - eapply Forall2_mono; [apply union_mono|exact A12].
Qed.
Lemma imports_mono : forall r r', grown_imports same r r' -> grown_imports same1 r r'.
Proof.
  intros r r' H n. destruct (H n) as (A & B). split; [exact A|]. destruct (r_protocol r n), (r_protocol r' n); try exact B. apply protocol_mono, B.
Qed.
End Mono.

(** ** One protocol *)
Ltac unb H := let E := fresh "E" in apply bind_ok in H; destruct H as (? & E & H).
Record inv (same : N -> N -> Prop) (U : list string) (p p' : protocol) : Prop := {
  i_base : p_name p' = p_name p /\ p_endianness p' = p_endianness p /\ p_type_path_by_name p' = p_type_path_by_name p /\
    p_enums_by_name p' = p_enums_by_name p /\ p_enums p' = p_enums p;
  i_structs : forall n, match sget n (p_structs_by_name p), sget n (p_structs_by_name p') with
    | Some s, Some s' => twin same s s' | None, None => True | None, Some _ => ~ In n U | Some _, None => False end;
  i_list : exists ss more, p_structs p' = (ss ++ more)%list /\ Forall2 (twin same) (p_structs p) ss;
  i_messages : known_alike (grown same) (p_messages_by_name p) (p_messages_by_name p');
  i_unions : known_alike (grown_union same) (p_unions_by_name p) (p_unions_by_name p');
  i_ms : Forall2 (grown same) (p_messages p) (p_messages p');
  i_us : Forall2 (grown_union same) (p_unions p) (p_unions p');
  i_s : forall n, sget n (p_structs_by_name p) <> None -> In n U;
  i_e : forall n, sget n (p_enums_by_name p) <> None -> In n U;
  i_u : forall n, sget n (p_unions_by_name p) <> None -> In n U;
  i_m : forall n, sget n (p_messages_by_name p) <> None -> In n U }.
Lemma inv_grown : forall same U p p', inv same U p p' -> grown_protocol same p p'.
Proof.
  intros same U p p' [(B1 & B2 & B3 & B4 & B5) S L M Un Ms Us Is Ie Iu Im]. repeat (split; [assumption|]). split.
  - intro n. specialize (S n). destruct (sget n (p_structs_by_name p)), (sget n (p_structs_by_name p')); try exact S.
    split; [|split]; match goal with |- sget ?k ?a = None => destruct (sget k a) eqn:E; [exfalso; apply S|reflexivity] end;
      [apply Ie|apply Iu|apply Im]; congruence.
  - repeat (split; [assumption|]). assumption.
Qed.
Lemma inv_mono : forall (same same1 : N -> N -> Prop) U p p', (forall i i', same i i' -> same1 i i') -> inv same U p p' -> inv same1 U p p'.
Proof.
  intros same same1 U p p' H [B S L M Un Ms Us Is Ie Iu Im]. constructor; try assumption.
  - intro n. specialize (S n). destruct (sget n (p_structs_by_name p)), (sget n (p_structs_by_name p')); try exact S. eapply twin_mono; eassumption.
  - destruct L as (ss & more & E & F). exists ss, more. split; [exact E|]. eapply Forall2_mono; [|exact F]. apply twin_mono, H.
  - eapply known_mono; [apply grown_mono, H|exact M].
  - eapply known_mono; [apply union_mono, H|exact Un].
  - eapply Forall2_mono; [apply grown_mono, H|exact Ms].
  - eapply Forall2_mono; [apply union_mono, H|exact Us].
Qed.
Lemma known_add : forall A (R : A -> A -> Prop) a a' k x x', known_alike R a a' -> R x x' -> known_alike R (sinsert k x a) (sinsert k x' a').
Proof. intros A R a a' k x x' H Hx n. cbn [sinsert sget]. destruct (String.eqb n k); [exact Hx|apply H]. Qed.
Lemma names_add : forall A (a : smap A) U k (x : A), (forall n, sget n a <> None -> In n U) -> In k U ->
  forall n, sget n (sinsert k x a) <> None -> In n U.
Proof.
  intros A a U k x H Hk n. cbn [sinsert sget]. destruct (String.eqb n k) eqn:E; [apply String.eqb_eq in E; subst; auto|apply H].
Qed.
Lemma push_grown : forall A (R : A -> A -> Prop) (b : bool) l l' x x', Forall2 R l l' -> R x x' ->
  Forall2 R (if b then (l ++ [x])%list else l) (if b then (l' ++ [x'])%list else l').
Proof. intros A R [|] l l' x x' F H; [|exact F]. apply Forall2_app; [exact F|]. constructor; [exact H|constructor]. Qed.
Section Steps.
Variables (same : N -> N -> Prop) (U : list string).
Lemma inv_path : forall p p' k v, inv same U p p' -> inv same U (add_path p k v) (add_path p' k v).
Proof.
  intros p p' k v [(B1 & B2 & B3 & B4 & B5) S L M Un Ms Us Is Ie Iu Im]. constructor; cbn; try assumption.
  rewrite B3. auto.
Qed.
Lemma inv_imported : forall p p' k s s', inv same U p p' -> twin same s s' -> In k U ->
  inv same U (add_struct false p k s) (add_struct false p' k s').
Proof.
  intros p p' k s s' [B S L M Un Ms Us Is Ie Iu Im] T Hk. constructor; cbn [add_struct p_name p_endianness p_type_path_by_name
    p_enums_by_name p_enums p_structs_by_name p_structs p_messages_by_name p_unions_by_name p_messages p_unions]; try assumption.
  - intro n. cbn [sinsert sget]. destruct (String.eqb n k); [exact T|apply S].
  - apply names_add; assumption.
Qed.
(** No structure has been added yet. *)
Definition level (p p' : protocol) : Prop := length (p_structs p') = length (p_structs p).
Lemma inv_defined : forall p p' k s s', inv same U p p' -> level p p' -> twin same s s' -> In k U ->
  inv same U (add_struct true p k s) (add_struct true p' k s') /\ level (add_struct true p k s) (add_struct true p' k s').
Proof.
  intros p p' k s s' [B S L M Un Ms Us Is Ie Iu Im] Le T Hk. split.
  - constructor; cbn [add_struct p_name p_endianness p_type_path_by_name
      p_enums_by_name p_enums p_structs_by_name p_structs p_messages_by_name p_unions_by_name p_messages p_unions]; try assumption.
    + intro n. cbn [sinsert sget]. destruct (String.eqb n k); [exact T|apply S].
    + destruct L as (ss & more & E & F). unfold level in Le. rewrite E, app_length in Le. pose proof (Forall2_len _ _ _ _ F) as F'.
      destruct more as [|z more]; [|cbn in Le; lia]. rewrite E, app_nil_r. exists (ss ++ [s'])%list, []. rewrite app_nil_r. split; [reflexivity|].
      apply Forall2_app; [exact F|]. constructor; [exact T|constructor].
    + apply names_add; assumption.
  - unfold level in *. cbn. rewrite !app_length, Le. reflexivity.
Qed.
Lemma inv_further : forall p p' k s', inv same U p p' -> ~ In k U -> inv same U p (add_struct true p' k s').
Proof.
  intros p p' k s' [B S L M Un Ms Us Is Ie Iu Im] Hk. constructor; cbn [add_struct p_name p_endianness p_type_path_by_name
      p_enums_by_name p_enums p_structs_by_name p_structs p_messages_by_name p_unions_by_name p_messages p_unions]; try assumption.
  - intro n. cbn [sinsert sget]. destruct (String.eqb n k) eqn:E; [|apply S]. apply String.eqb_eq in E. subst n.
    destruct (sget k (p_structs_by_name p)) eqn:E; [|exact Hk]. exfalso. apply Hk, Is. congruence.
  - destruct L as (ss & more & E & F). exists ss, (more ++ [s'])%list. split; [rewrite E, app_assoc; reflexivity|exact F].
Qed.
Lemma inv_enum : forall b p p' k e, inv same U p p' -> In k U -> inv same U (add_enum b p k e) (add_enum b p' k e).
Proof.
  intros b p p' k e [(B1 & B2 & B3 & B4 & B5) S L M Un Ms Us Is Ie Iu Im] Hk. constructor; cbn [add_enum p_name p_endianness p_type_path_by_name
      p_enums_by_name p_enums p_structs_by_name p_structs p_messages_by_name p_unions_by_name p_messages p_unions]; try assumption.
  - rewrite B4, B5. auto.
  - apply names_add; assumption.
Qed.
Lemma inv_union : forall b p p' k u u', inv same U p p' -> grown_union same u u' -> In k U -> inv same U (add_union b p k u) (add_union b p' k u').
Proof.
  intros b p p' k e e' [B S L M Un Ms Us Is Ie Iu Im] T Hk. constructor; cbn [add_union p_name p_endianness p_type_path_by_name
      p_enums_by_name p_enums p_structs_by_name p_structs p_messages_by_name p_unions_by_name p_messages p_unions]; try assumption.
  - apply known_add; assumption.
  - apply push_grown; assumption.
  - apply names_add; assumption.
Qed.
Lemma inv_message : forall b p p' k u u', inv same U p p' -> grown same u u' -> In k U -> inv same U (add_message b p k u) (add_message b p' k u').
Proof.
  intros b p p' k e e' [B S L M Un Ms Us Is Ie Iu Im] T Hk. constructor; cbn [add_message p_name p_endianness p_type_path_by_name
      p_enums_by_name p_enums p_structs_by_name p_structs p_messages_by_name p_unions_by_name p_messages p_unions]; try assumption.
  - apply known_add; assumption.
  - apply push_grown; assumption.
  - apply names_add; assumption.
Qed.
Lemma inv_empty : forall n, inv same U (protocol_empty n) (protocol_empty n).
Proof.
  intro n. constructor; cbn; try (intros; congruence); try (intro; exact I).
  - auto.
  - exists [], []. split; [reflexivity|constructor].
  - constructor.
  - constructor.
Qed.

Lemma twin_name : forall s s', twin same s s' -> s_name s' = s_name s.
Proof. intros s s' []. reflexivity. Qed.
Lemma grown_name : forall s s', grown same s s' -> m_name s' = m_name s.
Proof. intros s s' []. reflexivity. Qed.
Lemma union_name : forall s s', grown_union same s s' -> u_name s' = u_name s.
Proof. intros s s' []. reflexivity. Qed.

(** *** Imports *)
Lemma import_grown : forall solver solver' p p' v q q', grown_imports same solver solver' -> inv same U p p' -> level p p' -> In (si_type v) U ->
  import_one solver p v = Ok q -> import_one solver' p' v = Ok q' -> inv same U q q' /\ level q q'.
Proof.
  intros solver solver' p p' v q q' G J Le Hv A B. unfold import_one in A, B. destruct (G (si_protocol v)) as (G1 & G2).
  unb A. unb B. apply ok_or_ok in E. apply ok_or_ok in E0. rewrite E, E0 in G2.
  destruct G2 as (_ & _ & _ & G3 & _ & G4 & _ & G5 & G6 & _). rewrite G1, G3 in B.
  specialize (G4 (si_type v)). specialize (G5 (si_type v)). specialize (G6 (si_type v)).
  destruct (r_path solver (si_protocol v) (si_type v)) as [path|]; cbn [ok_or bind] in A, B.
  2:{ destruct (sget _ (p_structs_by_name x)); [discriminate|]. destruct (sget _ (p_enums_by_name x)); [discriminate|].
      destruct (sget _ (p_unions_by_name x)); [discriminate|]. destruct (sget _ (p_messages_by_name x)); discriminate. }
  destruct (sget (si_type v) (p_structs_by_name x)) as [s|], (sget (si_type v) (p_structs_by_name x0)) as [s'|]; try contradiction.
  - cbn [bind] in A, B. inversion A; inversion B; subst. rewrite (twin_name _ _ G4). split; [apply inv_path, inv_imported; assumption|exact Le].
  - destruct G4 as (Z1 & Z2 & Z3). rewrite Z1, Z2, Z3 in A. discriminate.
  - destruct (sget (si_type v) (p_enums_by_name x)) as [e|].
    { cbn [bind] in A, B. inversion A; inversion B; subst. split; [apply inv_path, inv_enum; assumption|exact Le]. }
    destruct (sget (si_type v) (p_unions_by_name x)) as [u|], (sget (si_type v) (p_unions_by_name x0)) as [u'|]; try contradiction.
    { cbn [bind] in A, B. inversion A; inversion B; subst. rewrite (union_name _ _ G6). split; [apply inv_path, inv_union; assumption|exact Le]. }
    destruct (sget (si_type v) (p_messages_by_name x)) as [u|], (sget (si_type v) (p_messages_by_name x0)) as [u'|]; try contradiction; [|discriminate].
    cbn [ok_or bind] in A, B. inversion A; inversion B; subst. rewrite (grown_name _ _ G5). split; [apply inv_path, inv_message; assumption|exact Le].
Qed.

(** *** Structures *)
Lemma twin_bits : forall s s', twin same s s' -> s_bit_size s' = s_bit_size s.
Proof. intros s s' []. reflexivity. Qed.
Lemma field_grown : forall m endi enums structs structs' off v f o f' o',
  (forall n s, sget n structs = Some s -> exists s', sget n structs' = Some s' /\ twin same s s') ->
  field_from_model m endi enums structs off v = Ok (f, o) -> field_from_model m endi enums structs' off v = Ok (f', o') ->
  twin_field same f f' /\ o' = o.
Proof.
  intros m endi enums structs structs' off v f o f' o' H A B. unfold field_from_model in A, B.
  destruct (sf_info v) as [t|t|t|t|t]; [| | | |unb A; unb B; unb A; unb B; apply ok_or_ok in E; apply ok_or_ok in E0].
  5:{ destruct (H _ _ E) as (s' & Es & T). rewrite E0 in Es. inversion Es; subst. pose proof (twin_bits _ _ T) as Tb. rewrite Tb in *.
      inversion A; inversion B; subst. split; [constructor; exact T|congruence]. }
  all: rewrite A in B; inversion B; subst; clear B; (split; [|reflexivity]).
  all: unb A; unb A; unb A; unb A; match type of A with (if ?c then _ else _) = _ => destruct c end;
    [match type of A with (if ?c then _ else _) = _ => destruct c; [discriminate|] end|]; unb A; inversion A; subst; constructor.
Qed.
Lemma fields_grown : forall m endi enums structs structs', 
  (forall n s, sget n structs = Some s -> exists s', sget n structs' = Some s' /\ twin same s s') ->
  forall l off fs o fs' o', fields_from_model m endi enums structs off l = Ok (fs, o) -> fields_from_model m endi enums structs' off l = Ok (fs', o') ->
  Forall2 (twin_field same) fs fs' /\ o' = o.
Proof.
  intros m endi enums structs structs' H. induction l as [|v l IH]; intros off fs o fs' o' A B; cbn [fields_from_model] in A, B.
  - inversion A; inversion B; subst. split; [constructor|congruence].
  - apply bind_ok in A. destruct A as ([f o1] & A1 & A). apply bind_ok in A. destruct A as ([fs1 o2] & A2 & A).
    apply bind_ok in B. destruct B as ([f' o1'] & B1 & B). apply bind_ok in B. destruct B as ([fs1' o2'] & B2 & B).
    destruct (field_grown _ _ _ _ _ _ _ _ _ _ _ H A1 B1) as (T & ->). destruct (IH _ _ _ _ _ A2 B2) as (F & ->).
    inversion A; inversion B; subst. split; [constructor; assumption|reflexivity].
Qed.
Lemma structs_found : forall p p', inv same U p p' -> forall n s, sget n (p_structs_by_name p) = Some s ->
  exists s', sget n (p_structs_by_name p') = Some s' /\ twin same s s'.
Proof.
  intros p p' J n s H. pose proof (i_structs _ _ _ _ J n) as S. rewrite H in S. destruct (sget n (p_structs_by_name p')) as [s'|]; [eauto|contradiction].
Qed.
Lemma structure_grown : forall m p p' id id' v s s', inv same U p p' -> same id id' ->
  structure_from_model m (p_endianness p) (p_enums_by_name p) (p_structs_by_name p) id v = Ok s ->
  structure_from_model m (p_endianness p') (p_enums_by_name p') (p_structs_by_name p') id' v = Ok s' -> twin same s s'.
Proof.
  intros m p p' id id' v s s' J Hi A B. destruct (i_base _ _ _ _ J) as (_ & E2 & _ & E4 & _). rewrite E2, E4 in B.
  unfold structure_from_model in A, B. apply bind_ok in A. destruct A as ([fs o] & A1 & A). apply bind_ok in B. destruct B as ([fs' o'] & B1 & B).
  destruct (fields_grown _ _ _ _ _ (structs_found _ _ J) _ _ _ _ _ _ A1 B1) as (F & ->). inversion A; inversion B; subst. constructor; assumption.
Qed.

(** *** Unions *)
Lemma lookup_grown : forall p p', inv same U p p' -> forall n t,
  referenced_lookup (p_structs_by_name p) (p_messages_by_name p) n = Some t ->
  exists t', referenced_lookup (p_structs_by_name p') (p_messages_by_name p') n = Some t' /\ grown_ref same t t'.
Proof.
  intros p p' J n t H. unfold referenced_lookup in *. pose proof (i_structs _ _ _ _ J n) as S. pose proof (i_messages _ _ _ _ J n) as M.
  pose proof (i_m _ _ _ _ J n) as N1.
  destruct (sget n (p_structs_by_name p)) as [s|], (sget n (p_structs_by_name p')) as [s'|]; try contradiction.
  - inversion H; subst. eexists. split; [reflexivity|]. constructor. exact S.
  - destruct (sget n (p_messages_by_name p)); [|discriminate]. exfalso. apply S, N1. discriminate.
  - destruct (sget n (p_messages_by_name p)) as [y|], (sget n (p_messages_by_name p')) as [y'|]; try contradiction; [|discriminate].
    inversion H; subst. eexists. split; [reflexivity|]. constructor. exact M.
Qed.
Lemma find_grown : forall nm fs fs', Forall2 (twin_field same) fs fs' -> forall i,
  match find_field nm i fs, find_field nm i fs' with
  | Some (k, f), Some (k', f') => k' = k /\ twin_field same f f'
  | None, None => True
  | _, _ => False
  end.
Proof.
  intros nm fs fs' F. induction F as [|f f' fs fs' H F IH]; intro i; [exact I|]. cbn [find_field].
  assert (E : field_name f' = field_name f) by (destruct H; reflexivity). rewrite E. destruct (String.eqb (field_name f) nm); [|apply IH]. auto.
Qed.
Lemma walk_grown : forall nm parts leaf leaf' idx r idx1 r' idx1', twin same leaf leaf' ->
  disc_walk nm leaf idx parts = Ok (r, idx1) -> disc_walk nm leaf' idx parts = Ok (r', idx1') -> twin same r r' /\ idx1' = idx1.
Proof.
  intros nm. induction parts as [|sub parts IH]; intros leaf leaf' idx r idx1 r' idx1' T A B; cbn [disc_walk] in A, B.
  - inversion A; inversion B; subst. split; [assumption|congruence].
  - apply bind_ok in A. destruct A as ([k f] & A1 & A). apply bind_ok in B. destruct B as ([k' f'] & B1 & B).
    apply ok_or_ok in A1. apply ok_or_ok in B1.
    assert (F : Forall2 (twin_field same) (s_fields leaf) (s_fields leaf')) by (destruct T; assumption).
    pose proof (find_grown sub _ _ F 0%nat) as Q. rewrite A1, B1 in Q. destruct Q as (-> & Q).
    destruct Q as [g|g|n2 s2 s2' loc T2]; [|discriminate|].
    + inversion A; inversion B; subst. auto.
    + eapply IH; eassumption.
Qed.
Lemma disc_grown : forall p p' v d d', inv same U p p' -> disc_from_model (p_structs_by_name p) v = Ok d ->
  disc_from_model (p_structs_by_name p') v = Ok d' -> twin_discriminant same d d'.
Proof.
  intros p p' v d d' J A B. unfold disc_from_model in A, B. destruct (split_dot v) as [nm parts].
  unb A. unb B. apply ok_or_ok in E. apply ok_or_ok in E0. destruct (structs_found _ _ J _ _ E) as (s' & Es & T).
  assert (x0 = s') by congruence. subst x0.
  apply bind_ok in A. destruct A as ([l idx] & A1 & A). apply bind_ok in B. destruct B as ([l' idx'] & B1 & B).
  destruct (walk_grown _ _ _ _ _ _ _ _ _ T A1 B1) as (T2 & ->). unb A. unb B. rewrite E1 in E2. inversion E2; subst.
  inversion A; inversion B; subst. repeat split; assumption.
Qed.
Lemma leaf_grown : forall d d' (f f' : fixed_field), twin_discriminant same d d' -> get_leaf (E:=cerror) d = Ok f -> get_leaf (E:=cerror) d' = Ok f' -> f' = f.
Proof.
  intros d d' f f' (_ & T & E & _) A B. unfold get_leaf in A, B. rewrite E in B.
  assert (F : Forall2 (twin_field same) (s_fields (d_leaf d)) (s_fields (d_leaf d'))) by (destruct T; assumption).
  pose proof (twin_nth same _ _ (d_leaf_index d) F) as Q.
  destruct (nth_error (s_fields (d_leaf d)) (d_leaf_index d)) as [g|]; [|discriminate].
  destruct (nth_error (s_fields (d_leaf d')) (d_leaf_index d)) as [g'|]; [|discriminate].
  cbn [unwrap bind] in A, B. destruct Q; cbn in A, B; congruence.
Qed.
Lemma case_grown : forall p p' f v c c', inv same U p p' -> ucase_from_model (p_structs_by_name p) (p_messages_by_name p) f v = Ok c ->
  ucase_from_model (p_structs_by_name p') (p_messages_by_name p') f v = Ok c' -> grown_case same c c'.
Proof.
  intros p p' f v c c' J A B. unfold ucase_from_model in A, B. unb A. unb B. rewrite E in E0. inversion E0; subst x0.
  unb A. unb B. inversion A; inversion B; subst. destruct (su_item_type v) as [n|].
  - unb E1. unb E2. apply ok_or_ok in E3. apply ok_or_ok in E4. destruct (lookup_grown _ _ J _ _ E3) as (t' & Et & G).
    rewrite Et in E4. inversion E4; subst. inversion E1; inversion E2; subst. constructor. exact G.
  - inversion E1; inversion E2; subst. constructor.
Qed.
Lemma cases_grown : forall p p' d d' more, inv same U p p' -> twin_discriminant same d d' -> forall l cs cs',
  ucases_from_model (p_structs_by_name p) (p_messages_by_name p) d l = Ok cs ->
  ucases_from_model (p_structs_by_name p') (p_messages_by_name p') d' (l ++ more) = Ok cs' ->
  exists cs0 new, cs' = (cs0 ++ new)%list /\ Forall2 (grown_case same) cs cs0.
Proof.
  intros p p' d d' more J D. induction l as [|v l IH]; intros cs cs' A B; cbn [ucases_from_model app] in A, B.
  - inversion A; subst. exists [], cs'. split; [reflexivity|constructor].
  - unb A. unb B. unb A. unb B. unb A. unb B. inversion A; inversion B; subst.
    rewrite (leaf_grown _ _ _ _ D E E0) in *. destruct (IH _ _ E3 E4) as (cs0 & new & -> & F).
    exists (x2 :: cs0), new. split; [reflexivity|]. constructor; [eapply case_grown; eassumption|exact F].
Qed.
Lemma union_grown : forall p p' v v' u u', inv same U p p' -> union_extended v v' ->
  union_from_model (p_structs_by_name p) (p_messages_by_name p) v = Ok u ->
  union_from_model (p_structs_by_name p') (p_messages_by_name p') v' = Ok u' -> grown_union same u u'.
Proof.
  intros p p' v v' u u' J (E1 & E2 & more & E3) A B. unfold union_from_model in A, B. rewrite E2, E3 in B.
  unb A. unb B. pose proof (disc_grown _ _ _ _ _ J E E0) as D. unb A. unb B.
  destruct (cases_grown _ _ _ _ _ J D _ _ _ E4 E5) as (cs0 & new & -> & F). inversion A; inversion B; subst. rewrite E1.
  constructor; assumption.
Qed.

(** *** Messages *)
Lemma flat_grown : forall s s', twin same s s' -> flattened s' = flattened s.
Proof.
  intros s s' T. destruct T as [id id' name fs fs' bytes bits _ F]. unfold flattened. cbn [s_fields].
  inversion F as [|f f' l l' H F2]; subst; [reflexivity|]. inversion F2; subst; destruct H; reflexivity.
Qed.
Lemma find_member_grown : forall nm fs fs', Forall2 (grown_field same) fs fs' -> forall i,
  match find_mfield nm i fs, find_mfield nm i fs' with
  | Some (k, f), Some (k', f') => k' = k /\ grown_field same f f'
  | None, None => True
  | _, _ => False
  end.
Proof.
  intros nm fs fs' F. induction F as [|f f' fs fs' H F IH]; intro i; [exact I|]. cbn [find_mfield].
  assert (E : mf_name f' = mf_name f) by (destruct H; reflexivity). rewrite E. destruct (String.eqb (mf_name f) nm); [|apply IH]. auto.
Qed.
Definition env_of (p : protocol) : proto_env := {| pe_endianness := p_endianness p; pe_structs := p_structs_by_name p;
        pe_messages := p_messages_by_name p; pe_unions := p_unions_by_name p |}.
Lemma mfield_grown : forall p p' fs fs' v f mk f' mk', inv same U p p' -> Forall2 (grown_field same) fs fs' ->
  mfield_from_model (env_of p) fs v = Ok (f, mk) -> mfield_from_model (env_of p') fs' v = Ok (f', mk') ->
  grown_field same f f' /\ Forall2 same mk mk'.
Proof.
  intros p p' fs fs' v f mk f' mk' J F A B. unfold mfield_from_model in A, B. cbn [env_of pe_endianness pe_structs pe_messages pe_unions] in A, B.
  destruct (i_base _ _ _ _ J) as (_ & Ee & _). rewrite Ee in B. destruct (smf_info v) as [n|mx n|[mx|]| |on n].
  - unb A. unb B. apply ok_or_ok in E. apply ok_or_ok in E0. destruct (lookup_grown _ _ J _ _ E) as (t' & Et & G).
    assert (x0 = t') by congruence. subst x0. destruct G as [s s' T|y y' T].
    + rewrite (flat_grown _ _ T) in B. destruct (flattened s); inversion A; inversion B; subst; split; repeat constructor. exact T.
    + inversion A; inversion B; subst; split; repeat constructor. exact T.
  - unb A. unb B. apply ok_or_ok in E. apply ok_or_ok in E0. destruct (lookup_grown _ _ J _ _ E) as (t' & Et & G).
    assert (x0 = t') by congruence. subst x0. unb A. unb B. rewrite E1 in E2. inversion E2; subst. destruct G as [s s' T|y y' T].
    + inversion A; inversion B; subst; split; repeat constructor. exact T.
    + inversion A; inversion B; subst; split; repeat constructor; [exact T|]. destruct T; assumption.
  - unb A. unb B. rewrite E in E0. inversion E0; inversion A; inversion B; subst. split; repeat constructor.
  - inversion A; inversion B; subst. split; repeat constructor.
  - inversion A; inversion B; subst. split; repeat constructor.
  - apply bind_ok in A. destruct A as ([k g] & A1 & A). apply bind_ok in B. destruct B as ([k' g'] & B1 & B).
    apply ok_or_ok in A1. apply ok_or_ok in B1. pose proof (find_member_grown on _ _ F 0%nat) as Q. rewrite A1, B1 in Q. destruct Q as (-> & Q).
    unb A. unb B. apply ok_or_ok in E. apply ok_or_ok in E0. pose proof (i_unions _ _ _ _ J n) as Z. rewrite E, E0 in Z.
    destruct Q as [nm t t' opt sz sz' endi T]. cbn [mf_ty mf_name] in A, B. destruct t as [|[s|]| | | | | |]; try discriminate.
    inversion T as [|? ? R| | | | | |]; subst. inversion R; subst.
    destruct (_ =? _); [|discriminate]. destruct (_ =? _) in B; [|discriminate]. inversion A; inversion B; subst. split; repeat constructor. exact Z.
Qed.
Lemma mfields_grown : forall p p', inv same U p p' -> forall l fs fs' mk mk' dc dyn dc' dyn' gs c1 d1 m1 gs' c1' d1' m1',
  Forall2 (grown_field same) fs fs' -> Forall2 same mk mk' ->
  mfields_from_model (env_of p) fs dc dyn mk l = Ok (gs, c1, d1, m1) -> mfields_from_model (env_of p') fs' dc' dyn' mk' l = Ok (gs', c1', d1', m1') ->
  Forall2 (grown_field same) gs gs' /\ Forall2 same m1 m1'.
Proof.
  intros p p' J. induction l as [|v l IH]; intros fs fs' mk mk' dc dyn dc' dyn' gs c1 d1 m1 gs' c1' d1' m1' F K A B; cbn [mfields_from_model] in A, B.
  - inversion A; inversion B; subst. auto.
  - apply bind_ok in A. destruct A as ([f k] & A1 & A). apply bind_ok in B. destruct B as ([f' k'] & B1 & B).
    destruct (mfield_grown _ _ _ _ _ _ _ _ _ J F A1 B1) as (G & S). cbv zeta in A, B.
    destruct (_ && _) in A; [discriminate|]. destruct (_ && _) in B; [discriminate|].
    destruct (_ <? _) in A; [discriminate|]. destruct (1 <? _) in B; [discriminate|].
    eapply IH; [| |exact A|exact B]; apply Forall2_app; try assumption. constructor; [exact G|constructor].
Qed.
Lemma message_grown : forall p p' id id' v x mk x' mk', inv same U p p' -> same id id' ->
  message_from_model (env_of p) id v = Ok (x, mk) -> message_from_model (env_of p') id' v = Ok (x', mk') -> grown same x x' /\ Forall2 same mk mk'.
Proof.
  intros p p' id id' v x mk x' mk' J Hi A B. unfold message_from_model in A, B.
  apply bind_ok in A. destruct A as ([[[fs c] d] k] & A1 & A). apply bind_ok in B. destruct B as ([[[fs' c'] d'] k'] & B1 & B).
  destruct (mfields_grown _ _ J _ _ _ _ _ _ _ _ _ _ _ _ _ _ _ _ _ (Forall2_nil _) (Forall2_nil _) A1 B1) as (F & K).
  inversion A; inversion B; subst. split; [constructor; assumption|exact K].
Qed.
End Steps.

(** *** The whole protocol *)
Lemma foldM_two : forall A B S S' (Q : A -> B -> Prop) (R : S -> S' -> Prop) (f : S -> A -> cres S) (g : S' -> B -> cres S') l l',
  Forall2 Q l l' -> (forall a b s s' t t', In a l -> Q a b -> R s s' -> f s a = Ok t -> g s' b = Ok t' -> R t t') ->
  forall s s' t t', R s s' -> foldM f s l = Ok t -> foldM g s' l' = Ok t' -> R t t'.
Proof.
  intros A B S S' Q R f g l l' F. induction F as [|a b l l' H F IH]; intros X s s' t t' Hr H1 H2; cbn [foldM] in H1, H2.
  - inversion H1; inversion H2; subst. exact Hr.
  - apply bind_ok in H1. destruct H1 as (s1 & H1 & H1'). apply bind_ok in H2. destruct H2 as (s1' & H2 & H2').
    eapply IH; [|eapply X; [left; reflexivity|exact H|exact Hr|exact H1|exact H2]|exact H1'|exact H2'].
    intros a0 b0 s0 s0' t0 t0' Hin. apply X. right. exact Hin.
Qed.
Lemma Forall2_eq : forall A (l : list A), Forall2 eq l l.
Proof. induction l; constructor; auto. Qed.
Lemma foldM_app : forall E A S (f : S -> A -> outcome E S) l1 l2 s t, foldM f s (l1 ++ l2) = Ok t -> exists u, foldM f s l1 = Ok u /\ foldM f u l2 = Ok t.
Proof.
  intros E A S f. induction l1 as [|a l1 IH]; intros l2 s t H; cbn [foldM app] in *; [eauto|].
  apply bind_ok in H. destruct H as (u & H1 & H2). rewrite H1. cbn [bind]. apply IH, H2.
Qed.
Definition add_pair (same : N -> N -> Prop) (a a' : N) (i i' : N) : Prop := same i i' \/ i = a /\ i' = a'.
Lemma numbers_step : forall same w w', numbers_alike same w w' ->
  numbers_alike (add_pair same (w_next w) (w_next w')) {| w_next := w_next w + 1; w_embedded := w_embedded w |}
    {| w_next := w_next w' + 1; w_embedded := w_embedded w' |}.
Proof.
  intros same w w' (B & B' & I & H). unfold numbers_alike, add_pair. cbn [w_next w_embedded].
  split; [intros i Hi; specialize (B i Hi); lia|]. split; [intros i Hi; specialize (B' i Hi); lia|]. split.
  - intros i i' j j' [H1|(-> & ->)] [H2|(-> & ->)].
    + apply I; assumption.
    + specialize (H _ _ H1). lia.
    + specialize (H _ _ H2). lia.
    + split; reflexivity.
  - intros i i' [H1|(-> & ->)].
    + destruct (H _ _ H1) as (A1 & A2 & A3). split; [lia|]. split; [lia|exact A3].
    + split; [lia|]. split; [lia|]. split; intro Hi; [specialize (B _ Hi)|specialize (B' _ Hi)]; lia.
Qed.
Lemma marks_step : forall same w w' mk mk', numbers_alike same w w' -> Forall2 same mk mk' ->
  numbers_alike same {| w_next := w_next w; w_embedded := (w_embedded w ++ mk)%list |} {| w_next := w_next w'; w_embedded := (w_embedded w' ++ mk')%list |}.
Proof.
  intros same w w' mk mk' (B & B' & I & H) F. unfold numbers_alike. cbn [w_next w_embedded].
  assert (L : forall i, In i mk -> exists i', In i' mk' /\ same i i').
  { clear - F. induction F as [|a b l l' S F IH]; intros i [<- | Hi] || intros i []; [exists b; split; [left; reflexivity|exact S]|].
    destruct (IH _ Hi) as (i' & A1 & A2). exists i'. split; [right; exact A1|exact A2]. }
  assert (R : forall i', In i' mk' -> exists i, In i mk /\ same i i').
  { clear - F. induction F as [|a b l l' S F IH]; intros i [<- | Hi] || intros i []; [exists a; split; [left; reflexivity|exact S]|].
    destruct (IH _ Hi) as (i' & A1 & A2). exists i'. split; [right; exact A1|exact A2]. }
  split; [|split; [|split]].
  - intros i Hi. apply in_app_or in Hi. destruct Hi as [Hi|Hi]; [apply B, Hi|]. destruct (L _ Hi) as (i' & _ & S). apply (H _ _ S).
  - intros i Hi. apply in_app_or in Hi. destruct Hi as [Hi|Hi]; [apply B', Hi|]. destruct (R _ Hi) as (i' & _ & S). apply (H _ _ S).
  - exact I.
  - intros i i' S. destruct (H _ _ S) as (A1 & A2 & A3). split; [exact A1|]. split; [exact A2|]. rewrite !in_app_iff, A3. split; intros [Z|Z]; auto; right.
    + destruct (L _ Z) as (j' & Hj & Sj). replace i' with j'; [exact Hj|]. apply (I i j' i i' Sj S). reflexivity.
    + destruct (R _ Z) as (j & Hj & Sj). replace i with j; [exact Hj|]. apply (I j i' i i' Sj S). reflexivity.
Qed.
Section Whole.
Variables (m : mode) (same0 : N -> N -> Prop) (U : list string).
Definition together (a a' : protocol * world) : Prop := exists same : N -> N -> Prop, (forall i i', same0 i i' -> same i i') /\
  numbers_alike same (snd a) (snd a') /\ inv same U (fst a) (fst a').
Lemma struct_step : forall a a' v b b', In (ss_name v) U -> together a a' -> level (fst a) (fst a') ->
  define_struct m a v = Ok b -> define_struct m a' v = Ok b' -> together b b' /\ level (fst b) (fst b').
Proof.
  intros [p w] [p' w'] v b b' Hv (same & Hs & Hn & J) Le A B. unfold define_struct in A, B. cbn [fst snd] in *.
  unb A. unb B. inversion A; inversion B; subst. clear A B. set (same1 := add_pair same (w_next w) (w_next w')).
  assert (M1 : forall i i', same i i' -> same1 i i') by (intros i i' S; left; exact S).
  pose proof (inv_mono _ _ _ _ _ M1 J) as J1.
  pose proof (structure_grown _ _ _ _ _ _ _ _ _ _ J1 (or_intror (conj eq_refl eq_refl)) E E0) as T.
  assert (En : s_name x = ss_name v) by (unfold structure_from_model in E; apply bind_ok in E; destruct E as ([? ?] & _ & E); inversion E; reflexivity).
  rewrite (twin_name _ _ _ T). cbn [fst snd]. assert (Hk : In (s_name x) U) by (rewrite En; exact Hv).
  destruct (inv_defined _ _ _ _ _ _ _ J1 Le T Hk) as (J2 & L2). split; [|exact L2].
  exists same1. split; [intros i i' S; left; apply Hs, S|]. split; [apply numbers_step; exact Hn|exact J2].
Qed.
Lemma further_step : forall a a' v b', ~ In (ss_name v) U -> together a a' -> define_struct m a' v = Ok b' -> together a b'.
Proof.
  intros [p w] [p' w'] v b' Hv (same & Hs & Hn & J) B. unfold define_struct in B. cbn [fst snd] in *. unb B. inversion B; subst.
  assert (En : s_name x = ss_name v) by (unfold structure_from_model in E; apply bind_ok in E; destruct E as ([? ?] & _ & E); inversion E; reflexivity).
  exists same. split; [exact Hs|]. cbn [fst snd]. split; [|apply inv_further; [exact J|rewrite En; exact Hv]].
  destruct Hn as (A1 & A2 & A3 & A4). split; [exact A1|]. cbn [w_next w_embedded]. split; [intros i Hi; specialize (A2 i Hi); lia|].
  split; [exact A3|]. intros i i' S. specialize (A4 i i' S). split; [apply A4|]. split; [lia|apply A4].
Qed.
Lemma message_step : forall a a' v b b', In (sm_name v) U -> together a a' ->
  define_message a v = Ok b -> define_message a' v = Ok b' -> together b b'.
Proof.
  intros [p w] [p' w'] v b b' Hv (same & Hs & Hn & J) A B. unfold define_message in A, B. cbn [fst snd] in *.
  apply bind_ok in A. destruct A as ([x mk] & A1 & A). apply bind_ok in B. destruct B as ([x' mk'] & B1 & B). inversion A; inversion B; subst. clear A B.
  set (same1 := add_pair same (w_next w) (w_next w')).
  assert (M1 : forall i i', same i i' -> same1 i i') by (intros i i' S; left; exact S).
  pose proof (inv_mono _ _ _ _ _ M1 J) as J1.
  destruct (message_grown same1 U p p' (w_next w) (w_next w') v x mk x' mk' J1 (or_intror (conj eq_refl eq_refl)) A1 B1) as (G & K).
  assert (En : m_name x = sm_name v) by (unfold message_from_model in A1; apply bind_ok in A1; destruct A1 as ([[[? ?] ?] ?] & _ & A1); inversion A1; reflexivity).
  rewrite (grown_name _ _ _ G), En. exists same1. split; [intros i i' S; left; apply Hs, S|]. cbn [fst snd].
  split; [exact (marks_step _ _ _ _ _ (numbers_step _ _ _ Hn) K)|]. apply inv_message; assumption.
Qed.
Theorem compile_grown : forall solver solver' w w' d d' p w1 p' w1', U = names_in_use d -> cases_added d d' ->
  numbers_alike same0 w w' -> grown_imports same0 solver solver' ->
  protocol_from_model m solver w d = Ok (p, w1) -> protocol_from_model m solver' w' d' = Ok (p', w1') -> together (p, w1) (p', w1').
Proof.
  intros solver solver' w w' d d' p w1 p' w1' HU (C1 & _ & C3 & C4 & (more & C5 & C6) & C7 & C8) Hn Hi A B. unfold protocol_from_model in A, B.
  rewrite C1, C3, C4, C5, C8 in B. rewrite <- HU in C6.
  assert (Un : forall l, incl l (names_in_use d) -> incl l U) by (intros l; rewrite HU; auto).
  apply bind_ok in A. destruct A as (p1 & A1 & A). apply bind_ok in B. destruct B as (q1 & B1 & B).
  assert (K1 : inv same0 U p1 q1 /\ level p1 q1).
  { eapply (foldM_two _ _ _ _ eq (fun a b => inv same0 U a b /\ level a b)); [apply Forall2_eq| |split; [apply inv_empty|reflexivity]|exact A1|exact B1].
    intros a b s s' t t' Ha <- (J & Le) H1 H2. eapply import_grown; [exact Hi|exact J|exact Le| |exact H1|exact H2].
    rewrite HU. unfold names_in_use. apply in_or_app. left. apply in_map, Ha. }
  apply bind_ok in A. destruct A as (p2 & A2 & A). apply bind_ok in B. destruct B as (q2 & B2 & B).
  assert (K2 : inv same0 U p2 q2 /\ level p2 q2).
  { eapply (foldM_two _ _ _ _ eq (fun a b => inv same0 U a b /\ level a b)); [apply Forall2_eq| |exact K1|exact A2|exact B2].
    intros a b s s' t t' Ha <- (J & Le) H1 H2. unfold define_enum in H1, H2. unb H1. unb H2. rewrite E in E0. inversion E0; subst x0.
    inversion H1; inversion H2; subst t t'. split; [|exact Le]. apply inv_enum; [exact J|].
    unfold enum_from_model in E. unb E. inversion E. cbn [e_name]. rewrite HU. unfold names_in_use. rewrite !in_app_iff. right. left. apply in_map, Ha. }
  apply bind_ok in A. destruct A as ([p3 w3] & A3 & A). apply bind_ok in B. destruct B as ([q3 v3] & B3 & B).
  apply foldM_app in B3. destruct B3 as ([q4 v4] & B3 & B4).
  assert (K3 : together (p3, w3) (q4, v4) /\ level p3 q4).
  { eapply (foldM_two _ _ _ _ eq (fun a b => together a b /\ level (fst a) (fst b))) in B3; [exact B3|apply Forall2_eq| | |exact A3].
    - intros a b s s' t t' Ha <- (J & Le) H1 H2. eapply struct_step; [|exact J|exact Le|exact H1|exact H2].
      rewrite HU. unfold names_in_use. rewrite !in_app_iff. right. right. left. apply in_map, Ha.
    - split; [|apply K2]. exists same0. split; [auto|]. split; [exact Hn|apply K2]. }
  destruct K3 as (K3 & _). assert (K4 : together (p3, w3) (q3, v3)).
  { clear - B4 K3 C6. revert q4 v4 B4 K3. induction more as [|s more IH]; intros q4 v4 B4 K3; cbn [foldM] in B4.
    - inversion B4; subst. exact K3.
    - apply bind_ok in B4. destruct B4 as ([q5 v5] & B4 & B5). eapply IH; [intros z Hz; apply C6; right; exact Hz|exact B5|].
      eapply further_step; [apply C6; left; reflexivity|exact K3|exact B4]. }
  apply bind_ok in A. destruct A as (p5 & A5 & A). apply bind_ok in B. destruct B as (q5 & B5 & B).
  assert (K5 : together (p5, w3) (q5, v3)).
  { destruct K4 as (same & Hs & Hm & J). cbn [fst snd] in *. exists same. split; [exact Hs|]. split; [exact Hm|]. cbn [fst].
    eapply (foldM_two _ _ _ _ union_extended (inv same U)); [exact C7| |exact J|exact A5|exact B5].
    intros a b s s' t t' Ha Q J0 H1 H2. unfold define_union in H1, H2. unb H1. unb H2. pose proof (union_grown _ _ _ _ _ _ _ _ J0 Q E E0) as G.
    inversion H1; inversion H2; subst t t'. rewrite (union_name _ _ _ G). apply inv_union; [exact J0|exact G|].
    unfold union_from_model in E. unb E. unb E. inversion E. cbn [u_name]. rewrite HU. unfold names_in_use. rewrite !in_app_iff.
    right. right. right. left. apply in_map, Ha. }
  eapply (foldM_two _ _ _ _ eq together); [apply Forall2_eq| |exact K5|exact A|exact B].
  intros a b s s' t t' Ha <- J H1 H2. eapply message_step; [|exact J|exact H1|exact H2].
  rewrite HU. unfold names_in_use. rewrite !in_app_iff. do 4 right. apply in_map, Ha.
Qed.
End Whole.
Theorem compile_cases : forall m same0 solver solver' w w' d d' p w1 p' w1', cases_added d d' ->
  numbers_alike same0 w w' -> grown_imports same0 solver solver' ->
  protocol_from_model m solver w d = Ok (p, w1) -> protocol_from_model m solver' w' d' = Ok (p', w1') ->
  exists same : N -> N -> Prop, (forall i i', same0 i i' -> same i i') /\ numbers_alike same w1 w1' /\ grown_protocol same p p'.
Proof.
  intros m same0 solver solver' w w' d d' p w1 p' w1' H1 H2 H3 A B.
  destruct (compile_grown m same0 _ _ _ _ _ _ _ _ _ _ _ eq_refl H1 H2 H3 A B) as (same & K1 & K2 & K3).
  exists same. split; [exact K1|]. split; [exact K2|]. eapply inv_grown. exact K3.
Qed.
