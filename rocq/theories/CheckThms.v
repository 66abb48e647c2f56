(** Decision procedures for the guards of the message theorems, used to instantiate them for
    concrete descriptions (C82). Only soundness is needed. [n] bounds the nesting depth; too
    small a bound only makes the check fail. *)

From Coq Require Import Arith NArith String List Bool Lia.
From Verif Require Import Base Schema Compiler Access Runtime Gen SpecStruct SpecWire SpecRun.
Import ListNotations.
Local Open Scope N_scope.

(** Messages directly inside a field type. *)
Definition insides (t : mfield_type) : list message :=
  match t with
  | TRef (RMessage y) => [y]
  | TList _ y => [y]
  | TUnion u _ _ => flat_map (fun c => match uc_item c with Some (RMessage y) => [y] | _ => [] end) (u_cases u)
  | _ => []
  end.
Lemma insides_all : forall t y, inside t y -> In y (insides t).
Proof.
  intros t y H. destruct H as [y|ty y|u on i c y Hc Hi]; cbn [insides]; [left; reflexivity|left; reflexivity|].
  apply in_flat_map. exists c. split; [exact Hc|]. rewrite Hi. left. reflexivity.
Qed.

(** [P] holds for every part. *)
Fixpoint all_parts (n : nat) (emb : N -> bool) (P : bool -> mfield -> bool) (x : message) : bool :=
  match n with
  | O => false
  | S n => forallb (fun f => P (emb (m_id x)) f && forallb (all_parts n emb P) (insides (mf_ty f)))%bool (m_fields x)
  end.
Lemma all_parts_sound : forall n emb P x, all_parts n emb P x = true -> forall e f, part emb x e f -> P e f = true.
Proof.
  induction n as [|n IH]; intros emb P x H e f Hp; [discriminate H|]. cbn [all_parts] in H. rewrite forallb_forall in H.
  destruct Hp as [Hf ->|g y Hg Hy Hp].
  - pose proof (H _ Hf) as K. apply andb_prop in K. apply K.
  - pose proof (H _ Hg) as K. apply andb_prop in K. destruct K as [_ K]. rewrite forallb_forall in K.
    apply (IH _ _ _ (K _ (insides_all _ _ Hy))). exact Hp.
Qed.
(** [Q] holds for every message inside. *)
Fixpoint all_within (n : nat) (Q : message -> bool) (x : message) : bool :=
  match n with
  | O => false
  | S n => (Q x && forallb (fun f => forallb (all_within n Q) (insides (mf_ty f))) (m_fields x))%bool
  end.
Lemma all_within_sound : forall n Q x, all_within n Q x = true -> forall y, within x y -> Q y = true.
Proof.
  induction n as [|n IH]; intros Q x H y Hw; [discriminate H|]. cbn [all_within] in H. apply andb_prop in H. destruct H as [H1 H2].
  destruct Hw as [x|x g y z Hg Hy Hw]; [exact H1|]. rewrite forallb_forall in H2. pose proof (H2 _ Hg) as K.
  cbv beta in K. rewrite forallb_forall in K. exact (IH _ _ (K _ (insides_all _ _ Hy)) _ Hw).
Qed.

Definition delimited_part (e : bool) (f : mfield) : bool :=
  match mf_ty f with TPayload => false | TList _ _ => e | _ => true end.
Definition is_delimiting (n : nat) (emb : N -> bool) : message -> bool := all_parts n emb delimited_part.
Lemma is_delimiting_sound : forall n emb x, is_delimiting n emb x = true -> self_delimiting emb x.
Proof.
  intros n emb x H e f Hp. pose proof (all_parts_sound _ _ _ _ H _ _ Hp) as K. unfold delimited_part in K.
  destruct (mf_ty f); auto. discriminate K.
Qed.

Definition guarded_part (e : bool) (f : mfield) : bool :=
  match mf_ty f with
  | TVarcharString _ => false
  | TArray ty s => tmod (get_byte_size ty) * s_byte_size s + 8 <=? 2 ^ 64
  | _ => true
  end.
Lemma guarded_sound : forall n emb x, all_parts n emb guarded_part x = true -> guarded_lengths emb x.
Proof.
  intros n emb x H e f Hp. pose proof (all_parts_sound _ _ _ _ H _ _ Hp) as K. unfold guarded_part in K.
  destruct (mf_ty f); auto; [discriminate K|]. apply N.leb_le in K. exact K.
Qed.
Definition no_varchar (e : bool) (f : mfield) : bool := match mf_ty f with TVarcharString _ => false | _ => true end.
Lemma no_varchar_sound : forall n emb x, all_parts n emb no_varchar x = true ->
  forall e f ty, part emb x e f -> mf_ty f <> TVarcharString ty.
Proof.
  intros n emb x H e f ty Hp Ht. pose proof (all_parts_sound _ _ _ _ H _ _ Hp) as K. unfold no_varchar in K.
  rewrite Ht in K. discriminate K.
Qed.

(** Where a path leads. *)
Fixpoint path_end (s : structure) (path : list nat) : option (N * N) :=
  match path with
  | [] => None
  | i :: rest =>
      match nth_error (s_fields s) i, rest with
      | Some (FFixed f), [] => Some (total_bits (firstn i (s_fields s)), l_bit_size (ff_loc f))
      | Some (FStruct _ r _), _ =>
          match path_end r rest with Some (o, w) => Some (total_bits (firstn i (s_fields s)) + o, w) | None => None end
      | _, _ => None
      end
  end.
Lemma path_end_sound : forall path s o w, path_end s path = Some (o, w) -> path_at s path o w.
Proof.
  induction path as [|i rest IH]; intros s o w H; [discriminate H|]. cbn [path_end] in H.
  destruct (nth_error (s_fields s) i) as [[f|f|nm r loc]|] eqn:E; try discriminate H.
  - destruct rest; [|discriminate H]. injection H as <- <-. apply path_scalar. exact E.
  - destruct (path_end r rest) as [[o' w']|] eqn:E2; [|discriminate H]. injection H as <- <-.
    eapply path_struct; [exact E|apply IH; exact E2].
Qed.

Definition usable_field (y : message) (f : mfield) : bool :=
  match mf_ty f with
  | TUnion u _ i =>
      (match nth_error (m_fields y) i with Some g => negb (mf_optional g) | None => true end &&
       match path_end (d_root (u_disc u)) (d_index_list (u_disc u)) with
       | Some (_, w) => (0 <? w) && (w <=? 64)
       | None => false
       end)%bool
  | _ => true
  end.
Definition usable (y : message) : bool := forallb (usable_field y) (m_fields y).
Lemma usable_sound : forall n x, all_within n usable x = true -> union_fields_usable x.
Proof.
  intros n x H y f u on i Hw Hf Ht. pose proof (all_within_sound _ _ _ H _ Hw) as K. unfold usable in K.
  rewrite forallb_forall in K. pose proof (K _ Hf) as K'. unfold usable_field in K'. rewrite Ht in K'. apply andb_prop in K'. destruct K' as [K1 K2].
  split.
  - intros g Hg. rewrite Hg in K1. apply negb_true_iff in K1. exact K1.
  - destruct (path_end (d_root (u_disc u)) (d_index_list (u_disc u))) as [[o w]|] eqn:E; [|discriminate K2].
    apply andb_prop in K2. destruct K2 as [A B]. apply N.ltb_lt in A. apply N.leb_le in B.
    exists o, w. split; [apply path_end_sound; exact E|lia].
Qed.

(** A field in the middle of a message, and the last one. *)
Definition middle_ok (n : nat) (emb : N -> bool) (e : bool) (f : mfield) : bool :=
  (delimited_part e f && forallb (is_delimiting n emb) (insides (mf_ty f)))%bool.
Fixpoint is_readable (n : nat) (emb : N -> bool) (x : message) : bool :=
  match n with
  | O => false
  | S n =>
      (fix go (fs : list mfield) : bool :=
         match fs with
         | [] => true
         | [f] => match mf_ty f with
                  | TList _ y => if emb (m_id x) then is_delimiting n emb y else true
                  | t => forallb (is_readable n emb) (insides t)
                  end
         | f :: r => (middle_ok n emb (emb (m_id x)) f && go r)%bool
         end) (m_fields x)
  end.
Lemma middle_ok_sound : forall n emb e f, middle_ok n emb e f = true -> field_delimited emb e f.
Proof.
  intros n emb e f H. unfold middle_ok in H. apply andb_prop in H. destruct H as [H1 H2]. split.
  - unfold delimited_part in H1. destruct (mf_ty f); auto. discriminate H1.
  - intros y Hy. rewrite forallb_forall in H2. eapply is_delimiting_sound, H2, insides_all, Hy.
Qed.
Lemma is_readable_sound : forall n emb x, is_readable n emb x = true -> readable emb x.
Proof.
  induction n as [|n IH]; intros emb x H; [discriminate H|]. cbn [is_readable] in H.
  set (go := fix go (fs : list mfield) : bool :=
         match fs with
         | [] => true
         | [f] => match mf_ty f with
                  | TList _ y => if emb (m_id x) then is_delimiting n emb y else true
                  | t => forallb (is_readable n emb) (insides t)
                  end
         | f :: r => (middle_ok n emb (emb (m_id x)) f && go r)%bool
         end) in H.
  assert (Hlast : forall r f, go (r ++ [f]) = true ->
    match mf_ty f with TList _ y => emb (m_id x) = true -> self_delimiting emb y
    | t => forall y, inside t y -> readable emb y end).
  { induction r as [|g r IHr]; intros f Hg.
    - cbn [app] in Hg. unfold go in Hg. cbv beta iota fix in Hg. destruct (mf_ty f); try (intros y0 Hy; rewrite forallb_forall in Hg; apply IH, Hg, insides_all, Hy).
      intros He. rewrite He in Hg. eapply is_delimiting_sound, Hg.
    - apply IHr. cbn [app] in Hg. destruct (r ++ [f])%list eqn:E; [destruct r; discriminate E|].
      cbn in Hg. apply andb_prop in Hg. apply Hg. }
  assert (Hmid : forall l f r, go (l ++ f :: r) = true -> r <> [] -> field_delimited emb (emb (m_id x)) f).
  { induction l as [|g l IHl]; intros f r Hg Hr.
    - destruct r as [|h r]; [contradiction Hr; reflexivity|]. cbn in Hg. apply andb_prop in Hg. eapply middle_ok_sound, (proj1 Hg).
    - cbn [app] in Hg. eapply (IHl f r); [|exact Hr]. destruct (l ++ f :: r)%list eqn:E; [destruct l; discriminate E|].
      cbn in Hg. apply andb_prop in Hg. apply Hg. }
  constructor.
  - intros r f ty y Hf Ht He. rewrite Hf in H. pose proof (Hlast _ _ H) as K. rewrite Ht in K. auto.
  - intros r f y Hf Hy Hn. rewrite Hf in H. pose proof (Hlast _ _ H) as K.
    destruct (mf_ty f); auto. inversion Hy; subst. exfalso. eapply Hn. reflexivity.
  - intros l f r Hf Hr. rewrite Hf in H. exact (Hmid _ _ _ H Hr).
Qed.

(** Every scalar of a structure, at any depth, satisfies [P]: its offset, its width and
    whether the structures on the way start on byte boundaries. *)
Definition good_scalar (o w : N) : bool :=
  ((0 <? w) && (w <=? 64) && (if w mod 8 =? 0 then o mod 8 =? 0 else o mod 8 + w <=? 8 * ceil8 w))%bool.
Fixpoint all_scalars (n : nat) (o : N) (s : structure) : bool :=
  match n with
  | O => false
  | S n =>
      (fix go (o : N) (fs : list field) : bool :=
         match fs with
         | [] => true
         | f :: r =>
             (match f with
              | FFixed x => good_scalar o (l_bit_size (ff_loc x))
              | FArray _ => true
              | FStruct _ y _ => (o mod 8 =? 0) && all_scalars n o y
              end && go (o + field_bits f) r)%bool
         end) o (s_fields s)
  end.
Lemma good_scalar_sound : forall o w, good_scalar o w = true -> 0 < w <= 64 /\ addressable o w.
Proof.
  intros o w H. unfold good_scalar in H. apply andb_prop in H. destruct H as [H H3]. apply andb_prop in H. destruct H as [H1 H2].
  apply N.ltb_lt in H1. apply N.leb_le in H2. split; [lia|]. unfold addressable.
  destruct (w mod 8 =? 0); [apply N.eqb_eq in H3; exact H3|apply N.leb_le in H3; exact H3].
Qed.
Lemma all_scalars_sound : forall n base s, base mod 8 = 0 -> all_scalars n base s = true -> forall path o w, path_at s path o w ->
  path_bytes_aligned s path /\ 0 < w <= 64 /\ addressable (base + o) w.
Proof.
  induction n as [|n IH]; intros base s Hb H path o w Hp; [discriminate H|]. cbn [all_scalars] in H.
  set (go := fix go (o : N) (fs : list field) : bool :=
         match fs with
         | [] => true
         | f :: r =>
             (match f with
              | FFixed x => good_scalar o (l_bit_size (ff_loc x))
              | FArray _ => true
              | FStruct _ y _ => (o mod 8 =? 0) && all_scalars n o y
              end && go (o + field_bits f) r)%bool
         end) in H.
  assert (K : forall fs o0 i f, go o0 fs = true -> nth_error fs i = Some f ->
    match f with
    | FFixed x => good_scalar (o0 + total_bits (firstn i fs)) (l_bit_size (ff_loc x)) = true
    | FArray _ => True
    | FStruct _ y _ => (o0 + total_bits (firstn i fs)) mod 8 = 0 /\ all_scalars n (o0 + total_bits (firstn i fs)) y = true
    end).
  { induction fs as [|g fs IHf]; intros o0 i f Hg Hi; [destruct i; discriminate Hi|].
    cbn in Hg. apply andb_prop in Hg. destruct Hg as [G1 G2]. destruct i as [|i].
    - cbn in Hi. injection Hi as <-. cbn [firstn total_bits]. rewrite N.add_0_r. destruct g; auto.
      apply andb_prop in G1. destruct G1 as [A B]. apply N.eqb_eq in A. auto.
    - cbn [nth_error] in Hi. cbn [firstn total_bits]. pose proof (IHf _ _ _ G2 Hi) as Q.
      replace (o0 + (field_bits g + total_bits (firstn i fs))) with (o0 + field_bits g + total_bits (firstn i fs)) by lia.
      exact Q. }
  destruct Hp as [s i f Hi|s i nm r loc rest o w Hi Hp].
  - pose proof (K _ _ _ _ H Hi) as Q. cbv beta iota in Q. apply good_scalar_sound in Q. destruct Q as [Q1 Q2].
    split; [|auto]. cbn [path_bytes_aligned]. rewrite Hi. exact I.
  - pose proof (K _ _ _ _ H Hi) as Q. cbv beta iota in Q. destruct Q as [Q1 Q2].
    destruct (IH _ _ Q1 Q2 _ _ _ Hp) as (A & B & C). split; [|split; [exact B|]].
    + cbn [path_bytes_aligned]. rewrite Hi. split; [|exact A].
      rewrite N.add_mod in Q1 by discriminate. rewrite Hb in Q1. rewrite N.add_0_l, N.mod_mod in Q1 by discriminate. exact Q1.
    + rewrite N.add_assoc. exact C.
Qed.

Definition checked_part (e : bool) (f : mfield) : bool :=
  match mf_ty f with
  | TList _ _ => e
  | TArray ty s => tmod (get_byte_size ty) * s_byte_size s <=? 2 ^ 64
  | _ => true
  end.
Lemma checked_sound : forall n emb x, all_parts n emb checked_part x = true -> forall m, checked_lengths m emb x.
Proof.
  intros n emb x H m e f Hp. pose proof (all_parts_sound _ _ _ _ H _ _ Hp) as K. unfold checked_part in K.
  destruct (mf_ty f); auto. apply N.leb_le in K. right. exact K.
Qed.
