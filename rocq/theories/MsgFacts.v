(** Induction over message types, unfolding equations of the generated code and
    basic facts about readers. *)

From Coq Require Import Arith NArith ZArith List Bool Lia ZifyBool ZifyN ZifyNat.
From Verif Require Import Base Schema Codec Compiler Access Bits BitsFacts CodecFacts StructFacts BEThms
  Utf8 SpecUtf8 Utf8Thms Runtime Gen SpecWire.
Import ListNotations.
Local Open Scope N_scope.

(** ** Induction *)

Section Ind.
Variable P : message -> Prop.
Hypothesis H : forall x, (forall g y, In g (m_fields x) -> inside (mf_ty g) y -> P y) -> P x.

Definition P_ref (r : referenced) : Prop := forall y, r = RMessage y -> P y.
Definition P_ty (t : mfield_type) : Prop := forall y, inside t y -> P y.
Definition P_case (c : ucase) : Prop := forall y, uc_item c = Some (RMessage y) -> P y.
Definition P_union (u : union_) : Prop := forall c, In c (u_cases u) -> P_case c.
Definition P_field (f : mfield) : Prop := P_ty (mf_ty f).

Lemma P_ty_ref : forall r, P_ref r -> P_ty (TRef r).
Proof. intros r Hr y Hy. inversion Hy; subst. apply Hr. reflexivity. Qed.
Lemma P_ty_list : forall ty x, P x -> P_ty (TList ty x).
Proof. intros ty x Hx y Hy. inversion Hy; subst. exact Hx. Qed.
Lemma P_ty_union : forall u on i, P_union u -> P_ty (TUnion u on i).
Proof. intros u on i Hu y Hy. inversion Hy; subst. eapply Hu; eauto. Qed.
Lemma P_ty_fixed : forall f, P_ty (TFixed f).
Proof. intros f y Hy. inversion Hy. Qed.
Lemma P_ty_nts : P_ty TNullTerminatedString.
Proof. intros y Hy. inversion Hy. Qed.
Lemma P_ty_varchar : forall f, P_ty (TVarcharString f).
Proof. intros f y Hy. inversion Hy. Qed.
Lemma P_ty_array : forall f s, P_ty (TArray f s).
Proof. intros f s y Hy. inversion Hy. Qed.
Lemma P_ty_payload : P_ty TPayload.
Proof. intros y Hy. inversion Hy. Qed.
Lemma P_msg : forall id n fs s, Forall P_field fs -> P (MkMessage id n fs s).
Proof.
  intros id n fs s Hfs. apply H. intros g y Hg Hy. cbn in Hg. rewrite Forall_forall in Hfs. exact (Hfs g Hg y Hy).
Qed.
Lemma P_ref_msg : forall x, P x -> P_ref (RMessage x).
Proof. intros x Hx y Hy. inversion Hy; subst. exact Hx. Qed.
Lemma P_ref_struct : forall s, P_ref (RStruct s).
Proof. intros s y Hy. discriminate. Qed.
Lemma P_case_some : forall n k r, P_ref r -> P_case (MkUCase n k (Some r)).
Proof. intros n k r Hr y Hy. cbn in Hy. inversion Hy; subst. apply Hr. reflexivity. Qed.
Lemma P_case_none : forall n k, P_case (MkUCase n k None).
Proof. intros n k y Hy. discriminate. Qed.
Lemma P_union_cases : forall n d cs s, Forall P_case cs -> P_union (MkUnion n d cs s).
Proof. intros n d cs s Hcs c Hc. rewrite Forall_forall in Hcs. exact (Hcs c Hc). Qed.

Fixpoint ind_ref (r : referenced) : P_ref r :=
  match r with
  | RStruct s => P_ref_struct s
  | RMessage x => P_ref_msg x (ind_msg x)
  end
with ind_ty (t : mfield_type) : P_ty t :=
  match t with
  | TRef r => P_ty_ref r (ind_ref r)
  | TList ty x => P_ty_list ty x (ind_msg x)
  | TUnion u on i => P_ty_union u on i (ind_union u)
  | TFixed f => P_ty_fixed f
  | TNullTerminatedString => P_ty_nts
  | TVarcharString ty => P_ty_varchar ty
  | TArray ty s => P_ty_array ty s
  | TPayload => P_ty_payload
  end
with ind_field (f : mfield) : P_field f :=
  match f with MkMField _ t _ _ _ => ind_ty t end
with ind_msg (x : message) : P x :=
  match x with
  | MkMessage id n fs s => P_msg id n fs s
      ((fix go (l : list mfield) : Forall P_field l :=
          match l with [] => Forall_nil _ | f :: r => Forall_cons f (ind_field f) (go r) end) fs)
  end
with ind_case (c : ucase) : P_case c :=
  match c with
  | MkUCase n k (Some r) => P_case_some n k r (ind_ref r)
  | MkUCase n k None => P_case_none n k
  end
with ind_union (u : union_) : P_union u :=
  match u with
  | MkUnion n d cs s => P_union_cases n d cs s
      ((fix go (l : list ucase) : Forall P_case l :=
          match l with [] => Forall_nil _ | c :: r => Forall_cons c (ind_case c) (go r) end) cs)
  end.

Theorem message_ind_inside : forall x, P x.
Proof. exact ind_msg. Qed.
End Ind.

(** ** Unfolding *)

Definition read_go (m : mode) (emb : N -> bool) (id : N) (b : bytes) :=
  fix go (fs : list mfield) (byte_offset : N) (prev : list value) : rres (N * value) :=
    match fs with
    | [] => Ok (byte_offset, VMsg prev)
    | MkMField _ ty opt _ endi :: r =>
        d <- slice_from b byte_offset ;;
        '(n, v) <- read_optional m opt (read_ty m emb (emb id) endi prev ty) d ;;
        byte_offset <- uadd m byte_offset n ;;
        go r byte_offset (prev ++ [v])
    end.

Lemma read_msg_eq : forall m emb x b,
  read_msg m emb x b =
  ('(n, vs) <- read_fields m emb (emb (m_id x)) b (m_fields x) 0 [] ;; Ok (n, VMsg vs)).
Proof.
  intros m emb [id name fs sz] b.
  change (read_msg m emb (MkMessage id name fs sz) b) with (read_go m emb id b fs 0 []).
  cbn [m_id m_fields].
  generalize 0 (@nil value). induction fs as [|[n ty opt s e] fs IH]; intros off prev; [reflexivity|].
  cbn [read_fields read_go]. destruct (slice_from b off) as [d|e'|]; [|reflexivity..]. cbn [bind].
  destruct (read_optional m opt (read_ty m emb (emb id) e prev ty) d) as [[k v]|e'|]; [|reflexivity..]. cbn [bind].
  destruct (uadd m off k) as [off'|e'|]; [|reflexivity..]. cbn [bind]. apply IH.
Qed.

(** The first case with the given number. *)
Fixpoint find_case (disc : N) (i : nat) (cs : list ucase) : option (nat * ucase) :=
  match cs with
  | [] => None
  | c :: r => if disc =? uc_case c then Some (i, c) else find_case disc (S i) r
  end.

Definition read_pick (m : mode) (emb : N -> bool) (disc : N) (b : bytes) :=
  fix pick (i : nat) (cs : list ucase) : rres (N * value) :=
    match cs with
    | [] => Err (InvalidUnionDiscriminant disc)
    | MkUCase _ case item :: r =>
        if disc =? case then
          match item with
          | None => Ok (0, VUnion i None)
          | Some t => '(n, v) <- read_ref m emb t b ;; Ok (n, VUnion i (Some v))
          end
        else pick (S i) r
    end.

Lemma read_union_eq : forall m emb u on b,
  read_union m emb u on b =
  (disc <- read_discriminant m (u_disc u) on ;;
   match find_case disc 0 (u_cases u) with
   | None => Err (InvalidUnionDiscriminant disc)
   | Some (i, c) =>
       match uc_item c with
       | None => Ok (0, VUnion i None)
       | Some t => '(n, v) <- read_ref m emb t b ;; Ok (n, VUnion i (Some v))
       end
   end).
Proof.
  intros m emb [name d cs s] on b.
  change (read_union m emb (MkUnion name d cs s) on b) with
    (disc <- read_discriminant m d on ;; read_pick m emb disc b O cs).
  cbn [u_disc u_cases].
  destruct (read_discriminant m d on) as [disc|e|]; [|reflexivity..]. cbn [bind].
  generalize O. induction cs as [|[n k it] cs IH]; intro i; [reflexivity|].
  cbn [find_case read_pick uc_case]. destruct (disc =? k); [|apply IH]. reflexivity.
Qed.

Definition enc_go (m : mode) (pres : N -> Prop) :=
  fix go (fs : list mfield) (prev rest : list value) (b : bytes) {struct fs} : Prop :=
         match fs, rest with
         | [], [] => b = []
         | MkMField _ ty opt _ endi :: r, y :: rest =>
             exists b1 b2, b = b1 ++ b2 /\ enc_optional pres opt (enc_ty m pres endi prev ty) y b1 /\
               go r (prev ++ [y]) rest b2
         | _, _ => False
         end.

Lemma enc_msg_eq : forall m pres x vs b,
  enc_msg m pres x (VMsg vs) b <-> enc_fields m pres (m_fields x) [] vs b.
Proof.
  intros m pres [id name fs sz] vs b.
  change (enc_msg m pres (MkMessage id name fs sz) (VMsg vs) b) with (enc_go m pres fs [] vs b).
  cbn [m_fields].
  generalize (@nil value). revert vs b. induction fs as [|[n ty opt s e] fs IH]; intros vs b prev.
  { destruct vs; reflexivity. }
  destruct vs as [|y vs]; [reflexivity|]. cbn [enc_fields mf_optional mf_endi mf_ty].
  split; intros (b1 & b2 & Hb & H1 & H2); exists b1, b2; (split; [exact Hb|]); (split; [exact H1|]);
    apply IH; exact H2.
Qed.

Lemma enc_msg_inv : forall m pres x v b, enc_msg m pres x v b ->
  exists vs, v = VMsg vs /\ enc_fields m pres (m_fields x) [] vs b.
Proof.
  intros m pres x v b He. destruct v; try (destruct x; cbn in He; contradiction).
  exists fields. split; [reflexivity|]. apply enc_msg_eq. exact He.
Qed.

(** What a case's item contributes. *)
Definition enc_item m pres (t : option referenced) (item : option value) (b : bytes) : Prop :=
  match t, item with
  | None, None => b = []
  | Some t, Some x => enc_ref m pres t x b
  | _, _ => False
  end.

Lemma enc_union_iff : forall m pres u on k item b,
  enc_union m pres u on k item b <->
  exists data disc c, on = Some (VStruct data) /\
    path_get (E:=rerror) m (d_root (u_disc u)) (d_index_list (u_disc u)) data = Ok disc /\
    find_case disc 0 (u_cases u) = Some (k, c) /\ enc_item m pres (uc_item c) item b.
Proof.
  intros m pres [name d cs s] on k item b. cbn [enc_union u_disc u_cases].
  assert (Hk : forall disc cs i k0,
    (fix pick (i : nat) (cs : list ucase) {struct cs} : Prop :=
           match cs with
           | [] => False
           | MkUCase _ case t :: r =>
               match i with
               | O => case = disc /\
                      match t, item with
                      | None, None => b = []
                      | Some t, Some x => enc_ref m pres t x b
                      | _, _ => False
                      end
               | S i => case <> disc /\ pick i r
               end
           end) k0 cs <->
    exists c, find_case disc i cs = Some ((i + k0)%nat, c) /\ enc_item m pres (uc_item c) item b).
  { intros disc. induction cs0 as [|[n kk it] cs0 IH]; intros i k0.
    { split; [intros []|]. intros (c & Hc & _). discriminate. }
    cbn [find_case uc_case]. destruct k0 as [|k0].
    - destruct (N.eqb_spec disc kk) as [E|E].
      + split.
        * intros (_ & Hi). exists (MkUCase n kk it). split; [f_equal; f_equal; lia|exact Hi].
        * intros (c & Hc & Hi). inversion Hc; subst. split; [reflexivity|exact Hi].
      + split.
        * intros (Hd & _). congruence.
        * intros (c & Hc & _). exfalso.
          assert (G : forall l j r c0, find_case disc j l = Some (r, c0) -> (j <= r)%nat).
          { clear. induction l as [|x l IHl]; intros j r c0 Hf; [discriminate|]. cbn [find_case] in Hf.
            destruct (disc =? uc_case x); [inversion Hf; subst; lia|]. apply IHl in Hf. lia. }
          apply G in Hc. lia.
    - destruct (N.eqb_spec disc kk) as [E|E].
      + split.
        * intros (Hd & _). congruence.
        * intros (c & Hc & _). exfalso. inversion Hc. lia.
      + rewrite (IH (S i) k0). split.
        * intros (_ & c & Hc & Hi). exists c. split; [|exact Hi]. rewrite Hc. f_equal. f_equal. lia.
        * intros (c & Hc & Hi). split; [congruence|]. exists c. split; [|exact Hi]. rewrite Hc. f_equal. f_equal. lia. }
  split.
  - intros (data & disc & Hon & Hp & Hpick). apply (Hk disc cs O k) in Hpick. destruct Hpick as (c & Hc & Hi).
    exists data, disc, c. auto.
  - intros (data & disc & c & Hon & Hp & Hc & Hi). exists data, disc. split; [exact Hon|]. split; [exact Hp|].
    apply (Hk disc cs O k). exists c. auto.
Qed.

Lemma find_case_in : forall disc cs i k c, find_case disc i cs = Some (k, c) ->
  In c cs /\ uc_case c = disc /\ (i <= k)%nat /\ nth_error cs (k - i) = Some c.
Proof.
  intros disc. induction cs as [|x cs IH]; intros i k c H; [discriminate|]. cbn [find_case] in H.
  destruct (N.eqb_spec disc (uc_case x)) as [E|E].
  - inversion H; subst. rewrite Nat.sub_diag. split; [left; reflexivity|]. auto.
  - apply IH in H. destruct H as (Hi & Hd & Hle & Hn). split; [right; exact Hi|]. split; [exact Hd|].
    split; [lia|]. replace (k - i)%nat with (S (k - S i)) by lia. exact Hn.
Qed.

(** ** Numbers *)

Definition num_bytes (e : endianness) (sz : nat) (n : N) : bytes :=
  match order_of e with LE => le_enc sz n | BE => rev (le_enc sz n) end.

Lemma num_bytes_length : forall e sz n, length (num_bytes e sz n) = sz.
Proof. intros [] sz n; cbn; rewrite ?rev_length; apply le_enc_length. Qed.

Lemma number_iff : forall e sz n b, number e sz n b <-> n < tmod sz /\ b = num_bytes e sz n.
Proof.
  intros e sz n b. unfold number, num_bytes. split.
  - intros (Hl & Hb & Hn). destruct e; cbn [order_of].
    + rewrite be_value_rev, rev_involutive in Hn. subst n sz. split; [apply le_dec_bound; exact Hb|].
      symmetry. apply le_enc_le_dec. exact Hb.
    + rewrite be_value_rev in Hn. subst n sz. split.
      * rewrite <- (rev_length b). apply le_dec_bound, bytes_ok_rev, Hb.
      * rewrite <- (rev_length b). rewrite le_enc_le_dec by (apply bytes_ok_rev; exact Hb).
        symmetry. apply rev_involutive.
  - intros (Hn & ->). destruct e; cbn [order_of].
    + split; [apply le_enc_length|]. split; [apply le_enc_ok|].
      rewrite be_value_rev, rev_involutive, le_dec_le_enc. symmetry. apply N.mod_small. exact Hn.
    + split; [rewrite rev_length; apply le_enc_length|]. split; [apply bytes_ok_rev, le_enc_ok|].
      rewrite be_value_rev, rev_involutive, le_dec_le_enc. symmetry. apply N.mod_small. exact Hn.
Qed.

Lemma number_length : forall e sz n b, number e sz n b -> length b = sz.
Proof. intros e sz n b H. apply H. Qed.

Lemma number_ok : forall e sz n b, number e sz n b -> bytes_ok b.
Proof. intros e sz n b H. apply H. Qed.

Lemma value_reader_app : forall e ty n p s, number e (get_byte_size ty) n p ->
  value_reader e ty (p ++ s) = Ok (N.of_nat (get_byte_size ty), n).
Proof.
  intros e ty n p s H. pose proof (number_length _ _ _ _ H) as Hl. apply number_iff in H. destruct H as (Hn & Hp).
  unfold value_reader, value_from_slice. rewrite len_app. unfold len at 1. rewrite Hl.
  replace (N.of_nat (get_byte_size ty) + len s <? N.of_nat (get_byte_size ty)) with false by lia.
  unfold read_bytes. rewrite app_length, Hl.
  replace (get_byte_size ty + length s <? get_byte_size ty)%nat with false by lia.
  rewrite firstn_app, Hl, Nat.sub_diag, firstn_O, app_nil_r, <- Hl, firstn_all, Hl. cbn [bind]. f_equal. f_equal.
  subst p. unfold num_bytes. destruct e; cbn [order_of]; rewrite ?rev_involutive, le_dec_le_enc;
    apply N.mod_small; exact Hn.
Qed.

Lemma value_reader_ok : forall e ty b k n, value_reader e ty b = Ok (k, n) -> bytes_ok b ->
  k = N.of_nat (get_byte_size ty) /\ k <= len b /\ number e (get_byte_size ty) n (firstn (get_byte_size ty) b).
Proof.
  intros e ty b k n H Hb. unfold value_reader, value_from_slice in H.
  destruct (len b <? N.of_nat (get_byte_size ty)) eqn:E; [discriminate|].
  apply bind_ok in H. destruct H as (v & Hv & H). inversion H; subst. clear H.
  split; [reflexivity|]. split; [lia|].
  unfold read_bytes in Hv. destruct (length b <? get_byte_size ty)%nat eqn:E2; [discriminate|].
  inversion Hv as [Hn]. split; [rewrite firstn_length; lia|]. split; [apply bytes_ok_firstn; exact Hb|].
  destruct e; cbn [order_of]; rewrite be_value_rev, ?rev_involutive; reflexivity.
Qed.

Lemma value_reader_short : forall e ty b, len b < N.of_nat (get_byte_size ty) ->
  value_reader e ty b = Err Truncated.
Proof.
  intros e ty b H. unfold value_reader, value_from_slice.
  replace (len b <? N.of_nat (get_byte_size ty)) with true by lia. reflexivity.
Qed.

Lemma value_reader_long : forall e ty b, N.of_nat (get_byte_size ty) <= len b ->
  exists n, value_reader e ty b = Ok (N.of_nat (get_byte_size ty), n).
Proof.
  intros e ty b H. unfold value_reader, value_from_slice, read_bytes, len in *.
  replace (N.of_nat (length b) <? N.of_nat (get_byte_size ty)) with false by lia.
  replace (length b <? get_byte_size ty)%nat with false by lia. eexists. reflexivity.
Qed.

Lemma value_reader_size : forall e ty b k n, value_reader e ty b = Ok (k, n) ->
  k = N.of_nat (get_byte_size ty) /\ k <= len b.
Proof.
  intros e ty b k n H. unfold value_reader, value_from_slice in H.
  destruct (len b <? N.of_nat (get_byte_size ty)) eqn:E; [discriminate|].
  apply bind_ok in H. destruct H as (v & Hv & H). inversion H; subst. split; [reflexivity|lia].
Qed.

Lemma value_reader_cases : forall e ty b,
  value_reader e ty b = Err Truncated \/ exists n, value_reader e ty b = Ok (N.of_nat (get_byte_size ty), n).
Proof.
  intros e ty b. destruct (N.lt_ge_cases (len b) (N.of_nat (get_byte_size ty))) as [H|H].
  - left. apply value_reader_short. exact H.
  - right. apply value_reader_long. exact H.
Qed.

Lemma byte_size_8 : forall ty, (get_byte_size ty <= 8)%nat /\ (0 < get_byte_size ty)%nat.
Proof. intros []; cbn; lia. Qed.

(** ** Slices *)

Lemma slice_from_ok : forall {E A} (b : list A) lo, lo <= len b ->
  slice_from (E:=E) b lo = Ok (skipn (N.to_nat lo) b).
Proof. intros E A b lo H. unfold slice_from. replace (lo <=? len b) with true by lia. reflexivity. Qed.

Lemma slice_from_inv : forall {E A} (b : list A) lo d, slice_from (E:=E) b lo = Ok d ->
  lo <= len b /\ d = skipn (N.to_nat lo) b.
Proof.
  intros E A b lo d H. unfold slice_from in H. destruct (lo <=? len b) eqn:C; [|discriminate].
  inversion H. split; [lia|reflexivity].
Qed.

Lemma slice_inv : forall {E A} (b : list A) lo hi d, slice (E:=E) b lo hi = Ok d ->
  lo <= hi /\ hi <= len b /\ d = firstn (N.to_nat (hi - lo)) (skipn (N.to_nat lo) b).
Proof.
  intros E A b lo hi d H. unfold slice in H. destruct ((lo <=? hi) && (hi <=? len b)) eqn:C; [|discriminate].
  inversion H. split; [lia|]. split; [lia|reflexivity].
Qed.

Lemma len_skipn : forall {A} n (b : list A), len (skipn n b) = len b - N.of_nat n.
Proof. intros. unfold len. rewrite skipn_length. lia. Qed.

Lemma len_firstn : forall {A} n (b : list A), (n <= length b)%nat -> len (firstn n b) = N.of_nat n.
Proof. intros. unfold len. rewrite firstn_length. lia. Qed.

Lemma skipn_len_app : forall {A} (a b : list A), skipn (N.to_nat (len a)) (a ++ b) = b.
Proof.
  intros. unfold len. rewrite Nat2N.id, skipn_app, skipn_all, Nat.sub_diag. reflexivity.
Qed.

Lemma firstn_len_app : forall {A} (a b : list A), firstn (N.to_nat (len a)) (a ++ b) = a.
Proof.
  intros. unfold len. rewrite Nat2N.id, firstn_app, firstn_all, Nat.sub_diag. cbn. apply app_nil_r.
Qed.

Lemma uadd_fit : forall {E} m a b, a + b < 2 ^ 64 -> uadd (E:=E) m a b = Ok (a + b).
Proof.
  intros E m a b H. unfold uadd. change usize_mod with (2 ^ 64).
  replace (a + b <? 2 ^ 64) with true; [reflexivity|]. symmetry. apply N.ltb_lt. exact H.
Qed.

Lemma umul_fit : forall {E} m a b, a * b < 2 ^ 64 -> umul (E:=E) m a b = Ok (a * b).
Proof.
  intros E m a b H. unfold umul. change usize_mod with (2 ^ 64).
  replace (a * b <? 2 ^ 64) with true; [reflexivity|]. symmetry. apply N.ltb_lt. exact H.
Qed.

Lemma uadd_inv : forall {E} m a b r, uadd (E:=E) m a b = Ok r -> a + b < 2 ^ 64 -> r = a + b.
Proof. intros E m a b r H Hb. rewrite (uadd_fit m a b Hb) in H. inversion H. reflexivity. Qed.
