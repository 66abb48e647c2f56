(** A member replaced in place, in any message, for C72. *)

From Coq Require Import Arith NArith ZArith List Bool Lia ZifyBool ZifyN ZifyNat.
From Verif Require Import Base Schema Codec Compiler Access Bits BitsFacts CodecFacts StructFacts ArrayThms BEThms
  Runtime Gen SpecWire SpecUnion SpecOffsets SpecExact SpecStream MsgFacts WriteThms SoundThms OffsetThms SpecDecode DecodeThms
  ReencodeThms ExactThms FinalThms OpenThms StreamThms.
Import ListNotations.
Local Open Scope N_scope.

(** ** Where the offsets say that a member is, the reader finds it *)

Lemma offsets_split : forall m emb e b, len b < 2 ^ 64 -> forall fs off prev offs n vs os i f, off <= len b ->
  read_fields_offsets m emb e b fs off prev offs = Ok (n, (VMsg vs, MkOffsets os)) -> nth_error fs i = Some f ->
  exists lo hi nested y more, nth_error os (length offs + i) = Some (lo, hi, nested) /\ off <= lo <= hi /\ hi <= len b /\
    vs = prev ++ more /\ nth_error more i = Some y /\
    read_fields m emb e b (firstn i fs) off prev = Ok (lo, prev ++ firstn i more) /\
    read_fields m emb e b (firstn (S i) fs) off prev = Ok (hi, prev ++ firstn (S i) more) /\
    read_fields m emb e b fs off prev = Ok (n, prev ++ more).
Proof.
  intros m emb e b Hl. induction fs as [|g fs IH]; intros off prev offs n vs os i f Ho H Hf; [destruct i; discriminate|].
  cbn [read_fields_offsets] in H. rewrite slice_from_ok in H by exact Ho. cbn [bind] in H.
  set (d := skipn (N.to_nat off) b) in *. assert (Hld : len d = len b - off) by (unfold d; rewrite len_skipn; lia).
  pose proof (offsets_field m emb e prev g d ltac:(lia) (fun y _ => offsets_correct m emb y)) as G. unfold agree in G.
  assert (Eq : forall r p o, read_fields m emb e b (g :: r) o p =
    (d <- slice_from b o ;;
     '(n, v) <- read_optional m (mf_optional g) (read_ty m emb e (mf_endi g) p (mf_ty g)) d ;;
     off <- uadd m o n ;; read_fields m emb e b r off (p ++ [v]))) by (intros; destruct g; reflexivity).
  destruct (read_optional m (mf_optional g) (read_ty m emb e (mf_endi g) prev (mf_ty g)) d) as [[k v]|er|] eqn:Er;
    [|rewrite G in H; discriminate..].
  destruct G as (nested & E & _). rewrite E in H. cbn [bind] in H.
  assert (Hbt : bounded (read_ty m emb e (mf_endi g) prev (mf_ty g))) by (apply bounded_ty; intros y _ ? ? ?; apply read_bounded).
  assert (Hk : k <= len d) by (eapply bounded_optional; [exact Hbt| |exact Er]; lia).
  rewrite uadd_fit in H by lia. cbn [bind] in H.
  assert (Hgo : forall r, read_fields m emb e b (g :: r) off prev = read_fields m emb e b r (off + k) (prev ++ [v])).
  { intro r. rewrite Eq, slice_from_ok by exact Ho. cbn [bind]. fold d. rewrite Er. cbn [bind]. rewrite uadd_fit by lia. reflexivity. }
  assert (Hpos : forall r p os' o n' vs', read_fields_offsets m emb e b r o p os' = Ok (n', (VMsg vs', MkOffsets os)) -> o <= len b ->
    exists more l, vs' = p ++ more /\ os = os' ++ l /\ read_fields m emb e b r o p = Ok (n', p ++ more)).
  { intros r p os' o n' vs' R Ho'. pose proof (offsets_fields m emb e b Hl r o p os' (fun _ y _ _ => offsets_correct m emb y) Ho') as F.
    destruct (read_fields m emb e b r o p) as [[n1 vs1]|er|]; [|rewrite F in R; discriminate..].
    destruct F as (rest & l & -> & F & _). rewrite F in R. inversion R; subst. exists rest, l. auto. }
  assert (Hok : off + k <= len b) by lia. destruct i as [|i].
  - cbn [nth_error firstn] in *. injection Hf as ->.
    destruct (Hpos _ _ _ _ _ _ H Hok) as (more & l & -> & -> & R).
    exists off, (off + k), nested, v, (v :: more). rewrite Nat.add_0_r, <- (app_assoc offs), (nth_error_app2 offs) by reflexivity. rewrite Nat.sub_diag.
    split; [reflexivity|]. split; [lia|]. split; [lia|]. rewrite <- app_assoc in R. rewrite <- app_assoc.
    split; [reflexivity|]. split; [reflexivity|]. split; [cbn; rewrite app_nil_r; reflexivity|]. split; [|rewrite Hgo; exact R].
    rewrite Hgo. reflexivity.
  - cbn [nth_error] in Hf. destruct (IH _ _ _ _ _ _ _ _ Hok H Hf) as (lo & hi & ne & y & more & H1 & H2 & H3 & -> & H5 & H6 & H7 & H8).
    exists lo, hi, ne, y, (v :: more). rewrite app_length in H1. cbn [length] in H1. replace (length offs + S i)%nat with (length offs + 1 + i)%nat by lia.
    split; [exact H1|]. split; [lia|]. split; [exact H3|]. rewrite <- app_assoc in H6, H7, H8. rewrite <- app_assoc.
    split; [reflexivity|]. split; [exact H5|]. cbn [firstn]. rewrite !Hgo. cbn [app] in *. auto.
Qed.

(** The first [i] members alone. *)
Definition first_members (i : nat) (x : message) : message := MkMessage (m_id x) (m_name x) (firstn i (m_fields x)) (m_size x).

Lemma first_members_fields : forall i x, m_fields x = m_fields (first_members i x) ++ skipn i (m_fields x).
Proof. intros i x. cbn. symmetry. apply firstn_skipn. Qed.
Lemma part_first : forall emb i x e f, part emb (first_members i x) e f -> part emb x e f.
Proof.
  intros emb i x e f H. assert (I : forall g, In g (m_fields (first_members i x)) -> In g (m_fields x)).
  { intros g Hg. rewrite (first_members_fields i x). apply in_or_app. left. exact Hg. }
  destruct H as [Hin He|g y Hin Hi Hp]; [apply part_here; [apply I; exact Hin|exact He]|].
  eapply part_deep; [apply I; exact Hin|exact Hi|exact Hp].
Qed.
Lemma bytes_ok_parts : forall a b, bytes_ok (a ++ b) <-> bytes_ok a /\ bytes_ok b.
Proof. intros. apply Forall_app. Qed.

Lemma offsets_at : forall m emb x b n vs l i f lo hi nested, len b < 2 ^ 64 ->
  read_msg_offsets m emb x b = Ok (n, (VMsg vs, MkOffsets l)) ->
  nth_error (m_fields x) i = Some f -> nth_error l i = Some (lo, hi, nested) ->
  lo <= hi /\ hi <= len b /\ nth_error vs i <> None /\
  read_msg m emb (first_members i x) b = Ok (lo, VMsg (firstn i vs)) /\
  read_msg m emb (first_members (S i) x) b = Ok (hi, VMsg (firstn (S i) vs)) /\
  read_msg m emb x b = Ok (n, VMsg vs).
Proof.
  intros m emb x b n vs l i f lo hi nested Hl Ho Hf Hi. rewrite read_msg_offsets_eq in Ho.
  destruct (offsets_split m emb _ b Hl _ _ _ _ _ _ _ _ _ (N.le_0_l _) Ho Hf) as (lo' & hi' & ne & y & more & H1 & H2 & H3 & -> & H5 & H6 & H7 & H8).
  cbn [length Nat.add app] in *. rewrite Hi in H1. inversion H1; subst. split; [lia|]. split; [lia|]. split; [congruence|].
  rewrite !read_msg_eq. cbn [first_members m_id m_fields]. rewrite H6, H7, H8. auto.
Qed.

(** What the reader makes of the members before, with other bytes behind them. *)
Lemma before_stays : forall m emb x b lo vs i s, len b < 2 ^ 64 -> bytes_ok b -> lo + len s < 2 ^ 64 -> bytes_ok s -> lo <= len b ->
  read_msg m emb (first_members i x) b = Ok (lo, VMsg vs) ->
  (lo < len b \/ s = [] \/ (items_delimited emb x /\ closed_fields emb (emb (m_id x)) (firstn i (m_fields x)) vs)) ->
  read_msg m emb (first_members i x) (firstn (N.to_nat lo) b ++ s) = Ok (lo, VMsg vs).
Proof.
  intros m emb x b lo vs i s Hl Hb Hs Hbs Hlo H [L | [-> | (Hi & Hc)]].
  - eapply read_left_final; eassumption.
  - rewrite app_nil_r. apply EvolveThms.read_prefix; [exact Hl|exact H|lia|exact Hlo].
  - set (y := first_members i x) in *. destruct (decode_exact m emb y b Hl Hb) as (HO & _).
    apply HO in H. destruct H as (c & r & -> & -> & H).
    assert (Hc' : bytes_ok c /\ bytes_ok r) by (apply bytes_ok_parts; exact Hb).
    rewrite firstn_len_app. destruct (decode_exact m emb y (c ++ s)) as (HO' & _).
    + rewrite len_app. exact Hs.
    + apply bytes_ok_parts. tauto.
    + apply HO'. exists c, s. split; [reflexivity|]. split; [reflexivity|].
      refine (decodes_settled m emb y _ _ _ _ _ s H _).
      * intros g ty z Hp. apply Hi. apply (part_first emb i). exact Hp.
      * intro Y. inversion Y as [? vs' j g w Hg Hw Ho]; subst. eapply Hc; [exact Hg|exact Hw|exact Ho].
Qed.

Lemma before_kept : forall m emb x b n vs l i f lo hi nested w, len b < 2 ^ 64 -> bytes_ok b -> bytes_ok w ->
  read_msg_offsets m emb x b = Ok (n, (VMsg vs, MkOffsets l)) ->
  nth_error (m_fields x) i = Some f -> nth_error l i = Some (lo, hi, nested) ->
  let e := emb (m_id x) in let s := w ++ skipn (N.to_nat hi) b in let b' := firstn (N.to_nat lo) b ++ s in
  len b' < 2 ^ 64 ->
  (lo < len b \/ s = [] \/ (items_delimited emb x /\ closed_fields emb e (firstn i (m_fields x)) (firstn i vs))) ->
  read_msg m emb (first_members i x) b' = Ok (lo, VMsg (firstn i vs)).
Proof.
  intros m emb x b n vs l i f lo hi nested w Hl Hb Hw Ho Hf Hi e s b' Hl' Hc.
  destruct (offsets_at _ _ _ _ _ _ _ _ _ _ _ _ Hl Ho Hf Hi) as (Hlo & Hhi & _ & R1 & _ & _).
  assert (Hbq : bytes_ok (skipn (N.to_nat hi) b)) by (rewrite <- (firstn_skipn (N.to_nat hi) b) in Hb; apply bytes_ok_parts in Hb; tauto).
  assert (Elo : len (firstn (N.to_nat lo) b) = lo) by (apply len_firstn'; lia).
  apply before_stays; try assumption; [unfold b' in Hl'; rewrite len_app in Hl'; lia|apply bytes_ok_parts; auto|lia].
Qed.

Theorem replace_exact_at : forall m emb x b n vs l i f lo hi nested w, len b < 2 ^ 64 -> bytes_ok b -> bytes_ok w ->
  read_msg_offsets m emb x b = Ok (n, (VMsg vs, MkOffsets l)) ->
  nth_error (m_fields x) i = Some f -> nth_error l i = Some (lo, hi, nested) ->
  let e := emb (m_id x) in let s := w ++ skipn (N.to_nat hi) b in let b' := firstn (N.to_nat lo) b ++ s in
  len b' < 2 ^ 64 ->
  read_msg m emb (first_members i x) b' = Ok (lo, VMsg (firstn i vs)) ->
  (forall n' v', read_msg m emb x b' = Ok (n', v') <->
     exists c ws r, s = c ++ r /\ n' = lo + len c /\ v' = VMsg (firstn i vs ++ ws) /\
       members m emb e (firstn i vs) (skipn i (m_fields x)) s (Found c ws r)) /\
  (forall er, read_msg m emb x b' = Err er <-> members m emb e (firstn i vs) (skipn i (m_fields x)) s (Stops (Reports er))) /\
  (read_msg m emb x b' = Panic <-> members m emb e (firstn i vs) (skipn i (m_fields x)) s (Stops Crashes)).
Proof.
  intros m emb x b n vs l i f lo hi nested w Hl Hb Hw Ho Hf Hi e s b' Hl' R.
  destruct (offsets_at _ _ _ _ _ _ _ _ _ _ _ _ Hl Ho Hf Hi) as (Hlo & Hhi & _ & R1 & _ & _).
  assert (Hbq : bytes_ok (skipn (N.to_nat hi) b)) by (rewrite <- (firstn_skipn (N.to_nat hi) b) in Hb; apply bytes_ok_parts in Hb; tauto).
  assert (Hbp : bytes_ok (firstn (N.to_nat lo) b)) by (rewrite <- (firstn_skipn (N.to_nat lo) b) in Hb; apply bytes_ok_parts in Hb; tauto).
  assert (Hbs : bytes_ok s) by (apply bytes_ok_parts; auto).
  assert (Elo : len (firstn (N.to_nat lo) b) = lo) by (apply len_firstn'; lia).
  destruct (extended_exact m emb (first_members i x) x (skipn i (m_fields x)) b' (first_members_fields i x) eq_refl Hl'
    (proj2 (bytes_ok_parts _ _) (conj Hbp Hbs))) as (_ & _ & X3 & X4).
  specialize (X4 _ _ R). cbv zeta in X4.
  assert (Es : skipn (N.to_nat lo) b' = s) by (unfold b'; rewrite <- Elo at 1; apply skipn_len_app).
  rewrite Es in X4. destruct X4 as (X4 & X5 & X6). split; [|split; [exact X5|exact X6]]. intros n' v'. split.
  - intro H. destruct (X3 _ _ H) as (n1 & vs1 & ws & E & -> & _). rewrite R in E. inversion E; subst.
    apply X4 in H. destruct H as (c & r & H1 & H2 & H3). exists c, ws, r. auto.
  - intros (c & ws & r & H1 & -> & -> & H3). apply X4. eauto.
Qed.

Theorem replace_exact : forall m emb x b n vs l i f lo hi nested w, len b < 2 ^ 64 -> bytes_ok b -> bytes_ok w ->
  read_msg_offsets m emb x b = Ok (n, (VMsg vs, MkOffsets l)) ->
  nth_error (m_fields x) i = Some f -> nth_error l i = Some (lo, hi, nested) ->
  let e := emb (m_id x) in let s := w ++ skipn (N.to_nat hi) b in let b' := firstn (N.to_nat lo) b ++ s in
  len b' < 2 ^ 64 ->
  (lo < len b \/ s = [] \/ (items_delimited emb x /\ closed_fields emb e (firstn i (m_fields x)) (firstn i vs))) ->
  (forall n' v', read_msg m emb x b' = Ok (n', v') <->
     exists c ws r, s = c ++ r /\ n' = lo + len c /\ v' = VMsg (firstn i vs ++ ws) /\
       members m emb e (firstn i vs) (skipn i (m_fields x)) s (Found c ws r)) /\
  (forall er, read_msg m emb x b' = Err er <-> members m emb e (firstn i vs) (skipn i (m_fields x)) s (Stops (Reports er))) /\
  (read_msg m emb x b' = Panic <-> members m emb e (firstn i vs) (skipn i (m_fields x)) s (Stops Crashes)).
Proof.
  intros m emb x b n vs l i f lo hi nested w Hl Hb Hw Ho Hf Hi e s b' Hl' Hc. eapply replace_exact_at; try eassumption.
  eapply before_kept; eassumption.
Qed.

(** ** The members behind depend on the replaced one only through the discriminants of unions *)

Definition same_choice (m : mode) (p q : list value) (t : mfield_type) : Prop :=
  forall u on i, t = TUnion u on i -> read_discriminant m (u_disc u) (nth_error p i) = read_discriminant m (u_disc u) (nth_error q i).
Lemma discriminant_at : forall m u p i d,
  (exists data, nth_error p i = Some (VStruct data) /\ discriminant m u data d) <-> read_discriminant m (u_disc u) (nth_error p i) = Ok d.
Proof.
  intros m u p i d. unfold read_discriminant, discriminant. split.
  - intros (data & -> & H). exact H.
  - destruct (nth_error p i) as [[| data | | | | | |]|]; try discriminate. intro H. exists data. auto.
Qed.
Lemma content_choice : forall m emb e endi p q t b o, same_choice m p q t -> content m emb e endi p t b o -> content m emb e endi q t b o.
Proof.
  intros m emb e endi p q t b o Hc H. inversion H; subst; try (constructor; assumption).
  1: eapply string_cut; eassumption.
  1: eapply array_cut; eassumption.
  1: eapply array_large; eassumption.
  6: eapply list_stops; eassumption.
  all: specialize (Hc _ _ _ eq_refl).
  1,2,3,4: match goal with X : nth_error _ _ = Some (VStruct _), Y : discriminant _ _ _ _ |- _ =>
    pose proof (proj1 (discriminant_at _ _ _ _ _) (ex_intro _ _ (conj X Y))) as Z end;
    rewrite Hc in Z; apply discriminant_at in Z; destruct Z as (data' & Z1 & Z2).
  - eapply union_empty; eassumption.
  - eapply union_case; eassumption.
  - eapply union_case_stops; eassumption.
  - eapply union_unknown; eassumption.
  - apply union_stuck. intros data d X Y. pose proof (proj1 (discriminant_at _ _ _ _ _) (ex_intro _ _ (conj X Y))) as Z.
    rewrite <- Hc in Z. apply discriminant_at in Z. destruct Z as (data' & Z1 & Z2).
    match goal with N : forall data d, _ -> ~ _ |- _ => exact (N _ _ Z1 Z2) end.
Qed.
Lemma member_choice : forall m emb e p q f b o, same_choice m p q (mf_ty f) -> member m emb e p f b o -> member m emb e q f b o.
Proof.
  intros m emb e p q f b o Hc H. inversion H; subst; try (constructor; assumption);
    match goal with X : content _ _ _ _ _ _ _ _ |- _ => eapply content_choice in X; [|exact Hc] end.
  - apply member_plain; assumption.
  - apply member_present; assumption.
  - eapply member_present_stops; eassumption.
Qed.
Lemma members_choice : forall m emb e fs p q b o, length p = length q ->
  (forall g u on i, In g fs -> mf_ty g = TUnion u on i -> (i < length p)%nat ->
     read_discriminant m (u_disc u) (nth_error p i) = read_discriminant m (u_disc u) (nth_error q i)) ->
  members m emb e p fs b o -> members m emb e q fs b o.
Proof.
  intros m emb e. induction fs as [|f fs IH]; intros p q b o Hl Hc H; inversion H; subst; [constructor| | |];
    match goal with X : member _ _ _ _ _ _ _ |- _ => apply (member_choice m emb e p q f) in X;
      [|intros u on i Et; destruct (lt_dec i (length p)) as [L|L];
        [eapply Hc; [left; reflexivity|exact Et|exact L]
        |rewrite (proj2 (nth_error_None p i)), (proj2 (nth_error_None q i)) by lia; reflexivity]] end.
  1,3: assert (Hc' : forall v g u on i, In g fs -> mf_ty g = TUnion u on i -> (i < length (p ++ [v]))%nat ->
     read_discriminant m (u_disc u) (nth_error (p ++ [v]) i) = read_discriminant m (u_disc u) (nth_error (q ++ [v]) i)).
  1,3: intros v' g u on i Hg Et L; destruct (lt_dec i (length p)) as [L'|L'];
    [rewrite !nth_error_app1 by lia; eapply Hc; [right; exact Hg|exact Et|exact L']
    |rewrite !nth_error_app2 by lia; rewrite Hl; reflexivity].
  - eapply members_next; [eassumption|]. eapply IH; [|apply Hc'|eassumption]. rewrite !app_length. cbn. lia.
  - eapply members_stop_later; [eassumption|]. eapply IH; [|apply Hc'|eassumption]. rewrite !app_length. cbn. lia.
  - apply members_stop. assumption.
Qed.

Lemma skipn_cons : forall A (l : list A) i a, nth_error l i = Some a -> skipn i l = a :: skipn (S i) l.
Proof. intros A. induction l as [|h l IH]; intros [|i] a H; try discriminate; [injection H as ->; reflexivity|]. apply IH. exact H. Qed.
Lemma firstn_snoc : forall A (l : list A) i a, nth_error l i = Some a -> firstn (S i) l = firstn i l ++ [a].
Proof.
  intros A. induction l as [|h l IH]; intros [|i] a H; try discriminate; [injection H as ->; reflexivity|].
  cbn [firstn app]. f_equal. apply IH. exact H.
Qed.

Theorem replace_any_at : forall m emb x b n vs l i f lo hi nested v w, len b < 2 ^ 64 -> bytes_ok b -> bytes_ok w ->
  read_msg_offsets m emb x b = Ok (n, (VMsg vs, MkOffsets l)) ->
  nth_error (m_fields x) i = Some f -> nth_error l i = Some (lo, hi, nested) ->
  let e := emb (m_id x) in let q := skipn (N.to_nat hi) b in let b' := firstn (N.to_nat lo) b ++ w ++ q in
  len b' < 2 ^ 64 ->
  read_msg m emb (first_members i x) b' = Ok (lo, VMsg (firstn i vs)) ->
  member m emb e (firstn i vs) f (w ++ q) (Found w v q) -> same_discriminants m x i vs v ->
  lo <= hi /\ hi <= n /\ read_msg m emb x b' = Ok (n - (hi - lo) + len w, VMsg (with_member i v vs)).
Proof.
  intros m emb x b n vs l i f lo hi nested v w Hl Hb Hw Ho Hf Hi e q b' Hl' Hc HM Hs.
  destruct (offsets_at _ _ _ _ _ _ _ _ _ _ _ _ Hl Ho Hf Hi) as (Hlo & Hhi & Hy & R1 & R2 & R3).
  destruct (nth_error vs i) as [y|] eqn:Ey; [clear Hy|destruct Hy; reflexivity].
  destruct (extended_exact m emb (first_members (S i) x) x (skipn (S i) (m_fields x)) b (first_members_fields (S i) x) eq_refl Hl Hb)
    as (_ & _ & _ & X). specialize (X _ _ R2). cbv zeta in X. destruct X as (X & _).
  pose proof (firstn_skipn (S i) vs) as Ev. rewrite <- Ev in R3. apply X in R3. destruct R3 as (c & r & Eq & En & R3). fold q in Eq, R3.
  destruct (replace_exact_at m emb x b n vs l i f lo hi nested w Hl Hb Hw Ho Hf Hi Hl' Hc) as (Y & _).
  split; [exact Hlo|]. split; [lia|]. apply Y. exists (w ++ c), (v :: skipn (S i) vs), r.
  split; [fold q; rewrite Eq, app_assoc; reflexivity|]. split; [rewrite len_app; lia|]. split; [reflexivity|].
  rewrite (skipn_cons _ _ _ _ Hf). eapply members_next; [exact HM|].
  cbn [first_members m_id] in R3. eapply members_choice; [| |exact R3].
  - rewrite (firstn_snoc _ _ _ _ Ey), !app_length. reflexivity.
  - rewrite (firstn_snoc _ _ _ _ Ey). assert (Hli : length (firstn i vs) = i).
    { rewrite firstn_length. assert (i < length vs)%nat by (apply nth_error_Some; congruence). lia. }
    intros g u on k Hg Et Hk. rewrite app_length, Hli in Hk. cbn [length] in Hk. destruct (Nat.eq_dec k i) as [->|Hne].
    + rewrite !nth_error_app2 by lia. rewrite Hli, Nat.sub_diag. cbn [nth_error].
      apply In_nth_error in Hg. destruct Hg as (j & Hg).
      assert (Hg' : nth_error (m_fields x) (S i + j) = Some g).
      { rewrite <- (firstn_skipn (S i) (m_fields x)), nth_error_app2; rewrite firstn_length_le.
        - replace (S i + j - S i)%nat with j by lia. exact Hg.
        - assert (i < length (m_fields x))%nat by (apply nth_error_Some; congruence). lia.
        - lia.
        - assert (i < length (m_fields x))%nat by (apply nth_error_Some; congruence). lia. }
      symmetry. rewrite <- Ey. eapply (Hs (S i + j)%nat); [lia|exact Hg'|exact Et].
    + rewrite !nth_error_app1 by lia. reflexivity.
Qed.

Theorem replace_any : forall m emb x b n vs l i f lo hi nested v w, len b < 2 ^ 64 -> bytes_ok b -> bytes_ok w ->
  read_msg_offsets m emb x b = Ok (n, (VMsg vs, MkOffsets l)) ->
  nth_error (m_fields x) i = Some f -> nth_error l i = Some (lo, hi, nested) ->
  let e := emb (m_id x) in let q := skipn (N.to_nat hi) b in let b' := firstn (N.to_nat lo) b ++ w ++ q in
  len b' < 2 ^ 64 ->
  (lo < len b \/ w ++ q = [] \/ (items_delimited emb x /\ closed_fields emb e (firstn i (m_fields x)) (firstn i vs))) ->
  member m emb e (firstn i vs) f (w ++ q) (Found w v q) -> same_discriminants m x i vs v ->
  lo <= hi /\ hi <= n /\ read_msg m emb x b' = Ok (n - (hi - lo) + len w, VMsg (with_member i v vs)).
Proof.
  intros m emb x b n vs l i f lo hi nested v w Hl Hb Hw Ho Hf Hi e q b' Hl' Hc HM Hs. eapply replace_any_at; try eassumption.
  eapply before_kept; eassumption.
Qed.
