(** Proofs for C71 and C72. *)

From Coq Require Import Arith NArith ZArith String List Bool Lia ZifyBool ZifyN ZifyNat.
From Verif Require Import Base Schema Codec Compiler Access Bits BitsFacts CodecFacts SpecComp SpecStruct StructFacts
  Utf8 Runtime Gen SpecWire MsgFacts WriteThms ReadThms SoundThms TotalThms SpecOffsets OffsetThms SpecEvolve EvolveThms SpecStream.
Import ListNotations.
Local Open Scope N_scope.
Ltac Zify.zify_post_hook ::= idtac.

(** ** Streams *)

Theorem write_stream : forall m l bs, Forall2 (fun xv b => encodes m (fst xv) (snd xv) b) l bs ->
  forall s, write_in_turn m l s = (s ++ concat bs, Ok tt).
Proof.
  intros m l bs H. induction H as [|[x v] b l bs Hb _ IH]; intro s; cbn [write_in_turn concat]; [rewrite app_nil_r; reflexivity|].
  rewrite (write_vec_encodes m x v b s Hb), IH, app_assoc. reflexivity.
Qed.

Theorem read_stream : forall m emb l bs, Forall2 (fun xv b => encodes_lax m (fst xv) (snd xv) b) l bs ->
  (forall xv, In xv l -> self_delimiting emb (fst xv)) -> forall rest, len (concat bs ++ rest) < 2 ^ 64 ->
  reads_in_turn m emb (map fst l) (concat bs ++ rest) (map snd l) rest.
Proof.
  intros m emb l bs H. induction H as [|[x v] b l bs Hb _ IH]; intros Hd rest Hl; cbn [map concat app fst snd] in *; [constructor|].
  rewrite <- app_assoc in *. econstructor.
  - apply roundtrip_suffix; [apply (Hd (x, v)); left; reflexivity|exact Hb|exact Hl].
  - rewrite len_app. lia.
  - rewrite skipn_len_app. apply IH; [intros xv Hx; apply Hd; right; exact Hx|]. rewrite len_app in Hl. lia.
Qed.

Lemma app_cut : forall (A : Type) (p q b c : list A), p ++ q = b ++ c ->
  (exists r, p = b ++ r /\ r ++ q = c) \/ (exists r, r <> [] /\ b = p ++ r).
Proof.
  intros A p. induction p as [|a p IH]; intros q b c E.
  - destruct b as [|d b]; [left; exists []; auto|right; exists (d :: b); split; [discriminate|reflexivity]].
  - destruct b as [|d b]; [left; exists (a :: p); auto|]. cbn [app] in E. injection E as -> E. apply IH in E.
    destruct E as [(r & -> & E)|(r & Hr & ->)]; [left; exists r; auto|right; exists r; auto].
Qed.

Theorem cut_stream : forall m emb l bs, Forall2 (fun xv b => encodes_lax m (fst xv) (snd xv) b) l bs ->
  (forall xv, In xv l -> self_delimiting emb (fst xv)) -> (forall xv, In xv l -> no_varchar emb (fst xv)) ->
  forall p q, p ++ q = concat bs -> q <> [] -> len (concat bs) < 2 ^ 64 ->
  exists done x v todo rest, l = done ++ (x, v) :: todo /\ reads_in_turn m emb (map fst done) p (map snd done) rest /\
    read_msg m emb x rest = Err Truncated.
Proof.
  intros m emb l bs H. induction H as [|[x v] b l bs Hb _ IH]; intros Hd Hv p q E Hq Hl.
  - apply app_eq_nil in E. destruct E as (_ & ->). congruence.
  - cbn [concat] in E, Hl. rewrite len_app in Hl. apply app_cut in E. destruct E as [(r & -> & E)|(r & Hr & ->)].
    + destruct (IH (fun xv Hx => Hd xv (or_intror Hx)) (fun xv Hx => Hv xv (or_intror Hx)) r q E Hq ltac:(lia))
        as (done & y & w & todo & rest & -> & R & T).
      exists ((x, v) :: done), y, w, todo, rest. split; [reflexivity|]. split; [|exact T]. cbn [map fst snd]. econstructor.
      * apply roundtrip_suffix; [apply (Hd (x, v)); left; reflexivity|exact Hb|]. rewrite <- E, len_app in Hl. rewrite len_app. lia.
      * rewrite len_app. lia.
      * rewrite skipn_len_app. exact R.
    + exists [], x, v, l, p. split; [reflexivity|]. split; [constructor|].
      apply (truncated m emb (fun _ => True) x (Hd (x, v) (or_introl eq_refl)) (Hv (x, v) (or_introl eq_refl)) v p r Hb Hr).
      lia.
Qed.

(** ** One member replaced *)

(** Each field alone in its window. *)
Inductive chain (m : mode) (emb : N -> bool) (e : bool) : list mfield -> list value -> list value -> list bytes -> Prop :=
| chain_nil : forall prev, chain m emb e [] prev [] []
| chain_cons : forall f fs prev v vs w ws,
    read_optional m (mf_optional f) (read_ty m emb e (mf_endi f) prev (mf_ty f)) w = Ok (len w, v) ->
    chain m emb e fs (prev ++ [v]) vs ws -> chain m emb e (f :: fs) prev (v :: vs) (w :: ws).

Definition final_field (m : mode) (emb : N -> bool) (e : bool) (f : mfield) : Prop :=
  mf_ty f <> TPayload /\ (forall ty x, mf_ty f = TList ty x -> e = true) /\
  forall y, inside (mf_ty f) y -> final (read_msg m emb y).
Lemma self_final : forall m emb x f, self_delimiting emb x -> In f (m_fields x) -> final_field m emb (emb (m_id x)) f.
Proof.
  intros m emb x f H Hf. destruct (self_delimiting_field emb x f H Hf) as (H1 & H2 & H3). split; [exact H1|]. split; [exact H2|].
  intros y Hy. apply read_final, H3, Hy.
Qed.

(** Every field that is followed by something can be told from it. *)
Definition all_final (m : mode) (emb : N -> bool) (e : bool) (fs : list mfield) (s : bytes) : Prop :=
  forall l f r, fs = l ++ f :: r -> r <> [] \/ s <> [] -> final_field m emb e f.
Lemma chain_reads : forall m emb e fs prev vs ws, chain m emb e fs prev vs ws -> forall pre s, all_final m emb e fs s ->
  len (pre ++ concat ws ++ s) < 2 ^ 64 ->
  read_fields m emb e (pre ++ concat ws ++ s) fs (len pre) prev = Ok (len pre + len (concat ws), prev ++ vs).
Proof.
  intros m emb e fs prev vs ws H. induction H as [prev|[nm ty opt sz endi] fs prev v vs w ws Hr Hc IH]; intros pre s Hf Hl.
  - cbn [read_fields concat]. change (len (@nil N)) with 0. rewrite N.add_0_r, app_nil_r. reflexivity.
  - cbn [mf_ty mf_optional mf_endi] in *.
    cbn [concat] in *. replace ((w ++ concat ws) ++ s)%list with (w ++ concat ws ++ s)%list in * by apply app_assoc.
    cbn [read_fields]. rewrite slice_from_app. cbn [bind].
    rewrite !len_app in Hl.
    assert (F : read_optional m opt (read_ty m emb e endi prev ty) (w ++ concat ws ++ s) = Ok (len w, v)).
    { assert (G : (fs = [] /\ s = []) \/ (fs <> [] \/ s <> [])).
      { destruct fs; [destruct s; [left; auto|right; right; discriminate]|right; left; discriminate]. }
      destruct G as [(-> & ->)|G].
      - inversion Hc; subst. cbn [concat]. rewrite !app_nil_r. exact Hr.
      - destruct (Hf [] _ fs eq_refl G) as (F1 & F2 & F3). cbn [mf_ty] in F1, F2, F3.
        pose proof (final_optional m opt _ (final_ty m emb e endi prev ty F1 F2 F3) w (concat ws ++ s)) as F.
        rewrite Hr in F. cbn [final_result] in F. apply F. rewrite !len_app; lia. }
    rewrite F. cbn [bind]. rewrite uadd_fit by lia. cbn [bind].
    rewrite (app_assoc pre), <- len_app. rewrite IH; [|intros l f r E; apply (Hf (MkMField nm ty opt sz endi :: l) f r); rewrite E; reflexivity|rewrite !len_app; lia].
    rewrite !len_app, <- app_assoc. cbn [app]. f_equal. f_equal. lia.
Qed.

Lemma skipn_twice : forall (A : Type) (b : list A) i j, skipn i (skipn j b) = skipn (i + j) b.
Proof.
  intros A b. induction b as [|a b IH]; intros i j; [rewrite !skipn_nil; reflexivity|]. destruct j as [|j]; [rewrite Nat.add_0_r; reflexivity|].
  rewrite Nat.add_succ_r. cbn [skipn]. apply IH.
Qed.
Lemma describes_chain : forall m emb e b fs start prev vs l, describes_fields m emb e b fs start prev vs l -> start <= len b ->
  exists ws, chain m emb e fs prev vs ws /\ skipn (N.to_nat start) b = concat ws /\
    forall i lo hi nested, nth_error l i = Some (lo, hi, nested) ->
      lo = start + len (concat (firstn i ws)) /\ exists w, nth_error ws i = Some w /\ hi = lo + len w.
Proof.
  intros m emb e b fs start prev vs l H. induction H as [e b prev|e b f fs start end_ prev v vs nested l Hse Heb Hr Hn _ IH]; intro Hs.
  - exists []. split; [constructor|]. split; [unfold len; rewrite Nat2N.id, skipn_all; reflexivity|]. intros [|i]; discriminate.
  - destruct (IH Heb) as (ws & C & Hw & Ho). pose proof (skipn_twice _ b (N.to_nat (end_ - start)) (N.to_nat start)) as Hk.
    replace (N.to_nat (end_ - start) + N.to_nat start)%nat with (N.to_nat end_) in Hk by lia.
    assert (Hlen : len (window b start end_) = end_ - start).
    { unfold window, len. rewrite firstn_length, skipn_length. unfold len in *. lia. }
    exists (window b start end_ :: ws). split; [constructor; [rewrite Hlen; exact Hr|exact C]|]. split.
    + cbn [concat]. rewrite <- Hw, <- Hk. unfold window. rewrite firstn_skipn. reflexivity.
    + intros [|i] lo hi nst Hi; cbn [nth_error firstn concat] in *.
      * injection Hi as <- <- <-. split; [change (len (@nil N)) with 0; lia|]. eexists. split; [reflexivity|]. lia.
      * apply Ho in Hi. destruct Hi as (-> & w & Hi & ->). split; [rewrite len_app; lia|]. exists w. split; [exact Hi|lia].
Qed.

Lemma read_ty_prev : forall m emb e endi p q t,
  (forall u on idx, t = TUnion u on idx -> read_discriminant m (u_disc u) (nth_error p idx) = read_discriminant m (u_disc u) (nth_error q idx)) ->
  forall b, read_ty m emb e endi p t b = read_ty m emb e endi q t b.
Proof.
  intros m emb e endi p q t H b. destruct t as [ty|r| |ty|ty st|u on idx|ty x|]; try reflexivity.
  rewrite !read_ty_union, !read_union_eq, (H _ _ _ eq_refl). reflexivity.
Qed.
Lemma read_optional_ext : forall m opt (r r' : reader value), (forall b, r b = r' b) -> forall b, read_optional m opt r b = read_optional m opt r' b.
Proof.
  intros m [] r r' H b; [|apply H]. unfold read_optional, rmap, optional_from_slice. destruct (len b <? 1); [reflexivity|].
  destruct (unwrap (nth_error b 0)) as [fl|?|]; [|reflexivity..]. cbn [bind]. destruct (0 <? fl); [|reflexivity].
  destruct (slice_from b 1) as [d|?|]; [|reflexivity..]. cbn [bind]. rewrite H. reflexivity.
Qed.

Lemma chain_prev : forall m emb e fs p vs ws, chain m emb e fs p vs ws -> forall q, length p = length q ->
  (forall j f u on idx, nth_error fs j = Some f -> mf_ty f = TUnion u on idx -> (idx < length p)%nat ->
     read_discriminant m (u_disc u) (nth_error p idx) = read_discriminant m (u_disc u) (nth_error q idx)) ->
  chain m emb e fs q vs ws.
Proof.
  intros m emb e fs p vs ws H. induction H as [p|f fs p v vs w ws Hr _ IH]; intros q Hl Hd; [constructor|].
  assert (D : forall u idx,
    ((idx < length p)%nat -> read_discriminant m (u_disc u) (nth_error p idx) = read_discriminant m (u_disc u) (nth_error q idx)) ->
    read_discriminant m (u_disc u) (nth_error p idx) = read_discriminant m (u_disc u) (nth_error q idx)).
  { intros u idx G. destruct (Nat.ltb_spec idx (length p)) as [L|L]; [exact (G L)|].
    rewrite !(proj2 (nth_error_None _ _)) by lia. reflexivity. }
  constructor.
  - rewrite <- Hr. apply read_optional_ext. intro b. symmetry. apply read_ty_prev. intros u on idx Et. apply D.
    apply (Hd 0%nat f u on idx eq_refl Et).
  - apply IH; [rewrite !app_length; lia|]. intros j g u on idx Hj Et Hi. rewrite app_length in Hi. cbn [length] in Hi.
    destruct (Nat.ltb_spec idx (length p)) as [L|L].
    + rewrite !nth_error_app1 by lia. apply (Hd (S j) g u on idx Hj Et L).
    + rewrite !nth_error_app2 by lia. rewrite Hl. reflexivity.
Qed.

Lemma chain_replace : forall m emb e fs prev vs ws, chain m emb e fs prev vs ws -> forall i f v w,
  nth_error fs i = Some f ->
  read_optional m (mf_optional f) (read_ty m emb e (mf_endi f) (prev ++ firstn i vs) (mf_ty f)) w = Ok (len w, v) ->
  (forall j g u on, (i < j)%nat -> nth_error fs j = Some g -> mf_ty g = TUnion u on (length prev + i) ->
     read_discriminant m (u_disc u) (Some v) = read_discriminant m (u_disc u) (nth_error vs i)) ->
  chain m emb e fs prev (with_member i v vs) (with_member i w ws).
Proof.
  intros m emb e fs prev vs ws H. induction H as [prev|g fs prev y vs u ws Hr Hc IH]; intros i f v w Hi Hv Hd; [destruct i; discriminate|].
  destruct i as [|i]; cbn [nth_error firstn] in *; unfold with_member in *; cbn [firstn skipn app].
  - injection Hi as ->. rewrite app_nil_r in Hv. constructor; [exact Hv|]. apply (chain_prev _ _ _ _ _ _ _ Hc); [rewrite !app_length; reflexivity|].
    intros j h u' on idx Hj Et L. rewrite app_length in L. cbn [length] in L. destruct (Nat.eq_dec idx (length prev)) as [->|Ne].
    + rewrite !nth_error_app2, Nat.sub_diag by lia. cbn [nth_error]. symmetry. apply (Hd (S j) h u' on); [lia|exact Hj|].
      rewrite Nat.add_0_r. exact Et.
    + rewrite !nth_error_app1 by lia. reflexivity.
  - constructor; [exact Hr|]. apply (IH i f v w Hi).
    + rewrite <- app_assoc. exact Hv.
    + intros j h u' on Hj Hh Et. apply (Hd (S j) h u' on); [lia|exact Hh|]. rewrite app_length in Et. cbn [length] in Et.
      rewrite <- Nat.add_assoc in Et. exact Et.
Qed.

Lemma concat_with : forall (ws : list bytes) i w u, nth_error ws i = Some u ->
  concat ws = concat (firstn i ws) ++ u ++ concat (skipn (S i) ws) /\
  concat (with_member i w ws) = concat (firstn i ws) ++ w ++ concat (skipn (S i) ws).
Proof.
  intros ws i w u H. split.
  - rewrite <- (firstn_skipn i ws) at 1. rewrite concat_app. f_equal. revert i H. induction ws as [|a ws IH]; intros [|i] H; try discriminate.
    + injection H as ->. reflexivity.
    + apply IH, H.
  - unfold with_member. rewrite concat_app. reflexivity.
Qed.

Lemma replace_in_chain : forall m emb x b n vs l i f lo hi nested v w,
  all_final m emb (emb (m_id x)) (m_fields x) (skipn (N.to_nat n) b) ->
  (forall f, In f (m_fields x) -> reads_field m emb (fun _ => True) (emb (m_id x)) f []) -> len b < 2 ^ 64 ->
  read_msg_offsets m emb x b = Ok (n, (VMsg vs, MkOffsets l)) ->
  nth_error (m_fields x) i = Some f -> nth_error l i = Some (lo, hi, nested) ->
  encodes_member m f i vs v w -> same_discriminants m x i vs v ->
  len (firstn (N.to_nat lo) b ++ w ++ skipn (N.to_nat hi) b) < 2 ^ 64 ->
  lo <= hi /\ hi <= n /\
  read_msg m emb x (firstn (N.to_nat lo) b ++ w ++ skipn (N.to_nat hi) b) = Ok (n - (hi - lo) + len w, VMsg (with_member i v vs)).
Proof.
  intros m emb x b n vs l i f lo hi nested v w Hd Hrf Hl Ho Hf Hi He Hs Hl'.
  pose proof (offsets_correct m emb x b Hl) as A. unfold agree in A.
  destruct (read_msg m emb x b) as [[n0 v0]|er|] eqn:R; [|rewrite A in Ho; discriminate..].
  destruct A as (o & Eo & Hdesc). rewrite Eo in Ho. injection Ho as -> -> ->.
  pose proof (read_bounded m emb x b n _ Hl R) as Hn.
  inversion Hdesc as [x0 b0 vs0 l0 Hfs]; subst.
  destruct (describes_chain _ _ _ _ _ _ _ _ _ Hfs ltac:(lia)) as (ws & C & Hw & Hoff). cbn [N.to_nat skipn] in Hw.
  destruct (Hoff i lo hi nested Hi) as (Elo & u & Hu & Ehi). rewrite N.add_0_l in Elo.
  destruct (concat_with ws i w u Hu) as (Ec & Ec').
  assert (Eb : b = concat ws ++ skipn (N.to_nat n) b) by (rewrite <- Hw, firstn_skipn; reflexivity).
  assert (Hlen : len (concat ws) = n) by (rewrite <- Hw; apply len_firstn'; exact Hn).
  set (s := skipn (N.to_nat n) b) in *.
  assert (E1 : firstn (N.to_nat lo) b = concat (firstn i ws)).
  { rewrite Eb, Ec, <- !app_assoc, Elo. apply firstn_len_app. }
  assert (E2 : skipn (N.to_nat hi) b = concat (skipn (S i) ws) ++ s).
  { rewrite Eb, Ec, <- !app_assoc. rewrite (app_assoc (concat (firstn i ws))), Ehi, Elo, <- len_app. apply skipn_len_app. }
  assert (Hsum : n = len (concat (firstn i ws)) + (len u + len (concat (skipn (S i) ws)))).
  { rewrite <- Hlen, Ec, !len_app. reflexivity. }
  split; [lia|]. split; [lia|].
  assert (E3 : firstn (N.to_nat lo) b ++ w ++ skipn (N.to_nat hi) b = [] ++ concat (with_member i w ws) ++ s).
  { rewrite E1, E2, Ec', <- !app_assoc. reflexivity. }
  rewrite E3 in Hl' |- *. rewrite read_msg_eq. change 0 with (len (@nil N)).
  rewrite (chain_reads m emb _ _ [] (with_member i v vs) (with_member i w ws)); [| |exact Hd|exact Hl'].
  - cbn [bind app]. change (len (@nil N)) with 0. rewrite Ec', !len_app. f_equal. f_equal. lia.
  - apply (chain_replace _ _ _ _ _ _ _ C i f v w Hf).
    + pose proof (Hrf f (nth_error_In _ _ Hf)) as RF.
      specialize (RF (firstn i vs) v w He). rewrite app_nil_r in RF. apply RF.
      rewrite <- E3, !len_app in Hl'. lia.
    + cbn [length Nat.add]. intros j g u' on Hj Hg Et. apply (Hs j g u' on Hj Hg Et).
Qed.

Theorem replace_member : forall m emb x b n vs l i f lo hi nested v w,
  self_delimiting emb x -> len b < 2 ^ 64 ->
  read_msg_offsets m emb x b = Ok (n, (VMsg vs, MkOffsets l)) ->
  nth_error (m_fields x) i = Some f -> nth_error l i = Some (lo, hi, nested) ->
  encodes_member m f i vs v w -> same_discriminants m x i vs v ->
  len (firstn (N.to_nat lo) b ++ w ++ skipn (N.to_nat hi) b) < 2 ^ 64 ->
  lo <= hi /\ hi <= n /\
  read_msg m emb x (firstn (N.to_nat lo) b ++ w ++ skipn (N.to_nat hi) b) = Ok (n - (hi - lo) + len w, VMsg (with_member i v vs)).
Proof.
  intros m emb x b n vs l i f lo hi nested v w Hd. apply replace_in_chain.
  - intros fl g r E _. apply self_final; [exact Hd|]. rewrite E. apply in_elt.
  - intros g Hg. destruct (self_delimiting_field emb x g Hd Hg) as (F1 & F2 & F3). apply reads_field_intro.
    + intros y Hy _. apply self_delimiting_reads, F3, Hy.
    + intros ty y Et. split; [intros _ s0; apply self_delimiting_reads, F3; rewrite Et; constructor|].
      rewrite (F2 _ _ Et). discriminate.
    + intro. reflexivity.
Qed.

Theorem replace_member_whole : forall m emb x b vs l i f lo hi nested v w,
  readable emb x -> len b < 2 ^ 64 ->
  read_msg_offsets m emb x b = Ok (len b, (VMsg vs, MkOffsets l)) ->
  nth_error (m_fields x) i = Some f -> nth_error l i = Some (lo, hi, nested) ->
  encodes_member m f i vs v w -> same_discriminants m x i vs v ->
  len (firstn (N.to_nat lo) b ++ w ++ skipn (N.to_nat hi) b) < 2 ^ 64 ->
  lo <= hi /\ hi <= len b /\
  read_msg m emb x (firstn (N.to_nat lo) b ++ w ++ skipn (N.to_nat hi) b)
  = Ok (len (firstn (N.to_nat lo) b ++ w ++ skipn (N.to_nat hi) b), VMsg (with_member i v vs)).
Proof.
  intros m emb x b vs l i f lo hi nested v w Hr Hl Ho Hf Hi He Hs Hl'. inversion Hr as [x0 Hlist Hlast Hmid]; subst x0.
  destruct (replace_in_chain m emb x b (len b) vs l i f lo hi nested v w) as (H1 & H2 & H3); try assumption.
  - intros fl g r E [C|C]; [|unfold len in C; rewrite Nat2N.id, skipn_all in C; congruence].
    destruct (Hmid fl g r E C) as (Hp & Hsd). split; [intro Q; rewrite Q in Hp; contradiction|].
    split; [intros ty y Q; rewrite Q in Hp; exact Hp|]. intros y Hy. apply read_final, Hsd, Hy.
  - intros g Hg. apply in_split in Hg. destruct Hg as (fl & r & E). destruct r as [|g' r].
    + apply reads_field_intro.
      * intros y Hy Hn. apply readable_reads. apply (Hlast fl g y E Hy Hn).
      * intros ty y Et. split; [|reflexivity]. intros Hm s0. apply self_delimiting_reads. apply (Hlist fl g ty y E Et Hm).
      * reflexivity.
    + destruct (Hmid fl g (g' :: r) E ltac:(discriminate)) as (Hp & Hsd). apply reads_field_intro.
      * intros y Hy _. apply self_delimiting_reads, Hsd, Hy.
      * intros ty y Et. split; [|reflexivity]. intros _ s0. apply self_delimiting_reads, Hsd. rewrite Et. constructor.
      * reflexivity.
  - split; [exact H1|]. split; [exact H2|]. rewrite H3. f_equal. f_equal. rewrite !len_app.
    rewrite len_firstn' by lia. unfold len in *. rewrite skipn_length. lia.
Qed.
