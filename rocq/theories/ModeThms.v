(** Overflow checks only add panics. *)

From Coq Require Import Arith NArith ZArith String List Bool Lia ZifyBool ZifyN ZifyNat.
From Verif Require Import Base Schema Codec Compiler Access Runtime Gen Loader SpecWire MsgFacts WriteThms ReadThms SpecOffsets OffsetThms SpecMode.
Import ListNotations.
Local Open Scope N_scope.

Section Same.
Context {E : Type}.

Lemma sop_refl : forall A (x : outcome E A), same_or_panic x x.
Proof. right. reflexivity. Qed.
Lemma sop_bind : forall A B (d r : outcome E A) (f g : A -> outcome E B), same_or_panic d r ->
  (forall a, d = Ok a -> same_or_panic (f a) (g a)) -> same_or_panic (bind d f) (bind r g).
Proof.
  intros A B d r f g [->| ->] H; [left; reflexivity|]. destruct d as [a|e|]; cbn [bind]; [apply H; reflexivity|apply sop_refl..].
Qed.
Lemma sop_overflow : forall w, same_or_panic (overflow (E:=E) Debug w) (overflow Release w).
Proof. left. reflexivity. Qed.
Lemma sop_if : forall A (c : bool) (d r d' r' : outcome E A), same_or_panic d r -> same_or_panic d' r' ->
  same_or_panic (if c then d else d') (if c then r else r').
Proof. intros A []; auto. Qed.
Lemma sop_uadd : forall a b, same_or_panic (uadd (E:=E) Debug a b) (uadd Release a b).
Proof. intros. unfold uadd. apply sop_if; [apply sop_refl|apply sop_overflow]. Qed.
Lemma sop_usub : forall a b, same_or_panic (usub (E:=E) Debug a b) (usub Release a b).
Proof. intros. unfold usub. apply sop_if; [apply sop_refl|apply sop_overflow]. Qed.
Lemma sop_umul : forall a b, same_or_panic (umul (E:=E) Debug a b) (umul Release a b).
Proof. intros. unfold umul. apply sop_if; [apply sop_refl|apply sop_overflow]. Qed.
Lemma sop_ushl1 : forall a, same_or_panic (ushl1 (E:=E) Debug a) (ushl1 Release a).
Proof. intros. unfold ushl1. apply sop_if; [apply sop_refl|apply sop_overflow]. Qed.
Lemma sop_tshr : forall sz a b, same_or_panic (tshr (E:=E) Debug sz a b) (tshr Release sz a b).
Proof. intros. unfold tshr. apply sop_if; [apply sop_refl|apply sop_overflow]. Qed.
Lemma sop_tshl : forall sz a b, same_or_panic (tshl (E:=E) Debug sz a b) (tshl Release sz a b).
Proof. intros. unfold tshl. apply sop_if; [apply sop_refl|apply sop_overflow]. Qed.
End Same.

Ltac sop :=
  match goal with
  | |- same_or_panic (bind _ _) (bind _ _) =>
      apply sop_bind; [sop|let a := fresh "a" in let H := fresh "H" in intros a H; sop]
  | |- same_or_panic (uadd _ _ _) _ => apply sop_uadd
  | |- same_or_panic (usub _ _ _) _ => apply sop_usub
  | |- same_or_panic (umul _ _ _) _ => apply sop_umul
  | |- same_or_panic (ushl1 _ _) _ => apply sop_ushl1
  | |- same_or_panic (tshr _ _ _ _) _ => apply sop_tshr
  | |- same_or_panic (tshl _ _ _ _) _ => apply sop_tshl
  | |- same_or_panic (overflow _ _) _ => apply sop_overflow
  | |- same_or_panic ?x ?x => apply sop_refl
  | |- same_or_panic (if ?c then _ else _) (if ?c then _ else _) => apply sop_if; sop
  | |- same_or_panic (match ?x with _ => _ end) (match ?x with _ => _ end) => destruct x; sop
  | |- _ => auto
  end.

(** ** Codecs and accessors *)
Section Codecs.
Context {E : Type}.
Notation "d == r" := (same_or_panic (E:=E) d r) (at level 70).

Lemma sop_update : forall b lo hi f g, (forall w, f w == g w) -> update_slice b lo hi f == update_slice b lo hi g.
Proof. intros. unfold update_slice. sop. Qed.

Lemma sop_bit_read_aligned : forall o sz bo bs b,
  bit_read_aligned Debug o sz bo bs b == bit_read_aligned Release o sz bo bs b.
Proof. intros. unfold bit_read_aligned, bit_mask, be_shift. sop. Qed.
Lemma sop_bit_write_aligned : forall o sz bo bs b v,
  bit_write_aligned Debug o sz bo bs b v == bit_write_aligned Release o sz bo bs b v.
Proof. intros. unfold bit_write_aligned, bit_mask, be_shift, reset_mask. sop. Qed.
Hint Resolve sop_bit_read_aligned sop_bit_write_aligned : core.
Theorem mode_bit_read : forall o sz bo bs b, bit_read Debug o sz bo bs b == bit_read Release o sz bo bs b.
Proof. intros. unfold bit_read, bit_read_unaligned. sop. Qed.
Theorem mode_bit_write : forall o sz bo bs b v, bit_write Debug o sz bo bs b v == bit_write Release o sz bo bs b v.
Proof. intros. unfold bit_write, bit_write_unaligned. sop. Qed.

Lemma mode_ac_get : forall a data, ac_get Debug a data == ac_get Release a data.
Proof. intros. unfold ac_get, bit_read_unaligned. sop. Qed.
Lemma mode_ac_set : forall a data v, ac_set Debug a data v == ac_set Release a data v.
Proof. intros. unfold ac_set. apply sop_update. intro w. unfold bit_write_unaligned. sop. Qed.
Hint Resolve mode_ac_get mode_ac_set : core.
Theorem mode_get_raw : forall f data, get_raw Debug f data == get_raw Release f data.
Proof. intros. unfold get_raw. sop. Qed.
Theorem mode_set_raw : forall f data v, set_raw Debug f data v == set_raw Release f data v.
Proof. intros. unfold set_raw. sop. Qed.
Hint Resolve mode_get_raw mode_set_raw : core.
Lemma mode_neg : forall sz z, neg_signed Debug sz z == neg_signed Release sz z.
Proof. intros. unfold neg_signed. apply sop_if; [left; reflexivity|apply sop_refl]. Qed.
Hint Resolve mode_neg : core.
Lemma mode_view_get : forall f sz raw, view_get Debug f sz raw == view_get Release f sz raw.
Proof. intros. unfold view_get, signed_get. cbv zeta. sop. Qed.
Hint Resolve mode_view_get : core.
Theorem mode_get_view : forall f data, get_view Debug f data == get_view Release f data.
Proof. intros. unfold get_view. sop. Qed.
Theorem mode_set_view : forall f data v, set_view Debug f data v == set_view Release f data v.
Proof. intros. unfold set_view. sop. Qed.
Theorem mode_arr_get : forall f data i, arr_get Debug f data i == arr_get Release f data i.
Proof. intros. unfold arr_get, array_get_raw. cbv zeta. sop. Qed.
Theorem mode_arr_set : forall f data i v, arr_set Debug f data i v == arr_set Release f data i v.
Proof.
  intros. unfold arr_set. apply sop_bind; [sop|]. intros ibs _. apply sop_update. intro w. unfold array_set_raw. cbv zeta.
  apply sop_bind; [sop|]. intros p _. apply sop_bind; [sop|]. intros e _. sop.
Qed.
Theorem mode_path_get : forall path s data, path_get Debug s path data == path_get Release s path data.
Proof.
  induction path as [|i path IH]; intros s data; cbn [path_get]; [apply sop_refl|].
  destruct (nth_error (s_fields s) i) as [[f|f|n r loc]|]; [|apply sop_refl| |apply sop_refl].
  - destruct path; [apply mode_get_raw|apply sop_refl].
  - sop.
Qed.
Theorem mode_path_set : forall path s data v, path_set Debug s path data v == path_set Release s path data v.
Proof.
  induction path as [|i path IH]; intros s data v; cbn [path_set]; [apply sop_refl|].
  destruct (nth_error (s_fields s) i) as [[f|f|n r loc]|]; [|apply sop_refl| |apply sop_refl].
  - destruct path; [apply mode_set_raw|apply sop_refl].
  - apply sop_update. intro w. apply IH.
Qed.
Theorem mode_arr_item : forall size data i, arr_item Debug size data i == arr_item Release size data i.
Proof. intros. unfold arr_item. sop. Qed.
Theorem mode_arr_item_mut : forall size data i f, arr_item_mut Debug size data i f == arr_item_mut Release size data i f.
Proof. intros. unfold arr_item_mut. sop. Qed.
Theorem mode_arr_from_parts : forall size data n, arr_from_parts Debug size data n == arr_from_parts Release size data n.
Proof. intros. unfold arr_from_parts. sop. Qed.
End Codecs.

(** ** Reading *)
Definition rsop {A} (d r : reader A) : Prop := forall b, same_or_panic (d b) (r b).

Lemma rsop_rmap : forall A B (f : A -> B) d r, rsop d r -> rsop (rmap f d) (rmap f r).
Proof. intros A B f d r H b. unfold rmap. sop. Qed.

Lemma rsop_optional : forall opt d r, rsop d r -> rsop (read_optional Debug opt d) (read_optional Release opt r).
Proof.
  intros [] d r H; [|exact H]. apply rsop_rmap. intro b. unfold optional_from_slice. sop.
Qed.
Lemma rsop_list_loop : forall A (d r : reader A) data n t, rsop d r ->
  same_or_panic (list_loop Debug d data n t) (list_loop Release r data n t).
Proof. intros A d r data n. induction n as [|n IH]; intros t H; cbn [list_loop]; [apply sop_refl|]. sop. Qed.
Lemma mode_discriminant : forall d on, same_or_panic (read_discriminant Debug d on) (read_discriminant Release d on).
Proof. intros d [[]|]; try apply sop_refl. apply mode_path_get. Qed.

Lemma rsop_ref : forall emb r, (forall y, r = RMessage y -> rsop (read_msg Debug emb y) (read_msg Release emb y)) ->
  rsop (read_ref Debug emb r) (read_ref Release emb r).
Proof. intros emb [s|x] H; [intro b; apply sop_refl|apply (H x eq_refl)]. Qed.

Lemma rsop_ty : forall emb e endi prev t,
  (forall y, inside t y -> rsop (read_msg Debug emb y) (read_msg Release emb y)) ->
  rsop (read_ty Debug emb e endi prev t) (read_ty Release emb e endi prev t).
Proof.
  intros emb e endi prev t H. destruct t as [ty|r| |ty|ty st|u on idx|ty x|].
  - intro b; apply sop_refl.
  - rewrite !read_ty_ref. apply rsop_ref. intros y ->. apply H. constructor.
  - apply rsop_rmap. intro b. unfold nts_from_slice. destruct (find_zero 0 b); sop.
  - apply rsop_rmap. intro b. unfold varchar_from_slice. sop.
  - apply rsop_rmap. intro b. unfold array_from_slice. sop.
  - rewrite !read_ty_union. intro b. rewrite !read_union_eq. apply sop_bind; [apply mode_discriminant|]. intros disc _.
    destruct (find_case disc 0 (u_cases u)) as [[i c]|] eqn:F; [|apply sop_refl]. apply find_case_in in F.
    destruct F as (Hin & _). destruct (uc_item c) as [r|] eqn:Er; [|apply sop_refl].
    apply sop_bind; [|intros [? ?] _; sop]. apply rsop_ref. intros y ->. apply H. econstructor; eauto.
  - rewrite !read_ty_list. apply rsop_rmap. destruct e; [|intro b; apply sop_refl].
    intro b. unfold list_from_slice. apply sop_bind; [sop|]. intros [c n] _. apply sop_bind; [sop|]. intros data _.
    apply sop_bind; [apply rsop_list_loop, H; constructor|]. intros; sop.
  - intro b; apply sop_refl.
Qed.

Lemma rsop_fields : forall emb e b fs off prev,
  (forall g y, In g fs -> inside (mf_ty g) y -> rsop (read_msg Debug emb y) (read_msg Release emb y)) ->
  same_or_panic (read_fields Debug emb e b fs off prev) (read_fields Release emb e b fs off prev).
Proof.
  intros emb e b. induction fs as [|[nm ty opt s endi] fs IH]; intros off prev H; cbn [read_fields]; [apply sop_refl|].
  apply sop_bind; [sop|]. intros d _. apply sop_bind.
  - apply rsop_optional, rsop_ty. intros y Hy. apply (H (MkMField nm ty opt s endi)); [left; reflexivity|exact Hy].
  - intros [k v] _. apply sop_bind; [sop|]. intros off' _. apply IH. intros g y Hg. apply (H g y). right. exact Hg.
Qed.

Theorem mode_read : forall emb x b, same_or_panic (read_msg Debug emb x b) (read_msg Release emb x b).
Proof.
  intro emb. apply (message_ind_inside (fun x => rsop (read_msg Debug emb x) (read_msg Release emb x))).
  intros x IH b. rewrite !read_msg_eq. apply sop_bind; [apply rsop_fields, IH|]. intros [n vs] _. sop.
Qed.

(** Reading with offsets, and iterating over a list *)
Lemma mode_field_offsets : forall emb e prev g b,
  (forall y, inside (mf_ty g) y -> rsop (read_msg_offsets Debug emb y) (read_msg_offsets Release emb y)) ->
  same_or_panic (read_field_offsets Debug emb e prev g b) (read_field_offsets Release emb e prev g b).
Proof.
  intros emb e prev g b H. unfold read_field_offsets.
  assert (Hplain : same_or_panic
    ('(n, v) <- read_optional Debug (mf_optional g) (read_ty Debug emb e (mf_endi g) prev (mf_ty g)) b ;; Ok (n, (v, @None offsets)))
    ('(n, v) <- read_optional Release (mf_optional g) (read_ty Release emb e (mf_endi g) prev (mf_ty g)) b ;; Ok (n, (v, None)))).
  { apply sop_bind; [|intros [? ?] _; sop]. apply rsop_optional, rsop_ty. intros y _ c. apply mode_read. }
  destruct (mf_ty g) as [ty|[s|y]| |ty|ty st|u on idx|ty x|]; try exact Hplain. clear Hplain.
  specialize (H y ltac:(constructor)). destruct (mf_optional g).
  - apply sop_bind; [|intros [? [? ?]] _; sop]. unfold optional_from_slice_with_offsets. sop.
  - apply sop_bind; [apply H|intros [? [? ?]] _; sop].
Qed.
Lemma mode_fields_offsets : forall emb e b fs off prev offs,
  (forall g y, In g fs -> inside (mf_ty g) y -> rsop (read_msg_offsets Debug emb y) (read_msg_offsets Release emb y)) ->
  same_or_panic (read_fields_offsets Debug emb e b fs off prev offs) (read_fields_offsets Release emb e b fs off prev offs).
Proof.
  intros emb e b. induction fs as [|g fs IH]; intros off prev offs H; cbn [read_fields_offsets]; [apply sop_refl|].
  apply sop_bind; [sop|]. intros d _. apply sop_bind.
  - apply mode_field_offsets. intros y. apply (H g y). left. reflexivity.
  - intros [k [v o]] _. apply sop_bind; [sop|]. intros off' _. apply IH. intros g' y Hg. apply (H g' y). right. exact Hg.
Qed.
Theorem mode_read_offsets : forall emb x b,
  same_or_panic (read_msg_offsets Debug emb x b) (read_msg_offsets Release emb x b).
Proof.
  intro emb. apply (message_ind_inside (fun x => rsop (read_msg_offsets Debug emb x) (read_msg_offsets Release emb x))).
  intros x IH b. rewrite !read_msg_offsets_eq. apply mode_fields_offsets, IH.
Qed.
Lemma mode_iter_next : forall A (d r : reader A) s, rsop d r -> same_or_panic (iter_next Debug d s) (iter_next Release r s).
Proof.
  intros A d r [data n] H. unfold iter_next. apply sop_if; [apply sop_refl|].
  destruct (H data) as [->| ->]; [left; reflexivity|]. destruct (d data) as [[k v]|e|]; sop.
Qed.
Lemma mode_iter_take : forall A (d r : reader A) k s, rsop d r -> same_or_panic (iter_take Debug d k s) (iter_take Release r k s).
Proof.
  intros A d r k. induction k as [|k IH]; intros s H; cbn [iter_take]; [apply sop_refl|].
  apply sop_bind; [apply mode_iter_next, H|]. intros [[x|] s'] _; [|apply sop_refl]. apply sop_bind; [apply IH, H|].
  intros [? ?] _. sop.
Qed.
Theorem mode_iterate : forall emb x k s,
  same_or_panic (iter_take Debug (read_msg Debug emb x) k s) (iter_take Release (read_msg Release emb x) k s).
Proof. intros. apply mode_iter_take. intro b. apply mode_read. Qed.
Theorem mode_iterate_offsets : forall emb x k s,
  same_or_panic (iter_take Debug (read_msg_offsets Debug emb x) k s) (iter_take Release (read_msg_offsets Release emb x) k s).
Proof. intros. apply mode_iter_take. intro b. apply mode_read_offsets. Qed.

(** ** Writing *)
Section Writing.
Context {St : Type} (w w' : sink St).
Hypothesis Hw : forall b, same_write_or_panic (fun s => write_all w s b) (fun s => write_all w' s b).
Notation "d =~ r" := (same_write_or_panic (St:=St) d r) (at level 70).

Lemma wsop_refl : forall d, d =~ d.
Proof. right. reflexivity. Qed.
Lemma wsop_put : forall b, put w b =~ put w' b.
Proof. exact Hw. Qed.
Lemma wsop_seq : forall a a' b b', a =~ a' -> b =~ b' -> wseq a b =~ wseq a' b'.
Proof.
  intros a a' b b' Ha Hb s. unfold wseq. specialize (Ha s). destruct (a s) as [s1 r]. cbn [snd] in Ha.
  destruct Ha as [->| ->]; [left; reflexivity|]. destruct r; [apply Hb|right; reflexivity..].
Qed.
Lemma wsop_let : forall A (x x' : rres A) k k', same_or_panic x x' -> (forall a, k a =~ k' a) -> wlet x k =~ wlet x' k'.
Proof.
  intros A x x' k k' [->| ->] Hk s; [left; reflexivity|]. unfold wlet. destruct x; [apply Hk|right; reflexivity..].
Qed.
Lemma wsop_optional : forall opt f f' v, (forall v, f v =~ f' v) -> write_optional w opt f v =~ write_optional w' opt f' v.
Proof.
  intros [] f f' v H; unfold write_optional; [|apply H]. destruct v; try apply wsop_refl. unfold optional_write.
  destruct o; [apply wsop_seq; [apply wsop_put|apply H]|apply wsop_put].
Qed.
Lemma wsop_ref : forall r v, (forall y, r = RMessage y -> forall v, write_msg Debug w y v =~ write_msg Release w' y v) ->
  write_ref Debug w r v =~ write_ref Release w' r v.
Proof.
  intros [s|x] v H; cbn [write_ref]; [|apply (H x eq_refl)]. destruct v; try apply wsop_refl. unfold struct_write.
  apply wsop_let; [apply sop_refl|]. intro a. apply wsop_put.
Qed.
Lemma wsop_ty : forall endi all t v, (forall y, inside t y -> forall v, write_msg Debug w y v =~ write_msg Release w' y v) ->
  write_ty Debug w endi all t v =~ write_ty Release w' endi all t v.
Proof.
  intros endi all t v H. destruct t as [ty|r| |ty|ty st|u on idx|ty x|].
  - destruct v; try apply wsop_refl. apply wsop_put.
  - change (write_ref Debug w r v =~ write_ref Release w' r v). apply wsop_ref. intros y ->. apply H. constructor.
  - destruct v; try apply wsop_refl. apply wsop_seq; apply wsop_put.
  - destruct v; try apply wsop_refl. apply wsop_seq; apply wsop_put.
  - destruct v; try apply wsop_refl. apply wsop_seq; apply wsop_put.
  - change (write_union Debug w u (nth_error all idx) v =~ write_union Release w' u (nth_error all idx) v).
    destruct v as [?|?|?|? ?|k item|?|?|?]; try (destruct u; cbn [write_union]; destruct (union_has_items _); [|apply wsop_refl];
      apply wsop_let; [apply mode_discriminant|intro; apply wsop_refl]).
    rewrite !write_union_eq. destruct (union_has_items (u_cases u)); [|apply wsop_refl].
    apply wsop_let; [apply mode_discriminant|]. intro disc. destruct (nth_error (u_cases u) k) as [c|] eqn:Hc; [|apply wsop_refl].
    unfold write_arm. destruct (uc_item c) as [r|] eqn:Er, item as [x|]; try apply wsop_refl.
    destruct (disc =? uc_case c); [|apply wsop_refl]. apply wsop_ref. intros y ->. apply H.
    apply nth_error_In in Hc. econstructor; eauto.
  - destruct v; try apply wsop_refl. apply wsop_seq; apply wsop_put.
  - destruct v; try apply wsop_refl. apply wsop_put.
Qed.
Lemma wsop_fields : forall all fs rest,
  (forall g y, In g fs -> inside (mf_ty g) y -> forall v, write_msg Debug w y v =~ write_msg Release w' y v) ->
  write_fields Debug w all fs rest =~ write_fields Release w' all fs rest.
Proof.
  intros all fs. induction fs as [|[nm ty opt s endi] fs IH]; intros [|y rest] H; cbn [write_fields]; try apply wsop_refl.
  apply wsop_seq.
  - apply wsop_optional. intro v. apply wsop_ty. intros z Hz. apply (H (MkMField nm ty opt s endi)); [left; reflexivity|exact Hz].
  - apply IH. intros g z Hg. apply (H g z). right. exact Hg.
Qed.
Lemma wsop_msg : forall x v, write_msg Debug w x v =~ write_msg Release w' x v.
Proof.
  apply (message_ind_inside (fun x => forall v, write_msg Debug w x v =~ write_msg Release w' x v)). intros x IH v.
  destruct v; try (destruct x; apply wsop_refl). rewrite !write_msg_eq. apply wsop_fields, IH.
Qed.
End Writing.

Theorem mode_write : forall St (w : sink St) x v, same_write_or_panic (write_msg Debug w x v) (write_msg Release w x v).
Proof. intros. apply wsop_msg. intros b s. right. reflexivity. Qed.

Theorem mode_size_of : forall x v, same_or_panic (size_of_msg Debug x v) (size_of_msg Release x v).
Proof.
  intros x v. unfold size_of_msg, size_of.
  destruct (wsop_msg (counter_sink Debug) (counter_sink Release)) with (x := x) (v := v) (s := 0) as [H|H].
  - intros b s. unfold counter_sink. cbn [write_all]. destruct b; [right; reflexivity|].
    destruct (sop_uadd (E:=rerror) s (len (n :: b))) as [->| ->]; [left; reflexivity|right; reflexivity].
  - destruct (write_msg Debug (counter_sink Debug) x v 0) as [n r]. cbn [snd] in H. subst r. left. reflexivity.
  - rewrite H. apply sop_refl.
Qed.

Lemma mode_write_item : forall St (d r : wr St) l, same_write_or_panic d r ->
  snd (write_item Debug d l) = Panic \/ write_item Release r l = write_item Debug d l.
Proof.
  intros St d r l H. unfold write_item. specialize (H (li_data l)). destruct (d (li_data l)) as [s o]. cbn [snd] in H.
  destruct H as [->| ->]; [left; reflexivity|]. destruct o; [|right; reflexivity..].
  destruct (sop_uadd (E:=rerror) (li_len l) 1) as [->| ->]; [left|right]; reflexivity.
Qed.
Lemma mode_items : forall St (ds rs : list (wr St)) l, Forall2 same_write_or_panic ds rs ->
  snd (write_items Debug ds l) = Panic \/ write_items Release rs l = write_items Debug ds l.
Proof.
  intros St ds rs l H. revert l. induction H as [|d r ds rs Hd H IH]; intro l; cbn [write_items]; [right; reflexivity|].
  destruct (mode_write_item St d r l Hd) as [E|E].
  - destruct (write_item Debug d l) as [l' o]. cbn [snd] in E. subst o. left. reflexivity.
  - rewrite E. destruct (write_item Debug d l) as [l' [u|e|]]; [apply IH|right; reflexivity..].
Qed.
Theorem mode_write_items : forall St (w : sink St) x vs l,
  snd (write_items Debug (map (write_msg Debug w x) vs) l) = Panic \/
  write_items Release (map (write_msg Release w x) vs) l = write_items Debug (map (write_msg Debug w x) vs) l.
Proof. intros. apply mode_items. induction vs; constructor; [apply mode_write|assumption]. Qed.
Theorem mode_set_discriminant : forall u k data, same_or_panic (set_discriminant Debug u k data) (set_discriminant Release u k data).
Proof. intros. unfold set_discriminant. apply sop_bind; [sop|]. intros c _. apply mode_path_set. Qed.

(** ** Compilation *)
Lemma mode_view : forall enums ty bs v, same_or_panic (view_from_model Debug enums ty bs v) (view_from_model Release enums ty bs v).
Proof. intros. unfold view_from_model. cbv zeta. destruct v as [[]|]; sop. Qed.
Lemma mode_field : forall endi enums structs off v,
  same_or_panic (field_from_model Debug endi enums structs off v) (field_from_model Release endi enums structs off v).
Proof.
  intros. unfold field_from_model. cbv zeta. destruct (sf_info v); try (sop; apply mode_view).
Qed.
Lemma mode_fields : forall endi enums structs l off,
  same_or_panic (fields_from_model Debug endi enums structs off l) (fields_from_model Release endi enums structs off l).
Proof.
  intros endi enums structs. induction l as [|v l IH]; intro off; cbn [fields_from_model]; [apply sop_refl|].
  apply sop_bind; [apply mode_field|]. intros [f o] _. sop.
Qed.
Theorem mode_structure : forall endi enums structs id d,
  same_or_panic (structure_from_model Debug endi enums structs id d) (structure_from_model Release endi enums structs id d).
Proof. intros. unfold structure_from_model. apply sop_bind; [apply mode_fields|]. intros [fs o] _. sop. Qed.

Lemma sop_foldM : forall E A S (f g : S -> A -> outcome E S), (forall s x, same_or_panic (f s x) (g s x)) ->
  forall l s, same_or_panic (foldM f s l) (foldM g s l).
Proof. intros E A S f g H. induction l as [|x l IH]; intro s; cbn [foldM]; [apply sop_refl|]. sop. Qed.

Theorem mode_protocol : forall solver w v,
  same_or_panic (protocol_from_model Debug solver w v) (protocol_from_model Release solver w v).
Proof.
  intros. unfold protocol_from_model. apply sop_bind; [sop|]. intros p _. apply sop_bind; [sop|]. intros p' _.
  apply sop_bind; [|intros [] _; sop]. apply sop_foldM. intros [q wq] x. unfold define_struct.
  apply sop_bind; [apply mode_structure|]. intros s _. sop.
Qed.

Theorem mode_loader : forall l solver, same_or_panic (loader_compile Debug l solver) (loader_compile Release l solver).
Proof.
  intros. unfold loader_compile. apply sop_bind.
  - apply sop_foldM. intros [s w] iv. unfold compile_imported. apply sop_bind; [apply mode_protocol|]. intros [p w'] _. sop.
  - intros [s w] _. apply sop_foldM. intros [ps w'] v. unfold compile_loaded. apply sop_bind; [apply mode_protocol|]. intros [p w2] _. sop.
Qed.
