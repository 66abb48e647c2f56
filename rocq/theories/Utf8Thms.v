(** The validator accepts exactly the encodings of scalar value sequences. *)

From Coq Require Import Arith NArith ZArith List Bool Lia ZifyBool ZifyN.
From Verif Require Import Base Utf8 SpecUtf8.
Import ListNotations.
Local Open Scope N_scope.

Ltac Zify.zify_post_hook ::= Z.to_euclidean_division_equations.

Lemma range_iff : forall lo hi x, in_range lo hi x = true <-> lo <= x <= hi.
Proof. unfold in_range. intros. lia. Qed.

Lemma utf8_char_ok : forall c, scalar_value c -> forall r, from_utf8 (utf8_char c ++ r) = from_utf8 r.
Proof.
  intros c Hc r. unfold utf8_char, scalar_value in *.
  destruct (c <? 0x80) eqn:E1.
  { cbn [app from_utf8]. rewrite E1. reflexivity. }
  destruct (c <? 0x800) eqn:E2.
  { cbn [app from_utf8].
    replace (0xC0 + c / 0x40 <? 0x80) with false by lia.
    replace (in_range 0xC2 0xDF (0xC0 + c / 0x40)) with true by (symmetry; apply range_iff; lia).
    replace (is_cont (0x80 + c mod 0x40)) with true by (symmetry; apply range_iff; lia).
    reflexivity. }
  destruct (c <? 0x10000) eqn:E3.
  { cbn [app from_utf8].
    set (a := c / 0x1000). set (b := (c / 0x40) mod 0x40). set (d := c mod 0x40).
    assert (Hab : c / 0x40 = 64 * a + b) by (subst a b; lia).
    assert (Ha : a < 16) by (subst a; lia). assert (Hb : b < 64) by (subst b; lia).
    assert (Hd : d < 64) by (subst d; lia).
    assert (Hcc : c = 4096 * a + 64 * b + d) by (subst d; lia).
    replace (0xE0 + a <? 0x80) with false by lia.
    replace (in_range 0xC2 0xDF (0xE0 + a)) with false
      by (symmetry; destruct (in_range _ _ _) eqn:E; auto; apply range_iff in E; lia).
    replace (in_range 0xE0 0xEF (0xE0 + a)) with true by (symmetry; apply range_iff; lia).
    replace (is_cont (0x80 + d)) with true by (symmetry; apply range_iff; lia).
    assert (K : (if 0xE0 + a =? 0xE0 then in_range 0xA0 0xBF (0x80 + b)
             else if 0xE0 + a =? 0xED then in_range 0x80 0x9F (0x80 + b)
             else in_range 0x80 0xBF (0x80 + b)) = true).
    { destruct (0xE0 + a =? 0xE0) eqn:A1; [apply range_iff; lia|].
      destruct (0xE0 + a =? 0xED) eqn:A2; apply range_iff; lia. }
    rewrite K. reflexivity. }
  cbn [app from_utf8].
  set (a := c / 0x40000). set (b := (c / 0x1000) mod 0x40). set (d := (c / 0x40) mod 0x40).
  set (e := c mod 0x40).
  assert (Hab : c / 0x1000 = 64 * a + b) by (subst a b; lia).
  assert (Hd : d < 64) by (subst d; lia). assert (He : e < 64) by (subst e; lia).
  assert (Hb : b < 64) by (subst b; lia).
  assert (Hcd : c / 0x40 = 64 * (64 * a + b) + d) by (subst d; lia).
  assert (Hcc : c = 64 * (64 * (64 * a + b) + d) + e) by (subst e; lia).
  clearbody a b d e.
  replace (0xF0 + a <? 0x80) with false by lia.
  replace (in_range 0xC2 0xDF (0xF0 + a)) with false
    by (symmetry; destruct (in_range _ _ _) eqn:E; auto; apply range_iff in E; lia).
  replace (in_range 0xE0 0xEF (0xF0 + a)) with false
    by (symmetry; destruct (in_range _ _ _) eqn:E; auto; apply range_iff in E; lia).
  replace (in_range 0xF0 0xF4 (0xF0 + a)) with true by (symmetry; apply range_iff; lia).
  replace (is_cont (0x80 + d)) with true by (symmetry; apply range_iff; lia).
  replace (is_cont (0x80 + e)) with true by (symmetry; apply range_iff; lia).
  assert (K : (if 0xF0 + a =? 0xF0 then in_range 0x90 0xBF (0x80 + b)
           else if 0xF0 + a =? 0xF4 then in_range 0x80 0x8F (0x80 + b)
           else in_range 0x80 0xBF (0x80 + b)) = true).
  { destruct (0xF0 + a =? 0xF0) eqn:A1; [apply range_iff; lia|].
    destruct (0xF0 + a =? 0xF4) eqn:A2; apply range_iff; lia. }
  rewrite K. reflexivity.
Qed.

Lemma utf8_complete : forall b, is_utf8 b -> from_utf8 b = true.
Proof.
  intros b (cs & Hcs & ->). unfold utf8_encode. induction Hcs as [|c cs Hc _ IH]; [reflexivity|].
  cbn [flat_map]. rewrite utf8_char_ok by exact Hc. exact IH.
Qed.

Lemma is_utf8_cons : forall c b, scalar_value c -> is_utf8 b -> is_utf8 (utf8_char c ++ b).
Proof.
  intros c b Hc (cs & Hcs & ->). exists (c :: cs). split; [constructor; auto|reflexivity].
Qed.

Lemma utf8_sound : forall n b, (length b <= n)%nat -> from_utf8 b = true -> is_utf8 b.
Proof.
  induction n as [|n IH]; intros b Hn H.
  { destruct b; [|cbn in Hn; lia]. exists []. split; constructor. }
  destruct b as [|x r]; [exists []; split; constructor|]. cbn [from_utf8] in H. cbn [length] in Hn.
  destruct (x <? 0x80) eqn:E0.
  { replace (x :: r) with (utf8_char x ++ r) by (unfold utf8_char; rewrite E0; reflexivity).
    apply is_utf8_cons; [left; lia|]. apply IH; [lia|exact H]. }
  destruct (in_range 0xC2 0xDF x) eqn:E1.
  { apply range_iff in E1. destruct r as [|y r]; [discriminate|].
    apply andb_true_iff in H. destruct H as [Hy H]. apply range_iff in Hy. cbn [length] in Hn.
    set (c := 64 * (x - 0xC0) + (y - 0x80)).
    assert (Hq : c / 64 = x - 0xC0) by (subst c; lia). assert (Hr : c mod 64 = y - 0x80) by (subst c; lia).
    replace (x :: y :: r) with (utf8_char c ++ r).
    { apply is_utf8_cons; [left; subst c; lia|]. apply IH; [lia|exact H]. }
    unfold utf8_char. replace (c <? 0x80) with false by (subst c; lia).
    replace (c <? 0x800) with true by (subst c; lia). rewrite Hq, Hr. cbn [app].
    f_equal; [lia|]. f_equal. lia. }
  destruct (in_range 0xE0 0xEF x) eqn:E2.
  { apply range_iff in E2. destruct r as [|y [|z r]]; [discriminate|discriminate|].
    apply andb_true_iff in H. destruct H as [H Hr]. apply andb_true_iff in H. destruct H as [Hy Hz].
    apply range_iff in Hz. cbn [length] in Hn.
    assert (Hy' : 0x80 <= y <= 0xBF /\ (x = 0xE0 -> 0xA0 <= y) /\ (x = 0xED -> y <= 0x9F)).
    { destruct (x =? 0xE0) eqn:A1; [apply range_iff in Hy; lia|].
      destruct (x =? 0xED) eqn:A2; apply range_iff in Hy; lia. }
    clear Hy. destruct Hy' as (Hy & Ha & Hs).
    set (c := 64 * (64 * (x - 0xE0) + (y - 0x80)) + (z - 0x80)).
    assert (H1 : c / 64 = 64 * (x - 0xE0) + (y - 0x80)) by (subst c; lia).
    assert (H2 : c mod 64 = z - 0x80) by (subst c; lia).
    assert (H3 : (c / 64) mod 64 = y - 0x80) by (rewrite H1; lia).
    assert (H4 : c / 4096 = x - 0xE0) by (subst c; lia).
    replace (x :: y :: z :: r) with (utf8_char c ++ r).
    { apply is_utf8_cons; [unfold scalar_value; subst c; lia|]. apply IH; [lia|exact Hr]. }
    unfold utf8_char. replace (c <? 0x80) with false by (subst c; lia).
    replace (c <? 0x800) with false by (subst c; lia).
    replace (c <? 0x10000) with true by (subst c; lia).
    rewrite H4, H3, H2. cbn [app]. f_equal; [lia|]. f_equal; [lia|]. f_equal. lia. }
  destruct (in_range 0xF0 0xF4 x) eqn:E3; [|discriminate].
  apply range_iff in E3. destruct r as [|y [|z [|t r]]]; [discriminate..|].
  apply andb_true_iff in H. destruct H as [H Hr]. apply andb_true_iff in H. destruct H as [H Ht].
  apply andb_true_iff in H. destruct H as [Hy Hz].
  apply range_iff in Hz. apply range_iff in Ht. cbn [length] in Hn.
  assert (Hy' : 0x80 <= y <= 0xBF /\ (x = 0xF0 -> 0x90 <= y) /\ (x = 0xF4 -> y <= 0x8F)).
  { destruct (x =? 0xF0) eqn:A1; [apply range_iff in Hy; lia|].
    destruct (x =? 0xF4) eqn:A2; apply range_iff in Hy; lia. }
  clear Hy. destruct Hy' as (Hy & Ha & Hs).
  set (c := 64 * (64 * (64 * (x - 0xF0) + (y - 0x80)) + (z - 0x80)) + (t - 0x80)).
  assert (H1 : c / 64 = 64 * (64 * (x - 0xF0) + (y - 0x80)) + (z - 0x80)) by (subst c; lia).
  assert (H2 : c mod 64 = t - 0x80) by (subst c; lia).
  assert (H3 : (c / 64) mod 64 = z - 0x80) by (rewrite H1; lia).
  assert (H4 : c / 4096 = 64 * (x - 0xF0) + (y - 0x80)) by (subst c; lia).
  assert (H5 : (c / 4096) mod 64 = y - 0x80) by (rewrite H4; lia).
  assert (H6 : c / 0x40000 = x - 0xF0) by (subst c; lia).
  replace (x :: y :: z :: t :: r) with (utf8_char c ++ r).
  { apply is_utf8_cons; [unfold scalar_value; subst c; lia|]. apply IH; [lia|exact Hr]. }
  unfold utf8_char. replace (c <? 0x80) with false by (subst c; lia).
  replace (c <? 0x800) with false by (subst c; lia).
  replace (c <? 0x10000) with false by (subst c; lia).
  rewrite H6, H5, H3, H2. cbn [app].
  f_equal; [lia|]. f_equal; [lia|]. f_equal; [lia|]. f_equal. lia.
Qed.

Lemma utf8_iff : forall b, from_utf8 b = true <-> is_utf8 b.
Proof. split; [apply (utf8_sound (length b)); lia|apply utf8_complete]. Qed.

Lemma utf8_bytes_ok : forall b, is_utf8 b -> bytes_ok b.
Proof.
  intros b (cs & Hcs & ->). unfold utf8_encode. induction Hcs as [|c cs Hc _ IH]; [constructor|].
  cbn [flat_map]. apply Forall_app. split; [|exact IH]. unfold utf8_char, scalar_value in *.
  destruct (c <? 0x80) eqn:E1; [repeat constructor; lia|].
  destruct (c <? 0x800) eqn:E2; [repeat constructor; lia|].
  destruct (c <? 0x10000) eqn:E3; repeat constructor; lia.
Qed.
