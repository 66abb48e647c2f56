(** Different errors have different texts. *)

From Coq Require Import Arith NArith ZArith Ascii String List Bool Lia.
From Verif Require Import Base Schema Compiler Template Runtime GenText SpecCase CaseThms ShowThms ErrorText SpecComp SpecAccept SpecError SpecErrorText ErrorThms.
Import ListNotations.
Local Open Scope string_scope.

Lemma show_inj : forall n n', show_usize n = show_usize n' -> n = n'.
Proof.
  intros n n' H. pose proof (proj2 (parse_nat_digits_spec _ _) (show_usize_decimal n)) as H1.
  pose proof (proj2 (parse_nat_digits_spec _ _) (show_usize_decimal n')) as H2. rewrite H in H1. congruence.
Qed.
Lemma app_len : forall a b, String.length (a ++ b) = (String.length a + String.length b)%nat.
Proof. induction a; intro b; cbn; [reflexivity | rewrite IHa; reflexivity]. Qed.
(** A common tail can be taken off. *)
Lemma tail_off : forall a b c, a ++ c = b ++ c -> a = b.
Proof.
  induction a as [|x a IH]; intros [|y b] c H.
  - reflexivity.
  - exfalso. apply (f_equal String.length) in H. cbn in H. rewrite app_len in H. lia.
  - exfalso. apply (f_equal String.length) in H. cbn in H. rewrite app_len in H. lia.
  - cbn in H. injection H as -> H. f_equal. exact (IH _ _ H).
Qed.

Ltac told := repeat match goal with
  | H : String _ _ = String _ _ |- _ => injection H as H; try discriminate
  | H : (_ ++ ?c) = (_ ++ ?c) |- _ => apply tail_off in H
  | H : show_usize _ = show_usize _ |- _ => apply show_inj in H; subst
  end; try discriminate; try congruence.

Lemma simple_debug_inj : forall t t', simple_debug t = simple_debug t' -> t = t'.
Proof. intros [] [] H; solve [reflexivity | discriminate H]. Qed.
Lemma type_debug_inj : forall q, (forall s s', q s = q s' -> s = s') -> forall t t', type_debug q t = type_debug q t' -> t = t'.
Proof.
  intros q Hq [n|n|n|n|s] [n'|n'|n'|n'|s'] H; unfold type_debug in H; cbn [append] in H; told.
  f_equal. apply Hq. assumption.
Qed.
Lemma cerror_text_inj : forall q, (forall s s', q s = q s' -> s = s') ->
  forall e e', cerror_text q e = cerror_text q e' -> e = e'.
Proof.
  intros q Hq [| |n|t|t| |s| | | | | |s|] [| |n'|t'|t'| |s'| | | | | |s'|] H; unfold cerror_text in H; cbn [append] in H;
    first [reflexivity | discriminate H | idtac]; told.
  - f_equal. apply (type_debug_inj q Hq). assumption.
  - f_equal. apply simple_debug_inj. assumption.
Qed.

(** The texts of two failed compilations are the same only if the errors are: a type is never reported. *)
Lemma reported_told : forall q m1 sv1 w1 v1 e1 m2 sv2 w2 v2 e2,
  protocol_from_model m1 sv1 w1 v1 = Err e1 -> protocol_from_model m2 sv2 w2 v2 = Err e2 ->
  cerror_text q e1 = cerror_text q e2 -> e1 = e2.
Proof.
  intros q m1 sv1 w1 v1 e1 m2 sv2 w2 v2 e2 H1 H2 H.
  apply never_reported in H1. apply never_reported in H2.
  destruct H1 as (_ & _ & N1 & _). destruct H2 as (_ & _ & N2 & _).
  destruct e1 as [| |n|t|t| |s| | | | | |s|]; try (exfalso; exact (N1 _ eq_refl));
  destruct e2 as [| |n'|t'|t'| |s'| | | | | |s'|]; try (exfalso; exact (N2 _ eq_refl));
    unfold cerror_text in H; cbn [append] in H; first [reflexivity | discriminate H | idtac]; told.
  f_equal. apply simple_debug_inj. assumption.
Qed.

Lemma terror_text_inj : forall e e', terror_text e = terror_text e' -> e = e'.
Proof.
  intros [| | |s|s|s] [| | |s'|s'|s'] H; unfold terror_text in H; cbn [append] in H;
    first [reflexivity | discriminate H | idtac]; told.
Qed.
Lemma tool_text_inj : forall q, (forall s s', q s = q s' -> s = s') ->
  forall e e', tool_error_text q e = tool_error_text q e' -> e = e'.
Proof.
  intros q Hq [t|t|e|e] [t'|t'|e'|e'] H; unfold tool_error_text in H; cbn [append] in H; told.
  - f_equal. apply (cerror_text_inj q Hq). assumption.
  - f_equal. apply terror_text_inj. assumption.
Qed.
Lemma rerror_text_inj : forall io io' e e', rerror_text io e = rerror_text io' e' -> e = e'.
Proof.
  intros io io' [| |n|] [| |n'|] H; unfold rerror_text in H; cbn [append] in H;
    first [reflexivity | discriminate H | idtac]; told.
Qed.

(** ** The names are written in the description *)

Lemma stops_missing : forall s parts root e, stops s parts root e -> forall x, e = EUndefinedReference x ->
  exists before n rest, parts = (before ++ n :: rest)%list /\ x = root ++ "." ++ n.
Proof.
  intros s parts root e H. induction H; intros x E.
  - injection E as <-. exists [], n, rest. split; reflexivity.
  - discriminate E.
  - destruct (IHstops _ E) as (b & n' & rest' & -> & ->). exists (n :: b)%list, n', rest'. split; reflexivity.
Qed.
Lemma concat_cons : forall a b r, String.concat "." (a :: b :: r)%list = a ++ "." ++ String.concat "." (b :: r)%list.
Proof. reflexivity. Qed.
Lemma string_app_nil : forall a, a = a ++ "".
Proof. induction a; cbn; [reflexivity | f_equal; assumption]. Qed.
Lemma string_app_assoc : forall a b c, (a ++ b) ++ c = a ++ (b ++ c).
Proof. induction a; intros; cbn; [reflexivity | f_equal; auto]. Qed.
(** A path begins with its first component, and with its first two. *)
Lemma begins_one : forall n parts, exists rest, String.concat "." (n :: parts)%list = n ++ rest /\ (rest = "" \/ exists r, rest = "." ++ r).
Proof.
  intros n [|b r].
  - exists "". split; [apply string_app_nil | left; reflexivity].
  - exists ("." ++ String.concat "." (b :: r)%list). split; [apply concat_cons | right; eexists; reflexivity].
Qed.
Lemma begins_two : forall n b parts, exists rest,
  String.concat "." (n :: b :: parts)%list = (n ++ "." ++ b) ++ rest /\ (rest = "" \/ exists r, rest = "." ++ r).
Proof.
  intros n b parts. destruct (begins_one b parts) as (rest & E & Hr). exists rest. split; [|exact Hr].
  rewrite concat_cons, E, !string_app_assoc. reflexivity.
Qed.

Theorem names_exact : forall m solver w v s, protocol_from_model m solver w v = Err (EUndefinedReference s) ->
  written v s \/ exists u n more last rest, In u (sp_unions v) /\ more <> [] /\
    joined (sun_discriminant u) (n :: more ++ last :: rest)%list /\ Forall no_dot (n :: more ++ last :: rest)%list /\
    s = n ++ "." ++ last.
Proof.
  intros m solver w v s H. apply protocol_err in H.
  destruct H as [(k & i & Hk & _ & He)|[(_ & E & _)|[(k & d & p & w' & Hk & _ & (j & f & Hj & _ & Hp))|
    [(k & u & p & w' & Hk & _ & Hp)|(k & d & p & w' & Hk & _ & (j & x & Hj & _ & Hp))]]]].
  - apply nth_error_In in Hk. left. inversion He; subst; [eapply wr_protocol | eapply wr_import]; eassumption.
  - discriminate E.
  - apply nth_error_In in Hk, Hj. left. inversion Hp as [n H1 H2|e' H1 H2|b Hb Hf Hw _|b Hb Hf Hw]; subst.
    + eapply wr_field; eassumption.
    + inversion H2; subst. eapply wr_view; eassumption.
  - apply nth_error_In in Hk.
    inversion Hp as [n parts Hd _ _|n parts root e' Hd Hn _ Hs|n parts root f k' c e' _ _ _ _ Hc _ He]; subst.
    + left. destruct (begins_one s parts) as (rest & E & Hr). unfold joined in Hd. rewrite E in Hd.
      eapply wr_path; [exact Hk | symmetry; exact Hd | exact Hr].
    + destruct (stops_missing _ _ _ _ Hs _ eq_refl) as (b & n' & rest & -> & ->).
      destruct b as [|b0 b].
      * left. destruct (begins_two n n' rest) as (tl & E & Hr). unfold joined in Hd. cbn [app] in Hd. rewrite E in Hd.
        eapply wr_path; [exact Hk | symmetry; exact Hd | exact Hr].
      * right. exists u, n, (b0 :: b)%list, n', rest. split; [exact Hk|]. split; [discriminate|]. auto.
    + apply nth_error_In in Hc. left. inversion He; subst. eapply wr_case; eassumption.
  - apply nth_error_In in Hk, Hj. left. inversion Hp; subst; [eapply wr_item | eapply wr_on | eapply wr_union]; eassumption.
Qed.
Theorem names_written : forall m solver w v s, short_paths v ->
  protocol_from_model m solver w v = Err (EUndefinedReference s) -> written v s.
Proof.
  intros m solver w v s Hs H. apply names_exact in H. destruct H as [H|(u & n & more & l & rest & Hu & Hm & Hj & Hd & _)]; [exact H|].
  exfalso. pose proof (Hs u _ Hu Hj Hd) as Hl. cbn [List.length] in Hl. rewrite app_length in Hl. cbn [List.length] in Hl.
  destruct more; [congruence|]. cbn [List.length] in Hl. lia.
Qed.

Theorem labels_widths : forall m solver w v, 
  (forall s, protocol_from_model m solver w v = Err (EInvalidUnionCase s) ->
     exists u c, In u (sp_unions v) /\ In c (sun_cases u) /\ su_case c = s) /\
  (forall b, protocol_from_model m solver w v = Err (EUnsupportedBitSize b) ->
     exists d f, In d (sp_structs v) /\ In f (ss_fields d) /\ get_bit_size (sf_info f) = Some b) /\
  (forall t, protocol_from_model m solver w v = Err (EUnsupportedViewType t) ->
     exists d f, In d (sp_structs v) /\ In f (ss_fields d) /\ get_simple_type (sf_info f) = t).
Proof.
  intros m solver w v. split; [|split].
  all: intros y H; apply protocol_err in H;
  destruct H as [(k & i & Hk & _ & He)|[(_ & E & _)|[(k & d & p & w' & Hk & _ & (j & f & Hj & _ & Hp))|
    [(k & u & p & w' & Hk & _ & Hp)|(k & d & p & w' & Hk & _ & (j & x & Hj & _ & Hp))]]]];
    try (inversion He; fail); try discriminate E; try (inversion Hp; fail); apply nth_error_In in Hk.
  - apply nth_error_In in Hj. inversion Hp as [n H1 H2|e' H1 H2|b Hb Hf Hw _|b Hb Hf Hw]; subst. inversion H2.
  - inversion Hp as [n parts Hd _ _|n parts root e' Hd Hn _ Hs|n parts root f k' c e' _ _ _ _ Hc _ He]; subst.
    + exfalso. clear - Hs. remember (EInvalidUnionCase y) as e eqn:E. induction Hs; try discriminate E. auto.
    + apply nth_error_In in Hc. inversion He; subst. exists u, c. auto.
  - apply nth_error_In in Hj. inversion Hp as [n H1 H2|e' H1 H2|b Hb Hf Hw _|b Hb Hf Hw]; subst; [inversion H2|].
    exists d, f. auto.
  - inversion Hp as [n parts Hd _ _|n parts root e' Hd Hn _ Hs|n parts root f k' c e' _ _ _ _ Hc _ He]; subst.
    + exfalso. clear - Hs. remember (EUnsupportedBitSize y) as e eqn:E. induction Hs; try discriminate E. auto.
    + inversion He.
  - apply nth_error_In in Hj. inversion Hp as [n H1 H2|e' H1 H2|b Hb Hf Hw _|b Hb Hf Hw]; subst.
    exists d, f. split; [exact Hk|]. split; [exact Hj|]. inversion H2; subst; try reflexivity.
    match goal with E : sf_info f = _ |- _ => rewrite E end. reflexivity.
  - inversion Hp as [n parts Hd _ _|n parts root e' Hd Hn _ Hs|n parts root f k' c e' _ _ _ _ Hc _ He]; subst.
    + exfalso. clear - Hs. remember (EUnsupportedViewType y) as e eqn:E. induction Hs; try discriminate E. auto.
    + inversion He.
Qed.
