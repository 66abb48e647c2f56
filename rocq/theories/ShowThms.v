(** Numbers in the generated text are decimals. *)

From Coq Require Import Arith NArith Ascii String List Bool Lia.
From Coq Require Import Decimal DecimalString DecimalFacts DecimalN DecimalPos.
From Verif Require Import Base Schema Codec Compiler GenText SpecCase SpecGen CaseThms.
Local Open Scope N_scope.

Lemma parse_pos : forall d p,
  parse_digits (Npos p) (NilEmpty.string_of_uint d) = Some (Npos (Pos.of_uint_acc d p)).
Proof.
  induction d; intro p; [reflexivity|..]; cbn [NilEmpty.string_of_uint parse_digits Pos.of_uint_acc];
    match goal with |- context[digit_of ?c] => let v := eval vm_compute in (digit_of c) in change (digit_of c) with v end;
    cbv iota beta; rewrite <- IHd; f_equal; lia.
Qed.
Lemma parse_zero : forall d, parse_digits 0 (NilEmpty.string_of_uint d) = Some (Pos.of_uint d).
Proof.
  induction d; [reflexivity|..]; cbn [NilEmpty.string_of_uint parse_digits Pos.of_uint];
    match goal with |- context[digit_of ?c] => let v := eval vm_compute in (digit_of c) in change (digit_of c) with v end;
    cbv iota beta; first [exact IHd | apply parse_pos].
Qed.
Theorem show_usize_decimal : forall n, decimal (show_usize n) n.
Proof.
  intros n. apply parse_nat_digits_spec. unfold show_usize.
  unfold NilZero.string_of_uint. pose proof (DecimalN.Unsigned.of_to n) as Hn.
  destruct (N.to_uint n) as [|d|d|d|d|d|d|d|d|d|d] eqn:Ed.
  { cbn in Hn. subst n. discriminate Ed. }
  all: unfold parse_nat_digits; cbn [NilEmpty.string_of_uint];
    match goal with |- parse_digits 0 (String ?c (NilEmpty.string_of_uint ?d)) = _ =>
      match type of Ed with N.to_uint _ = ?u => change (String c (NilEmpty.string_of_uint d)) with (NilEmpty.string_of_uint u) end end;
    rewrite parse_zero; f_equal; exact Hn.
Qed.

Lemma type_names : forall t, rust_type t = type_text t.
Proof. destruct t; vm_compute; reflexivity. Qed.

Lemma lower_names : forall s, Forall2 lowered (list_ascii_of_string s) (list_ascii_of_string (to_ascii_lowercase s)).
Proof.
  induction s as [|c s IH]; cbn [to_ascii_lowercase list_ascii_of_string]; constructor; [|exact IH].
  destruct c as [[] [] [] [] [] [] [] []]; vm_compute; reflexivity.
Qed.
