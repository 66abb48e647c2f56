(** Encodings of a message whose unions have got further cases, for C86. *)

From Coq Require Import Arith NArith ZArith List Bool Lia.
From Verif Require Import Base Schema Codec Compiler Access Bits Runtime Gen SpecWire SpecUnion SpecExact MsgFacts WriteThms SpecGrow GrowThms.
Import ListNotations.
Local Open Scope N_scope.

Section Grow.
Variables (m : mode) (present : N -> Prop) (same : N -> N -> Prop).
Local Notation grown := (grown same).
Local Notation grown_type := (grown_type same).
Local Notation grown_ref := (grown_ref same).
Local Notation grown_case := (grown_case same).
Definition encodes_alike (x : message) : Prop := forall x' v b, grown x x' -> enc_msg m present x v b -> enc_msg m present x' v b.
Lemma enc_ref_grown : forall t t' v b, (forall y, t = RMessage y -> encodes_alike y) -> grown_ref t t' ->
  enc_ref m present t v b -> enc_ref m present t' v b.
Proof. intros t t' v b H G E. inversion G as [s s' T|]; subst.
  { cbn [enc_ref] in *. rewrite (twin_bytes _ _ _ T). exact E. }
  cbn [enc_ref] in *. exact (H y eq_refl y' v b ltac:(assumption) E). Qed.
Lemma enc_cases_grown : forall disc item b cs cs' more, (forall c y, In c cs -> uc_item c = Some (RMessage y) -> encodes_alike y) ->
  Forall2 grown_case cs cs' -> forall k,
  (fix pick (i : nat) (cs : list ucase) {struct cs} : Prop :=
           match cs with
           | [] => False
           | MkUCase _ case t :: r =>
               match i with
               | O => case = disc /\
                      match t, item with
                      | None, None => b = []
                      | Some t, Some x => enc_ref m present t x b
                      | _, _ => False
                      end
               | S i => case <> disc /\ pick i r
               end
           end) k cs ->
  (fix pick (i : nat) (cs : list ucase) {struct cs} : Prop :=
           match cs with
           | [] => False
           | MkUCase _ case t :: r =>
               match i with
               | O => case = disc /\
                      match t, item with
                      | None, None => b = []
                      | Some t, Some x => enc_ref m present t x b
                      | _, _ => False
                      end
               | S i => case <> disc /\ pick i r
               end
           end) k (cs' ++ more).
Proof.
  intros disc item b cs cs' more H F. induction F as [|c c' cs cs' Hc F IH]; intros k X; [destruct X|]. cbn [app].
  destruct Hc as [name n|name n t t' G]; destruct k as [|k].
  - exact X.
  - destruct X as (X1 & X2). split; [exact X1|]. apply IH; [|exact X2]. intros c y Hin. apply H. right. exact Hin.
  - destruct X as (X1 & X2). split; [exact X1|]. destruct item as [v|]; [|exact X2]. eapply enc_ref_grown; [|exact G|exact X2].
    intros y ->. eapply H; [left; reflexivity|reflexivity].
  - destruct X as (X1 & X2). split; [exact X1|]. apply IH; [|exact X2]. intros c y Hin. apply H. right. exact Hin.
Qed.
Lemma enc_ty_grown : forall t t' endi prev v b, (forall y, inside t y -> encodes_alike y) -> grown_type t t' ->
  enc_ty m present endi prev t v b -> enc_ty m present endi prev t' v b.
Proof.
  intros t t' endi prev v b H G. destruct G as [ty|t t' G| | |ty s s' T|ty y y' G|u u' on i G|]; intro E; try exact E.
  - cbn [enc_ty] in *. eapply enc_ref_grown; [|exact G|exact E]. intros y ->. apply H. constructor.
  - cbn [enc_ty] in *. rewrite (twin_bytes _ _ _ T). exact E.
  - cbn [enc_ty] in *. destruct v; try contradiction. destruct E as (p & its & chunks & H1 & H2 & H3 & H4).
    exists p, its, chunks. split; [exact H1|]. split; [exact H2|]. split; [|exact H4].
    clear - H G H3. assert (Hy : encodes_alike y) by (apply H; constructor).
    induction H3 as [|i c its chunks E F IH]; constructor; [eapply Hy; [exact G|exact E]|exact IH].
  - destruct G as [un du du' cs cs' more s1 s2 T F]. cbn [enc_ty] in *. destruct v; try contradiction. cbn [enc_union] in *.
    destruct E as (data & disc & E1 & E2 & E3). exists data, disc. split; [exact E1|].
    split; [destruct T as (T & _ & _ & ->); rewrite (twin_path m same _ _ _ _ T); exact E2|].
    eapply enc_cases_grown; [|exact F|exact E3]. intros c y Hc Hy. apply H. econstructor; [exact Hc|exact Hy].
Qed.
Theorem enc_grown : forall x, encodes_alike x.
Proof.
  apply (message_ind_inside encodes_alike). intros x IH x' v b G E. destruct G as [id id' name fs fs' size size' _ F]. cbn [m_fields] in IH.
  pose proof E as E'. apply enc_msg_inv in E'. destruct E' as (vs & -> & _).
  apply enc_msg_eq in E. apply enc_msg_eq. cbn [m_fields] in *.
  revert vs b E. generalize (@nil value). induction F as [|f f' fs fs' Hf F IHF]; intros prev vs b E; [exact E|].
  destruct vs as [|w vs]; cbn [enc_fields] in *; [contradiction|]. destruct E as (b1 & b2 & -> & E1 & E2).
  exists b1, b2. split; [reflexivity|]. split.
  - assert (Hy : forall y, inside (mf_ty f) y -> encodes_alike y) by (intros y; apply (IH f y); left; reflexivity).
    destruct Hf as [nm t t' opt sz sz' endi G]. cbn [mf_optional mf_endi mf_ty] in *. unfold enc_optional in *. destruct opt.
    + destruct w as [| | | | | | |[u|]]; try contradiction; [|exact E1]. destruct E1 as (p & c & H1 & H2 & H3 & H4).
      exists p, c. repeat split; try assumption; try apply H1. eapply enc_ty_grown; eassumption.
    + eapply enc_ty_grown; eassumption.
  - apply IHF; [|exact E2]. intros g y Hg. apply (IH g y). right. exact Hg.
Qed.
End Grow.
