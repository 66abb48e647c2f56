(** Generic facts about protocol compilation. *)

From Coq Require Import Arith NArith String List Bool Lia.
From Verif Require Import Base Schema Compiler SpecComp SpecStruct StructFacts.
Import ListNotations.
Local Open Scope N_scope.

Lemma bind_panic : forall {E A B} (x : outcome E A) (k : A -> outcome E B),
  bind x k = Panic -> x = Panic \/ exists a, x = Ok a /\ k a = Panic.
Proof. intros E A B [a|e|] k H; cbn in H; try discriminate; eauto. Qed.
Lemma ok_or_panic : forall {E A} (o : option A) (e : E), ok_or o e <> Panic.
Proof. intros E A [x|] e; discriminate. Qed.

Lemma foldM_app : forall {E A St} (f : St -> A -> outcome E St) l1 l2 s,
  foldM f s (l1 ++ l2) = bind (foldM f s l1) (fun s' => foldM f s' l2).
Proof.
  intros E A St f. induction l1 as [|x l1 IH]; intros l2 s; cbn; [reflexivity|].
  destruct (f s x); cbn; try reflexivity. apply IH.
Qed.

Lemma foldM_inv : forall {E A St} (P : St -> Prop) (f : St -> A -> outcome E St) l s s',
  (forall s x s', In x l -> P s -> f s x = Ok s' -> P s') -> P s -> foldM f s l = Ok s' -> P s'.
Proof.
  intros E A St P f. induction l as [|x l IH]; intros s s' Hf Hs H; cbn in H.
  - inversion H; subst; assumption.
  - apply bind_ok in H. destruct H as (s1 & H1 & H2). eapply IH; [|eapply Hf; [left; reflexivity|eassumption..]|eassumption].
    intros. eapply Hf; [right; eassumption|eassumption..].
Qed.

(** A [foldM] that succeeds ran every step from the result of the preceding prefix. *)
Lemma foldM_nth : forall {E A St} (f : St -> A -> outcome E St) l s s' k x,
  foldM f s l = Ok s' -> nth_error l k = Some x ->
  exists s1 s2, foldM f s (firstn k l) = Ok s1 /\ f s1 x = Ok s2 /\ foldM f s2 (skipn (S k) l) = Ok s'.
Proof.
  intros E A St f. induction l as [|y l IH]; intros s s' k x H Hk; [destruct k; discriminate|].
  cbn in H. apply bind_ok in H. destruct H as (s1 & H1 & H2).
  destruct k as [|k]; cbn in Hk.
  - inversion Hk; subst. exists s, s1. repeat split; assumption.
  - destruct (IH _ _ _ _ H2 Hk) as (a & b & Ha & Hb & Hc). exists a, b. cbn [firstn foldM].
    rewrite H1. cbn. auto.
Qed.

(** ** Invariants of compiled protocols *)

Section Inv.
  Variable m : mode.
  Variables (PE : enum_ -> Prop) (PS : structure -> Prop) (PU : union_ -> Prop) (PM : message -> Prop).
  Definition vals {A} (P : A -> Prop) (l : smap A) : Prop := forall k v, sget k l = Some v -> P v.

  Record proto_inv (p : protocol) : Prop := {
    pi_endi : p_endianness p = Little;
    pi_enums : vals PE (p_enums_by_name p);
    pi_structs : vals PS (p_structs_by_name p);
    pi_unions : vals PU (p_unions_by_name p);
    pi_messages : vals PM (p_messages_by_name p);
    pi_lenums : forall x, In x (p_enums p) -> PE x;
    pi_lstructs : forall x, In x (p_structs p) -> PS x;
    pi_lunions : forall x, In x (p_unions p) -> PU x;
    pi_lmessages : forall x, In x (p_messages p) -> PM x }.

  Hypothesis HE : forall v e, enum_from_model v = Ok e -> PE e.
  Hypothesis HS : forall enums structs id d s, vals PE enums -> vals PS structs ->
    structure_from_model m Little enums structs id d = Ok s -> PS s.
  Hypothesis HU : forall structs messages v u, vals PS structs -> vals PM messages ->
    union_from_model structs messages v = Ok u -> PU u.
  Hypothesis HM : forall env id v x mk, pe_endianness env = Little ->
    vals PS (pe_structs env) -> vals PM (pe_messages env) -> vals PU (pe_unions env) ->
    message_from_model env id v = Ok (x, mk) -> PM x.

  Lemma vals_insert : forall {A} (P : A -> Prop) k v l, P v -> vals P l -> vals P (sinsert k v l).
  Proof.
    intros A P k v l Hv Hl k' v' H. cbn in H. destruct (String.eqb k' k); [|eauto].
    inversion H; subst; assumption.
  Qed.
  Lemma in_push : forall {A} (P : A -> Prop) (b : bool) l v,
    P v -> (forall x, In x l -> P x) -> forall x, In x (if b then l ++ [v] else l) -> P x.
  Proof.
    intros A P [|] l v Hv Hl x Hx; [|auto]. apply in_app_or in Hx. destruct Hx as [Hx|[->|[]]]; auto.
  Qed.

  Lemma inv_empty : forall n, proto_inv (protocol_empty n).
  Proof. intro n. constructor; cbn; try reflexivity; try (intros ? ? ?; discriminate); intros ? []. Qed.
  Lemma inv_path : forall p k v, proto_inv p -> proto_inv (add_path p k v).
  Proof. intros p k v []. constructor; assumption. Qed.
  Lemma inv_struct : forall b p k v, PS v -> proto_inv p -> proto_inv (add_struct b p k v).
  Proof. intros b p k v Hv []. constructor; cbn; try assumption; [apply vals_insert|apply in_push]; assumption. Qed.
  Lemma inv_enum : forall b p k v, PE v -> proto_inv p -> proto_inv (add_enum b p k v).
  Proof. intros b p k v Hv []. constructor; cbn; try assumption; [apply vals_insert|apply in_push]; assumption. Qed.
  Lemma inv_union : forall b p k v, PU v -> proto_inv p -> proto_inv (add_union b p k v).
  Proof. intros b p k v Hv []. constructor; cbn; try assumption; [apply vals_insert|apply in_push]; assumption. Qed.
  Lemma inv_message : forall b p k v, PM v -> proto_inv p -> proto_inv (add_message b p k v).
  Proof. intros b p k v Hv []. constructor; cbn; try assumption; [apply vals_insert|apply in_push]; assumption. Qed.

  Lemma inv_import : forall solver p v p',
    (forall name q, r_protocol solver name = Some q -> proto_inv q) ->
    proto_inv p -> import_one solver p v = Ok p' -> proto_inv p'.
  Proof.
    intros solver p v p' Hq Hp H. unfold import_one in H.
    apply bind_ok in H. destruct H as (r & Hr & H). apply ok_or_ok in Hr. specialize (Hq _ _ Hr).
    destruct (sget (si_type v) (p_structs_by_name r)) eqn:E1.
    { apply bind_ok in H. destruct H as (tp & _ & H). inversion H; subst.
      apply inv_path, inv_struct; [eapply (pi_structs r); eassumption|assumption]. }
    destruct (sget (si_type v) (p_enums_by_name r)) eqn:E2.
    { apply bind_ok in H. destruct H as (tp & _ & H). inversion H; subst.
      apply inv_path, inv_enum; [eapply (pi_enums r); eassumption|assumption]. }
    destruct (sget (si_type v) (p_unions_by_name r)) eqn:E3.
    { apply bind_ok in H. destruct H as (tp & _ & H). inversion H; subst.
      apply inv_path, inv_union; [eapply (pi_unions r); eassumption|assumption]. }
    apply bind_ok in H. destruct H as (msg & Hm & H). apply ok_or_ok in Hm.
    apply bind_ok in H. destruct H as (tp & _ & H). inversion H; subst.
    apply inv_path, inv_message; [eapply (pi_messages r); eassumption|assumption].
  Qed.

  Lemma inv_define_enum : forall p v p', proto_inv p -> define_enum p v = Ok p' -> proto_inv p'.
  Proof.
    intros p v p' Hp H. unfold define_enum in H. apply bind_ok in H. destruct H as (e & He & H).
    inversion H; subst. apply inv_enum; eauto.
  Qed.
  Lemma inv_define_struct : forall p w v p' w', proto_inv p -> define_struct m (p, w) v = Ok (p', w') -> proto_inv p'.
  Proof.
    intros p w v p' w' Hp H. unfold define_struct in H. apply bind_ok in H. destruct H as (e & He & H).
    inversion H; subst. apply inv_struct; [|assumption]. rewrite (pi_endi p Hp) in He.
    eapply HS; [eapply pi_enums; eassumption|eapply pi_structs; eassumption|exact He].
  Qed.
  Lemma inv_define_union : forall p v p', proto_inv p -> define_union p v = Ok p' -> proto_inv p'.
  Proof.
    intros p v p' Hp H. unfold define_union in H. apply bind_ok in H. destruct H as (e & He & H).
    inversion H; subst. apply inv_union; [|assumption].
    eapply HU; [eapply pi_structs; eassumption|eapply pi_messages; eassumption|exact He].
  Qed.
  Lemma inv_define_message : forall p w v p' w', proto_inv p -> define_message (p, w) v = Ok (p', w') -> proto_inv p'.
  Proof.
    intros p w v p' w' Hp H. unfold define_message in H. apply bind_ok in H. destruct H as ((x & mk) & He & H).
    inversion H; subst. apply inv_message; [|assumption].
    eapply HM; [| | | |exact He]; cbn; [apply pi_endi|eapply pi_structs|eapply pi_messages|eapply pi_unions]; assumption.
  Qed.

  Lemma inv_protocol : forall solver w v p w',
    (forall name q, r_protocol solver name = Some q -> proto_inv q) ->
    protocol_from_model m solver w v = Ok (p, w') -> proto_inv p.
  Proof.
    intros solver w v p w' Hq H. unfold protocol_from_model in H.
    apply bind_ok in H. destruct H as (p1 & H1 & H).
    apply bind_ok in H. destruct H as (p2 & H2 & H).
    apply bind_ok in H. destruct H as ((p3 & w3) & H3 & H).
    apply bind_ok in H. destruct H as (p4 & H4 & H5).
    assert (K1 : proto_inv p1).
    { eapply (foldM_inv proto_inv); [|apply inv_empty|exact H1]. intros. eapply inv_import; eassumption. }
    assert (K2 : proto_inv p2).
    { eapply (foldM_inv proto_inv); [|exact K1|exact H2]. intros. eapply inv_define_enum; eassumption. }
    assert (K3 : proto_inv p3).
    { change p3 with (fst (p3, w3)).
      eapply (foldM_inv (fun x => proto_inv (fst x))); [|exact (K2 : proto_inv (fst (p2, w)))|exact H3].
      intros (a & b) x (c & d) _. cbn. apply inv_define_struct. }
    assert (K4 : proto_inv p4).
    { eapply (foldM_inv proto_inv); [|exact K3|exact H4]. intros. eapply inv_define_union; eassumption. }
    change p with (fst (p, w')).
    eapply (foldM_inv (fun x => proto_inv (fst x))); [|exact (K4 : proto_inv (fst (p4, w3)))|exact H5].
    intros (a & b) x (c & d) _. cbn. apply inv_define_message.
  Qed.

  Lemma inv_compiled : forall p, compiled m p -> proto_inv p.
  Proof. intros p H. induction H as [solver w v p w' Hc IH H]. eapply inv_protocol; eassumption. Qed.
End Inv.
