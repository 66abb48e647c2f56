(** What a loader returns comes from a session, so that all that is proved about sessions
    holds for it (C48). *)

From Coq Require Import Arith NArith String List Bool Lia.
From Verif Require Import Base Schema Compiler Loader StructFacts SpecWire SpecRun.
Import ListNotations.

Definition registered (s : import_solver) (qs : list protocol) : Prop :=
  forall n b q, sget n (is_map s) = Some (b, q) -> In q qs.
Lemma registered_resolves : forall s qs n q, registered s qs -> r_protocol (solver_resolver s) n = Some q -> In q qs.
Proof.
  intros s qs n q H Hq. cbn in Hq. destruct (sget n (is_map s)) as [[b q']|] eqn:E; [|discriminate]. injection Hq as <-.
  eapply H; exact E.
Qed.
Lemma imported_session : forall m l s w s' w' qs, session m w qs -> registered s qs ->
  foldM (compile_imported m) (s, w) l = Ok (s', w') -> exists more, session m w' (qs ++ more) /\ registered s' (qs ++ more).
Proof.
  intros m. induction l as [|[path v] l IH]; intros s w s' w' qs Hs Hr H; cbn [foldM] in H.
  - injection H as <- <-. exists []. rewrite app_nil_r. split; assumption.
  - apply bind_ok in H. destruct H as ((s1 & w1) & H1 & H). unfold compile_imported in H1. cbn [snd fst] in H1.
    apply bind_ok in H1. destruct H1 as ((p & w2) & H1 & H2). injection H2 as <- <-.
    assert (Hs1 : session m w2 (qs ++ [p])).
    { eapply session_step; [exact Hs| |exact H1]. intros name q Hq. eapply registered_resolves; eassumption. }
    assert (Hr1 : registered (solver_register s path p) (qs ++ [p])).
    { intros n b q Hq. unfold solver_register in Hq. cbn [is_map] in Hq. unfold sinsert in Hq. cbn [sget] in Hq.
      apply in_or_app. destruct (String.eqb n (p_name p)); [right; left; congruence|left; eapply Hr; exact Hq]. }
    destruct (IH _ _ _ _ _ Hs1 Hr1 H) as (more & Hm & Hm'). exists (p :: more). rewrite <- app_assoc in Hm, Hm'. split; assumption.
Qed.
Lemma loaded_session : forall m s qs l ps w ps' w', session m w (qs ++ ps) -> registered s qs ->
  foldM (compile_loaded m s) (ps, w) l = Ok (ps', w') -> session m w' (qs ++ ps').
Proof.
  intros m s qs. induction l as [|v l IH]; intros ps w ps' w' Hs Hr H; cbn [foldM] in H.
  - injection H as <- <-. exact Hs.
  - apply bind_ok in H. destruct H as ((s1 & w1) & H1 & H). unfold compile_loaded in H1.
    apply bind_ok in H1. destruct H1 as ((p & w2) & H1 & H2). injection H2 as <- <-.
    eapply IH; [|exact Hr|exact H]. rewrite app_assoc. eapply session_step; [exact Hs| |exact H1].
    intros name q Hq. apply in_or_app. left. eapply registered_resolves; eassumption.
Qed.
Lemma registered_new : forall sep, registered (solver_new sep) [].
Proof. intros sep n b q Hq. discriminate Hq. Qed.
Theorem loader_session : forall m l sep ps w, loader_compile m l (solver_new sep) = Ok (ps, w) ->
  exists qs, session m w (qs ++ ps).
Proof.
  intros m l sep ps w H. unfold loader_compile in H. apply bind_ok in H. destruct H as ((s & w1) & H1 & H).
  destruct (imported_session m _ _ _ _ _ [] (session_nil m) (registered_new sep) H1) as (qs & Hs & Hr).
  cbn [app] in Hs, Hr. exists qs. eapply loaded_session; [|exact Hr|exact H]. rewrite app_nil_r. exact Hs.
Qed.
