(** Runs of the compiler on protocols whose unions have got further cases, for C86. *)

From Coq Require Import Arith NArith ZArith String List Bool Lia.
From Verif Require Import Base Schema Codec Compiler Access Bits Runtime Gen Loader SpecLoader SpecRun SpecApart SpecWire SpecExact SpecDecode
  StructFacts MsgFacts WriteThms ApartThms SpecGrow GrowThms GrowExact GrowWrite GrowComp.
Import ListNotations.
Local Open Scope N_scope.

Definition seen_alike (same : N -> N -> Prop) : list (string * protocol) -> list (string * protocol) -> Prop :=
  Forall2 (fun a a' => fst a' = fst a /\ grown_protocol same (snd a) (snd a')).
Lemma find_two : forall A (P : A -> A -> Prop) (f g : A -> bool) l l', Forall2 P l l' -> (forall a a', P a a' -> g a' = f a) ->
  match find f l, find g l' with Some a, Some a' => P a a' | None, None => True | _, _ => False end.
Proof.
  intros A P f g l l' F H. induction F as [|a a' l l' Ha F IH]; [exact I|]. cbn [find]. rewrite (H _ _ Ha). destruct (f a); [exact Ha|exact IH].
Qed.
Lemma seen_imports : forall sep same seen seen', seen_alike same seen seen' -> grown_imports same (visible sep seen) (visible sep seen').
Proof.
  intros sep same seen seen' F n.
  assert (F' : Forall2 (fun a a' => fst a' = fst a /\ grown_protocol same (snd a) (snd a')) (rev seen) (rev seen')).
  { clear - F. induction F as [|a a' l l' H F IH]; [constructor|]. cbn [rev]. apply Forall2_app; [exact IH|]. constructor; [exact H|constructor]. }
  pose proof (find_two _ _ (fun bp => String.eqb n (p_name (snd bp))) (fun bp => String.eqb n (p_name (snd bp))) _ _ F') as Q.
  assert (Hn : forall a a' : string * protocol, fst a' = fst a /\ grown_protocol same (snd a) (snd a') ->
    String.eqb n (p_name (snd a')) = String.eqb n (p_name (snd a))) by (intros a a' (_ & E & _); rewrite E; reflexivity).
  specialize (Q Hn). cbn [visible r_path r_protocol].
  destruct (find _ (rev seen)) as [a|], (find _ (rev seen')) as [a'|]; cbn [option_map]; try contradiction; [|split; [intro; reflexivity|exact I]].
  destruct Q as (Q1 & Q2). split; [intro t; rewrite Q1; reflexivity|exact Q2].
Qed.
Lemma seen_mono : forall (same same1 : N -> N -> Prop) seen seen', (forall i i', same i i' -> same1 i i') -> seen_alike same seen seen' -> seen_alike same1 seen seen'.
Proof. intros same same1 seen seen' H F. eapply Forall2_mono; [|exact F]. intros a a' (A & B). split; [exact A|]. eapply protocol_mono; eassumption. Qed.
Lemma imports_cases : forall m sep l l', later_models l l' -> forall same seen seen' w w' t t' u u',
  numbers_alike same w w' -> seen_alike same seen seen' ->
  imports_run m sep seen w l t u -> imports_run m sep seen' w' l' t' u' ->
  exists same1 : N -> N -> Prop, numbers_alike same1 u u' /\ seen_alike same1 t t'.
Proof.
  intros m sep l l' F. induction F as [|[path v] [path' v'] l l' (E & C) F IH]; intros same seen seen' w w' t t' u u' Hn Hs A B.
  - inversion A; inversion B; subst. exists same. split; assumption.
  - inversion A as [|? ? ? ? ? p w1 ? ? A1 A2]; subst. inversion B as [|? ? ? ? ? p' w1' ? ? B1 B2]; subst. cbn [fst snd] in *. subst path'.
    destruct (compile_cases _ _ _ _ _ _ _ _ _ _ _ _ C Hn (seen_imports sep _ _ _ Hs) A1 B1) as (same1 & S1 & Hn1 & G).
    eapply IH; [exact Hn1| |exact A2|exact B2]. apply Forall2_app; [exact (seen_mono _ _ _ _ S1 Hs)|]. constructor; [split; [reflexivity|exact G]|constructor].
Qed.
Theorem run_cases : forall m sep earlier earlier' d d' p w p' w', later_models earlier earlier' -> cases_added d d' ->
  run_gives m sep earlier d p w -> run_gives m sep earlier' d' p' w' ->
  exists same, numbers_alike same w w' /\ grown_protocol same p p'.
Proof.
  intros m sep earlier earlier' d d' p w p' w' L C A B. apply run_is in A. apply run_is in B.
  destruct A as (seen & u & A1 & A2). destruct B as (seen' & u' & B1 & B2).
  assert (Z : numbers_alike (fun _ _ => False) world_new world_new) by (repeat split; intros; contradiction).
  destruct (imports_cases m sep _ _ L _ [] [] _ _ _ _ _ _ Z (Forall2_nil _) A1 B1) as (same & Hn & Hs).
  destruct (compile_cases _ _ _ _ _ _ _ _ _ _ _ _ C Hn (seen_imports sep _ _ _ Hs) A2 B2) as (same1 & _ & Hn1 & G).
  exists same1. split; assumption.
Qed.
Lemma numbers_marks : forall same w w', numbers_alike same w w' -> forall i i', same i i' -> marked w' i' = marked w i.
Proof.
  intros same w w' (_ & _ & _ & H) i i' S. destruct (H _ _ S) as (_ & _ & E).
  destruct (marked w i) eqn:E1, (marked w' i') eqn:E2; try reflexivity.
  - apply marked_in in E1. apply E in E1. apply marked_in in E1. congruence.
  - apply marked_in in E2. apply E in E2. apply marked_in in E2. congruence.
Qed.
Lemma Forall2_at : forall A (R : A -> A -> Prop) l l', Forall2 R l l' -> forall k x x', nth_error l k = Some x -> nth_error l' k = Some x' -> R x x'.
Proof.
  intros A R l l' F. induction F as [|a a' l l' H F IH]; intros [|k] x x' Hx Hx'; try discriminate; [|eapply IH; eassumption].
  inversion Hx; inversion Hx'; subst. exact H.
Qed.
Section Program.
Variables (mc mr : mode) (sep : string) (earlier earlier' : list (string * sprotocol)) (d d' : sprotocol) (p p' : protocol) (w w' : world).
Hypotheses (L : later_models earlier earlier') (C : cases_added d d').
Hypotheses (R : run_gives mc sep earlier d p w) (R' : run_gives mc sep earlier' d' p' w').
Lemma program_messages : forall k x x', nth_error (p_messages p) k = Some x -> nth_error (p_messages p') k = Some x' ->
  exists same : N -> N -> Prop, (forall i i', same i i' -> marked w' i' = marked w i) /\ grown same x x'.
Proof.
  intros k x x' Hx Hx'. destruct (run_cases _ _ _ _ _ _ _ _ _ _ L C R R') as (same & Hn & G). exists same. split; [exact (numbers_marks _ _ _ Hn)|].
  destruct G as (_ & _ & _ & _ & _ & _ & _ & _ & _ & G & _). exact (Forall2_at _ _ _ _ G _ _ _ Hx Hx').
Qed.
Theorem program_names : map m_name (p_messages p') = map m_name (p_messages p) /\ map u_name (p_unions p') = map u_name (p_unions p) /\
  (forall k x x', nth_error (p_messages p) k = Some x -> nth_error (p_messages p') k = Some x' -> map mf_name (m_fields x') = map mf_name (m_fields x)) /\
  exists more, map s_name (p_structs p') = (map s_name (p_structs p) ++ more)%list.
Proof.
  destruct (run_cases _ _ _ _ _ _ _ _ _ _ L C R R') as (same & _ & (_ & _ & _ & _ & _ & _ & (ss & more & E & F) & _ & _ & G & H)).
  split; [|split; [|split]].
  - clear - G. induction G as [|a a' l l' X G IH]; [reflexivity|]. cbn [map]. rewrite IH. destruct X; reflexivity.
  - clear - H. induction H as [|a a' l l' X G IH]; [reflexivity|]. cbn [map]. rewrite IH. destruct X; reflexivity.
  - intros k x x' Hx Hx'. pose proof (Forall2_at _ _ _ _ G _ _ _ Hx Hx') as X. destruct X as [id id' name fs fs' size size' _ X]. cbn [m_fields].
    clear - X. induction X as [|a a' l l' X G IH]; [reflexivity|]. cbn [map]. rewrite IH. destruct X; reflexivity.
  - exists (map s_name more). rewrite E, map_app. f_equal. clear - F. induction F as [|a a' l l' X G IH]; [reflexivity|]. cbn [map]. rewrite IH. destruct X; reflexivity.
Qed.
Theorem program_new_reader : forall k x x' b, nth_error (p_messages p) k = Some x -> nth_error (p_messages p') k = Some x' ->
  (forall r, read_msg mr (marked w) x b = r -> (forall n, r <> Err (InvalidUnionDiscriminant n)) -> read_msg mr (marked w') x' b = r) /\
  (forall r, read_msg_offsets mr (marked w) x b = r -> (forall n, r <> Err (InvalidUnionDiscriminant n)) -> read_msg_offsets mr (marked w') x' b = r).
Proof. intros k x x' b Hx Hx'. destruct (program_messages _ _ _ Hx Hx') as (same & Hm & G). exact (new_reader_alike mr _ _ same Hm x x' b G). Qed.
Theorem program_old_reader : forall k x x' b n v, nth_error (p_messages p) k = Some x -> nth_error (p_messages p') k = Some x' ->
  len b < 2 ^ 64 -> bytes_ok b -> read_msg mr (marked w') x' b = Ok (n, v) ->
  (~ uses_new mr (marked w') x x' v -> read_msg mr (marked w) x b = Ok (n, v)) /\
  (uses_new mr (marked w') x x' v -> exists d, read_msg mr (marked w) x b = Err (InvalidUnionDiscriminant d)).
Proof. intros k x x' b n v Hx Hx'. destruct (program_messages _ _ _ Hx Hx') as (same & Hm & G). exact (old_reader_exact mr _ _ same Hm x x' b n v G). Qed.
Theorem program_written : forall k x x' v b, nth_error (p_messages p) k = Some x -> nth_error (p_messages p') k = Some x' ->
  encodes mr x v b -> encodes mr x' v b /\ forall s, write_vec mr x v s = (s ++ b, Ok tt) /\ write_vec mr x' v s = (s ++ b, Ok tt).
Proof.
  intros k x x' v b Hx Hx' E. destruct (program_messages _ _ _ Hx Hx') as (same & Hm & G). pose proof (enc_grown mr _ same x x' v b G E) as E'.
  split; [exact E'|]. intro s. split; apply write_vec_encodes; assumption.
Qed.
End Program.
