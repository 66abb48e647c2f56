(** Programs with other marks read the same input, for C70 and C83. *)

From Coq Require Import Arith NArith String List Bool Lia.
From Verif Require Import Base Schema Compiler Access Runtime Gen Loader SpecLoader SpecWire SpecRun SpecExact SpecDecode SpecWalk SpecApart SpecEvolve
  CompFacts EvolveMore WalkThms ApartThms.
Import ListNotations.
Local Open Scope N_scope.

Lemma apart_fewer : forall mc sep earlier path v p w emb, program mc sep (earlier ++ [(path, v)]) emb -> run_gives mc sep earlier v p w ->
  forall x y, In x (p_messages p) -> within x y -> emb (m_id y) = true -> marked w (m_id y) = true.
Proof.
  intros mc sep earlier path v p w emb Hpr H x y Hx Hy E0.
  pose proof (proj1 (run_is _ _ _ _ _ _) H) as (seen & w1 & A & B).
  assert (A1 : imports_run mc sep [] world_new (earlier ++ [(path, v)]) (seen ++ [(path, p)]) w).
  { apply imports_split. exists seen, w1. split; [exact A|]. econstructor; [exact B|constructor]. }
  pose proof (imports_inv _ _ _ _ _ _ _ A1 run_start) as [I1 I2].
  assert (Hp : In (path, p) (seen ++ [(path, p)])) by (apply in_or_app; right; left; reflexivity).
  pose proof (pi_lmessages _ _ _ _ _ (I2 _ _ Hp) x Hx y Hy) as K. apply in_msgs in K. destruct K as (b & q & Hq & Hyq).
  apply in_app_or in Hq. destruct Hq as [Hq|[E|[]]].
  - destruct (between _ _ _ _ _ _ _ A [] (ir_nil _ _ _ _)) as (more & E & Hb). cbn [app] in E. subst more.
    destruct (Hb _ _ Hq) as (e & u & e' & t & -> & R). cbn [app] in R.
    rewrite (Hpr e b u (e' ++ [(path, v)]) q t (eq_sym (app_assoc e ((b, u) :: e') _)) R y Hyq) in E0.
    apply (runs_marks mc sep e b u q t e' path v p w y R Hyq H). left. exact E0.
  - injection E as <- <-. rewrite <- (Hpr earlier path v [] p w eq_refl H y Hyq). exact E0.
Qed.

Theorem apart_accepted : forall mc mr sep earlier path v p w emb, program mc sep (earlier ++ [(path, v)]) emb -> run_gives mc sep earlier v p w ->
  forall x b n z, In x (p_messages p) -> len b < 2 ^ 64 -> bytes_ok b -> read_msg mr emb x b = Ok (n, z) ->
  (n < len b -> read_msg mr (marked w) x b = Ok (n, z)) /\
  (read_msg mr (marked w) x b = Ok (n, z) <-> walkable mr (marked w) x z).
Proof.
  intros mc mr sep earlier path v p w emb Hpr H x b n z Hx Hl Hb R.
  assert (E : read_msg mr emb x b = read_msg mr (fun id => emb id && marked w id)%bool x b).
  { apply marks_agree_lists. intros y Hy _. destruct (emb (m_id y)) eqn:E; [|reflexivity].
    rewrite (apart_fewer _ _ _ _ _ _ _ _ Hpr H x y Hx Hy E). reflexivity. }
  rewrite E in R. assert (M : forall id, (emb id && marked w id)%bool = true -> marked w id = true) by (intros id G; apply andb_prop in G; apply G).
  split; [exact (read_left_alike _ _ _ _ _ _ _ M Hl Hb R)|exact (read_alike_exact _ _ _ _ _ _ _ M Hl Hb R)].
Qed.

Theorem added_accepted : forall mc mr solver w d d' p w1 p' w2, messages_added d d' ->
  protocol_from_model mc solver w d = Ok (p, w1) -> protocol_from_model mc solver w d' = Ok (p', w2) ->
  forall x b n v, len b < 2 ^ 64 -> bytes_ok b -> read_msg mr (marked w1) x b = Ok (n, v) ->
  (n < len b -> read_msg mr (marked w2) x b = Ok (n, v)) /\
  (read_msg mr (marked w2) x b = Ok (n, v) <-> walkable mr (marked w2) x v).
Proof.
  intros mc mr solver w d d' p w1 p' w2 Ha H H' x b n v Hl Hb R.
  destruct (protocol_prefix _ _ _ _ _ _ _ Ha H') as (p0 & w0 & more & E & _ & _ & _ & _ & M & _).
  rewrite H in E. injection E as <- <-.
  split; [exact (read_left_alike _ _ _ _ _ _ _ M Hl Hb R)|exact (read_alike_exact _ _ _ _ _ _ _ M Hl Hb R)].
Qed.
