(** Proofs about loading protocols (C48). *)

From Coq Require Import Arith NArith String List Bool Lia.
From Verif Require Import Base Schema Compiler Loader SpecLoader.
Import ListNotations.
Local Open Scope string_scope.

Lemma foldM_ext : forall {E A S} (f g : S -> A -> outcome E S), (forall s x, f s x = g s x) ->
  forall l s, foldM f s l = foldM g s l.
Proof.
  intros E A S f g H l. induction l as [|x l IH]; intros s; [reflexivity|]. cbn [foldM]. rewrite H.
  destruct (g s x); cbn [bind]; [apply IH|reflexivity|reflexivity].
Qed.
Definition same_resolver (R R' : resolver) : Prop :=
  (forall n, r_protocol R n = r_protocol R' n) /\ (forall n t, r_path R n t = r_path R' n t).
Lemma from_model_ext : forall m R R' w v, same_resolver R R' ->
  protocol_from_model m R w v = protocol_from_model m R' w v.
Proof.
  intros m R R' w v [H1 H2]. unfold protocol_from_model.
  rewrite (foldM_ext (import_one R) (import_one R')); [reflexivity|].
  intros s x. unfold import_one. rewrite H1, H2. reflexivity.
Qed.

Definition solver_of (sep : string) (seen : list (string * protocol)) : import_solver :=
  {| is_map := map (fun bp => (p_name (snd bp), bp)) (rev seen); is_separator := sep |}.
Lemma sget_find : forall n (l : list (string * protocol)),
  sget n (map (fun bp => (p_name (snd bp), bp)) l) = find (fun bp => String.eqb n (p_name (snd bp))) l.
Proof.
  intros n l. induction l as [|x l IH]; [reflexivity|]. cbn [map sget find].
  destruct (String.eqb n (p_name (snd x))); [reflexivity|exact IH].
Qed.
Lemma solver_visible : forall sep seen, same_resolver (solver_resolver (solver_of sep seen)) (visible sep seen).
Proof.
  intros sep seen. split; [intros n|intros n t]; cbn [solver_resolver visible r_protocol r_path solver_of is_map is_separator];
    rewrite sget_find; destruct (find _ (rev seen)) as [[b p]|]; reflexivity.
Qed.
Lemma solver_step : forall sep seen b p, solver_register (solver_of sep seen) b p = solver_of sep (seen ++ [(b, p)]).
Proof. intros sep seen b p. unfold solver_of. rewrite rev_app_distr. reflexivity. Qed.

Lemma after_fields : forall l x,
  fold_left (fun x c => match c with LLoad v => loader_load x v | LImport p v => loader_import x p v end) l x =
  {| ld_models := ld_models x ++ loaded l; ld_imported := ld_imported x ++ imported l |}.
Proof.
  induction l as [|c l IH]; intros x; cbn [fold_left loaded imported flat_map].
  - rewrite !app_nil_r. destruct x. reflexivity.
  - rewrite IH. destruct c as [v|p v]; cbn [loader_load loader_import ld_models ld_imported app]; rewrite <- ?app_assoc; reflexivity.
Qed.
Lemma after_new : forall l, loader_after l = {| ld_models := loaded l; ld_imported := imported l |}.
Proof. intros l. unfold loader_after. rewrite after_fields. reflexivity. Qed.

Section Run.
Variables (m : mode) (sep : string).

Lemma imports_ok : forall l seen w s' w',
  foldM (compile_imported m) (solver_of sep seen, w) l = Ok (s', w') <->
  exists seen', s' = solver_of sep seen' /\ imports_run m sep seen w l seen' w'.
Proof.
  induction l as [|[b v] l IH]; intros seen w s' w'; cbn [foldM].
  - split.
    + intros H. injection H as <- <-. exists seen. split; [reflexivity|constructor].
    + intros [seen' [-> H]]. inversion H; subst. reflexivity.
  - unfold compile_imported at 1. cbn [fst snd].
    rewrite (from_model_ext m _ _ w v (solver_visible sep seen)).
    destruct (protocol_from_model m (visible sep seen) w v) as [[p w1]|e|] eqn:E; cbn [bind].
    + rewrite solver_step, IH. split; intros [seen' [-> H]]; exists seen'; (split; [reflexivity|]).
      * econstructor; eassumption.
      * inversion H as [|? ? ? ? ? ? ? ? ? A1 A2]; subst. rewrite E in A1. injection A1 as <- <-. exact A2.
    + split; [discriminate|]. intros [seen' [_ H]]. inversion H; subst. congruence.
    + split; [discriminate|]. intros [seen' [_ H]]. inversion H; subst. congruence.
Qed.
Lemma loads_ok : forall R l s w acc ps w', same_resolver (solver_resolver s) R ->
  (foldM (compile_loaded m s) (acc, w) l = Ok (ps, w') <->
   exists qs, ps = (acc ++ qs)%list /\ loads_run m R w l qs w').
Proof.
  intros R l. induction l as [|v l IH]; intros s w acc ps w' HR; cbn [foldM].
  - split.
    + intros H. injection H as <- <-. exists []. rewrite app_nil_r. split; [reflexivity|constructor].
    + intros [qs [-> H]]. inversion H; subst. rewrite app_nil_r. reflexivity.
  - unfold compile_loaded at 1. rewrite (from_model_ext m _ _ w v HR).
    destruct (protocol_from_model m R w v) as [[p w1]|e|] eqn:E; cbn [bind].
    + rewrite (IH s w1 _ ps w' HR). split; intros [qs [-> H]].
      * exists (p :: qs). rewrite <- app_assoc. split; [reflexivity|]. econstructor; eassumption.
      * inversion H as [|? ? ? ? ? ps0 ? A1 A2]; subst. rewrite E in A1. injection A1 as <- <-.
        exists ps0. rewrite <- app_assoc. split; [reflexivity|exact A2].
    + split; [discriminate|]. intros [qs [_ H]]. inversion H; subst. congruence.
    + split; [discriminate|]. intros [qs [_ H]]. inversion H; subst. congruence.
Qed.

Lemma imports_bad : forall l seen w e,
  failed (foldM (compile_imported m) (solver_of sep seen, w) l) e <->
  exists l1 b v l2 seen1 w1, l = (l1 ++ (b, v) :: l2)%list /\ imports_run m sep seen w l1 seen1 w1 /\
    failed (protocol_from_model m (visible sep seen1) w1 v) e.
Proof.
  induction l as [|[b v] l IH]; intros seen w e; cbn [foldM].
  - split.
    + destruct e; discriminate.
    + intros (l1 & b & v & l2 & seen1 & w1 & H & _). destruct l1; discriminate.
  - unfold compile_imported at 1. cbn [fst snd].
    rewrite (from_model_ext m _ _ w v (solver_visible sep seen)).
    destruct (protocol_from_model m (visible sep seen) w v) as [[p w0]|e0|] eqn:E; cbn [bind].
    + rewrite solver_step, IH. split.
      * intros (l1 & b1 & v1 & l2 & seen1 & w1 & -> & H1 & H2).
        exists ((b, v) :: l1), b1, v1, l2, seen1, w1. split; [reflexivity|]. split; [|exact H2]. econstructor; eassumption.
      * intros (l1 & b1 & v1 & l2 & seen1 & w1 & H0 & H1 & H2). destruct l1 as [|[b2 v2] l1].
        -- injection H0 as <- <- <-. inversion H1; subst. rewrite E in H2. destruct e; discriminate.
        -- injection H0 as <- <- ->. inversion H1 as [|? ? ? ? ? ? ? ? ? A1 A2]; subst. rewrite E in A1. injection A1 as <- <-.
           exists l1, b1, v1, l2, seen1, w1. auto.
    + split.
      * intros H. exists [], b, v, l, seen, w. split; [reflexivity|]. split; [constructor|]. rewrite E. destruct e; cbn [failed] in *; congruence.
      * intros (l1 & b1 & v1 & l2 & seen1 & w1 & H0 & H1 & H2). destruct l1 as [|[b2 v2] l1].
        -- injection H0 as <- <- <-. inversion H1; subst. rewrite E in H2. destruct e; cbn [failed] in *; congruence.
        -- injection H0 as <- <- ->. inversion H1; subst. congruence.
    + split.
      * intros H. exists [], b, v, l, seen, w. split; [reflexivity|]. split; [constructor|]. rewrite E. destruct e; cbn [failed] in *; congruence.
      * intros (l1 & b1 & v1 & l2 & seen1 & w1 & H0 & H1 & H2). destruct l1 as [|[b2 v2] l1].
        -- injection H0 as <- <- <-. inversion H1; subst. rewrite E in H2. destruct e; cbn [failed] in *; congruence.
        -- injection H0 as <- <- ->. inversion H1; subst. congruence.
Qed.
Lemma loads_bad : forall R l s w acc e, same_resolver (solver_resolver s) R ->
  (failed (foldM (compile_loaded m s) (acc, w) l) e <->
   exists l1 v l2 ps w1, l = (l1 ++ v :: l2)%list /\ loads_run m R w l1 ps w1 /\ failed (protocol_from_model m R w1 v) e).
Proof.
  intros R l. induction l as [|v l IH]; intros s w acc e HR; cbn [foldM].
  - split.
    + destruct e; discriminate.
    + intros (l1 & v & l2 & ps & w1 & H & _). destruct l1; discriminate.
  - unfold compile_loaded at 1. rewrite (from_model_ext m _ _ w v HR).
    destruct (protocol_from_model m R w v) as [[p w0]|e0|] eqn:E; cbn [bind].
    + rewrite (IH s w0 _ e HR). split.
      * intros (l1 & v1 & l2 & ps & w1 & -> & H1 & H2). exists (v :: l1), v1, l2, (p :: ps), w1.
        split; [reflexivity|]. split; [|exact H2]. econstructor; eassumption.
      * intros (l1 & v1 & l2 & ps & w1 & H0 & H1 & H2). destruct l1 as [|v2 l1].
        -- injection H0 as <- <-. inversion H1; subst. rewrite E in H2. destruct e; discriminate.
        -- injection H0 as <- ->. inversion H1 as [|? ? ? ? ? ps0 ? A1 A2]; subst. rewrite E in A1. injection A1 as <- <-.
           exists l1, v1, l2, ps0, w1. auto.
    + split.
      * intros H. exists [], v, l, [], w. split; [reflexivity|]. split; [constructor|]. rewrite E. destruct e; cbn [failed] in *; congruence.
      * intros (l1 & v1 & l2 & ps & w1 & H0 & H1 & H2). destruct l1 as [|v2 l1].
        -- injection H0 as <- <-. inversion H1; subst. rewrite E in H2. destruct e; cbn [failed] in *; congruence.
        -- injection H0 as <- ->. inversion H1; subst. congruence.
    + split.
      * intros H. exists [], v, l, [], w. split; [reflexivity|]. split; [constructor|]. rewrite E. destruct e; cbn [failed] in *; congruence.
      * intros (l1 & v1 & l2 & ps & w1 & H0 & H1 & H2). destruct l1 as [|v2 l1].
        -- injection H0 as <- <-. inversion H1; subst. rewrite E in H2. destruct e; cbn [failed] in *; congruence.
        -- injection H0 as <- ->. inversion H1; subst. congruence.
Qed.

Theorem load_ok : forall calls ps w,
  loader_compile m (loader_after calls) (solver_new sep) = Ok (ps, w) <->
  exists seen w1, imports_run m sep [] world_new (imported calls) seen w1 /\
    loads_run m (visible sep seen) w1 (loaded calls) ps w.
Proof.
  intros calls ps w. unfold loader_compile. rewrite after_new. cbn [ld_imported ld_models].
  change (solver_new sep) with (solver_of sep []). split.
  - intros H. destruct (foldM (compile_imported m) (solver_of sep [], world_new) (imported calls)) as [[s w1]|e|] eqn:E; try discriminate.
    cbn [bind] in H. apply imports_ok in E. destruct E as [seen [-> E]]. exists seen, w1. split; [exact E|].
    apply (loads_ok (visible sep seen)) in H; [|apply solver_visible]. destruct H as [qs [-> H]]. exact H.
  - intros [seen [w1 [H1 H2]]].
    assert (E : foldM (compile_imported m) (solver_of sep [], world_new) (imported calls) = Ok (solver_of sep seen, w1))
      by (apply imports_ok; exists seen; auto).
    rewrite E. cbn [bind]. apply (loads_ok (visible sep seen)); [apply solver_visible|]. exists ps. auto.
Qed.
Theorem load_failed : forall calls e,
  failed (loader_compile m (loader_after calls) (solver_new sep)) e <->
  (exists l1 path v l2 seen w, imported calls = (l1 ++ (path, v) :: l2)%list /\
     imports_run m sep [] world_new l1 seen w /\ failed (protocol_from_model m (visible sep seen) w v) e) \/
  (exists seen w l1 v l2 ps w1, imports_run m sep [] world_new (imported calls) seen w /\
     loaded calls = (l1 ++ v :: l2)%list /\ loads_run m (visible sep seen) w l1 ps w1 /\
     failed (protocol_from_model m (visible sep seen) w1 v) e).
Proof.
  intros calls e. unfold loader_compile. rewrite after_new. cbn [ld_imported ld_models].
  change (solver_new sep) with (solver_of sep []). split.
  - intros H. destruct (foldM (compile_imported m) (solver_of sep [], world_new) (imported calls)) as [[s w1]|e0|] eqn:E; cbn [bind] in H.
    + right. apply imports_ok in E. destruct E as [seen [-> E]].
      apply (loads_bad (visible sep seen)) in H; [|apply solver_visible]. destruct H as (l1 & v & l2 & ps & w2 & H).
      exists seen, w1, l1, v, l2, ps, w2. tauto.
    + left. apply imports_bad. rewrite E. destruct e; cbn [failed] in *; congruence.
    + left. apply imports_bad. rewrite E. destruct e; cbn [failed] in *; congruence.
  - intros [H|(seen & w & l1 & v & l2 & ps & w1 & H1 & H2)].
    + apply imports_bad in H. destruct (foldM _ _ _) as [[s w1]|e0|]; cbn [bind]; destruct e; cbn [failed] in *; congruence.
    + assert (E : foldM (compile_imported m) (solver_of sep [], world_new) (imported calls) = Ok (solver_of sep seen, w))
        by (apply imports_ok; exists seen; auto).
      rewrite E. cbn [bind]. apply (loads_bad (visible sep seen)); [apply solver_visible|]. exists l1, v, l2, ps, w1. tauto.
Qed.
End Run.
