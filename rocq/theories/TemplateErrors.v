(** Proofs about the template engine: errors, absence of panics, literal text and
    scopes. *)

From Coq Require Import Arith NArith Ascii String List Bool Lia.
From Verif Require Import Base Utf8 SpecUtf8 Utf8Thms Compiler Template SpecTemplate TemplateThms.
Import ListNotations.
Local Open Scope string_scope.

(** ** Unknown functions *)

Lemma flat_map_find : forall {A} (g : A -> list string) (u : string -> bool) l f,
  find u (flat_map g l) = Some f ->
  exists a x b, l = (a ++ x :: b)%list /\ find u (flat_map g a) = None /\ find u (g x) = Some f.
Proof.
  intros A g u l f. induction l as [|x l IH]; intros H; [discriminate|]. cbn [flat_map] in H.
  destruct (find u (g x)) as [y|] eqn:E.
  - assert (Hy : find u (g x ++ flat_map g l) = Some y).
    { clear - E. induction (g x) as [|z r IHr]; [discriminate|]. cbn [app find] in *.
      destruct (u z); [exact E|apply IHr; exact E]. }
    rewrite Hy in H. injection H as ->. exists [], x, l. repeat split. exact E.
  - assert (Hn : find u (g x ++ flat_map g l) = find u (flat_map g l)).
    { clear - E. induction (g x) as [|z r IHr]; [reflexivity|]. cbn [app find] in *.
      destruct (u z); [discriminate|apply IHr; exact E]. }
    rewrite Hn in H. destruct (IH H) as [a [y [b [-> [H1 H2]]]]].
    exists (x :: a), y, b. repeat split; [|exact H2]. cbn [flat_map].
    clear - E H1. induction (g x) as [|z r IHr]; [exact H1|]. cbn [app find] in *.
    destruct (u z); [discriminate|apply IHr; exact E].
Qed.
Lemma find_app_none : forall (u : string -> bool) a b, find u (a ++ b)%list = None -> find u a = None /\ find u b = None.
Proof.
  intros u a b. induction a as [|x a IH]; cbn [app find]; [tauto|]. destruct (u x); [discriminate|exact IH].
Qed.

Section Unknown.
Variable F : function_map.

Lemma pieces_known : forall l, find (unknown F) (flat_map piece_calls l) = None -> Forall (piece_known F) l.
Proof.
  induction l as [|p l IH]; intros H; [constructor|]. cbn [flat_map] in H. apply find_app_none in H.
  constructor; [|apply IH, H]. destruct p as [s| | |n|n f]; try exact I.
  destruct H as [H _]. cbn in H. unfold unknown in H. cbn. destruct (sget f F) as [g|]; [exists g; reflexivity|discriminate].
Qed.
Lemma items_known : forall l, find (unknown F) (calls l) = None -> Forall (item_known F) l.
Proof.
  assert (Hi : forall i, find (unknown F) (item_calls i) = None -> item_known F i).
  { induction i as [|l|n b IH] using item_ind2; intros H; constructor.
    - apply pieces_known. exact H.
    - cbn [item_calls] in H. induction b as [|i b IHb]; [constructor|]. inversion IH as [|? ? A1 A2]; subst.
      cbn [flat_map] in H. apply find_app_none in H. constructor; [apply A1, H|apply IHb; [exact A2|apply H]]. }
  induction l as [|i l IH]; intros H; [constructor|]. unfold calls in H. cbn [flat_map] in H.
  apply find_app_none in H. constructor; [apply Hi, H|apply IH, H].
Qed.

Lemma line_unknown : forall l f content, line_ok l -> find (unknown F) (flat_map piece_calls l) = Some f ->
  scan_line F (line_text l) content = Err (TFunctionNotFound f).
Proof.
  intros l f content [_ [Hok [Hsep _]]] H. destruct (flat_map_find _ _ _ _ H) as [a [p [b [-> [H1 H2]]]]].
  destruct p as [s| | |n|n g]; try discriminate. cbn in H2. unfold unknown in H2.
  destruct (sget g F) eqn:E; [discriminate|]. injection H2 as ->.
  apply scan_unknown; try assumption. apply pieces_known. exact H1.
Qed.

Lemma item_unknown : forall i, item_ok i -> forall f frs fr rest,
  find (unknown F) (item_calls i) = Some f ->
  foldM (compile_line F) (frs, fr :: rest) (item_lines i) = Err (TFunctionNotFound f).
Proof.
  induction i as [|l|n b IH] using item_ind2; intros Hok f frs fr rest H; [discriminate| |].
  - inversion Hok as [|? Hl|]; subst. cbn [item_lines foldM].
    assert (Hs := line_unknown l f (fr_content fr) Hl H).
    destruct Hl as [Hne [Hpo [Hsep [[Hd1 Hd2] Hcr]]]].
    unfold compile_line. rewrite (strip_cr_id _ Hcr). unfold starts_with, push_directive, pop_directive.
    rewrite Hd1, Hd2, Hs. cbn [bind].
    destruct (line_text l) eqn:E; [|reflexivity].
    exfalso. discriminate.
  - inversion Hok as [| |? ? Hn Hb]; subst. cbn [item_lines]. rewrite foldM_app. cbn [foldM].
    rewrite (push_line F frs (fr :: rest) n Hn). cbn [bind]. rewrite foldM_app.
    assert (Hbody : foldM (compile_line F) (frs, {| fr_name := n; fr_content := [] |} :: fr :: rest) (flat_map item_lines b)
                    = Err (TFunctionNotFound f)).
    { cbn [item_calls] in H. clear Hok Hn. revert frs H. generalize {| fr_name := n; fr_content := [] |} as f0.
      induction b as [|i b IHb]; intros f0 frs H; [discriminate|].
      inversion IH as [|? ? A1 A2]; inversion Hb as [|? ? A3 A4]; subst.
      cbn [flat_map]. rewrite foldM_app. cbn [flat_map] in H.
      destruct (find (unknown F) (item_calls i)) as [g|] eqn:E.
      - assert (g = f).
        { assert (Hg : find (unknown F) (item_calls i ++ flat_map item_calls b) = Some g).
          { clear - E. induction (item_calls i) as [|z r IHr]; [discriminate|]. cbn [app find] in *.
            destruct (unknown F z); [exact E|apply IHr; exact E]. }
          congruence. }
        subst g. rewrite (A1 A3 f frs f0 (fr :: rest) eq_refl). reflexivity.
      - assert (Hk : item_known F i).
        { assert (Hl : Forall (item_known F) [i]).
          { apply items_known. unfold calls. cbn [flat_map]. rewrite app_nil_r. exact E. }
          inversion Hl; assumption. }
        destruct (item_compiles F i A3 Hk frs f0 (fr :: rest)) as [frs' [f0' [H1 _]]].
        rewrite H1. cbn [bind]. apply IHb; [exact A2|exact A4|].
        clear - E H. induction (item_calls i) as [|z r IHr]; [exact H|]. cbn [app find] in *.
        destruct (unknown F z); [discriminate|apply IHr; assumption]. }
    rewrite Hbody. reflexivity.
Qed.

Lemma tops_unknown : forall l, Forall top_ok l -> forall f frs, find (unknown F) (calls l) = Some f ->
  foldM (compile_line F) (frs, []) (items_lines l) = Err (TFunctionNotFound f).
Proof.
  induction l as [|i l IH]; intros Hok f frs H; [discriminate|]. inversion Hok as [|? ? A1 A2]; subst.
  unfold calls in H. cbn [flat_map] in H. unfold items_lines. cbn [flat_map]. rewrite foldM_app.
  destruct (find (unknown F) (item_calls i)) as [g|] eqn:E.
  - assert (g = f).
    { assert (Hg : find (unknown F) (item_calls i ++ flat_map item_calls l) = Some g).
      { clear - E. induction (item_calls i) as [|z r IHr]; [discriminate|]. cbn [app find] in *.
        destruct (unknown F z); [exact E|apply IHr; exact E]. }
      congruence. }
    subst g. destruct i as [|li|n b]; [discriminate|destruct A1; contradiction|].
    destruct A1 as [A1 _]. inversion A1 as [| |? ? Hn Hb]; subst.
    cbn [item_lines]. rewrite foldM_app. cbn [foldM]. rewrite (push_line F frs [] n Hn). cbn [bind].
    rewrite foldM_app. cbn [item_calls] in E.
    assert (Hbody : forall b, Forall item_ok b -> forall f0 frs, find (unknown F) (flat_map item_calls b) = Some f ->
      foldM (compile_line F) (frs, [f0]) (flat_map item_lines b) = Err (TFunctionNotFound f)).
    { clear. induction b as [|i b IHb]; intros Hb f0 frs H; [discriminate|]. inversion Hb as [|? ? A3 A4]; subst.
      cbn [flat_map] in *. rewrite foldM_app.
      destruct (find (unknown F) (item_calls i)) as [g|] eqn:E.
      - assert (g = f).
        { assert (Hg : find (unknown F) (item_calls i ++ flat_map item_calls b) = Some g).
          { clear - E. induction (item_calls i) as [|z r IHr]; [discriminate|]. cbn [app find] in *.
            destruct (unknown F z); [exact E|apply IHr; exact E]. }
          congruence. }
        subst g. rewrite (item_unknown i A3 f frs f0 [] E). reflexivity.
      - assert (Hk : item_known F i).
        { assert (Hl : Forall (item_known F) [i]).
          { apply items_known. unfold calls. cbn [flat_map]. rewrite app_nil_r. exact E. }
          inversion Hl; assumption. }
        destruct (item_compiles F i A3 Hk frs f0 []) as [frs' [f0' [H1 _]]].
        rewrite H1. cbn [bind]. apply IHb; [exact A4|].
        clear - E H. induction (item_calls i) as [|z r IHr]; [exact H|]. cbn [app find] in *.
        destruct (unknown F z); [discriminate|apply IHr; assumption]. }
    rewrite (Hbody b Hb _ frs E). reflexivity.
  - assert (Hk : item_known F i).
    { assert (Hl : Forall (item_known F) [i]).
      { apply items_known. unfold calls. cbn [flat_map]. rewrite app_nil_r. exact E. }
      inversion Hl; assumption. }
    destruct (top_compiles F i A1 Hk frs) as [frs' [H1 _]]. rewrite H1. cbn [bind].
    apply IH; [exact A2|]. unfold calls.
    clear - E H. induction (item_calls i) as [|z r IHr]; [exact H|]. cbn [app find] in *.
    destruct (unknown F z); [discriminate|apply IHr; assumption].
Qed.

Theorem unknown_function : forall l f, Forall top_ok l -> find (unknown F) (calls l) = Some f ->
  compile_with_function_map F (template_text l) = Err (TFunctionNotFound f).
Proof.
  intros l f Hok H. rewrite compile_text. unfold template_text. rewrite lines_concat.
  - pose proof (tops_unknown l Hok f [] H) as Hu. unfold smap in *. rewrite Hu. reflexivity.
  - destruct l as [|i l]; [discriminate|]. unfold items_lines. cbn [flat_map]. destruct i; discriminate.
  - apply items_one_line, tops_items, Hok.
Qed.

(** ** Directives and lines outside fragments *)

Lemma top_then : forall l s more e, Forall top_ok l -> Forall (item_known F) l -> Forall one_line (s :: more) ->
  (forall frs, compile_line F (frs, []) s = Err e) ->
  compile_with_function_map F (String.concat lf (items_lines l ++ s :: more)) = Err e.
Proof.
  intros l s more e Hok Hk Hl He. rewrite compile_text, lines_concat.
  - rewrite foldM_app. destruct (tops_compile F l Hok Hk []) as [frs [H1 _]].
    unfold smap in *. rewrite H1. cbn [bind foldM]. rewrite He. reflexivity.
  - intros H. apply app_eq_nil in H. destruct H; discriminate.
  - apply Forall_app. split; [apply items_one_line, tops_items, Hok|exact Hl].
Qed.

Theorem unmatched_pop : forall l r more, Forall top_ok l -> Forall (item_known F) l ->
  one_line r -> Forall one_line more ->
  compile_with_function_map F (String.concat lf (items_lines l ++ ("#fragment pop" ++ r)%string :: more)) = Err TInvalidPop.
Proof.
  intros l r more Hok Hk Hr Hm. apply top_then; try assumption.
  - constructor; [|exact Hm]. apply absent_app. split; [|exact Hr].
    repeat (apply absent_cons; split; [discriminate|]). apply absent_nil.
  - intros frs. unfold compile_line.
    assert (Hs : exists r', strip_cr ("#fragment pop" ++ r) = "#fragment pop" ++ r').
    { destruct r as [|c r]; [exists ""; reflexivity|]. exists (strip_cr (String c r)). apply strip_cr_app. discriminate. }
    destruct Hs as [r' ->]. change ("#fragment pop" ++ r) with (String "#" ("fragment pop" ++ r)).
    replace (starts_with push_directive ("#fragment pop" ++ r')) with false.
    + replace (starts_with pop_directive ("#fragment pop" ++ r')) with true; [reflexivity|].
      symmetry. apply prefix_correct. apply (substring_0 pop_directive r').
    + symmetry. unfold starts_with, push_directive. cbn [append prefix]. reflexivity.
Qed.

Theorem line_outside : forall l s more, Forall top_ok l -> Forall (item_known F) l ->
  s <> "" -> one_line s -> no_final_cr s -> not_directive s -> Forall one_line more ->
  compile_with_function_map F (String.concat lf (items_lines l ++ s :: more)) = Err TNoFragment.
Proof.
  intros l s more Hok Hk Hne Hs Hcr [Hd1 Hd2] Hm. apply top_then; try assumption.
  - constructor; assumption.
  - intros frs. unfold compile_line. rewrite (strip_cr_id s Hcr). unfold starts_with, push_directive, pop_directive.
    rewrite Hd1, Hd2. destruct s; [congruence|reflexivity].
Qed.

(** ** Compiling never panics, whatever the data *)

Lemma pop_no_panic : forall D t, pop D t <> Panic.
Proof.
  intros D t. unfold pop. destruct (Nat.ltb _ _); [|discriminate]. destruct (from_utf8 _); discriminate.
Qed.
Lemma pop_end : forall D t o t', pop D t = Ok (o, t') -> tk_end t' = tk_end t.
Proof.
  intros D t o t'. unfold pop. destruct (Nat.ltb _ _); [destruct (from_utf8 _)|]; intros H; inversion H; reflexivity.
Qed.
Lemma parse_no_panic : forall s, parse_variable F s <> Panic.
Proof.
  intros s. unfold parse_variable. destruct (split_colon s) as [[a b]|]; [|discriminate].
  destruct (sget b F); discriminate.
Qed.
Lemma step_no_panic : forall D c t, scan_step F D c t <> Panic.
Proof.
  intros D c t. unfold scan_step. destruct (is_char "{" (cur D t)).
  - set (t1 := if is_char "{" (next D t) then inc t else t). destruct (pop D t1) as [[o t']| |] eqn:E; try discriminate.
    exfalso. apply (pop_no_panic D t1 E).
  - destruct (is_char "}" (cur D t)); [|discriminate]. destruct (is_char "}" (next D t)).
    + destruct (pop D (inc t)) as [[o t']| |] eqn:E; try discriminate. exfalso. apply (pop_no_panic _ _ E).
    + destruct (pop D t) as [[[v|] t']| |] eqn:E; try discriminate.
      * cbn [bind]. destruct (parse_variable F v) eqn:E2; try discriminate. exfalso. apply (parse_no_panic _ E2).
      * exfalso. apply (pop_no_panic _ _ E).
Qed.
Lemma step_advances : forall D c t c' t', scan_step F D c t = Ok (c', t') -> (tk_end t < tk_end t')%nat.
Proof.
  intros D c t c' t'. unfold scan_step. destruct (is_char "{" (cur D t)).
  - destruct (is_char "{" (next D t)).
    + destruct (pop D (inc t)) as [[o u]| |] eqn:E; intros H; inversion H; subst. apply pop_end in E. cbn in *. lia.
    + destruct (pop D t) as [[o u]| |] eqn:E; intros H; inversion H; subst. apply pop_end in E. cbn in *. lia.
  - destruct (is_char "}" (cur D t)).
    + destruct (is_char "}" (next D t)).
      * destruct (pop D (inc t)) as [[o u]| |] eqn:E; intros H; inversion H; subst. apply pop_end in E. cbn in *. lia.
      * destruct (pop D t) as [[[v|] u]| |] eqn:E; intros H; cbn [bind] in H; try discriminate.
        -- destruct (parse_variable F v); inversion H; subst. apply pop_end in E. cbn in *. lia.
        -- inversion H; subst. apply pop_end in E. cbn in *. lia.
    + intros H. inversion H; subst. cbn. lia.
Qed.
Lemma loop_no_panic : forall D fuel c t, (String.length D - tk_end t <= fuel)%nat -> scan_loop fuel F D c t <> Panic.
Proof.
  intros D fuel. induction fuel as [|k IH]; intros c t H; cbn [scan_loop]; unfold has_next.
  - destruct (Nat.ltb_spec (tk_end t) (String.length D)); [lia|discriminate].
  - destruct (Nat.ltb_spec (tk_end t) (String.length D)); [|discriminate].
    destruct (scan_step F D c t) as [[c' t']| |] eqn:E; cbn [bind]; [|discriminate|].
    + apply step_advances in E. apply IH. lia.
    + exfalso. apply (step_no_panic _ _ _ E).
Qed.
Lemma scan_no_panic : forall D c, scan_line F D c <> Panic.
Proof.
  intros D c. unfold scan_line.
  destruct (scan_loop (String.length D) F D c token_new) as [[c' t]| |] eqn:E; cbn [bind]; [|discriminate|].
  - destruct (pop D t) as [[o t']| |] eqn:E2; cbn [bind]; try discriminate. exfalso. apply (pop_no_panic _ _ E2).
  - exfalso. apply (loop_no_panic D (String.length D) c token_new); [cbn; lia|exact E].
Qed.
Lemma line_no_panic : forall st s, compile_line F st s <> Panic.
Proof.
  intros [frs stack] s. unfold compile_line. destruct s as [|a s]; [discriminate|].
  destruct (starts_with _ _).
  - destruct (from_utf8 _); discriminate.
  - destruct (starts_with _ _); [destruct stack; discriminate|].
    destruct stack as [|f rest]; [discriminate|].
    destruct (scan_line F (strip_cr (String a s)) (fr_content f)) eqn:E; cbn [bind]; try discriminate.
    exfalso. apply (scan_no_panic _ _ E).
Qed.
Theorem compile_no_panic : forall s, compile_with_function_map F s <> Panic.
Proof.
  intros s. rewrite compile_text.
  assert (H : forall l st, foldM (compile_line F) st l <> Panic).
  { induction l as [|x l IH]; intros st; cbn [foldM]; [discriminate|].
    destruct (compile_line F st x) eqn:E; cbn [bind]; [apply IH|discriminate|].
    exfalso. apply (line_no_panic _ _ E). }
  destruct (foldM (compile_line F) ([], []) (lines_of s)) as [[frs st]| |] eqn:E; cbn [bind]; try discriminate.
  exfalso. apply (H _ _ E).
Qed.

(** ** Functions of a compiled template come from the map *)

Definition from_map (c : component) : Prop :=
  match c with CVariable _ (Some g) => exists n, sget n F = Some g | _ => True end.
Lemma parse_from_map : forall s c, parse_variable F s = Ok c -> from_map c.
Proof.
  intros s c. unfold parse_variable. destruct (split_colon s) as [[a b]|].
  - destruct (sget b F) as [g|] eqn:E; intros H; inversion H; subst. exists b. exact E.
  - intros H. inversion H. exact I.
Qed.
Lemma push_from_map : forall c o, Forall from_map c -> Forall from_map (push_constant c o).
Proof. intros c [s|] H; [|exact H]. apply Forall_app. split; [exact H|]. repeat constructor. Qed.
Lemma step_from_map : forall D c t c' t', scan_step F D c t = Ok (c', t') -> Forall from_map c -> Forall from_map c'.
Proof.
  intros D c t c' t' H Hc. unfold scan_step in H. destruct (is_char "{" (cur D t)).
  - set (t1 := if is_char "{" (next D t) then inc t else t) in H.
    destruct (pop D t1) as [[o u]| |]; inversion H; subst. apply push_from_map, Hc.
  - destruct (is_char "}" (cur D t)); [|inversion H; subst; exact Hc].
    destruct (is_char "}" (next D t)).
    + destruct (pop D (inc t)) as [[o u]| |]; inversion H; subst. apply push_from_map, Hc.
    + destruct (pop D t) as [[[v|] u]| |]; cbn [bind] in H; try discriminate.
      * destruct (parse_variable F v) eqn:E; inversion H; subst. apply Forall_app. split; [exact Hc|].
        constructor; [|constructor]. apply (parse_from_map v). exact E.
      * inversion H; subst. exact Hc.
Qed.
Lemma loop_from_map : forall D fuel c t c' t', scan_loop fuel F D c t = Ok (c', t') -> Forall from_map c -> Forall from_map c'.
Proof.
  intros D fuel. induction fuel as [|k IH]; intros c t c' t' H Hc; cbn [scan_loop] in H; destruct (has_next D t);
    try (inversion H; subst; exact Hc); try discriminate.
  destruct (scan_step F D c t) as [[c1 t1]| |] eqn:E; cbn [bind] in H; try discriminate.
  apply (IH _ _ _ _ H). apply (step_from_map _ _ _ _ _ E Hc).
Qed.
Definition frs_from_map (frs : smap fragment) : Prop := forall k f, sget k frs = Some f -> Forall from_map (fr_content f).
Definition st_from_map (st : cstate) : Prop :=
  frs_from_map (fst st) /\ Forall (fun f => Forall from_map (fr_content f)) (snd st).
Lemma line_from_map : forall st s st', compile_line F st s = Ok st' -> st_from_map st -> st_from_map st'.
Proof.
  intros [frs stack] s st' H [H1 H2]. unfold compile_line in H. destruct s as [|a s]; [inversion H; subst; split; assumption|].
  destruct (starts_with _ _).
  - destruct (from_utf8 _); inversion H; subst. split; [exact H1|]. constructor; [constructor|exact H2].
  - destruct (starts_with _ _).
    + destruct stack as [|f rest]; inversion H; subst. inversion H2 as [|? ? A1 A2]; subst. split; [|exact A2].
      intros k g Hg. unfold sinsert in Hg. cbn [fst sget] in Hg. destruct (String.eqb k _); [injection Hg as <-; exact A1|].
      apply (H1 _ _ Hg).
    + destruct stack as [|f rest]; [discriminate|]. inversion H2 as [|? ? A1 A2]; subst.
      destruct (scan_line F (strip_cr (String a s)) (fr_content f)) as [c| |] eqn:E; inversion H; subst.
      split; [exact H1|]. constructor; [|exact A2]. cbn [fr_content].
      unfold scan_line in E. destruct (scan_loop _ F _ (fr_content f) token_new) as [[c1 t1]| |] eqn:E1; cbn [bind] in E; try discriminate.
      destruct (pop _ t1) as [[o t2]| |]; cbn [bind] in E; inversion E; subst.
      apply Forall_app. split; [apply push_from_map, (loop_from_map _ _ _ _ _ _ E1 A1)|repeat constructor].
Qed.
Lemma compiled_from_map : forall s t, compile_with_function_map F s = Ok t -> frs_from_map (t_fragments t).
Proof.
  intros s t. rewrite compile_text.
  assert (H : forall l st st', foldM (compile_line F) st l = Ok st' -> st_from_map st -> st_from_map st').
  { induction l as [|x l IH]; intros st st' H Hst; cbn [foldM] in H; [inversion H; subst; exact Hst|].
    destruct (compile_line F st x) as [st1| |] eqn:E; cbn [bind] in H; try discriminate.
    apply (IH _ _ H). apply (line_from_map _ _ _ E Hst). }
  destruct (foldM (compile_line F) ([], []) (lines_of s)) as [[frs st]| |] eqn:E; cbn [bind]; intros Ht; inversion Ht; subst.
  apply H in E; [exact (proj1 E)|]. split; [intros k f Hk; discriminate|constructor].
Qed.
End Unknown.

(** ** Rendering does not panic on ASCII values *)

Lemma cont_ge : forall x, is_cont x = true -> (128 <= x)%N.
Proof. intros x H. apply range_iff in H. lia. Qed.
Lemma capitalize_ascii : forall v, ascii_only v -> capitalize v <> Panic.
Proof.
  intros v H. unfold capitalize. destruct v as [|c r]; [discriminate|].
  destruct (in_range 65 90 (N_of_ascii c)); [discriminate|]. destruct r as [|d r]; [discriminate|].
  destruct (is_cont (N_of_ascii d)) eqn:E; [|discriminate]. exfalso. apply cont_ge in E.
  assert (N_of_ascii d < 128)%N by (apply H; cbn; tauto). lia.
Qed.
Lemma default_no_panic : forall u n g v, sget n (default_functions u) = Some g -> ascii_only v -> g v <> Panic.
Proof.
  intros u n g v H Hv. unfold default_functions, sinsert in H. cbn [sget] in H.
  destruct (String.eqb n "capitalize"); [injection H as <-; apply capitalize_ascii, Hv|].
  destruct (String.eqb n "lower"); [injection H as <-; discriminate|].
  destruct (String.eqb n "upper"); [injection H as <-; discriminate|discriminate].
Qed.
Lemma seq_no_panic : forall l, Forall (fun x : tres string => x <> Panic) l -> in_sequence l <> Panic.
Proof.
  induction l as [|x l IH]; intros H; [discriminate|]. inversion H as [|? ? A1 A2]; subst. specialize (IH A2).
  cbn [in_sequence]. destruct x as [a| |], (in_sequence l); cbn; congruence.
Qed.
Theorem render_no_panic : forall u s t vars path names,
  compile u s = Ok t -> (forall k v, sget k vars = Some v -> ascii_only v) ->
  render_internal (t_fragments t) vars path names <> Panic.
Proof.
  intros u s t vars path names Hc Hv. unfold render_internal. rewrite concatM_seq. apply seq_no_panic.
  apply Forall_forall. intros x Hx. apply in_map_iff in Hx. destruct Hx as [n [<- _]].
  destruct (sget (full_name path n) (t_fragments t)) as [f|] eqn:E; [|discriminate]. cbn [ok_or bind].
  rewrite concatM_seq. apply seq_no_panic. apply Forall_forall. intros y Hy. apply in_map_iff in Hy.
  destruct Hy as [c [<- Hin]]. pose proof (compiled_from_map _ _ _ Hc _ _ E) as Hf.
  rewrite Forall_forall in Hf. specialize (Hf _ Hin). destruct c as [k|k g|]; [discriminate| |discriminate].
  cbn [render_component]. destruct (sget k vars) as [v|] eqn:Ek; [|discriminate]. cbn [ok_or bind].
  destruct g as [g|]; [|discriminate]. destruct Hf as [m Hm]. apply (default_no_panic u m g v Hm). apply (Hv k v Ek).
Qed.

(** ** Literal text *)

Fixpoint pieces_of (s : string) : list piece :=
  match s with
  | EmptyString => []
  | String c r =>
      if Ascii.eqb c "{" then POpen :: pieces_of r
      else if Ascii.eqb c "}" then PClose :: pieces_of r
      else match pieces_of r with
           | PText t :: l => PText (String c t) :: l
           | l => PText (String c "") :: l
           end
  end.
Lemma pieces_text : forall s, line_text (pieces_of s) = doubled s.
Proof.
  induction s as [|c s IH]; [reflexivity|]. cbn [pieces_of doubled].
  destruct (Ascii.eqb_spec c "{") as [->|N1].
  - cbn [orb]. rewrite line_text_cons, IH. reflexivity.
  - destruct (Ascii.eqb_spec c "}") as [->|N2].
    + cbn [orb]. rewrite line_text_cons, IH. reflexivity.
    + cbn [orb]. rewrite <- IH. destruct (pieces_of s) as [|[t| | |n|n f] l]; rewrite ?line_text_cons; reflexivity.
Qed.
Lemma pieces_meaning : forall F vars s, in_sequence (map (piece_meaning F vars) (pieces_of s)) = Ok s.
Proof.
  intros F vars. induction s as [|c s IH]; [reflexivity|]. cbn [pieces_of].
  destruct (Ascii.eqb_spec c "{") as [->|N1].
  - cbn [map in_sequence piece_meaning]. rewrite IH. reflexivity.
  - destruct (Ascii.eqb_spec c "}") as [->|N2].
    + cbn [map in_sequence piece_meaning]. rewrite IH. reflexivity.
    + assert (H1 : in_sequence (map (piece_meaning F vars) (PText (String c "") :: pieces_of s)) = Ok (String c s)).
      { cbn [map in_sequence piece_meaning]. rewrite IH. reflexivity. }
      destruct (pieces_of s) as [|[t| | |n|n f] l]; try exact H1.
      cbn [map in_sequence piece_meaning] in *. destruct (in_sequence (map (piece_meaning F vars) l)) as [x| |];
        cbn in IH; try discriminate. injection IH as <-. reflexivity.
Qed.
Lemma pieces_novar : forall s, Forall (fun p => ~ is_variable p) (pieces_of s).
Proof.
  induction s as [|c s IH]; [constructor|]. cbn [pieces_of].
  destruct (Ascii.eqb c "{"); [constructor; [tauto|exact IH]|]. destruct (Ascii.eqb c "}"); [constructor; [tauto|exact IH]|].
  destruct (pieces_of s) as [|[t| | |n|n f] l]; try (constructor; [tauto|exact IH]).
  inversion IH; subst. constructor; [tauto|assumption].
Qed.
Lemma novar_separated : forall l, Forall (fun p => ~ is_variable p) l -> separated l.
Proof. induction l as [|p l IH]; intros H; [exact I|]. inversion H; subst. split; [tauto|apply IH; assumption]. Qed.

Lemma char_high : forall c, (128 <= c)%N -> Forall (fun x => (128 <= x)%N) (utf8_char c).
Proof.
  intros c H. unfold utf8_char.
  destruct (N.ltb_spec c 0x80) as [E|E]; [lia|].
  destruct (N.ltb_spec c 0x800); [|destruct (N.ltb_spec c 0x10000)]; repeat constructor; apply N.le_trans with (m := 0x80%N); try lia.
  all: try (apply N.le_trans with (m := 0xC0%N); [lia|apply N.le_add_r]).
  all: apply N.le_add_r.
Qed.
Lemma utf8_split : forall c b a, (c < 128)%N -> is_utf8 (a ++ c :: b)%list -> is_utf8 a /\ is_utf8 b.
Proof.
  intros c b a Hc [cs [Hcs E]]. revert a E. induction cs as [|v cs IH]; intros a E.
  - destruct a; discriminate.
  - inversion Hcs as [|? ? Hv Hr]; subst. specialize (IH Hr). unfold utf8_encode in E. cbn [flat_map] in E.
    destruct (N.ltb_spec v 128) as [L|L].
    + assert (Ev : utf8_char v = [v]). { unfold utf8_char. destruct (N.ltb_spec v 0x80); [reflexivity|lia]. }
      rewrite Ev in E. cbn [app] in E. destruct a as [|x a].
      * cbn in E. injection E as -> ->. split; [exists []; split; [constructor|reflexivity]|]. exists cs. split; [assumption|reflexivity].
      * cbn in E. injection E as -> E. destruct (IH a E) as [H1 H2]. split; [|exact H2].
        change (v :: a) with ([v] ++ a)%list. rewrite <- Ev. apply is_utf8_cons; assumption.
    + pose proof (char_high v L) as Hh.
      assert (Hpre : exists a', a = (utf8_char v ++ a')%list /\ (a' ++ c :: b)%list = flat_map utf8_char cs).
      { clear IH Hcs Hv Hr. revert a E Hh. induction (utf8_char v) as [|x w IHw]; intros a E Hh.
        - exists a. split; [reflexivity|exact E].
        - inversion Hh as [|? ? Hx Hw]; subst. destruct a as [|y a].
          + cbn in E. injection E as -> _. lia.
          + cbn in E. injection E as -> E. destruct (IHw a E Hw) as [a' [-> H2]]. exists a'. split; [reflexivity|exact H2]. }
      destruct Hpre as [a' [-> E2]]. destruct (IH a' E2) as [H1 H2]. split; [|exact H2]. apply is_utf8_cons; assumption.
Qed.
Definition piece_utf8 (p : piece) : Prop := match p with PText s => utf8 s | _ => True end.
Lemma pieces_utf8 : forall s pre, utf8 (pre ++ s) ->
  match pieces_of s with
  | PText t :: l => utf8 (pre ++ t) /\ Forall piece_utf8 l
  | l => utf8 pre /\ Forall piece_utf8 l
  end.
Proof.
  induction s as [|c s IH]; intros pre H.
  - cbn. rewrite sapp_nil in H. split; [exact H|constructor].
  - assert (Hbr : (N_of_ascii c < 128)%N -> utf8 pre /\ utf8 s).
    { intros Hc. unfold utf8 in *. rewrite bytes_app in H. cbn in H. apply (utf8_split _ _ _ Hc H). }
    assert (Hall : utf8 s -> Forall piece_utf8 (pieces_of s)).
    { intros Hs. specialize (IH "" Hs). destruct (pieces_of s) as [|[t| | |n|n f] l]; try apply IH.
      destruct IH as [I1 I2]. constructor; assumption. }
    cbn [pieces_of]. destruct (Ascii.eqb_spec c "{") as [->|N1].
    + destruct Hbr as [B1 B2]; [reflexivity|]. split; [exact B1|]. constructor; [exact I|apply Hall, B2].
    + destruct (Ascii.eqb_spec c "}") as [->|N2].
      * destruct Hbr as [B1 B2]; [reflexivity|]. split; [exact B1|]. constructor; [exact I|apply Hall, B2].
      * assert (E : pre ++ String c s = (pre ++ String c "") ++ s) by (rewrite sapp_assoc; reflexivity).
        rewrite E in H. specialize (IH _ H). destruct (pieces_of s) as [|[t| | |n|n f] l]; try exact IH.
        rewrite sapp_assoc in IH. exact IH.
Qed.
Lemma pieces_ok : forall s, one_line s -> utf8 s -> Forall piece_ok (pieces_of s).
Proof.
  intros s Hl Hu.
  assert (Hq : Forall piece_utf8 (pieces_of s)).
  { pose proof (pieces_utf8 s "" Hu) as H. destruct (pieces_of s) as [|[t| | |n|n f] l]; try apply H.
    destruct H. constructor; assumption. }
  assert (Hs : Forall (fun p => match p with PText t => t <> "" /\ no_braces t /\ one_line t | PVar _ | PCall _ _ => False | _ => True end) (pieces_of s)).
  { clear Hq Hu. induction s as [|c s IH]; [constructor|]. apply absent_cons in Hl. destruct Hl as [Hc Hl]. specialize (IH Hl).
    cbn [pieces_of]. destruct (Ascii.eqb_spec c "{") as [->|N1]; [constructor; [exact I|exact IH]|].
    destruct (Ascii.eqb_spec c "}") as [->|N2]; [constructor; [exact I|exact IH]|].
    assert (H1 : String c "" <> "" /\ no_braces (String c "") /\ one_line (String c "")).
    { split; [discriminate|]. split; [split|]; apply absent_cons; (split; [assumption|apply absent_nil]). }
    destruct (pieces_of s) as [|[t| | |n|n f] l]; try (constructor; [exact H1|exact IH]).
    inversion IH as [|? ? A0 A5]; subst. destruct A0 as [A1 [[A2 A3] A4]]. constructor; [|exact A5].
    split; [discriminate|]. split; [split|]; apply absent_cons; (split; assumption). }
  induction (pieces_of s) as [|p l IH]; [constructor|]. inversion Hq; inversion Hs; subst. constructor; [|apply IH; assumption].
  destruct p; try exact I; try contradiction. cbn in *. tauto.
Qed.
Lemma pieces_known_F : forall F s, Forall (piece_known F) (pieces_of s).
Proof.
  intros F s. eapply Forall_impl; [|apply pieces_novar]. intros [t| | |n|n f] H; try exact I. destruct H. exact I.
Qed.

Lemma doubled_prefix : forall p s, no_braces p -> String.prefix p (doubled s) = String.prefix p s.
Proof.
  induction p as [|c p IH]; intros s [H1 H2]; [destruct s; [reflexivity|]; cbn; destruct (_ || _); reflexivity|].
  apply absent_cons in H1. apply absent_cons in H2. destruct H1 as [N1 H1], H2 as [N2 H2].
  destruct s as [|d s]; [reflexivity|]. cbn [doubled].
  destruct (Ascii.eqb_spec d "{") as [->|M1].
  - cbn [orb prefix]. destruct (ascii_dec c "{"); [congruence|reflexivity].
  - destruct (Ascii.eqb_spec d "}") as [->|M2].
    + cbn [orb prefix]. destruct (ascii_dec c "}"); [congruence|reflexivity].
    + cbn [orb prefix]. destruct (ascii_dec c d); [apply IH; split; assumption|reflexivity].
Qed.
Lemma doubled_cr : forall s, no_final_cr s -> no_final_cr (doubled s).
Proof.
  induction s as [|c s IH]; intros H r E; [apply (H r E)|].
  assert (Hs : s <> "" -> no_final_cr s).
  { intros _ r' E'. apply (H (String c r')). rewrite E'. reflexivity. }
  cbn [doubled] in E.
  destruct s as [|d s].
  - cbn [doubled] in E. destruct (Ascii.eqb_spec c "{") as [->|M1]; [|destruct (Ascii.eqb_spec c "}") as [->|M2]]; cbn [orb] in E.
    + destruct r as [|x [|y r]]; cbn in E; try discriminate. injection E as _ _ E. destruct r; discriminate.
    + destruct r as [|x [|y r]]; cbn in E; try discriminate. injection E as _ _ E. destruct r; discriminate.
    + apply (H r E).
  - assert (Hne : doubled (String d s) <> "").
    { cbn [doubled]. destruct (Ascii.eqb d "{" || Ascii.eqb d "}"); intros X; inversion X. }
    assert (Hd : no_final_cr (doubled (String d s))) by (apply IH, Hs; discriminate).
    destruct (Ascii.eqb c "{" || Ascii.eqb c "}").
    + destruct r as [|x [|y r]]; cbn [append] in E; try discriminate.
      * injection E as _ _ E. exact (Hne E).
      * injection E as _ _ E. apply (Hd r E).
    + destruct r as [|x r]; cbn [append] in E.
      * injection E as _ E. exact (Hne E).
      * injection E as _ E. apply (Hd r E).
Qed.
Definition literal (s : string) : list item := [IFragment "text" [ILine (pieces_of s)]].
Theorem literal_line : forall u s, s <> "" -> one_line s -> utf8 s -> no_final_cr s -> not_directive s ->
  exists t, compile u (String.concat lf ["#fragment push text"; doubled s; "#fragment pop"]) = Ok t /\
    forall vars, render_internal (t_fragments t) vars "" ["text"] = Ok (s ++ lf).
Proof.
  intros u s Hne Hl Hu Hcr Hd.
  destruct (template_meaning (default_functions u) (literal s)) as [t [H1 [_ H2]]].
  - constructor; [|constructor]. split; [|exact I]. constructor.
    + split; [|split].
      * repeat (apply absent_cons; split; [discriminate|]). apply absent_nil.
      * apply utf8_of_b. reflexivity.
      * intros r E. assert (L : String.length r = 3%nat).
        { assert (String.length "text" = String.length (r ++ String carriage_return "")) by (rewrite E; reflexivity).
          rewrite slen_app in H. cbn in H. lia. }
        destruct r as [|a [|b [|c [|d r]]]]; cbn in L; try lia. cbn in E. discriminate.
    + constructor; [|constructor]. constructor. split; [|split; [|split; [|split]]].
      * destruct s as [|c s]; [congruence|]. cbn [pieces_of]. destruct (Ascii.eqb c "{"); [discriminate|].
        destruct (Ascii.eqb c "}"); [discriminate|]. destruct (pieces_of s) as [|[t| | |n|n f] l]; discriminate.
      * apply pieces_ok; assumption.
      * apply novar_separated, pieces_novar.
      * rewrite pieces_text. destruct Hd as [Hd1 Hd2]. split; rewrite doubled_prefix; try assumption;
          (split; repeat (apply absent_cons; split; [discriminate|]); apply absent_nil).
      * rewrite pieces_text. apply doubled_cr, Hcr.
  - constructor; [|constructor]. constructor. constructor; [|constructor]. constructor. apply pieces_known_F.
  - exists t. split.
    + unfold compile. rewrite <- H1. unfold template_text, items_lines, literal.
      cbn [flat_map item_lines app]. rewrite pieces_text. reflexivity.
    + intros vars. rewrite H2. unfold render_meaning, fragment_meaning. cbn [map in_sequence].
      change (last_named (qualified "" "text") (all_closed (literal s))) with (Some [pieces_of s]).
      unfold lines_meaning. cbn [map in_sequence]. unfold line_meaning. rewrite pieces_meaning.
      rewrite !fb_nil_r. reflexivity.
Qed.

(** ** Scopes *)

Definition touches_template (o : op) : bool := match o with OTemplateVar _ _ => true | _ => false end.
Lemma template_only : forall l t ss,
  fst (op_run (t, ss) l) = fst (op_run (t, []) (filter touches_template l)).
Proof.
  unfold op_run. intros l. induction l as [|o l IH]; intros t ss; [reflexivity|].
  assert (Hf : forall st, fold_left op_step l st = fold_left op_step l (fst st, snd st)) by (intros [? ?]; reflexivity).
  destruct o as [k v| |i|i k v|i p ns k]; cbn [filter touches_template fold_left op_step].
  - apply IH.
  - apply IH.
  - destruct (nth_error ss i); apply IH.
  - destruct (nth_error ss i); apply IH.
  - destruct (nth_error ss i); [|apply IH]. destruct (s_render_to_var s p ns k); apply IH.
Qed.
Lemma set_nth_other : forall {A} i j (x : A) l, i <> j -> nth_error (set_nth i x l) j = nth_error l j.
Proof.
  intros A i j x l Hij. unfold set_nth. revert i j Hij. induction l as [|y l IH]; intros i j Hij.
  - rewrite firstn_nil, skipn_nil. reflexivity.
  - destruct i as [|i], j as [|j]; try congruence; try reflexivity. cbn [firstn skipn app nth_error]. apply IH. congruence.
Qed.
Lemma set_nth_length : forall {A} i (x : A) l, length (set_nth i x l) = length l.
Proof.
  intros A i x l. unfold set_nth. rewrite app_length. revert i. induction l as [|y l IH]; intros i.
  - rewrite firstn_nil, skipn_nil. reflexivity.
  - destruct i; cbn [firstn skipn length plus]; [reflexivity|]. rewrite IH. reflexivity.
Qed.
Lemma scope_kept : forall l t ss i s, nth_error ss i = Some s -> (forall o, In o l -> ~ on_scope i o) ->
  nth_error (snd (op_run (t, ss) l)) i = Some s.
Proof.
  unfold op_run. intros l. induction l as [|o l IH]; intros t ss i s Hs Ho; [exact Hs|].
  assert (Hl : forall o, In o l -> ~ on_scope i o) by (intros o' Hin; apply Ho; right; exact Hin).
  assert (Hi : ~ on_scope i o) by (apply Ho; left; reflexivity).
  assert (Hlt : (i < length ss)%nat) by (apply nth_error_Some; congruence).
  destruct o as [k v| |j|j k v|j p ns k]; cbn [fold_left op_step].
  - apply IH; assumption.
  - apply IH; [|assumption]. rewrite nth_error_app1; assumption.
  - destruct (nth_error ss j); apply IH; try assumption. rewrite nth_error_app1; assumption.
  - destruct (nth_error ss j); apply IH; try assumption. rewrite set_nth_other; [assumption|]. cbn in Hi. congruence.
  - destruct (nth_error ss j); [|apply IH; assumption]. destruct (s_render_to_var s0 p ns k); apply IH; try assumption.
    rewrite set_nth_other; [assumption|]. cbn in Hi. congruence.
Qed.

(** The engine's state after a history is the one the specification gives. *)
Definition env_of (frs : smap fragment) (st : variables * list variables) : template * list scope :=
  ({| t_fragments := frs; t_variables := fst st |},
   map (fun v => {| sc_fragments := frs; sc_variables := v |}) (snd st)).
Lemma map_set_nth : forall {A B} (f : A -> B) i x l, map f (set_nth i x l) = set_nth i (f x) (map f l).
Proof.
  intros A B f i x l. unfold set_nth. rewrite map_app, firstn_map, skipn_map.
  destruct (skipn i l); reflexivity.
Qed.
Lemma env_sim_step : forall F l frs,
  (forall vars path names, render_internal frs vars path names = render_meaning F vars l path names) ->
  forall st o, op_step (env_of frs st) o = env_of frs (env_step F l st o).
Proof.
  intros F l frs H [t ss] o. unfold env_of. destruct o as [k v| |i|i k v|i p ns k]; cbn [op_step env_step fst snd].
  - reflexivity.
  - rewrite map_app. reflexivity.
  - rewrite nth_error_map. destruct (nth_error ss i); cbn [option_map fst snd]; [rewrite map_app|]; reflexivity.
  - rewrite nth_error_map. destruct (nth_error ss i); cbn [option_map fst snd]; [rewrite map_set_nth|]; reflexivity.
  - rewrite nth_error_map. destruct (nth_error ss i) as [v|]; cbn [option_map fst snd]; [|reflexivity].
    unfold s_render_to_var, s_render. cbn [sc_fragments sc_variables]. rewrite H.
    destruct (render_meaning F v l p ns); cbn [bind fst snd]; [|reflexivity|reflexivity].
    rewrite map_set_nth. reflexivity.
Qed.
Theorem history_meaning : forall F l t, Forall top_ok l -> Forall (item_known F) l ->
  compile_with_function_map F (template_text l) = Ok t ->
  forall ops vt vs, env_run F l ([], []) ops = (vt, vs) ->
  (forall path names, t_render (fst (op_run (t, []) ops)) path names = render_meaning F vt l path names) /\
  (forall i, match nth_error (snd (op_run (t, []) ops)) i, nth_error vs i with
             | Some s, Some v => forall path names, s_render s path names = render_meaning F v l path names
             | None, None => True
             | _, _ => False
             end).
Proof.
  intros F l t Hok Hk Hc ops vt vs Hr. destruct (template_meaning F l Hok Hk) as [t' [H1 [H2 H3]]].
  rewrite Hc in H1. injection H1 as <-.
  assert (Hs : forall ops st, fold_left op_step ops (env_of (t_fragments t) st) = env_of (t_fragments t) (fold_left (env_step F l) ops st)).
  { intros ops0. induction ops0 as [|o ops0 IH]; intros st; [reflexivity|]. cbn [fold_left].
    rewrite (env_sim_step F l (t_fragments t) H3). apply IH. }
  assert (E : (t, []) = env_of (t_fragments t) ([], [])).
  { unfold env_of. cbn. destruct t as [fr v]. cbn in *. subst v. reflexivity. }
  unfold op_run, env_run in *. rewrite E, Hs, Hr. unfold env_of. cbn [fst snd]. split.
  - intros path names. apply H3.
  - intros i. rewrite nth_error_map. destruct (nth_error vs i); cbn [option_map]; [|exact I]. intros path names. apply H3.
Qed.
Lemma template_kept : forall l t ss, (forall o, In o l -> ~ on_template o) -> fst (op_run (t, ss) l) = t.
Proof.
  intros l t ss H. rewrite template_only. replace (filter touches_template l) with (@nil op); [reflexivity|].
  induction l as [|o l IH]; [reflexivity|]. cbn [filter].
  assert (Ho : ~ on_template o) by (apply H; left; reflexivity).
  destruct o; cbn [touches_template]; try (apply IH; intros o' Hin; apply H; right; exact Hin).
  destruct Ho. exact I.
Qed.

(** ** Functions *)
Lemma capitalize_value : forall c r, ascii_only (String c r) ->
  capitalize (String c r) = Ok (String (upper_letter c) r).
Proof.
  intros c r H. rewrite <- upper_letter_eq. unfold capitalize. destruct (in_range 65 90 (N_of_ascii c)) eqn:E.
  - unfold ascii_upper. apply range_iff in E. unfold in_range.
    destruct (N.leb_spec 97 (N_of_ascii c)); [lia|]. reflexivity.
  - destruct r as [|d r]; [reflexivity|]. destruct (is_cont (N_of_ascii d)) eqn:E2; [|reflexivity].
    exfalso. apply cont_ge in E2. assert (N_of_ascii d < 128)%N by (apply H; cbn; tauto). lia.
Qed.

Lemma fragment_paths : forall F l, Forall top_ok l -> Forall (item_known F) l ->
  exists t, compile_with_function_map F (template_text l) = Ok t /\
    forall vars q,
      render_internal (t_fragments t) vars "" [q] =
      match last_named q (all_closed l) with
      | Some own => lines_meaning F vars own
      | None => Err (TFragmentNotFound q)
      end.
Proof.
  intros F l Hok Hk. destruct (template_meaning F l Hok Hk) as [t [H1 [_ H2]]]. exists t. split; [exact H1|].
  intros vars q. rewrite H2. unfold render_meaning. cbn [map in_sequence]. rewrite fb_nil_r. reflexivity.
Qed.
