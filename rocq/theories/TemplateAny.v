(** What any text means as a template: the proof for C43_exact. *)

From Coq Require Import Arith NArith Ascii String List Bool Lia ZifyBool ZifyN ZifyNat.
From Verif Require Import Base Utf8 Compiler Template SpecUtf8 SpecTemplate SpecTemplateAny Utf8Thms TemplateThms TemplateErrors TemplateExact TemplateRefute.
Import ListNotations.
Local Open Scope string_scope.

(** ** One line *)

Section Line.
Variable F : function_map.

Definition emit (p : piece) : tres component :=
  if from_utf8 (bytes_of_string (source p)) then
    match p with
    | PText s => Ok (CConstant s)
    | POpen => Ok (CConstant "{")
    | PClose => Ok (CConstant "}")
    | PVar n => Ok (CVariable n None)
    | PCall n f => match sget f F with Some g => Ok (CVariable n (Some g)) | None => Err (TFunctionNotFound f) end
    end
  else Err TInvalidUTF8.
Fixpoint emits (l : list piece) : tres (list component) :=
  match l with
  | [] => Ok []
  | p :: r => c <- emit p ;; cs <- emits r ;; Ok (c :: cs)
  end.
Lemma emits_app : forall a b, emits (a ++ b)%list = (x <- emits a ;; y <- emits b ;; Ok (x ++ y)%list).
Proof.
  induction a as [|p a IH]; intro b; cbn [app emits bind].
  - destruct (emits b); reflexivity.
  - destruct (emit p); cbn [bind]; try reflexivity. rewrite IH. destruct (emits a); cbn [bind]; try reflexivity.
    destruct (emits b); reflexivity.
Qed.

Lemma pop_any : forall D done s rest, D = done ++ s ++ rest ->
  pop D (tok (String.length done) (String.length done + String.length s)) =
  if String.eqb s "" then Ok (None, tok (String.length done + String.length s + 1) (String.length done + String.length s))
  else if from_utf8 (bytes_of_string s) then
    Ok (Some s, tok (String.length done + String.length s + 1) (String.length done + String.length s))
  else Err TInvalidUTF8.
Proof.
  intros D done s rest HD. destruct (String.eqb_spec s "") as [-> | Hne].
  - cbn [String.length]. rewrite Nat.add_0_r. apply pop_none.
  - unfold pop, tok; cbn [tk_start tk_end].
    assert (L : (0 < String.length s)%nat) by (destruct s; [congruence|cbn; lia]).
    replace (Nat.ltb (String.length done) (String.length done + String.length s)) with true
      by (symmetry; apply Nat.ltb_lt; lia).
    replace (String.length done + String.length s - String.length done)%nat with (String.length s) by lia.
    rewrite HD, substring_app. reflexivity.
Qed.
Lemma pop_text : forall A D done s rest content (K : list component -> token -> tres A), D = done ++ s ++ rest ->
  bind (pop D (tok (String.length done) (String.length done + String.length s))) (fun '(o, t) => K (push_constant content o) t) =
  bind (emits (as_text s)) (fun l => K (content ++ l)%list (tok (String.length done + String.length s + 1) (String.length done + String.length s))).
Proof.
  intros A D done s rest content K HD. rewrite (pop_any D done s rest HD). unfold as_text.
  destruct (String.eqb s "").
  - cbn [bind push_constant emits]. rewrite app_nil_r. reflexivity.
  - cbn [emits]. unfold emit; cbn [source]. destruct (from_utf8 (bytes_of_string s)); reflexivity.
Qed.

Lemma index_colon : forall s, String.index 0 ":" s = None -> split_colon s = None.
Proof.
  induction s as [|c s IH]; intro H; [reflexivity|]. cbn [split_colon].
  cbn [String.index] in H. destruct (String.prefix ":" (String c s)) eqn:E; [discriminate|].
  destruct (String.index 0 ":" s) eqn:E2; [discriminate|]. rewrite IH by reflexivity.
  destruct (Ascii.eqb_spec c ":") as [-> | Hc]; [|reflexivity]. change (String.prefix ":" (String ":" s)) with (String.prefix "" s) in E. destruct s; discriminate E.
Qed.
Lemma substring_whole : forall s, substring 0 (String.length s) s = s.
Proof. intro s. rewrite <- (sapp_nil s) at 2. apply substring_0. Qed.
Lemma split_some : forall s k, String.index 0 ":" s = Some k ->
  split_colon s = Some (substring 0 k s, substring (k + 1) (String.length s - (k + 1)) s).
Proof.
  induction s as [|c s IH]; intros k H; [discriminate|]. cbn [split_colon].
  cbn [String.index] in H. destruct (String.prefix ":" (String c s)) eqn:E.
  - injection H as <-. destruct (Ascii.eqb_spec c ":") as [-> | Hc].
    + cbn [substring String.length Nat.add]. rewrite Nat.sub_succ, Nat.sub_0_r, substring_whole. reflexivity.
    + exfalso. cbn [String.prefix] in E. destruct (ascii_dec ":" c); [congruence|discriminate E].
  - destruct (String.index 0 ":" s) as [j|] eqn:E2; [|discriminate]. injection H as <-. rewrite (IH j eq_refl).
    destruct (Ascii.eqb_spec c ":") as [-> | Hc]; [change (String.prefix ":" (String ":" s)) with (String.prefix "" s) in E; destruct s; discriminate E|].
    cbn [substring String.length Nat.add]. rewrite Nat.sub_succ. reflexivity.
Qed.
Lemma split_source : forall s a b, split_colon s = Some (a, b) -> s = a ++ ":" ++ b.
Proof.
  induction s as [|c s IH]; intros a b H; [discriminate|]. cbn [split_colon] in H.
  destruct (Ascii.eqb_spec c ":") as [-> | Hc].
  - injection H as <- <-. reflexivity.
  - destruct (split_colon s) as [[x y]|] eqn:E; [|discriminate]. injection H as <- <-. rewrite (IH x y eq_refl). reflexivity.
Qed.

Lemma pop_variable : forall A D done s rest content (K : list component -> token -> tres A), D = done ++ s ++ rest ->
  bind (pop D (tok (String.length done) (String.length done + String.length s)))
    (fun '(o, t) => match o with Some v => c <- parse_variable F v ;; K (content ++ [c])%list t | None => K content t end) =
  bind (emits (as_variable s)) (fun l => K (content ++ l)%list (tok (String.length done + String.length s + 1) (String.length done + String.length s))).
Proof.
  intros A D done s rest content K HD. rewrite (pop_any D done s rest HD). unfold as_variable.
  destruct (String.eqb s "").
  - cbn [bind emits]. rewrite app_nil_r. reflexivity.
  - destruct (String.index 0 ":" s) as [k|] eqn:E.
    + pose proof (split_some s k E) as Hs. pose proof (split_source _ _ _ Hs) as Hsrc. cbn [emits]. unfold emit; cbn [source].
      rewrite <- Hsrc. destruct (from_utf8 (bytes_of_string s)); [|reflexivity]. cbn [bind]. unfold parse_variable. rewrite Hs.
      destruct (sget _ F); reflexivity.
    + cbn [emits]. unfold emit; cbn [source]. destruct (from_utf8 (bytes_of_string s)); [|reflexivity].
      cbn [bind]. unfold parse_variable. rewrite (index_colon s E). reflexivity.
Qed.

Lemma bind_ext : forall E A B (x : outcome E A) (f g : A -> outcome E B), (forall a, f a = g a) -> bind x f = bind x g.
Proof. intros E A B [a|e|] f g H; cbn; auto. Qed.
Lemma bind_assoc : forall E A B C (x : outcome E A) (f : A -> outcome E B) (g : B -> outcome E C),
  bind (bind x f) g = bind x (fun a => bind (f a) g).
Proof. intros E A B C [a|e|] f g; reflexivity. Qed.

Definition finish (D : string) (r : tres (list component * token)) : tres (list component) :=
  bind r (fun '(content, t) => bind (pop D t) (fun '(o, _) => Ok (push_constant content o))).

Lemma scan_any : forall n s done acc content fuel D, (String.length s <= n)%nat -> (String.length s <= fuel)%nat ->
  D = done ++ acc ++ s ->
  finish D (scan_loop fuel F D content (tok (String.length done) (String.length done + String.length acc))) =
  bind (emits (pieces acc s)) (fun l => Ok (content ++ l)%list).
Proof.
  induction n as [|n IH]; intros s done acc content fuel D Hn Hf HD.
  all: assert (Hl : String.length (done ++ acc) = (String.length done + String.length acc)%nat) by apply slen_app.
  all: assert (HD2 : D = (done ++ acc) ++ s) by (rewrite HD, sapp_assoc; reflexivity).
  all: assert (HDl : String.length D = (String.length done + String.length acc + String.length s)%nat) by (rewrite HD2, slen_app, Hl; reflexivity).
  all: destruct s as [|c r]; [|try (cbn [String.length] in Hn; lia)].
  1, 2: assert (Hh : has_next D (tok (String.length done) (String.length done + String.length acc)) = false)
    by (unfold has_next, tok; cbn [tk_end]; apply Nat.ltb_ge; cbn [String.length] in HDl; lia).
  1, 2: assert (E : scan_loop fuel F D content (tok (String.length done) (String.length done + String.length acc)) =
             Ok (content, tok (String.length done) (String.length done + String.length acc)))
    by (destruct fuel; cbn [scan_loop]; rewrite Hh; reflexivity).
  1, 2: rewrite E; unfold finish; cbn [bind pieces];
    apply (pop_text _ D done acc "" content (fun c _ => Ok c) HD).
  set (t := tok (String.length done) (String.length done + String.length acc)).
  destruct fuel as [|fuel]; [cbn [String.length] in Hf; lia|]. cbn [String.length] in Hn, Hf, HDl.
  assert (Hh : has_next D t = true) by (unfold has_next, t, tok; cbn [tk_end]; apply Nat.ltb_lt; lia).
  assert (Hc0 : cur D t = Some c) by (unfold cur, t, tok; cbn [tk_end]; rewrite HD2, <- Hl, get_app0; reflexivity).
  assert (Hc1 : next D t = String.get 0 r) by (unfold next, t, tok; cbn [tk_end]; rewrite HD2, <- Hl, get_app; reflexivity).
  cbn [scan_loop]. rewrite Hh. unfold scan_step. rewrite Hc0, Hc1. cbn [is_char].
  rewrite (Ascii.eqb_sym "{" c), (Ascii.eqb_sym "}" c). cbn [pieces].
  (* a doubled brace *)
  assert (Hdouble : forall (d : ascii) r', c = d -> r = String d r' ->
    finish D (bind (bind (pop D (inc t)) (fun '(o, t) => Ok (push_constant content o, inc t)))
      (fun '(content, t) => scan_loop fuel F D content t)) =
    bind (emits (PText (acc ++ String d "") :: pieces "" r')) (fun l => Ok (content ++ l)%list)).
  { intros d r' -> ->. cbn [String.length] in Hf, Hn.
    assert (HD3 : D = done ++ (acc ++ String d "") ++ String d r') by (rewrite HD, !sapp_assoc; reflexivity).
    assert (Et : inc t = tok (String.length done) (String.length done + String.length (acc ++ String d ""))).
    { unfold inc, t, tok; cbn [tk_start tk_end]. rewrite slen_app. cbn [String.length]. f_equal. lia. }
    rewrite Et, bind_assoc. unfold finish. rewrite bind_assoc.
    pose proof (pop_text _ D done (acc ++ String d "") (String d r') content
      (fun c t => finish D (scan_loop fuel F D c (inc t))) HD3) as Hp.
    etransitivity; [|etransitivity; [exact Hp|]].
    - apply bind_ext. intros [o t']. reflexivity.
    - assert (Ea : as_text (acc ++ String d "") = [PText (acc ++ String d "")]).
      { unfold as_text. destruct (String.eqb_spec (acc ++ String d "") "") as [E|]; [destruct acc; discriminate|reflexivity]. }
      rewrite Ea. cbn [emits]. destruct (emit (PText (acc ++ String d ""))) as [x|e|]; cbn [bind]; try reflexivity.
      set (done' := done ++ acc ++ String d (String d "")).
      assert (Ed : String.length done' = (String.length done + String.length acc + 2)%nat)
        by (unfold done'; rewrite !slen_app; cbn [String.length]; lia).
      replace (inc _) with (tok (String.length done') (String.length done' + String.length ""))
        by (unfold inc, tok; cbn [tk_start tk_end]; rewrite Ed, slen_app; cbn [String.length]; f_equal; lia).
      rewrite (IH r' done' "" (content ++ [x])%list fuel D); [|lia|lia|unfold done'; rewrite HD, !sapp_assoc; reflexivity].
      rewrite bind_assoc. apply bind_ext. intro l. cbn [bind]. rewrite <- app_assoc. reflexivity. }
  (* a single brace ends something *)
  assert (Hnext : forall l, finish D (scan_loop fuel F D l (inc (tok (String.length done + String.length acc + 1) (String.length done + String.length acc)))) =
    bind (emits (pieces "" r)) (fun m => Ok (l ++ m)%list)).
  { intro l. set (done' := done ++ acc ++ String c "").
    assert (Ed : String.length done' = (String.length done + String.length acc + 1)%nat)
      by (unfold done'; rewrite !slen_app; cbn [String.length]; lia).
    replace (inc _) with (tok (String.length done') (String.length done' + String.length ""))
      by (unfold inc, tok; cbn [tk_start tk_end]; rewrite Ed; cbn [String.length]; f_equal; lia).
    apply (IH r done' "" l fuel D); [lia|lia|unfold done'; rewrite HD, !sapp_assoc; reflexivity]. }
  assert (Hopen : forall q, q = (as_text acc ++ pieces "" r)%list ->
    finish D (bind (bind (pop D t) (fun '(o, t) => Ok (push_constant content o, inc t)))
      (fun '(content, t) => scan_loop fuel F D content t)) =
    bind (emits q) (fun l => Ok (content ++ l)%list)).
  { intros q ->. unfold finish. rewrite !bind_assoc.
    pose proof (pop_text _ D done acc (String c r) content (fun c t => finish D (scan_loop fuel F D c (inc t))) HD) as Hp.
    etransitivity; [|etransitivity; [exact Hp|]].
    - apply bind_ext. intros [o t']. reflexivity.
    - rewrite emits_app, bind_assoc. apply bind_ext. intro l. rewrite Hnext, bind_assoc. apply bind_ext. intro m.
      cbn [bind]. rewrite app_assoc. reflexivity. }
  assert (Hclose : forall q, q = (as_variable acc ++ pieces "" r)%list ->
    finish D (bind (bind (pop D t) (fun '(o, t) => match o with
        | Some v => c <- parse_variable F v ;; Ok ((content ++ [c])%list, inc t) | None => Ok (content, inc t) end))
      (fun '(content, t) => scan_loop fuel F D content t)) =
    bind (emits q) (fun l => Ok (content ++ l)%list)).
  { intros q ->. unfold finish. rewrite !bind_assoc.
    pose proof (pop_variable _ D done acc (String c r) content (fun c t => finish D (scan_loop fuel F D c (inc t))) HD) as Hp.
    etransitivity; [|etransitivity; [exact Hp|]].
    - apply bind_ext. intros [[v|] t']; [|reflexivity]. rewrite !bind_assoc. apply bind_ext. reflexivity.
    - rewrite emits_app, bind_assoc. apply bind_ext. intro l. rewrite Hnext, bind_assoc. apply bind_ext. intro m.
      cbn [bind]. rewrite app_assoc. reflexivity. }
  destruct (Ascii.eqb_spec c "{") as [Ec | Eo].
  - destruct r as [|d r'].
    + cbn [is_char String.get]. apply Hopen. cbn [pieces as_text String.eqb]. rewrite app_nil_r. reflexivity.
    + cbn [is_char String.get]. rewrite (Ascii.eqb_sym "{" d). destruct (Ascii.eqb_spec d "{") as [Ed | Ed].
      * subst d. apply Hdouble; [exact Ec|reflexivity].
      * apply Hopen. reflexivity.
  - destruct (Ascii.eqb_spec c "}") as [Ec | Ecl].
    + destruct r as [|d r'].
      * cbn [is_char String.get]. apply Hclose. cbn [pieces as_text String.eqb]. rewrite app_nil_r. reflexivity.
      * cbn [is_char String.get]. rewrite (Ascii.eqb_sym "}" d). destruct (Ascii.eqb_spec d "}") as [Ed | Ed].
        -- subst d. apply Hdouble; [exact Ec|reflexivity].
        -- apply Hclose. reflexivity.
    + cbn [bind].
      replace (inc t) with (tok (String.length done) (String.length done + String.length (acc ++ String c "")))
        by (unfold inc, t, tok; cbn [tk_start tk_end]; rewrite slen_app; cbn [String.length]; f_equal; lia).
      apply IH; [lia|lia|]. rewrite HD, !sapp_assoc. reflexivity.
Qed.

Lemma scan_line_any : forall D content, scan_line F D content =
  bind (emits (pieces "" D)) (fun l => Ok (content ++ l ++ [CNewLine])%list).
Proof.
  intros D content. unfold scan_line.
  pose proof (scan_any (String.length D) D "" "" content (String.length D) D (Nat.le_refl _) (Nat.le_refl _) eq_refl) as H.
  change (tok (String.length "") (String.length "" + String.length "")) with token_new in H.
  unfold finish in H. destruct (scan_loop (String.length D) F D content token_new) as [[c t]|e|]; cbn [bind] in *.
  - destruct (pop D t) as [[o t']|e|]; cbn [bind] in *.
    + destruct (emits (pieces "" D)) as [l|e|]; cbn [bind] in *; try discriminate. injection H as ->. rewrite <- app_assoc. reflexivity.
    + destruct (emits (pieces "" D)); cbn [bind] in *; congruence.
    + destruct (emits (pieces "" D)); cbn [bind] in *; congruence.
  - destruct (emits (pieces "" D)); cbn [bind] in *; congruence.
  - destruct (emits (pieces "" D)); cbn [bind] in *; congruence.
Qed.

(** What [emits] gives. *)
Lemma utf8_dec : forall s, {utf8 s} + {~ utf8 s}.
Proof.
  intro s. destruct (from_utf8 (bytes_of_string s)) eqn:E; [left; apply utf8_of_b, E|right]. intro H. apply utf8_b in H. congruence.
Qed.
Lemma not_utf8_b : forall s, ~ utf8 s -> from_utf8 (bytes_of_string s) = false.
Proof. intros s H. destruct (from_utf8 (bytes_of_string s)) eqn:E; [exfalso; apply H, utf8_of_b, E|reflexivity]. Qed.
Lemma emit_fine : forall p, piece_fine F p -> exists c, emit p = Ok c /\ forall vars, render_component vars c = piece_meaning F vars p.
Proof.
  intros p [Hu Hk]. unfold emit. rewrite (utf8_b _ Hu). destruct p as [s| | |n|n f]; try (eexists; split; [reflexivity|]; intro vars; reflexivity).
  - eexists; split; [reflexivity|]. intro vars. cbn. unfold value_of. destruct (sget n vars); reflexivity.
  - destruct Hk as [g Hg]. rewrite Hg. eexists; split; [reflexivity|]. intro vars. cbn. unfold value_of. rewrite Hg. destruct (sget n vars); reflexivity.
Qed.
Lemma emits_fine : forall l, Forall (piece_fine F) l ->
  exists cs, emits l = Ok cs /\ forall vars, concatM (render_component vars) cs = in_sequence (map (piece_meaning F vars) l).
Proof.
  induction l as [|p l IH]; intro H.
  - exists []. split; [reflexivity|]. reflexivity.
  - inversion H as [|? ? Hp Hl]; subst. destruct (emit_fine p Hp) as [c [E1 E2]]. destruct (IH Hl) as [cs [G1 G2]].
    exists (c :: cs). cbn [emits]. rewrite E1. cbn [bind]. rewrite G1. split; [reflexivity|].
    intro vars. rewrite concatM_seq. cbn [map in_sequence]. rewrite E2, <- concatM_seq, G2. reflexivity.
Qed.
Lemma emits_defect : forall l e, line_defect F l e -> emits l = Err e.
Proof.
  intros l e H. induction H as [p r H|n f r Hu Hf|p r e Hp Hd IH]; cbn [emits].
  - unfold emit. rewrite (not_utf8_b _ H). reflexivity.
  - unfold emit. rewrite (utf8_b _ Hu), Hf. reflexivity.
  - destruct (emit_fine p Hp) as [c [E _]]. rewrite E. cbn [bind]. rewrite IH. reflexivity.
Qed.
Lemma fine_or_defect : forall l, Forall (piece_fine F) l \/ exists e, line_defect F l e.
Proof.
  induction l as [|p l IH]; [left; constructor|].
  destruct (utf8_dec (source p)) as [Hu|Hu]; [|right; exists TInvalidUTF8; constructor; exact Hu].
  assert (Hk : piece_known F p \/ exists n f, p = PCall n f /\ sget f F = None).
  { destruct p as [s| | |n|n f]; try (left; exact I). destruct (sget f F) as [g|] eqn:E; [left; exists g; exact E|right; exists n, f; auto]. }
  destruct Hk as [Hk|[n [f [-> Hf]]]].
  - destruct IH as [IH|[e IH]]; [left; constructor; [split; assumption|exact IH]|right; exists e; apply ld_later; [split; assumption|exact IH]].
  - right. exists (TFunctionNotFound f). apply ld_function; assumption.
Qed.
End Line.

(** ** All lines *)

Lemma strip_without : forall s, strip_cr s = without_cr s.
Proof.
  intro s. unfold without_cr. destruct (rev (list_ascii_of_string s)) as [|c r] eqn:E.
  - assert (E2 : list_ascii_of_string s = []) by (rewrite <- (rev_involutive (list_ascii_of_string s)), E; reflexivity).
    destruct s; [reflexivity|discriminate].
  - assert (E2 : list_ascii_of_string s = (rev r ++ [c])%list) by (rewrite <- (rev_involutive (list_ascii_of_string s)), E; reflexivity).
    assert (E3 : s = string_of_list_ascii (rev r) ++ String c "").
    { rewrite <- (string_of_list_ascii_of_string s), E2. clear. induction (rev r) as [|x l IH]; [reflexivity|]. cbn. rewrite IH. reflexivity. }
    rewrite E3 at 1. destruct (Ascii.eqb_spec c carriage_return) as [-> | Hc]; [apply strip_cr_final|].
    rewrite E3. apply strip_cr_id. intros x Hx. apply Hc.
    apply (f_equal list_ascii_of_string) in Hx. rewrite !list_app in Hx. cbn [list_ascii_of_string] in Hx.
    apply app_inj_tail in Hx. apply Hx.
Qed.
Lemma starts_iff : forall p s, String.prefix p s = true -> exists r, s = p ++ r.
Proof.
  induction p as [|c p IH]; intros s H; [exists s; reflexivity|]. destruct s as [|d s]; [discriminate|]. cbn in H.
  destruct (ascii_dec c d) as [->|]; [|discriminate]. destruct (IH s H) as [r ->]. exists r. reflexivity.
Qed.
Lemma starts_app : forall p r, String.prefix p (p ++ r) = true.
Proof. intros. apply prefix_correct. apply substring_0. Qed.
Lemma push_not_pop : forall n, String.prefix "#fragment push " ("#fragment pop" ++ n) = false.
Proof. intro n. cbn. reflexivity. Qed.

Section Lines.
Variable F : function_map.

Lemma reads_total : forall ls opened, exists r, template_reads F opened ls r.
Proof.
  induction ls as [|s l IH]; intro opened; [eexists; apply tr_end|].
  destruct (String.eqb_spec s "") as [-> | Hs].
  { destruct (IH opened) as [r Hr]. exists r. apply tr_blank, Hr. }
  destruct (String.prefix "#fragment push " (without_cr s)) eqn:E1.
  { destruct (starts_iff _ _ E1) as [n Hn]. destruct (utf8_dec n) as [Hu|Hu].
    - destruct (IH ((n, []) :: opened)) as [r Hr]. exists r. eapply tr_push; eassumption.
    - eexists. eapply tr_push_bad; eassumption. }
  destruct (String.prefix "#fragment pop" (without_cr s)) eqn:E2.
  { destruct (starts_iff _ _ E2) as [n Hn]. destruct opened as [|[m c] opened].
    - eexists. eapply tr_pop_bad; eassumption.
    - destruct (IH opened) as [r Hr]. eexists. eapply tr_pop; eassumption. }
  assert (Hd : not_directive (without_cr s)) by (split; assumption).
  destruct opened as [|[m c] opened]; [eexists; apply tr_line_outside; assumption|].
  destruct (fine_or_defect F (pieces "" (without_cr s))) as [Hf|[e He]].
  - destruct (IH ((m, (c ++ [pieces "" (without_cr s)])%list) :: opened)) as [r Hr]. exists r. apply tr_line; assumption.
  - exists (Err e). apply tr_line_bad; assumption.
Qed.

Definition like (f : fragment) (x : string * own) : Prop := fr_name f = fst x /\ renders F f (snd x).
Lemma like_path : forall stack opened, Forall2 like stack opened -> stack_path stack = rev (map fst opened).
Proof.
  intros stack opened H. unfold stack_path. rewrite map_rev. f_equal. induction H as [|f x l m [Hn _] _ IH]; [reflexivity|]. cbn. congruence.
Qed.

Lemma lines_any : forall opened ls r, template_reads F opened ls r -> forall frs stack, Forall2 like stack opened ->
  match r with
  | Ok cl => exists frs' stack', foldM (compile_line F) (frs, stack) ls = Ok (frs', stack') /\ extends F frs frs' cl
  | Err e => foldM (compile_line F) (frs, stack) ls = Err e
  | Panic => False
  end.
Proof.
  assert (Hne : forall s frs stack, s <> "" -> compile_line F (frs, stack) s =
    (let line := without_cr s in
      if starts_with push_directive line then
        let name := substring 15 (String.length line - 15) line in
        if from_utf8 (bytes_of_string name)
        then Ok (frs, {| fr_name := name; fr_content := [] |} :: stack)
        else Err TInvalidUTF8
      else if starts_with pop_directive line then
        match stack with
        | [] => Err TInvalidPop
        | f :: rest => Ok (sinsert (combined_name stack) f frs, rest)
        end
      else
        match stack with
        | [] => Err TNoFragment
        | f :: rest =>
            content <- scan_line F line (fr_content f) ;;
            Ok (frs, {| fr_name := fr_name f; fr_content := content |} :: rest)
        end)).
  { intros s frs stack Hs. rewrite <- strip_without. destruct s; [congruence|]. reflexivity. }
  assert (Hpush : forall s n frs stack, s <> "" -> without_cr s = "#fragment push " ++ n ->
    compile_line F (frs, stack) s = if from_utf8 (bytes_of_string n)
        then Ok (frs, {| fr_name := n; fr_content := [] |} :: stack) else Err TInvalidUTF8).
  { intros s n frs stack Hs Hw. rewrite (Hne s frs stack Hs). cbn zeta. rewrite Hw. unfold starts_with, push_directive. rewrite starts_app.
    assert (Hsub : substring 15 (String.length ("#fragment push " ++ n) - 15) ("#fragment push " ++ n) = n).
    { rewrite slen_app. change (String.length "#fragment push ") with 15%nat.
      replace (15 + String.length n - 15)%nat with (String.length n) by lia.
      pose proof (substring_app "#fragment push " n "") as H. rewrite sapp_nil in H. exact H. }
    rewrite Hsub. reflexivity. }
  assert (Hpop : forall s n frs stack, s <> "" -> without_cr s = "#fragment pop" ++ n ->
    compile_line F (frs, stack) s = match stack with
        | [] => Err TInvalidPop
        | f :: rest => Ok (sinsert (combined_name stack) f frs, rest)
        end).
  { intros s n frs stack Hs Hw. rewrite (Hne s frs stack Hs). cbn zeta. rewrite Hw. unfold starts_with, push_directive, pop_directive.
    rewrite push_not_pop, starts_app. reflexivity. }
  assert (Hline : forall s frs stack, s <> "" -> not_directive (without_cr s) ->
    compile_line F (frs, stack) s = match stack with
        | [] => Err TNoFragment
        | f :: rest =>
            content <- scan_line F (without_cr s) (fr_content f) ;;
            Ok (frs, {| fr_name := fr_name f; fr_content := content |} :: rest)
        end).
  { intros s frs stack Hs [H1 H2]. rewrite (Hne s frs stack Hs). cbn zeta. unfold starts_with, push_directive, pop_directive.
    rewrite H1, H2. reflexivity. }
  intros opened ls r H. induction H; intros frs stack Hst; cbn [foldM].
  - exists frs, stack. split; [reflexivity|apply extends_nil].
  - cbn [compile_line bind]. apply IHtemplate_reads, Hst.
  - rewrite (Hpush s n frs stack H H0), (utf8_b _ H1). cbn [bind].
    apply IHtemplate_reads. constructor; [|exact Hst]. split; [reflexivity|]. intro vars. reflexivity.
  - rewrite (Hpush s n frs stack H H0), (not_utf8_b _ H1). reflexivity.
  - inversion Hst as [|f x rest o [Hn Hr] Hrest]; subst. cbn [fst snd] in Hn, Hr.
    rewrite (Hpop s t frs (f :: rest) H H0). cbn [bind].
    assert (Ep : combined_name (f :: rest) = dotted (rev (map fst opened) ++ [n])).
    { unfold combined_name, dotted. f_equal. cbn [rev]. rewrite map_app. cbn [map]. rewrite Hn. f_equal. apply (like_path _ _ Hrest). }
    rewrite Ep. specialize (IHtemplate_reads (sinsert (dotted (rev (map fst opened) ++ [n])) f frs) rest Hrest).
    destruct r as [cl|e|]; cbn [and_closed]; [|exact IHtemplate_reads|exact IHtemplate_reads].
    destruct IHtemplate_reads as [frs' [stack' [E1 E2]]]. exists frs', stack'. split; [exact E1|].
    apply (extends_app F frs (sinsert (dotted (rev (map fst opened) ++ [n])) f frs) frs' [(_, c)] cl); [|exact E2].
    apply extends_insert, Hr.
  - inversion Hst; subst. rewrite (Hpop s t frs [] H H0). reflexivity.
  - inversion Hst as [|f x rest o [Hn Hr] Hrest]; subst. cbn [fst snd] in Hn, Hr.
    rewrite (Hline s frs (f :: rest) H H0), scan_line_any.
    destruct (emits_fine F _ H1) as [cs [E1 E2]]. rewrite E1. cbn [bind].
    apply IHtemplate_reads. constructor; [|exact Hrest]. split; [exact Hn|]. cbn [snd].
    intro vars. unfold content_meaning. cbn [fr_content]. rewrite concatM_app. specialize (Hr vars). unfold content_meaning in Hr.
    rewrite Hr, lines_meaning_app. f_equal. rewrite concatM_app, concatM_one, E2.
    unfold lines_meaning. cbn [map in_sequence]. rewrite fb_nil_r. reflexivity.
  - inversion Hst as [|f x rest o [Hn Hr] Hrest]; subst.
    rewrite (Hline s frs (f :: rest) H H0), scan_line_any, (emits_defect F _ _ H1). reflexivity.
  - inversion Hst; subst. rewrite (Hline s frs [] H H0). reflexivity.
Qed.

Theorem template_any : forall ls r, ls <> [] -> Forall one_line ls -> template_reads F [] ls r ->
  match r with
  | Ok cl => exists t, compile_with_function_map F (String.concat lf ls) = Ok t /\ t_variables t = [] /\
      forall vars path names, render_internal (t_fragments t) vars path names = closed_meaning F vars cl path names
  | Err e => compile_with_function_map F (String.concat lf ls) = Err e
  | Panic => False
  end.
Proof.
  intros ls r Hne H1 H. pose proof (lines_any [] ls r H [] [] (Forall2_nil _)) as Hr.
  destruct r as [cl|e|]; [| |exact Hr].
  - destruct Hr as [frs [stack [E1 E2]]]. exists {| t_fragments := frs; t_variables := [] |}. split; [|split; [reflexivity|]].
    + rewrite compile_text, lines_concat by assumption. unfold smap in *. rewrite E1. reflexivity.
    + intros vars path names. unfold render_internal, closed_meaning. rewrite concatM_seq. f_equal.
      apply map_ext. intros n.
      assert (E : full_name path n = qualified path n) by (unfold full_name, qualified; destruct path; reflexivity).
      rewrite E. specialize (E2 (qualified path n)). cbn [t_fragments]. destruct (last_named (qualified path n) cl) as [c|].
      * destruct E2 as [f [Hf Hr]]. rewrite Hf. cbn [ok_or bind]. apply Hr.
      * rewrite E2. reflexivity.
  - rewrite compile_text, lines_concat by assumption. unfold smap in *. rewrite Hr. reflexivity.
Qed.

Lemma lines_exist : forall s, exists ls, ls <> [] /\ Forall one_line ls /\ String.concat lf ls = s.
Proof.
  induction s as [|c s [ls [Hne [H1 Hs]]]].
  - exists [""]. repeat split; [discriminate|]. constructor; [apply absent_nil|constructor].
  - destruct ls as [|x ls]; [congruence|]. inversion H1 as [|? ? Hx Hl]; subst. destruct (Ascii.eqb_spec c newline) as [-> | Hc].
    + exists ("" :: x :: ls). repeat split; [discriminate|]. constructor; [apply absent_nil|exact H1].
    + exists (String c x :: ls). repeat split; [discriminate| |].
      * constructor; [|exact Hl]. apply absent_cons. split; [exact Hc|exact Hx].
      * destruct ls; reflexivity.
Qed.
Theorem template_any_total : forall s, exists ls r, ls <> [] /\ Forall one_line ls /\ String.concat lf ls = s /\ template_reads F [] ls r.
Proof.
  intro s. destruct (lines_exist s) as [ls [H1 [H2 H3]]]. destruct (reads_total ls []) as [r Hr]. exists ls, r. auto.
Qed.
End Lines.

Lemma any_sample :
  let F := default_functions ascii_casing in
  let cr := String carriage_return "" in
  pieces "" "x{n}}} {{y:upper}{z" = [PText "x"; PText "n}"; PText " {"; PCall "y" "upper"; PText "z"] /\
  template_reads F [] ["#fragment push a"; "x{n}}} {{y:upper}{z" ++ cr; cr; ""; "#fragment population"; "#fragment push a"]
    (Ok [(["a"], [[PText "x"; PText "n}"; PText " {"; PCall "y" "upper"; PText "z"]; []])]) /\
  template_reads F [] ["#fragment push a"; "{y:up}{n"] (Err (TFunctionNotFound "up")).
Proof.
  intros F cr. assert (Hu : forall n, from_utf8 (bytes_of_string n) = true -> utf8 n) by (intros; apply utf8_of_b; assumption).
  assert (Hf : piece_fine F (PCall "y" "upper")) by (split; [apply Hu; reflexivity|eexists; reflexivity]).
  assert (Ht : forall s, from_utf8 (bytes_of_string s) = true -> piece_fine F (PText s)) by (intros s H; split; [apply Hu, H|exact I]).
  split; [reflexivity|]. split.
  - eapply tr_push with (n := "a"); [discriminate|reflexivity|apply Hu; reflexivity|].
    apply tr_line; [discriminate|split; reflexivity| |].
    { change (pieces "" (without_cr ("x{n}}} {{y:upper}{z" ++ cr))) with [PText "x"; PText "n}"; PText " {"; PCall "y" "upper"; PText "z"].
      repeat (constructor; [first [exact Hf | apply Ht; reflexivity]|]). constructor. }
    apply tr_line; [discriminate|split; reflexivity|constructor|].
    apply tr_blank.
    apply (tr_pop F "a" _ [] _ "ulation" _ (Ok [])); [discriminate|reflexivity|].
    eapply tr_push with (n := "a"); [discriminate|reflexivity|apply Hu; reflexivity|]. apply tr_end.
  - eapply tr_push with (n := "a"); [discriminate|reflexivity|apply Hu; reflexivity|].
    apply tr_line_bad; [discriminate|split; reflexivity|].
    change (pieces "" (without_cr "{y:up}{n")) with [PCall "y" "up"; PText "n"].
    apply ld_function; [apply Hu; reflexivity|reflexivity].
Qed.
