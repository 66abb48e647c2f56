(** Proofs about the template engine: a well-formed template text compiles, and
    rendering it gives its meaning. *)

From Coq Require Import Arith NArith Ascii String List Bool Lia.
From Verif Require Import Base Utf8 SpecUtf8 Utf8Thms Compiler Template SpecTemplate.
Import ListNotations.
Local Open Scope string_scope.

(** ** Strings *)

Lemma sapp_assoc : forall a b c : string, (a ++ b) ++ c = a ++ (b ++ c).
Proof. induction a as [|x a IH]; intros; cbn; [|rewrite IH]; reflexivity. Qed.
Lemma sapp_nil : forall a : string, a ++ "" = a.
Proof. induction a as [|x a IH]; cbn; [|rewrite IH]; reflexivity. Qed.
Lemma slen_app : forall a b, String.length (a ++ b) = (String.length a + String.length b)%nat.
Proof. induction a as [|x a IH]; intros; cbn; [|rewrite IH]; reflexivity. Qed.
Lemma get_app : forall a b k, String.get (String.length a + k) (a ++ b) = String.get k b.
Proof. induction a as [|x a IH]; intros; cbn; [|apply IH]; reflexivity. Qed.
Lemma get_app0 : forall a b, String.get (String.length a) (a ++ b) = String.get 0 b.
Proof. intros. rewrite <- (get_app a b 0). f_equal. lia. Qed.
Lemma substring_0 : forall a b, substring 0 (String.length a) (a ++ b) = a.
Proof. induction a as [|x a IH]; intros; cbn. - destruct b; reflexivity. - rewrite IH. reflexivity. Qed.
Lemma substring_app : forall a b c, substring (String.length a) (String.length b) (a ++ b ++ c) = b.
Proof. induction a as [|x a IH]; intros; cbn. - apply substring_0. - apply IH. Qed.
Lemma list_app : forall a b, list_ascii_of_string (a ++ b) = (list_ascii_of_string a ++ list_ascii_of_string b)%list.
Proof. induction a as [|x a IH]; intros; cbn; [|rewrite IH]; reflexivity. Qed.
Lemma bytes_app : forall a b, bytes_of_string (a ++ b) = (bytes_of_string a ++ bytes_of_string b)%list.
Proof. intros. unfold bytes_of_string. rewrite list_app, map_app. reflexivity. Qed.
Lemma absent_app : forall c a b, absent c (a ++ b) <-> absent c a /\ absent c b.
Proof. intros. unfold absent. rewrite list_app, in_app_iff. tauto. Qed.
Lemma absent_cons : forall c x a, absent c (String x a) <-> x <> c /\ absent c a.
Proof. intros. unfold absent. cbn [list_ascii_of_string In]. tauto. Qed.
Lemma absent_nil : forall c, absent c "".
Proof. intros c H. exact H. Qed.

Lemma is_utf8_app : forall a b, is_utf8 a -> is_utf8 b -> is_utf8 (a ++ b)%list.
Proof.
  intros a b [x [Hx ->]] [y [Hy ->]]. exists (x ++ y)%list. split.
  - apply Forall_app. split; assumption.
  - unfold utf8_encode. rewrite flat_map_app. reflexivity.
Qed.
Lemma utf8_app : forall a b, utf8 a -> utf8 b -> utf8 (a ++ b).
Proof. intros a b Ha Hb. unfold utf8. rewrite bytes_app. apply is_utf8_app; assumption. Qed.
Lemma utf8_nil : utf8 "".
Proof. exists []. split; [constructor|reflexivity]. Qed.
Lemma utf8_b : forall s, utf8 s -> from_utf8 (bytes_of_string s) = true.
Proof. intros s H. apply utf8_iff. exact H. Qed.
Lemma utf8_of_b : forall s, from_utf8 (bytes_of_string s) = true -> utf8 s.
Proof. intros s H. apply utf8_iff. exact H. Qed.
Lemma utf8_open : utf8 "{".
Proof. apply utf8_of_b. reflexivity. Qed.
Lemma utf8_close : utf8 "}".
Proof. apply utf8_of_b. reflexivity. Qed.
Lemma utf8_colon : utf8 ":".
Proof. apply utf8_of_b. reflexivity. Qed.

(** ** Sequencing results *)

Lemma fb_assoc : forall x y z, followed_by (followed_by x y) z = followed_by x (followed_by y z).
Proof. intros [a|e|] [b|f|] [c|g|]; cbn; try reflexivity. rewrite sapp_assoc. reflexivity. Qed.
Lemma fb_nil_l : forall x, followed_by (Ok "") x = x.
Proof. intros [a|e|]; reflexivity. Qed.
Lemma fb_nil_r : forall x, followed_by x (Ok "") = x.
Proof. intros [a|e|]; cbn; try reflexivity. rewrite sapp_nil. reflexivity. Qed.
Lemma fb_ok : forall a b, followed_by (Ok a) (Ok b) = Ok (a ++ b).
Proof. reflexivity. Qed.
Lemma fb_bind : forall x y : tres string, (a <- x ;; b <- y ;; Ok (a ++ b)) = followed_by x y.
Proof. intros [a|e|] [b|f|]; reflexivity. Qed.
Lemma concatM_seq : forall A (f : A -> tres string) l, concatM f l = in_sequence (map f l).
Proof.
  intros A f l. induction l as [|x l IH]; [reflexivity|].
  cbn [concatM map in_sequence]. rewrite <- IH. apply fb_bind.
Qed.
Lemma seq_app : forall a b, in_sequence (a ++ b)%list = followed_by (in_sequence a) (in_sequence b).
Proof.
  induction a as [|x a IH]; intros b.
  - cbn [app in_sequence]. rewrite fb_nil_l. reflexivity.
  - cbn [app in_sequence]. rewrite IH, fb_assoc. reflexivity.
Qed.
Lemma concatM_app : forall A (f : A -> tres string) a b,
  concatM f (a ++ b)%list = followed_by (concatM f a) (concatM f b).
Proof. intros. rewrite !concatM_seq, map_app, seq_app. reflexivity. Qed.
Lemma concatM_one : forall A (f : A -> tres string) x, concatM f [x] = f x.
Proof. intros. rewrite concatM_seq. cbn [map in_sequence]. apply fb_nil_r. Qed.

(** ** Scanning one line *)

Section Scan.
Variable F : function_map.

Lemma upper_letter_eq : forall c, ascii_upper c = upper_letter c.
Proof. intros [[] [] [] [] [] [] [] []]; reflexivity. Qed.
Lemma is_char_iff : forall c o, is_char c o = true <-> o = Some c.
Proof.
  intros c [d|]; cbn.
  - rewrite Ascii.eqb_eq. split; [intros ->; reflexivity|intros H; injection H as ->; reflexivity].
  - split; discriminate.
Qed.
Lemma is_char_not : forall c d, d <> c -> is_char c (Some d) = false.
Proof. intros c d H. cbn. apply Ascii.eqb_neq. congruence. Qed.

Definition tok (a b : nat) : token := {| tk_start := a; tk_end := b |}.

(** A character that is not a brace is skipped. *)
Lemma scan_skip : forall s k done rest content D st,
  no_braces s -> D = done ++ s ++ rest ->
  scan_loop (String.length s + k) F D content (tok st (String.length done)) =
  scan_loop k F D content (tok st (String.length done + String.length s)).
Proof.
  induction s as [|c s IH]; intros k done rest content D st [Ho Hc] HD.
  - cbn [String.length plus]. f_equal. f_equal. cbn. lia.
  - apply absent_cons in Ho. apply absent_cons in Hc. destruct Ho as [Ho1 Ho], Hc as [Hc1 Hc].
    cbn [String.length plus scan_loop].
    assert (Hn : has_next D (tok st (String.length done)) = true).
    { unfold has_next, tok; cbn [tk_end]. apply Nat.ltb_lt. rewrite HD, slen_app. cbn [append String.length]. lia. }
    rewrite Hn. unfold scan_step.
    assert (Hg : cur D (tok st (String.length done)) = Some c).
    { unfold cur, tok; cbn [tk_end]. rewrite HD, get_app0. reflexivity. }
    rewrite Hg, (is_char_not _ _ Ho1), (is_char_not _ _ Hc1). cbn [bind].
    change (inc (tok st (String.length done))) with (tok st (String.length done + 1)).
    assert (E : (String.length done + 1)%nat = String.length (done ++ String c "")) by (rewrite slen_app; reflexivity).
    rewrite E. rewrite (IH k (done ++ String c "") rest content D st).
    + f_equal. unfold tok. f_equal. rewrite slen_app. cbn [String.length]. lia.
    + split; assumption.
    + rewrite HD, sapp_assoc. reflexivity.
Qed.

Lemma pop_some : forall D done s rest, D = done ++ s ++ rest -> s <> "" -> utf8 s ->
  pop D (tok (String.length done) (String.length done + String.length s)) =
  Ok (Some s, tok (String.length done + String.length s + 1) (String.length done + String.length s)).
Proof.
  intros D done s rest HD Hs Hu. unfold pop, tok; cbn [tk_start tk_end].
  assert (L : (0 < String.length s)%nat) by (destruct s; [congruence|cbn; lia]).
  replace (Nat.ltb (String.length done) (String.length done + String.length s)) with true
    by (symmetry; apply Nat.ltb_lt; lia).
  replace (String.length done + String.length s - String.length done)%nat with (String.length s) by lia.
  rewrite HD, substring_app, (utf8_b _ Hu). reflexivity.
Qed.
Lemma pop_none : forall D a, pop D (tok a a) = Ok (None, tok (a + 1) a).
Proof. intros D a. unfold pop, tok; cbn [tk_start tk_end]. rewrite Nat.ltb_irrefl. reflexivity. Qed.
Lemma pop_acc : forall D done s rest, D = done ++ s ++ rest -> utf8 s ->
  exists o, pop D (tok (String.length done) (String.length done + String.length s)) =
    Ok (o, tok (String.length done + String.length s + 1) (String.length done + String.length s)) /\
    forall content vars, concatM (render_component vars) (push_constant content o) =
      followed_by (concatM (render_component vars) content) (Ok s).
Proof.
  intros D done s rest HD Hu. destruct s as [|c s].
  - exists None. cbn [String.length]. rewrite Nat.add_0_r, pop_none. split; [reflexivity|].
    intros. cbn [push_constant]. rewrite fb_nil_r. reflexivity.
  - exists (Some (String c s)). rewrite (pop_some D done (String c s) rest HD); [|discriminate|assumption].
    split; [reflexivity|]. intros. cbn [push_constant]. rewrite concatM_app, concatM_one. reflexivity.
Qed.

Definition first_char (s : string) : option ascii := String.get 0 s.

Lemma not_close_first : forall p r, is_variable p -> separated (p :: r) -> Forall piece_ok r ->
  is_char "}" (first_char (line_text r)) = false.
Proof.
  intros p r Hp Hs Hr. cbn in Hs. destruct Hs as [Hs _].
  destruct r as [|q r]; [reflexivity|]. apply Forall_inv in Hr.
  destruct q as [s| | |n|n f].
  - destruct Hr as [Hne [[_ Hc] _]]. destruct s as [|c s]; [congruence|].
    apply absent_cons in Hc. unfold line_text, first_char. cbn [map piece_text String.concat].
    destruct (map piece_text r); cbn [String.concat append String.get]; apply is_char_not; tauto.
  - unfold line_text, first_char. cbn [map piece_text String.concat].
    destruct (map piece_text r); reflexivity.
  - exfalso. apply Hs. split; [assumption|]. exists r. reflexivity.
  - unfold line_text, first_char. cbn [map piece_text String.concat].
    destruct (map piece_text r); reflexivity.
  - unfold line_text, first_char. cbn [map piece_text String.concat].
    destruct (map piece_text r); reflexivity.
Qed.

Lemma line_text_cons : forall p r, line_text (p :: r) = piece_text p ++ line_text r.
Proof.
  intros. unfold line_text. cbn [map String.concat]. destruct (map piece_text r) eqn:E.
  - cbn. rewrite sapp_nil. reflexivity.
  - cbn [append]. reflexivity.
Qed.

(** A variable name or a call, up to its closing brace. *)
Definition inner (p : piece) : string :=
  match p with PVar n => n | PCall n f => n ++ ":" ++ f | _ => "" end.
Lemma split_colon_none : forall s, absent ":" s -> split_colon s = None.
Proof.
  induction s as [|c s IH]; intros H; [reflexivity|]. apply absent_cons in H. cbn [split_colon].
  destruct (Ascii.eqb_spec c ":"); [tauto|]. rewrite IH by tauto. reflexivity.
Qed.
Lemma split_colon_some : forall s f, absent ":" s -> split_colon (s ++ ":" ++ f) = Some (s, f).
Proof.
  induction s as [|c s IH]; intros f H; [reflexivity|]. apply absent_cons in H. cbn [append split_colon].
  destruct (Ascii.eqb_spec c ":"); [tauto|]. change (s ++ String ":" f) with (s ++ ":" ++ f).
  rewrite IH by tauto. reflexivity.
Qed.
Lemma parse_inner : forall p, is_variable p -> piece_ok p -> piece_known F p ->
  exists c, parse_variable F (inner p) = Ok c /\
    forall vars, render_component vars c = piece_meaning F vars p.
Proof.
  intros p Hv Hok Hk. destruct p as [s| | |n|n f]; try contradiction; cbn [inner].
  - exists (CVariable n None). destruct Hok as [_ [_ [_ [Hc _]]]].
    unfold parse_variable. rewrite split_colon_none by assumption. split; [reflexivity|].
    intros vars. cbn [render_component piece_meaning]. unfold value_of. destruct (sget n vars); reflexivity.
  - destruct Hk as [g Hg]. exists (CVariable n (Some g)). destruct Hok as [_ [_ [Hc _]]].
    unfold parse_variable. rewrite split_colon_some by assumption. rewrite Hg. split; [reflexivity|].
    intros vars. cbn [render_component piece_meaning]. unfold value_of. rewrite Hg. destruct (sget n vars); reflexivity.
Qed.
Lemma inner_ok : forall p, is_variable p -> piece_ok p ->
  inner p <> "" /\ no_braces (inner p) /\ utf8 (inner p) /\ piece_text p = "{" ++ inner p ++ "}".
Proof.
  intros p Hv Hok. destruct p as [s| | |n|n f]; try contradiction; cbn [inner piece_text] in *.
  - destruct Hok as [H1 [H2 [_ [_ H5]]]]. repeat split; try assumption; apply H2.
  - destruct Hok as [[H1 H2] [_ [_ [H5 [[H6 H7] [_ H9]]]]]]. repeat split.
    + destruct n; discriminate.
    + change (":" ++ f) with (String ":" f). apply absent_app. split; [assumption|]. apply absent_cons. split; [discriminate|assumption].
    + change (":" ++ f) with (String ":" f). apply absent_app. split; [assumption|]. apply absent_cons. split; [discriminate|assumption].
    + apply utf8_app; [assumption|]. apply utf8_app; [apply utf8_colon|assumption].
    + cbn [append]. rewrite sapp_assoc. reflexivity.
Qed.

(** An escaped brace. *)
Lemma scan_escape : forall (c : ascii) k done acc rest content D,
  c = "{"%char \/ c = "}"%char -> no_braces acc -> utf8 acc ->
  D = done ++ acc ++ String c (String c rest) ->
  exists content',
    scan_loop (S k) F D content (tok (String.length done) (String.length done + String.length acc)) =
    scan_loop k F D content' (tok (String.length done + String.length acc + 2) (String.length done + String.length acc + 2)) /\
    forall vars, concatM (render_component vars) content' =
      followed_by (concatM (render_component vars) content) (Ok (acc ++ String c "")).
Proof.
  intros c k done acc rest content D Hc Hb Hu HD.
  pose (t := tok (String.length done) (String.length done + String.length acc)). fold t.
  assert (HD2 : D = (done ++ acc) ++ String c (String c rest)) by (rewrite HD, sapp_assoc; reflexivity).
  assert (Hl : String.length (done ++ acc) = (String.length done + String.length acc)%nat) by apply slen_app.
  assert (Hn : has_next D t = true).
  { unfold has_next, t, tok; cbn [tk_end]. apply Nat.ltb_lt. rewrite HD2, slen_app, Hl. cbn [String.length]. lia. }
  assert (H0 : cur D t = Some c).
  { unfold cur, t, tok; cbn [tk_end]. rewrite HD2, <- Hl, get_app0. reflexivity. }
  assert (H1 : next D t = Some c).
  { unfold next, t, tok; cbn [tk_end]. rewrite HD2, <- Hl, get_app. reflexivity. }
  assert (Hp : exists o, pop D (inc t) = Ok (o, tok (String.length done + String.length acc + 2) (String.length done + String.length acc + 1)) /\
    forall content vars, concatM (render_component vars) (push_constant content o) =
      followed_by (concatM (render_component vars) content) (Ok (acc ++ String c ""))).
  { assert (HD3 : D = done ++ (acc ++ String c "") ++ String c rest) by (rewrite HD, sapp_assoc; reflexivity).
    assert (Hu2 : utf8 (acc ++ String c "")).
    { apply utf8_app; [assumption|]. destruct Hc as [-> | ->]; [apply utf8_open|apply utf8_close]. }
    destruct (pop_acc D done (acc ++ String c "") (String c rest) HD3 Hu2) as [o [Ho Hr]].
    exists o. split; [|exact Hr].
    rewrite slen_app in Ho. cbn [String.length] in Ho.
    unfold inc, t, tok in *; cbn [tk_start tk_end].
    replace (String.length done + String.length acc + 1)%nat with (String.length done + (String.length acc + 1))%nat by lia.
    rewrite Ho. f_equal. f_equal. f_equal. lia. }
  destruct Hp as [o [Ho Hr]].
  exists (push_constant content o). split; [|intros vars; apply Hr].
  cbn [scan_loop]. rewrite Hn. unfold scan_step. rewrite H0, H1.
  assert (E : inc (tok (String.length done + String.length acc + 2) (String.length done + String.length acc + 1)) =
              tok (String.length done + String.length acc + 2) (String.length done + String.length acc + 2)).
  { unfold inc, tok; cbn [tk_start tk_end]. f_equal. lia. }
  destruct Hc as [-> | ->]; cbn [is_char Ascii.eqb Bool.eqb andb]; rewrite Ho; cbn [bind]; rewrite E; reflexivity.
Qed.

(** A variable between braces. *)
Lemma scan_variable : forall p k done acc rest content D,
  is_variable p -> piece_ok p -> piece_known F p -> no_braces acc -> utf8 acc ->
  is_char "}" (first_char rest) = false ->
  D = done ++ acc ++ piece_text p ++ rest ->
  exists content',
    scan_loop (String.length (inner p) + 2 + k) F D content (tok (String.length done) (String.length done + String.length acc)) =
    scan_loop k F D content' (tok (String.length done + String.length acc + String.length (inner p) + 2)
                                  (String.length done + String.length acc + String.length (inner p) + 2)) /\
    forall vars, concatM (render_component vars) content' =
      followed_by (followed_by (concatM (render_component vars) content) (Ok acc)) (piece_meaning F vars p).
Proof.
  intros p k done acc rest content D Hv Hok Hk Hb Hu Hf HD.
  destruct (inner_ok p Hv Hok) as [Hne [Hib [Hiu Htx]]].
  destruct (parse_inner p Hv Hok Hk) as [cmp [Hcmp Hren]].
  remember (inner p) as s eqn:Es. clear Es. rewrite Htx in HD.
  pose (t := tok (String.length done) (String.length done + String.length acc)). fold t.
  assert (HD1 : D = done ++ acc ++ String "{" (s ++ String "}" rest)).
  { rewrite HD. cbn [append]. rewrite sapp_assoc. reflexivity. }
  assert (HD2 : D = (done ++ acc) ++ String "{" (s ++ String "}" rest)) by (rewrite HD1, sapp_assoc; reflexivity).
  assert (Hl : String.length (done ++ acc) = (String.length done + String.length acc)%nat) by apply slen_app.
  assert (Hn : has_next D t = true).
  { unfold has_next, t, tok; cbn [tk_end]. apply Nat.ltb_lt. rewrite HD2, slen_app, Hl. cbn [String.length]. lia. }
  assert (H0 : cur D t = Some "{"%char).
  { unfold cur, t, tok; cbn [tk_end]. rewrite HD2, <- Hl, get_app0. reflexivity. }
  assert (H1 : is_char "{" (next D t) = false).
  { unfold next, t, tok; cbn [tk_end]. rewrite HD2, <- Hl, get_app.
    destruct s as [|c s]; [congruence|]. cbn [append String.get]. apply is_char_not.
    destruct Hib as [Hio _]. apply absent_cons in Hio. tauto. }
  destruct (pop_acc D done acc _ HD1 Hu) as [o [Ho Hr]]. fold t in Ho.
  assert (Hstep : forall k', scan_loop (S k') F D content t =
      scan_loop k' F D (push_constant content o)
        (tok (String.length done + String.length acc + 1) (String.length done + String.length acc + 1))).
  { intros k'. cbn [scan_loop]. rewrite Hn. unfold scan_step. rewrite H0, H1.
    cbn [is_char Ascii.eqb Bool.eqb andb]. rewrite Ho. cbn [bind]. f_equal. }
  replace (String.length s + 2 + k)%nat with (S (String.length s + S k)) by lia.
  rewrite Hstep.
  assert (HD4 : D = (done ++ acc ++ "{") ++ s ++ String "}" rest).
  { rewrite HD1, !sapp_assoc. reflexivity. }
  assert (El : (String.length done + String.length acc + 1)%nat = String.length (done ++ acc ++ "{")).
  { rewrite !slen_app. cbn [String.length]. lia. }
  rewrite El, (scan_skip s (S k) _ (String "}" rest) _ D _ Hib HD4).
  pose (t2 := tok (String.length (done ++ acc ++ "{")) (String.length (done ++ acc ++ "{") + String.length s)). fold t2.
  assert (HD5 : D = ((done ++ acc ++ "{") ++ s) ++ String "}" rest) by (rewrite HD4, !sapp_assoc; reflexivity).
  assert (Hl2 : String.length ((done ++ acc ++ "{") ++ s) = (String.length (done ++ acc ++ "{") + String.length s)%nat) by apply slen_app.
  assert (Hn2 : has_next D t2 = true).
  { unfold has_next, t2, tok; cbn [tk_end]. apply Nat.ltb_lt. rewrite HD5, (slen_app ((done ++ acc ++ "{") ++ s)), Hl2. cbn [String.length]. lia. }
  assert (H20 : cur D t2 = Some "}"%char).
  { unfold cur, t2, tok; cbn [tk_end]. rewrite HD5, <- Hl2, get_app0. reflexivity. }
  assert (H21 : is_char "}" (next D t2) = false).
  { unfold next, t2, tok; cbn [tk_end]. rewrite HD5, <- Hl2, get_app. cbn [String.get]. exact Hf. }
  exists (push_constant content o ++ [cmp])%list. split.
  - cbn [scan_loop]. rewrite Hn2. unfold scan_step. rewrite H20, H21.
    cbn [is_char Ascii.eqb Bool.eqb andb]. unfold t2.
    rewrite (pop_some D _ s _ HD4 Hne Hiu). cbn [bind]. rewrite Hcmp. cbn [bind]. f_equal.
    unfold inc, tok; cbn [tk_start tk_end]. rewrite <- El. f_equal; lia.
  - intros vars. rewrite concatM_app, concatM_one, Hr, Hren. reflexivity.
Qed.

Definition variable_last (l : list piece) : Prop := exists l' p, l = (l' ++ [p])%list /\ is_variable p.
Lemma variable_last_cons : forall q p l, variable_last (p :: l) -> variable_last (q :: p :: l).
Proof. intros q p l [l' [x [E H]]]. exists (q :: l'), x. rewrite E. split; [reflexivity|exact H]. Qed.

(** Scanning some pieces that are followed by other text: the engine stops
    before that text, with [acc'] read but not yet stored. *)
Lemma scan_prefix : forall l, Forall piece_ok l -> separated l -> Forall (piece_known F) l ->
  forall rest, (variable_last l -> is_char "}" (first_char rest) = false) ->
  forall done acc content fuel D, (String.length (line_text l) + String.length rest <= fuel)%nat -> no_braces acc -> utf8 acc ->
  D = done ++ acc ++ line_text l ++ rest ->
  exists content' done' acc' fuel',
    scan_loop fuel F D content (tok (String.length done) (String.length done + String.length acc)) =
    scan_loop fuel' F D content' (tok (String.length done') (String.length done' + String.length acc')) /\
    D = done' ++ acc' ++ rest /\ no_braces acc' /\ utf8 acc' /\ (String.length rest <= fuel')%nat /\
    forall vars, followed_by (concatM (render_component vars) content') (Ok acc') =
      followed_by (followed_by (concatM (render_component vars) content) (Ok acc))
                  (in_sequence (map (piece_meaning F vars) l)).
Proof.
  induction l as [|p l IH]; intros Hok Hsep Hkn rest Hlast done acc content fuel D Hfuel Hb Hu HD.
  - exists content, done, acc, fuel.
    split; [reflexivity|]. split; [exact HD|]. split; [exact Hb|]. split; [exact Hu|]. split.
    + change (line_text []) with "" in Hfuel. cbn [String.length] in Hfuel. lia.
    + intros vars. cbn [map in_sequence]. rewrite fb_nil_r. reflexivity.
  - inversion Hok as [|? ? Hp Hok']; subst. inversion Hkn as [|? ? Hkp Hkn']; subst.
    rewrite line_text_cons, slen_app in Hfuel.
    assert (HsepR : separated l) by (cbn in Hsep; tauto).
    assert (HlastR : variable_last l -> is_char "}" (first_char rest) = false).
    { intros H. apply Hlast. destruct l as [|q l]; [destruct H as [[|] [x [E _]]]; discriminate|].
      apply variable_last_cons, H. }
    assert (Hcase : (exists s, p = PText s) \/ (exists c, (c = "{"%char \/ c = "}"%char) /\ piece_text p = String c (String c "") /\
                     forall vars, piece_meaning F vars p = Ok (String c "")) \/ is_variable p).
    { destruct p; [left; eexists; reflexivity| | |right; right; exact I|right; right; exact I].
      - right; left. exists "{"%char. repeat split; tauto.
      - right; left. exists "}"%char. repeat split; tauto. }
    destruct Hcase as [[s ->] | [[c [Hc [Htx Hmean]]] | Hv]].
    + destruct Hp as [Hne [Hsb [_ Hsu]]]. cbn [piece_text] in Hfuel.
      destruct (IH Hok' HsepR Hkn' rest HlastR done (acc ++ s) content (fuel - String.length s)%nat
                  (done ++ acc ++ line_text (PText s :: l) ++ rest)) as [content' [done' [acc' [fuel' [H1 [H2 [H3 [H4 [H5 H6]]]]]]]]].
      * lia.
      * destruct Hb, Hsb. split; apply absent_app; split; assumption.
      * apply utf8_app; assumption.
      * rewrite line_text_cons. cbn [piece_text]. rewrite !sapp_assoc. reflexivity.
      * exists content', done', acc', fuel'. split; [|split; [exact H2|split; [exact H3|split; [exact H4|split; [exact H5|]]]]].
        -- replace fuel with (String.length s + (fuel - String.length s))%nat by lia.
           pose proof (scan_skip s (fuel - String.length s) (done ++ acc) (line_text l ++ rest) content
             (done ++ acc ++ line_text (PText s :: l) ++ rest) (String.length done) Hsb) as Hs.
           rewrite slen_app in Hs. rewrite Hs.
           ++ rewrite <- H1. f_equal. unfold tok. f_equal. rewrite slen_app. lia.
           ++ rewrite line_text_cons. cbn [piece_text]. rewrite !sapp_assoc. reflexivity.
        -- intros vars. rewrite H6. cbn [map in_sequence piece_meaning]. rewrite <- !fb_assoc.
           f_equal. rewrite fb_assoc. reflexivity.
    + rewrite Htx in Hfuel. cbn [String.length] in Hfuel.
      destruct fuel as [|fuel]; [lia|].
      destruct (scan_escape c fuel done acc (line_text l ++ rest) content (done ++ acc ++ line_text (p :: l) ++ rest) Hc Hb Hu)
        as [cont1 [Hs Hr]].
      { rewrite line_text_cons, Htx. reflexivity. }
      destruct (IH Hok' HsepR Hkn' rest HlastR (done ++ acc ++ String c (String c "")) "" cont1 fuel
                  (done ++ acc ++ line_text (p :: l) ++ rest)) as [content' [done' [acc' [fuel' [H1 [H2 [H3 [H4 [H5 H6]]]]]]]]].
      * lia.
      * split; apply absent_nil.
      * apply utf8_nil.
      * rewrite line_text_cons, Htx. cbn [append]. rewrite !sapp_assoc. reflexivity.
      * exists content', done', acc', fuel'. split; [|split; [exact H2|split; [exact H3|split; [exact H4|split; [exact H5|]]]]].
        -- rewrite Hs. rewrite <- H1. f_equal. unfold tok. rewrite !slen_app. cbn [String.length]. f_equal; lia.
        -- intros vars. rewrite H6, Hr. cbn [map in_sequence]. rewrite Hmean, fb_nil_r, <- !fb_assoc.
           f_equal. rewrite fb_assoc. reflexivity.
    + destruct (inner_ok p Hv Hp) as [_ [_ [_ Htx]]].
      rewrite Htx, !slen_app in Hfuel. cbn [String.length] in Hfuel.
      destruct (scan_variable p (fuel - String.length (inner p) - 2) done acc (line_text l ++ rest) content
                  (done ++ acc ++ line_text (p :: l) ++ rest) Hv Hp Hkp Hb Hu) as [cont1 [Hs Hr]].
      { destruct l as [|q l].
        - apply Hlast. exists [], p. split; [reflexivity|exact Hv].
        - pose proof (not_close_first p (q :: l) Hv Hsep Hok') as Hnc.
          rewrite line_text_cons in *. inversion Hok' as [|? ? Hq _]; subst.
          destruct q as [[|c s]| | |n|n f]; try exact Hnc. destruct Hq. congruence. }
      { rewrite line_text_cons, !sapp_assoc. reflexivity. }
      destruct (IH Hok' HsepR Hkn' rest HlastR (done ++ acc ++ piece_text p) "" cont1 (fuel - String.length (inner p) - 2)%nat
                  (done ++ acc ++ line_text (p :: l) ++ rest)) as [content' [done' [acc' [fuel' [H1 [H2 [H3 [H4 [H5 H6]]]]]]]]].
      * lia.
      * split; apply absent_nil.
      * apply utf8_nil.
      * rewrite line_text_cons. cbn [append]. rewrite !sapp_assoc. reflexivity.
      * exists content', done', acc', fuel'. split; [|split; [exact H2|split; [exact H3|split; [exact H4|split; [exact H5|]]]]].
        -- replace fuel with (String.length (inner p) + 2 + (fuel - String.length (inner p) - 2))%nat by lia.
           rewrite Hs. rewrite <- H1. f_equal. rewrite Htx. unfold tok. rewrite !slen_app. cbn [String.length]. f_equal; lia.
        -- intros vars. rewrite H6, Hr. cbn [map in_sequence]. rewrite fb_nil_r, !fb_assoc. reflexivity.
Qed.

Lemma scan_pieces : forall l, Forall piece_ok l -> separated l -> Forall (piece_known F) l ->
  forall content fuel, (String.length (line_text l) <= fuel)%nat ->
  exists content' t o t',
    scan_loop fuel F (line_text l) content token_new = Ok (content', t) /\
    pop (line_text l) t = Ok (o, t') /\
    forall vars, concatM (render_component vars) (push_constant content' o) =
      followed_by (concatM (render_component vars) content) (in_sequence (map (piece_meaning F vars) l)).
Proof.
  intros l Hok Hsep Hkn content fuel Hfuel.
  destruct (scan_prefix l Hok Hsep Hkn "" (fun _ => eq_refl) "" "" content fuel (line_text l))
    as [content' [done' [acc' [fuel' [H1 [H2 [H3 [H4 [H5 H6]]]]]]]]].
  - cbn. lia.
  - split; apply absent_nil.
  - apply utf8_nil.
  - rewrite sapp_nil. reflexivity.
  - destruct (pop_acc (line_text l) done' acc' "" H2 H4) as [o [Ho Hr]].
    exists content', (tok (String.length done') (String.length done' + String.length acc')), o,
      (tok (String.length done' + String.length acc' + 1) (String.length done' + String.length acc')).
    split; [|split; [exact Ho|]].
    + change token_new with (tok (String.length "") (String.length "" + String.length "")). rewrite H1.
      assert (Hn : has_next (line_text l) (tok (String.length done') (String.length done' + String.length acc')) = false).
      { unfold has_next, tok; cbn [tk_end]. apply Nat.ltb_ge. rewrite H2, !slen_app. cbn. lia. }
      destruct fuel'; cbn [scan_loop]; rewrite Hn; reflexivity.
    + intros vars. rewrite Hr, H6, fb_nil_r. reflexivity.
Qed.

(** A call of an unknown function stops the compilation. *)
Definition unknown (f : string) : bool := match sget f F with Some _ => false | None => true end.
Lemma scan_unknown : forall a n f b content, Forall piece_ok (a ++ PCall n f :: b) ->
  separated (a ++ PCall n f :: b) -> Forall (piece_known F) a -> sget f F = None ->
  scan_line F (line_text (a ++ PCall n f :: b)) content = Err (TFunctionNotFound f).
Proof.
  intros a n f b content Hok Hsep Hkn Hf.
  assert (Hoka : Forall piece_ok a) by (apply Forall_app in Hok; tauto).
  assert (Hokb : Forall piece_ok (PCall n f :: b)) by (apply Forall_app in Hok; tauto).
  assert (Hsa : separated a /\ separated (PCall n f :: b)).
  { clear - Hsep. induction a as [|p a IH]; [split; [exact I|exact Hsep]|].
    cbn [app separated] in *. destruct Hsep as [H1 H2]. destruct (IH H2) as [H3 H4]. split; [|exact H4].
    split; [|exact H3]. intros [Hv [r' ->]]. apply H1. split; [exact Hv|]. eexists. reflexivity. }
  destruct Hsa as [Hsa Hsb].
  assert (Htx : line_text (a ++ PCall n f :: b) = line_text a ++ "{" ++ inner (PCall n f) ++ "}" ++ line_text b).
  { clear. induction a as [|p a IH].
    - cbn [app]. rewrite line_text_cons. cbn [piece_text inner line_text map String.concat append].
      rewrite !sapp_assoc. cbn [append]. rewrite sapp_assoc. reflexivity.
    - cbn [app]. rewrite !line_text_cons, IH, !sapp_assoc. reflexivity. }
  rewrite Htx. inversion Hokb as [|? ? Hp Hob]; subst.
  destruct (inner_ok (PCall n f) I Hp) as [Hne [Hib [Hiu _]]].
  pose proof (not_close_first (PCall n f) b I Hsb Hob) as Hcl.
  assert (Hparse : parse_variable F (inner (PCall n f)) = Err (TFunctionNotFound f)).
  { unfold parse_variable. cbn [inner]. destruct Hp as [_ [_ [Hc _]]]. rewrite split_colon_some by assumption.
    rewrite Hf. reflexivity. }
  remember (inner (PCall n f)) as s eqn:Es. clear Es.
  set (rest := "{" ++ s ++ "}" ++ line_text b).
  destruct (scan_prefix a Hoka Hsa Hkn rest (fun _ => eq_refl) "" "" content (String.length (line_text a ++ rest)) (line_text a ++ rest))
    as [content' [done [acc [fuel [H1 [H2 [H3 [H4 [H5 _]]]]]]]]].
  - rewrite slen_app. lia.
  - split; apply absent_nil.
  - apply utf8_nil.
  - reflexivity.
  - unfold scan_line. change token_new with (tok (String.length "") (String.length "" + String.length "")). rewrite H1.
    set (D := line_text a ++ rest) in *. clearbody D. subst rest.
    pose (t := tok (String.length done) (String.length done + String.length acc)). fold t.
    assert (HD2 : D = (done ++ acc) ++ String "{" (s ++ String "}" (line_text b))) by (rewrite H2, sapp_assoc; reflexivity).
    assert (Hl : String.length (done ++ acc) = (String.length done + String.length acc)%nat) by apply slen_app.
    assert (Hn : has_next D t = true).
    { unfold has_next, t, tok; cbn [tk_end]. apply Nat.ltb_lt. rewrite HD2, slen_app, Hl. cbn [String.length]. lia. }
    assert (H0 : cur D t = Some "{"%char).
    { unfold cur, t, tok; cbn [tk_end]. rewrite HD2, <- Hl, get_app0. reflexivity. }
    assert (Hnx : is_char "{" (next D t) = false).
    { unfold next, t, tok; cbn [tk_end]. rewrite HD2, <- Hl, get_app.
      destruct s as [|c s]; [congruence|]. cbn [append String.get]. apply is_char_not.
      destruct Hib as [Hio _]. apply absent_cons in Hio. tauto. }
    destruct (pop_acc D done acc _ H2 H4) as [o [Ho Hr]]. fold t in Ho.
    rewrite !slen_app in H5. cbn [String.length] in H5.
    destruct fuel as [|k]; [lia|].
    assert (Hstep : scan_loop (S k) F D content' t =
      scan_loop k F D (push_constant content' o)
        (tok (String.length done + String.length acc + 1) (String.length done + String.length acc + 1))).
    { cbn [scan_loop]. rewrite Hn. unfold scan_step. rewrite H0, Hnx.
      cbn [is_char Ascii.eqb Bool.eqb andb]. rewrite Ho. cbn [bind]. f_equal. }
    rewrite Hstep.
    assert (HD4 : D = (done ++ acc ++ "{") ++ s ++ String "}" (line_text b)).
    { rewrite H2, !sapp_assoc. reflexivity. }
    assert (El : (String.length done + String.length acc + 1)%nat = String.length (done ++ acc ++ "{")).
    { rewrite !slen_app. cbn [String.length]. lia. }
    replace k with (String.length s + S (k - String.length s - 1))%nat by lia.
    rewrite El, (scan_skip s _ _ (String "}" (line_text b)) _ D _ Hib HD4).
    pose (t2 := tok (String.length (done ++ acc ++ "{")) (String.length (done ++ acc ++ "{") + String.length s)). fold t2.
    assert (HD5 : D = ((done ++ acc ++ "{") ++ s) ++ String "}" (line_text b)) by (rewrite HD4, !sapp_assoc; reflexivity).
    assert (Hl2 : String.length ((done ++ acc ++ "{") ++ s) = (String.length (done ++ acc ++ "{") + String.length s)%nat) by apply slen_app.
    assert (Hn2 : has_next D t2 = true).
    { unfold has_next, t2, tok; cbn [tk_end]. apply Nat.ltb_lt. rewrite HD5, (slen_app ((done ++ acc ++ "{") ++ s)), Hl2. cbn [String.length]. lia. }
    assert (H20 : cur D t2 = Some "}"%char).
    { unfold cur, t2, tok; cbn [tk_end]. rewrite HD5, <- Hl2, get_app0. reflexivity. }
    assert (H21 : is_char "}" (next D t2) = false).
    { unfold next, t2, tok; cbn [tk_end]. rewrite HD5, <- Hl2, get_app. cbn [String.get]. exact Hcl. }
    cbn [scan_loop]. rewrite Hn2. unfold scan_step. rewrite H20, H21.
    cbn [is_char Ascii.eqb Bool.eqb andb]. unfold t2.
    rewrite (pop_some D _ s _ HD4 Hne Hiu). cbn [bind]. rewrite Hparse. reflexivity.
Qed.

Lemma scan_line_ok : forall l, Forall piece_ok l -> separated l -> Forall (piece_known F) l ->
  forall content, exists content', scan_line F (line_text l) content = Ok content' /\
    forall vars, concatM (render_component vars) content' =
      followed_by (concatM (render_component vars) content) (line_meaning F vars l).
Proof.
  intros l Hok Hsep Hkn content.
  destruct (scan_pieces l Hok Hsep Hkn content (String.length (line_text l)) (Nat.le_refl _))
    as [content' [t [o [t' [H1 [H2 H3]]]]]].
  exists (push_constant content' o ++ [CNewLine])%list. split.
  - unfold scan_line. rewrite H1. cbn [bind]. rewrite H2. reflexivity.
  - intros vars. rewrite concatM_app, concatM_one, H3. unfold line_meaning. rewrite fb_assoc. reflexivity.
Qed.
End Scan.

(** ** Lines *)

Lemma split_one : forall s, one_line s -> split_lines s = (s, []).
Proof.
  induction s as [|c s IH]; intros H; [reflexivity|]. apply absent_cons in H. cbn [split_lines].
  rewrite IH by tauto. destruct (Ascii.eqb_spec c newline); [tauto|reflexivity].
Qed.
Lemma split_line : forall s r, one_line s ->
  split_lines (s ++ String newline r) = (s, let '(h, t) := split_lines r in h :: t).
Proof.
  induction s as [|c s IH]; intros r H.
  - cbn [append split_lines]. destruct (split_lines r). reflexivity.
  - apply absent_cons in H. cbn [append split_lines]. rewrite IH by tauto.
    destruct (Ascii.eqb_spec c newline); [tauto|]. reflexivity.
Qed.
Definition lines_of (s : string) : list string := let '(h, t) := split_lines s in h :: t.
Lemma lines_concat : forall l, l <> [] -> Forall one_line l -> lines_of (String.concat lf l) = l.
Proof.
  induction l as [|s l IH]; intros Hne H; [congruence|]. inversion H as [|? ? Hs Hl]; subst.
  destruct l as [|s' l].
  - unfold lines_of. cbn [String.concat]. rewrite split_one by assumption. reflexivity.
  - change (String.concat lf (s :: s' :: l)) with (s ++ String newline (String.concat lf (s' :: l))).
    unfold lines_of. rewrite split_line by assumption.
    change (s :: lines_of (String.concat lf (s' :: l)) = s :: s' :: l).
    rewrite IH; [reflexivity|discriminate|assumption].
Qed.

Lemma strip_cr_id : forall s, no_final_cr s -> strip_cr s = s.
Proof.
  induction s as [|c s IH]; intros H; [reflexivity|]. destruct s as [|d s].
  - cbn [strip_cr]. destruct (Ascii.eqb_spec c carriage_return) as [->|]; [|reflexivity].
    exfalso. apply (H ""). reflexivity.
  - change (strip_cr (String c (String d s))) with (String c (strip_cr (String d s))).
    rewrite IH; [reflexivity|]. intros r Hr. apply (H (String c r)). rewrite Hr. reflexivity.
Qed.
Lemma strip_cr_app : forall a s, s <> "" -> strip_cr (a ++ s) = a ++ strip_cr s.
Proof.
  induction a as [|c a IH]; intros s Hs; [reflexivity|]. cbn [append].
  rewrite <- IH by assumption. destruct (a ++ s) eqn:E; [|reflexivity].
  destruct a; [cbn in E; congruence|discriminate].
Qed.

Lemma piece_one_line : forall p, piece_ok p -> one_line (piece_text p).
Proof.
  intros p H. unfold one_line. destruct p as [s| | |n|n f]; cbn [piece_text].
  - apply H.
  - repeat (apply absent_cons; split; [discriminate|]). apply absent_nil.
  - repeat (apply absent_cons; split; [discriminate|]). apply absent_nil.
  - apply absent_app. split; [apply absent_cons; split; [discriminate|apply absent_nil]|].
    apply absent_app. split; [apply H|apply absent_cons; split; [discriminate|apply absent_nil]].
  - apply absent_app. split; [apply absent_cons; split; [discriminate|apply absent_nil]|].
    apply absent_app. split; [apply H|].
    apply absent_app. split; [apply absent_cons; split; [discriminate|apply absent_nil]|].
    apply absent_app. split; [apply H|apply absent_cons; split; [discriminate|apply absent_nil]].
Qed.
Lemma line_one_line : forall l, Forall piece_ok l -> one_line (line_text l).
Proof.
  induction l as [|p l IH]; intros H; [apply absent_nil|]. inversion H; subst.
  rewrite line_text_cons. apply absent_app. split; [apply piece_one_line; assumption|apply IH; assumption].
Qed.

(** ** Trees *)

Lemma item_ind2 : forall P : item -> Prop, P IBlank -> (forall l, P (ILine l)) ->
  (forall n b, Forall P b -> P (IFragment n b)) -> forall i, P i.
Proof.
  intros P Hb Hl Hf. fix self 1. intros [|l|n b].
  - exact Hb.
  - apply Hl.
  - apply Hf. induction b as [|i b IH]; constructor; [apply self|exact IH].
Qed.

Lemma item_lines_ok : forall i, item_ok i -> Forall one_line (item_lines i).
Proof.
  induction i as [|l|n b IH] using item_ind2; intros H; cbn [item_lines].
  - constructor; [apply absent_nil|constructor].
  - inversion H as [|? Hl|]; subst. constructor; [|constructor]. apply line_one_line, Hl.
  - inversion H as [| |? ? Hn Hb]; subst. apply Forall_app. split; [|apply Forall_app; split].
    + constructor; [|constructor]. apply absent_app. split; [|apply Hn].
      repeat (apply absent_cons; split; [discriminate|]). apply absent_nil.
    + clear H Hn. induction b as [|i b IHb]; [constructor|]. inversion IH; inversion Hb; subst.
      cbn [flat_map]. apply Forall_app. split; [auto|apply IHb; assumption].
    + constructor; [|constructor]. repeat (apply absent_cons; split; [discriminate|]). apply absent_nil.
Qed.

Section Compile.
Variable F : function_map.

Definition content_meaning (vars : variables) (f : fragment) : tres string :=
  concatM (render_component vars) (fr_content f).
Definition renders (f : fragment) (c : list (list piece)) : Prop :=
  forall vars, content_meaning vars f = lines_meaning F vars c.
Definition extends (frs frs' : smap fragment) (cl : list (list string * list (list piece))) : Prop :=
  forall q, match last_named q cl with
            | Some c => exists f, sget q frs' = Some f /\ renders f c
            | None => sget q frs' = sget q frs
            end.

Lemma extends_nil : forall frs, extends frs frs [].
Proof. intros frs q. reflexivity. Qed.
Lemma last_named_app : forall q a b, last_named q (a ++ b)%list =
  match last_named q b with Some c => Some c | None => last_named q a end.
Proof.
  intros q a b. induction a as [|[p c] a IH]; cbn [app last_named].
  - destruct (last_named q b); reflexivity.
  - rewrite IH. destruct (last_named q b); reflexivity.
Qed.
Lemma extends_app : forall a b c x y, extends a b x -> extends b c y -> extends a c (x ++ y)%list.
Proof.
  intros a b c x y H1 H2 q. rewrite last_named_app. specialize (H2 q). specialize (H1 q).
  destruct (last_named q y); [exact H2|]. rewrite H2. exact H1.
Qed.
Lemma extends_insert : forall frs p f c, renders f c -> extends frs (sinsert (dotted p) f frs) [(p, c)].
Proof.
  intros frs p f c H q. cbn [last_named]. unfold sinsert. cbn [sget].
  rewrite (String.eqb_sym q). destruct (String.eqb (dotted p) q); [|reflexivity].
  exists f. split; [reflexivity|exact H].
Qed.

Lemma lines_meaning_app : forall vars a b,
  lines_meaning F vars (a ++ b)%list = followed_by (lines_meaning F vars a) (lines_meaning F vars b).
Proof. intros. unfold lines_meaning. rewrite map_app, seq_app. reflexivity. Qed.

Definition stack_path (stack : list fragment) : list string := map fr_name (rev stack).

Lemma foldM_app : forall {E A S} (f : S -> A -> outcome E S) a b s,
  foldM f s (a ++ b)%list = (s' <- foldM f s a ;; foldM f s' b).
Proof.
  intros E A S f a b. induction a as [|x a IH]; intros s; [reflexivity|].
  cbn [app foldM]. destruct (f s x); cbn [bind]; [apply IH|reflexivity|reflexivity].
Qed.

Lemma push_line : forall frs stack n, name_ok n ->
  compile_line F (frs, stack) ("#fragment push " ++ n) =
  Ok (frs, {| fr_name := n; fr_content := [] |} :: stack).
Proof.
  intros frs stack n [Hl [Hu Hc]].
  assert (Hs : strip_cr ("#fragment push " ++ n) = "#fragment push " ++ n).
  { destruct n as [|c n]; [reflexivity|]. rewrite strip_cr_app by discriminate.
    rewrite strip_cr_id by assumption. reflexivity. }
  unfold compile_line. rewrite Hs.
  assert (Hp : starts_with push_directive ("#fragment push " ++ n) = true).
  { apply prefix_correct. apply (substring_0 push_directive n). }
  rewrite Hp.
  assert (Hsub : substring 15 (String.length ("#fragment push " ++ n) - 15) ("#fragment push " ++ n) = n).
  { rewrite slen_app. change (String.length "#fragment push ") with 15%nat.
    replace (15 + String.length n - 15)%nat with (String.length n) by lia.
    pose proof (substring_app "#fragment push " n "") as H. rewrite sapp_nil in H. exact H. }
  rewrite Hsub, (utf8_b _ Hu). reflexivity.
Qed.
Lemma pop_line : forall frs f rest,
  compile_line F (frs, f :: rest) "#fragment pop" = Ok (sinsert (dotted (stack_path (f :: rest))) f frs, rest).
Proof. reflexivity. Qed.
Lemma code_line : forall frs f rest l, line_ok l -> Forall (piece_known F) l ->
  exists f', compile_line F (frs, f :: rest) (line_text l) = Ok (frs, f' :: rest) /\ fr_name f' = fr_name f /\
    forall vars, content_meaning vars f' = followed_by (content_meaning vars f) (line_meaning F vars l).
Proof.
  intros frs f rest l [Hne [Hok [Hsep [[Hd1 Hd2] Hcr]]]] Hk.
  destruct (scan_line_ok F l Hok Hsep Hk (fr_content f)) as [content' [H1 H2]].
  exists {| fr_name := fr_name f; fr_content := content' |}. split; [|split; [reflexivity|exact H2]].
  unfold compile_line. rewrite (strip_cr_id _ Hcr). unfold starts_with, push_directive, pop_directive.
  rewrite Hd1, Hd2, H1. cbn [bind].
  destruct (line_text l) eqn:E; [|reflexivity].
  exfalso. destruct l as [|p l]; [congruence|]. rewrite line_text_cons in E. inversion Hok as [|? ? Hp _]; subst.
  destruct p as [s| | |n|n g]; cbn [piece_text] in E; try discriminate.
  destruct Hp as [Hs _]. destruct s; [congruence|discriminate].
Qed.

(** An item inside a fragment. *)
Lemma item_compiles : forall i, item_ok i -> item_known F i -> forall frs f rest,
  exists frs' f', foldM (compile_line F) (frs, f :: rest) (item_lines i) = Ok (frs', f' :: rest) /\
    fr_name f' = fr_name f /\
    (forall vars, content_meaning vars f' = followed_by (content_meaning vars f) (lines_meaning F vars (own_line i))) /\
    extends frs frs' (closed (stack_path (f :: rest)) i).
Proof.
  induction i as [|l|n b IH] using item_ind2; intros Hok Hk frs f rest.
  - exists frs, f. repeat split; try reflexivity. intros vars. cbn. rewrite fb_nil_r. reflexivity.
  - inversion Hok as [|? Hl|]; subst. inversion Hk as [|? Hkl|]; subst.
    destruct (code_line frs f rest l Hl Hkl) as [f' [H1 [H2 H3]]].
    exists frs, f'. cbn [item_lines foldM]. rewrite H1. cbn [bind]. repeat split; try assumption.
    intros vars. rewrite H3. unfold lines_meaning. cbn [own_line map in_sequence]. rewrite fb_nil_r. reflexivity.
  - inversion Hok as [| |? ? Hn Hb]; subst. inversion Hk as [| |? ? Hkb]; subst.
    assert (Hbody : forall b, Forall item_ok b -> Forall (item_known F) b ->
       Forall (fun i => item_ok i -> item_known F i -> forall frs f rest,
         exists frs' f', foldM (compile_line F) (frs, f :: rest) (item_lines i) = Ok (frs', f' :: rest) /\
         fr_name f' = fr_name f /\
         (forall vars, content_meaning vars f' = followed_by (content_meaning vars f) (lines_meaning F vars (own_line i))) /\
         extends frs frs' (closed (stack_path (f :: rest)) i)) b ->
       forall frs f rest, exists frs' f',
         foldM (compile_line F) (frs, f :: rest) (flat_map item_lines b) = Ok (frs', f' :: rest) /\
         fr_name f' = fr_name f /\
         (forall vars, content_meaning vars f' = followed_by (content_meaning vars f) (lines_meaning F vars (own_lines b))) /\
         extends frs frs' (flat_map (closed (stack_path (f :: rest))) b)).
    { clear. induction b as [|i b IHb]; intros Hok Hk IH frs f rest.
      - exists frs, f. repeat split; try reflexivity. intros vars. cbn. rewrite fb_nil_r. reflexivity.
      - inversion Hok as [|? ? A1 A2]; inversion Hk as [|? ? A3 A4]; inversion IH as [|? ? Hi IHr]; subst.
        destruct (Hi A1 A3 frs f rest) as [frs1 [f1 [H1 [H2 [H3 H4]]]]].
        destruct (IHb A2 A4 IHr frs1 f1 rest) as [frs2 [f2 [G1 [G2 [G3 G4]]]]].
        exists frs2, f2. cbn [flat_map]. rewrite foldM_app, H1. cbn [bind]. rewrite G1.
        split; [reflexivity|]. split; [congruence|]. split.
        + intros vars. rewrite G3, H3, fb_assoc. f_equal. unfold own_lines. cbn [flat_map].
          rewrite lines_meaning_app. reflexivity.
        + apply extends_app with frs1; [exact H4|].
          assert (E : stack_path (f1 :: rest) = stack_path (f :: rest)).
          { unfold stack_path. cbn [rev]. rewrite !map_app. cbn [map]. rewrite H2. reflexivity. }
          rewrite <- E. exact G4. }
    destruct (Hbody b Hb Hkb IH frs {| fr_name := n; fr_content := [] |} (f :: rest)) as [frs' [f' [H1 [H2 [H3 H4]]]]].
    exists (sinsert (dotted (stack_path (f' :: f :: rest))) f' frs'), f.
    cbn [item_lines]. rewrite foldM_app. cbn [foldM]. rewrite (push_line frs (f :: rest) n Hn). cbn [bind].
    rewrite foldM_app, H1. cbn [bind foldM]. rewrite pop_line. cbn [bind].
    split; [reflexivity|]. split; [reflexivity|]. split.
    + intros vars. cbn. rewrite fb_nil_r. reflexivity.
    + assert (E : stack_path (f' :: f :: rest) = (stack_path (f :: rest) ++ [n])%list).
      { unfold stack_path. cbn [rev]. rewrite !map_app. cbn [map]. rewrite H2. reflexivity. }
      rewrite E. cbn [closed]. apply extends_app with frs'.
      * assert (E2 : stack_path ({| fr_name := n; fr_content := [] |} :: f :: rest) = (stack_path (f :: rest) ++ [n])%list).
        { unfold stack_path. cbn [rev]. rewrite !map_app. reflexivity. }
        rewrite <- E2. exact H4.
      * apply extends_insert. intros vars. rewrite H3.
        unfold content_meaning. cbn [fr_content concatM]. rewrite fb_nil_l. reflexivity.
Qed.

(** An item outside fragments. *)
Lemma top_compiles : forall i, top_ok i -> item_known F i -> forall frs,
  exists frs', foldM (compile_line F) (frs, []) (item_lines i) = Ok (frs', []) /\ extends frs frs' (closed [] i).
Proof.
  intros [|l|n b] [Hok Ht] Hk frs; [exists frs; split; [reflexivity|apply extends_nil]|contradiction|].
  inversion Hok as [| |? ? Hn Hb]; subst. inversion Hk as [| |? ? Hkb]; subst.
  assert (Hbody : forall b, Forall item_ok b -> Forall (item_known F) b ->
       forall frs f rest, exists frs' f',
         foldM (compile_line F) (frs, f :: rest) (flat_map item_lines b) = Ok (frs', f' :: rest) /\
         fr_name f' = fr_name f /\
         (forall vars, content_meaning vars f' = followed_by (content_meaning vars f) (lines_meaning F vars (own_lines b))) /\
         extends frs frs' (flat_map (closed (stack_path (f :: rest))) b)).
  { clear. induction b as [|i b IHb]; intros Hok Hk frs f rest.
    - exists frs, f. repeat split; try reflexivity. intros vars. cbn. rewrite fb_nil_r. reflexivity.
    - inversion Hok as [|? ? A1 A2]; inversion Hk as [|? ? A3 A4]; subst.
      destruct (item_compiles i A1 A3 frs f rest) as [frs1 [f1 [H1 [H2 [H3 H4]]]]].
      destruct (IHb A2 A4 frs1 f1 rest) as [frs2 [f2 [G1 [G2 [G3 G4]]]]].
      exists frs2, f2. cbn [flat_map]. rewrite foldM_app, H1. cbn [bind]. rewrite G1.
      split; [reflexivity|]. split; [congruence|]. split.
      + intros vars. rewrite G3, H3, fb_assoc. f_equal. unfold own_lines. cbn [flat_map].
        rewrite lines_meaning_app. reflexivity.
      + apply extends_app with frs1; [exact H4|].
        assert (E : stack_path (f1 :: rest) = stack_path (f :: rest)).
        { unfold stack_path. cbn [rev]. rewrite !map_app. cbn [map]. rewrite H2. reflexivity. }
        rewrite <- E. exact G4. }
  destruct (Hbody b Hb Hkb frs {| fr_name := n; fr_content := [] |} []) as [frs' [f' [H1 [H2 [H3 H4]]]]].
  exists (sinsert (dotted (stack_path [f'])) f' frs').
  cbn [item_lines]. rewrite foldM_app. cbn [foldM]. rewrite (push_line frs [] n Hn). cbn [bind].
  rewrite foldM_app, H1. cbn [bind foldM]. rewrite pop_line. cbn [bind]. split; [reflexivity|].
  assert (E : stack_path [f'] = [n]) by (unfold stack_path; cbn; rewrite H2; reflexivity).
  rewrite E. cbn [closed app]. apply extends_app with frs'; [exact H4|].
  apply extends_insert. intros vars. rewrite H3.
  unfold content_meaning. cbn [fr_content concatM]. rewrite fb_nil_l. reflexivity.
Qed.
Lemma tops_compile : forall l, Forall top_ok l -> Forall (item_known F) l -> forall frs,
  exists frs', foldM (compile_line F) (frs, []) (items_lines l) = Ok (frs', []) /\ extends frs frs' (all_closed l).
Proof.
  induction l as [|i l IH]; intros Hok Hk frs.
  - exists frs. split; [reflexivity|apply extends_nil].
  - inversion Hok as [|? ? A1 A2]; inversion Hk as [|? ? A3 A4]; subst.
    destruct (top_compiles i A1 A3 frs) as [frs1 [H1 H2]].
    destruct (IH A2 A4 frs1) as [frs2 [G1 G2]].
    exists frs2. unfold items_lines, all_closed in *. cbn [flat_map]. rewrite foldM_app, H1. cbn [bind].
    split; [exact G1|]. apply extends_app with frs1; assumption.
Qed.

Lemma items_one_line : forall l, Forall item_ok l -> Forall one_line (items_lines l).
Proof.
  induction l as [|i l IH]; intros H; [constructor|]. inversion H; subst. unfold items_lines in *.
  cbn [flat_map]. apply Forall_app. split; [apply item_lines_ok; assumption|apply IH; assumption].
Qed.
Lemma tops_items : forall l, Forall top_ok l -> Forall item_ok l.
Proof. intros l H. eapply Forall_impl; [|exact H]. intros i Hi. apply Hi. Qed.

Lemma compile_text : forall s, compile_with_function_map F s =
  ('(fragments, _) <- foldM (compile_line F) ([], []) (lines_of s) ;;
   Ok {| t_fragments := fragments; t_variables := [] |}).
Proof. intros s. unfold compile_with_function_map, lines_of. destruct (split_lines s). reflexivity. Qed.

Theorem template_meaning : forall l, Forall top_ok l -> Forall (item_known F) l ->
  exists t, compile_with_function_map F (template_text l) = Ok t /\ t_variables t = [] /\
    forall vars path names,
      render_internal (t_fragments t) vars path names = render_meaning F vars l path names.
Proof.
  intros l Hok Hk. destruct (tops_compile l Hok Hk []) as [frs [H1 H2]].
  exists {| t_fragments := frs; t_variables := [] |}. split; [|split; [reflexivity|]].
  - destruct l as [|i l].
    + cbn in H1. injection H1 as <-. reflexivity.
    + rewrite compile_text. unfold template_text. rewrite lines_concat.
      * unfold smap in *. rewrite H1. reflexivity.
      * unfold items_lines. cbn [flat_map]. destruct i; discriminate.
      * apply items_one_line, tops_items, Hok.
  - intros vars path names. unfold render_internal, render_meaning. rewrite concatM_seq. f_equal.
    apply map_ext. intros n. unfold fragment_meaning.
    assert (E : full_name path n = qualified path n) by (unfold full_name, qualified; destruct path; reflexivity).
    rewrite E. specialize (H2 (qualified path n)). destruct (last_named (qualified path n) (all_closed l)) as [c|].
    + destruct H2 as [f [Hf Hr]]. cbn [t_fragments]. rewrite Hf. cbn [ok_or bind]. apply Hr.
    + cbn [t_fragments]. rewrite H2. reflexivity.
Qed.
End Compile.

(** The functions a template can use. *)
Lemma default_functions_meaning : forall u vars n v, sget n vars = Some v ->
  piece_meaning (default_functions u) vars (PCall n "upper") = Ok (to_upper u v) /\
  piece_meaning (default_functions u) vars (PCall n "lower") = Ok (to_lower u v) /\
  piece_meaning (default_functions u) vars (PCall n "capitalize") = capitalize v /\
  forall f, f <> "upper" -> f <> "lower" -> f <> "capitalize" -> sget f (default_functions u) = None.
Proof.
  intros u vars n v H. unfold piece_meaning, value_of. rewrite H. repeat split.
  intros f H1 H2 H3. cbn [default_functions sinsert sget].
  destruct (String.eqb_spec f "capitalize"); [contradiction|]. destruct (String.eqb_spec f "lower"); [contradiction|].
  destruct (String.eqb_spec f "upper"); [contradiction|]. reflexivity.
Qed.
