(** Proofs about writing generated files (C47) and loading protocols (C48). *)

From Coq Require Import Arith NArith Ascii String List Bool Lia.
From Verif Require Import Base Schema Compiler Template Driver SpecDriver Loader SpecTemplate TemplateThms.
Import ListNotations.
Local Open Scope string_scope.

(** ** The folder of a file *)
Lemma before_folder : forall s, before_slash s = folder s.
Proof.
  unfold folder. induction s as [|c s IH]; [reflexivity|]. cbn [before_slash]. rewrite IH. clear IH.
  cbn [String.index String.prefix]. fold slash. unfold slash.
  destruct (Ascii.eqb_spec c "/"%char) as [->|N].
  - destruct (ascii_dec "/"%char "/"%char) as [_|X]; [|congruence]. destruct s; reflexivity.
  - destruct (ascii_dec "/"%char c) as [X|_]; [congruence|]. destruct (String.index 0 "/" s); reflexivity.
Qed.
Lemma folder_split : forall s a, folder s = Some a <->
  ~ In "/"%char (list_ascii_of_string a) /\ exists r, s = (a ++ "/" ++ r)%string.
Proof.
  intros s a. rewrite <- before_folder. revert a. induction s as [|c s IH]; intros a.
  - split; [discriminate|]. intros (_ & r & E). destruct a; discriminate E.
  - cbn [before_slash]. destruct (Ascii.eqb_spec c slash) as [->|N].
    + split.
      * intros E. injection E as <-. split; [intros []|]. exists s. reflexivity.
      * intros (Hn & r & E). destruct a as [|d a]; [reflexivity|]. injection E as <- _. exfalso. apply Hn. left. reflexivity.
    + split.
      * intros E. destruct (before_slash s) as [b|]; [|discriminate E]. injection E as <-.
        destruct (proj1 (IH b) eq_refl) as (Hn & r & ->). split; [intros [X|X]; [exact (N X)|exact (Hn X)]|]. exists r. reflexivity.
      * intros (Hn & r & E). destruct a as [|d a]; [injection E as E _; contradiction (N E)|].
        injection E as <- E. rewrite (proj2 (IH a)); [reflexivity|]. split; [intros X; apply Hn; right; exact X|]. exists r. exact E.
Qed.

Section Gen.
Context {S : Type} (fs : fs_ops S).

Definition lift {A} (a : A) (x : outcome derror unit * S) : dres S A :=
  match x with (Ok _, s) => (Ok a, s) | (Err e, s) => (Err e, s) | (Panic, s) => (Panic, s) end.

Lemma run_app : forall a b s, run_steps fs s (a ++ b) =
  match run_steps fs s a with (Ok _, s') => run_steps fs s' b | r => r end.
Proof.
  induction a as [|x a IH]; intros b s; [reflexivity|]. cbn [app run_steps]. destruct x as [o|e|]; try reflexivity.
  destruct (fop_do fs s o); [apply IH|reflexivity].
Qed.

Lemma file_write_steps : forall f dir s,
  file_write fs s f dir =
  lift (if worth_writing (fi_data f) then Some (join dir (fi_name f)) else None)
       (run_steps fs s (if worth_writing (fi_data f) then map SOp (file_ops dir f) else [])).
Proof.
  intros f dir s. unfold file_write, worth_writing. destruct (Nat.ltb 1 (String.length (fi_data f))); [|reflexivity].
  unfold file_ops. rewrite <- before_folder. destruct (before_slash (fi_name f)) as [sub|]; cbn [map app run_steps fop_do dbind].
  - destruct (fs_create_dir fs s (join dir sub)) as [s1|]; cbn [io dbind]; [|reflexivity].
    destruct (fs_write fs s1 _ _); reflexivity.
  - destruct (fs_write fs s _ _); reflexivity.
Qed.

Lemma filter_chosen : forall fl l, filter (fun f => worth_writing (fi_data f)) (filter (selected fl) l) = filter (chosen fl) l.
Proof.
  intros fl l. induction l as [|f l IH]; [reflexivity|]. cbn [filter]. unfold chosen, selected in *.
  destruct (fi_ty f); cbn [andb];
  repeat match goal with |- context [match ?b with true => _ :: _ | false => _ end] => is_var b; destruct b end;
  match goal with
  | |- context [if ?b && worth_writing ?d then _ else _] => destruct b; cbn [andb filter]; [destruct (worth_writing d)|]; rewrite ?IH; reflexivity
  end.
Qed.

Lemma write_all_steps : forall dir l s,
  write_all fs s dir l =
  lift (map (fun f => join dir (fi_name f)) (filter (fun f => worth_writing (fi_data f)) l))
       (run_steps fs s (map SOp (flat_map (file_ops dir) (filter (fun f => worth_writing (fi_data f)) l)))).
Proof.
  intros dir l. induction l as [|f l IH]; intros s; [reflexivity|]. cbn [write_all]. rewrite file_write_steps.
  cbn [filter]. destruct (worth_writing (fi_data f)).
  - cbn [flat_map]. rewrite map_app, run_app. destruct (run_steps fs s (map SOp (file_ops dir f))) as [[u|e|] s']; cbn [lift dbind]; try reflexivity.
    rewrite IH. destruct (run_steps fs s' _) as [[u2|e|] s2]; reflexivity.
  - cbn [run_steps lift dbind]. rewrite IH. destruct (run_steps fs s _) as [[u2|e|] s2]; reflexivity.
Qed.

Context {P : Type} (T : generator P) (name_of : P -> string) (fl : flags) (out : string).

Lemma generate_one_steps : forall p s,
  generate_one fs T name_of fl out s p =
  lift (reported T name_of fl out p) (run_steps fs s (script T name_of fl out p)).
Proof.
  intros p s. unfold generate_one, script, reported. destruct (g_generate T p) as [files|e|]; cbn [gen_err dbind]; try reflexivity.
  cbn [run_steps fop_do]. fold (proto_dir name_of out p).
  assert (H : forall s1,
    dbind (write_all fs s1 (proto_dir name_of out p) (filter (selected fl) files))
      (fun paths s => dbind (gen_err s (g_umbrella T (name_of p) paths)) (fun umbrella s =>
        if Nat.ltb 1 (String.length umbrella)
        then io s (fs_write fs s (join (proto_dir name_of out p) "umbrella.rs") umbrella)
               {| pr_name := name_of p; pr_path := join (proto_dir name_of out p) "umbrella.rs" |}
        else (Ok {| pr_name := name_of p; pr_path := proto_dir name_of out p |}, s))) =
    lift {| pr_name := name_of p;
            pr_path := if worth_writing match g_umbrella T (name_of p) (written name_of fl out p files) with Ok u => u | _ => "" end
                       then join (proto_dir name_of out p) "umbrella.rs" else proto_dir name_of out p |}
      (run_steps fs s1 (map SOp (flat_map (file_ops (proto_dir name_of out p)) (filter (chosen fl) files)) ++
         match g_umbrella T (name_of p) (written name_of fl out p files) with
         | Ok u => if worth_writing u then [SOp (FWrite (join (proto_dir name_of out p) "umbrella.rs") u)] else []
         | Err e => [SFail (DGenerator e)]
         | Panic => [SPanic]
         end))).
  { intros s1. rewrite write_all_steps, filter_chosen, run_app. fold (written name_of fl out p files).
    destruct (run_steps fs s1 _) as [[u|e|] s2]; cbn [lift dbind]; try reflexivity.
    destruct (g_umbrella T (name_of p) (written name_of fl out p files)) as [um|e|]; cbn [gen_err dbind]; try reflexivity.
    unfold worth_writing. destruct (Nat.ltb 1 (String.length um)); [|reflexivity].
    cbn [run_steps fop_do]. destruct (fs_write fs s2 _ um); reflexivity. }
  destruct (fs_exists fs s (proto_dir name_of out p)); cbn [dbind].
  - apply H.
  - destruct (fs_create_dir fs s (proto_dir name_of out p)) as [s1|]; cbn [io dbind]; [apply H|reflexivity].
Qed.

Theorem generate_steps : forall ps s,
  generate fs T name_of fl out s ps =
  lift (map (reported T name_of fl out) ps) (run_steps fs s (flat_map (script T name_of fl out) ps)).
Proof.
  induction ps as [|p ps IH]; intros s; [reflexivity|]. cbn [generate flat_map]. rewrite generate_one_steps, run_app.
  destruct (run_steps fs s (script T name_of fl out p)) as [[u|e|] s1]; cbn [lift dbind]; try reflexivity.
  rewrite IH. destruct (run_steps fs s1 _) as [[u2|e|] s2]; reflexivity.
Qed.

(** ** Contents *)
Variable look : S -> string -> option entry.
Hypothesis Hst : stores fs look.

Lemma run_last : forall l s u s', run_steps fs s l = (Ok u, s') -> forall q, look s' q = last_at q l (look s q).
Proof.
  induction l as [|x l IH]; intros s u s' H q; [injection H as _ <-; reflexivity|].
  destruct x as [o|e|]; cbn [run_steps] in H; try discriminate.
  destruct (fop_do fs s o) as [s1|] eqn:E; [|discriminate]. rewrite (IH _ _ _ H q). destruct o as [p|p|p d]; cbn [fop_do] in E; cbn [last_at].
  - destruct (fs_exists fs s p) eqn:X.
    + injection E as <-. apply (st_exists fs look Hst) in X. destruct (String.eqb_spec q p) as [->|N]; [|reflexivity].
      destruct (look s p); [reflexivity|congruence].
    + destruct (st_create fs look Hst _ _ _ E) as [H1 H2]. rewrite H2. destruct (String.eqb_spec q p) as [->|N]; [|reflexivity].
      rewrite H1. reflexivity.
  - destruct (st_create fs look Hst _ _ _ E) as [H1 H2]. rewrite H2. reflexivity.
  - destruct (st_write fs look Hst _ _ _ _ E) as [H1 H2]. rewrite H2. reflexivity.
Qed.

Lemma last_kept : forall l q e, ~ In q (write_paths l) ->
  (forall p, In (SOp (FMake p)) l -> p <> q) -> last_at q l (Some e) = Some e.
Proof.
  induction l as [|x l IH]; intros q e Hw Hm; [reflexivity|].
  assert (Hw' : ~ In q (write_paths l)) by (intros X; apply Hw; unfold write_paths; cbn [flat_map]; apply in_or_app; right; exact X).
  assert (Hm' : forall p, In (SOp (FMake p)) l -> p <> q) by (intros p Hp; apply Hm; right; exact Hp).
  destruct x as [[p|p|p d]|e'|]; cbn [last_at]; try (apply IH; assumption).
  - destruct (String.eqb q p); apply IH; assumption.
  - destruct (String.eqb_spec q p) as [->|N]; [|apply IH; assumption]. exfalso. apply (Hm p); [left; reflexivity|reflexivity].
  - destruct (String.eqb_spec q p) as [->|N]; [|apply IH; assumption]. exfalso. apply Hw. left. reflexivity.
Qed.
Lemma run_make_after_write : forall l s u s' q d, run_steps fs s l = (Ok u, s') -> look s q = Some d ->
  forall p, In (SOp (FMake p)) l -> p <> q.
Proof.
  induction l as [|x l IH]; intros s u s' q d H Hq p Hin; [destruct Hin|].
  destruct x as [o|e|]; cbn [run_steps] in H; try discriminate.
  destruct (fop_do fs s o) as [s1|] eqn:E; [|discriminate].
  assert (Hn : exists d', look s1 q = Some d').
  { destruct o as [p0|p0|p0 d0]; cbn [fop_do] in E.
    - destruct (fs_exists fs s p0); [injection E as <-; exists d; exact Hq|].
      destruct (st_create fs look Hst _ _ _ E) as [_ H2]. rewrite H2. destruct (String.eqb q p0); eexists; [reflexivity|exact Hq].
    - destruct (st_create fs look Hst _ _ _ E) as [_ H2]. rewrite H2. destruct (String.eqb q p0); eexists; [reflexivity|exact Hq].
    - destruct (st_write fs look Hst _ _ _ _ E) as [_ H2]. rewrite H2. destruct (String.eqb q p0); eexists; [reflexivity|exact Hq]. }
  destruct Hn as [d' Hn]. destruct Hin as [Hx|Hin].
  - injection Hx as ->. cbn [fop_do] in E. destruct (st_create fs look Hst _ _ _ E) as [H1 _]. congruence.
  - apply (IH _ _ _ _ _ H Hn _ Hin).
Qed.
Lemma run_written : forall l s u s' q d, run_steps fs s l = (Ok u, s') -> NoDup (write_paths l) ->
  In (SOp (FWrite q d)) l -> look s' q = Some (EFile d).
Proof.
  induction l as [|x l IH]; intros s u s' q d H Hnd Hin; [destruct Hin|].
  pose proof H as H0. destruct x as [o|e|]; cbn [run_steps] in H; try discriminate.
  destruct (fop_do fs s o) as [s1|] eqn:E; [|discriminate].
  assert (Hnd' : NoDup (write_paths l)).
  { unfold write_paths in *. cbn [flat_map] in Hnd. destruct o; cbn in Hnd; try exact Hnd. inversion Hnd; assumption. }
  destruct Hin as [Hx|Hin].
  - injection Hx as ->. cbn [fop_do] in E. destruct (st_write fs look Hst _ _ _ _ E) as [_ H2].
    assert (Hq : look s1 q = Some (EFile d)) by (rewrite H2, String.eqb_refl; reflexivity).
    rewrite (run_last _ _ _ _ H q), Hq. apply last_kept.
    + unfold write_paths in *. cbn in Hnd. inversion Hnd; assumption.
    + apply (run_make_after_write _ _ _ _ _ _ H Hq).
  - apply (IH _ _ _ _ _ H Hnd' Hin).
Qed.

(** What every run, successful or not, leaves behind. *)
Lemma run_exact : forall l s r s', run_steps fs s l = (r, s') ->
  exists before after, l = (before ++ after)%list /\ (forall q, look s' q = last_at q before (look s q)) /\
    (Forall (fun x => exists o, x = SOp o) before) /\
    match r, after with
    | Ok _, [] => True
    | Err e, SFail e' :: _ => e = e'
    | Err e, SOp o :: _ => e = DIo /\ fop_do fs s' o = None
    | Panic, SPanic :: _ => True
    | _, _ => False
    end.
Proof.
  induction l as [|x l IH]; intros s r s' H; cbn [run_steps] in H.
  - injection H as <- <-. exists [], []. repeat split. constructor.
  - destruct x as [o|e|].
    + destruct (fop_do fs s o) as [s1|] eqn:E.
      * destruct (IH _ _ _ H) as (before & after & -> & Hl & Hf & Hr). exists (SOp o :: before), after.
        split; [reflexivity|]. split; [|split; [constructor; [eexists; reflexivity|exact Hf]|exact Hr]].
        intros q. rewrite Hl. assert (H1 : run_steps fs s [SOp o] = (Ok tt, s1)) by (cbn [run_steps]; rewrite E; reflexivity).
        pose proof (run_last _ _ _ _ H1 q) as K. rewrite K. destruct o; reflexivity.
      * injection H as <- <-. exists [], (SOp o :: l). repeat split; [constructor|exact E].
    + injection H as <- <-. exists [], (SFail e :: l). repeat split. constructor.
    + injection H as <- <-. exists [], (SPanic :: l). repeat split. constructor.
Qed.
Theorem generate_exact : forall ps s res s',
  generate fs T name_of fl out s ps = (res, s') ->
  exists before after, flat_map (script T name_of fl out) ps = (before ++ after)%list /\
    (forall q, look s' q = last_at q before (look s q)) /\
    match res, after with
    | Ok l, [] => l = map (reported T name_of fl out) ps
    | Err e, SFail e' :: _ => e = e'
    | Err e, SOp o :: _ => e = DIo /\ fop_do fs s' o = None
    | Panic, SPanic :: _ => True
    | _, _ => False
    end.
Proof.
  intros ps s res s' H. rewrite generate_steps in H.
  destruct (run_steps fs s (flat_map (script T name_of fl out) ps)) as [r s1] eqn:E.
  destruct (run_exact _ _ _ _ E) as (before & after & He & Hl & _ & Hr).
  exists before, after. destruct r as [u|e|]; cbn [lift] in H; injection H as <- <-; (split; [exact He|split; [exact Hl|]]); try exact Hr.
  destruct after as [|[]]; try contradiction. reflexivity.
Qed.
Theorem generate_contents : forall ps s res s',
  generate fs T name_of fl out s ps = (Ok res, s') ->
  NoDup (write_paths (flat_map (script T name_of fl out) ps)) ->
  res = map (reported T name_of fl out) ps /\
  (forall p files f, In p ps -> g_generate T p = Ok files -> In f files ->
     enabled fl (fi_ty f) -> (1 < String.length (fi_data f))%nat ->
     look s' (join (join out (name_of p)) (fi_name f)) = Some (EFile (fi_data f))) /\
  (forall p files u, In p ps -> g_generate T p = Ok files ->
     g_umbrella T (name_of p) (written name_of fl out p files) = Ok u -> (1 < String.length u)%nat ->
     look s' (join (join out (name_of p)) "umbrella.rs") = Some (EFile u)) /\
  (forall q, (forall p files, In p ps -> g_generate T p = Ok files ->
                q <> join out (name_of p) /\ q <> join (join out (name_of p)) "umbrella.rs" /\
                forall f, In f files -> chosen fl f = true ->
                  q <> join (join out (name_of p)) (fi_name f) /\
                  forall sub, folder (fi_name f) = Some sub -> q <> join (join out (name_of p)) sub) ->
     look s' q = look s q).
Proof.
  intros ps s res s' H Hnd. rewrite generate_steps in H.
  destruct (run_steps fs s (flat_map (script T name_of fl out) ps)) as [[u|e|] s1] eqn:E; cbn [lift] in H; try discriminate.
  injection H as <- <-. split; [reflexivity|]. split; [|split].
  - intros p files f Hp Hg Hf He Hl. apply (run_written _ _ _ _ _ _ E Hnd). apply in_flat_map. exists p. split; [exact Hp|].
    unfold script. rewrite Hg. right. apply in_or_app. left. apply in_map_iff.
    exists (FWrite (join (proto_dir name_of out p) (fi_name f)) (fi_data f)). split; [reflexivity|].
    apply in_flat_map. exists f. split.
    + apply filter_In. split; [exact Hf|]. unfold chosen. apply andb_true_intro. split.
      * unfold enabled in He. destruct (fi_ty f); exact He.
      * apply Nat.ltb_lt. exact Hl.
    + unfold file_ops. apply in_or_app. right. left. reflexivity.
  - intros p files um Hp Hg Hu Hl. apply (run_written _ _ _ _ _ _ E Hnd). apply in_flat_map. exists p. split; [exact Hp|].
    unfold script. rewrite Hg. right. apply in_or_app. right. rewrite Hu.
    unfold worth_writing. apply Nat.ltb_lt in Hl. rewrite Hl. left. reflexivity.
  - intros q Hq. rewrite (run_last _ _ _ _ E q).
    assert (G : forall x, In x (flat_map (script T name_of fl out) ps) -> match x with SOp (FEnsure r) | SOp (FMake r) | SOp (FWrite r _) => q <> r | _ => True end).
    { intros x Hx. apply in_flat_map in Hx. destruct Hx as [p [Hp Hx]]. unfold script in Hx.
      destruct (g_generate T p) as [files|e|] eqn:Hg.
      - destruct (Hq p files Hp Hg) as [Q1 [Q2 Q3]]. destruct Hx as [<- | Hx]; [exact Q1|].
        apply in_app_or in Hx. destruct Hx as [Hx|Hx].
        + apply in_map_iff in Hx. destruct Hx as [o [<- Ho]]. apply in_flat_map in Ho. destruct Ho as [f [Hf Ho]].
          apply filter_In in Hf. destruct Hf as [Hf Hc]. destruct (Q3 f Hf Hc) as [Q4 Q5].
          unfold file_ops in Ho. destruct (folder (fi_name f)) as [sub|] eqn:Eb.
          * destruct Ho as [<- | [<- | []]]; [apply (Q5 sub eq_refl)|exact Q4].
          * destruct Ho as [<- | []]. exact Q4.
        + destruct (g_umbrella T (name_of p) (written name_of fl out p files)) as [um|e|];
            [destruct (worth_writing um); [|destruct Hx]|..]; destruct Hx as [<- | []]; [exact Q2|exact I|exact I].
      - destruct Hx as [<- | []]. exact I.
      - destruct Hx as [<- | []]. exact I. }
    generalize (look s q) as b. revert G. generalize (flat_map (script T name_of fl out) ps) as l.
    clear. induction l as [|x l IH]; intros G b; [reflexivity|].
    assert (Gx := G x (or_introl eq_refl)). assert (Gl : forall y, In y l -> match y with SOp (FEnsure r) | SOp (FMake r) | SOp (FWrite r _) => q <> r | _ => True end).
    { intros y Hy. apply G. right. exact Hy. }
    destruct x as [[r|r|r d]|e|]; cbn [last_at]; try (apply IH; exact Gl);
      (destruct (String.eqb_spec q r); [congruence|apply IH; exact Gl]).
Qed.
End Gen.

Lemma mem_stores : stores mem_fs mem_look.
Proof.
  split.
  - intros s p. cbn. destruct (mem_look s p); split; congruence.
  - intros s p s' H. cbn in H. destruct (mem_look s p) eqn:E; [discriminate|]. injection H as <-. split; [reflexivity|].
    intros q. reflexivity.
  - intros s p d s' H. cbn in H. destruct (mem_look s p) as [[|d']|] eqn:E; [discriminate| |]; injection H as <-;
      (split; [congruence|intros q; reflexivity]).
Qed.

(** ** The umbrella of the Rust generator *)
Lemma umbrella_text : forall show name files,
  umbrella_rust show name files =
  "pub mod " ++ name ++ " {" ++ lf ++
  String.concat "" (map (fun f => "include!(" ++ show f ++ ");" ++ lf) files) ++ "}" ++ lf.
Proof.
  intros show name files. unfold umbrella_rust. fold lf.
  assert (Hc : forall x l, String.concat "" (x :: l) = x ++ String.concat "" l).
  { intros x l. destruct l; cbn [String.concat]; [rewrite sapp_nil|]; reflexivity. }
  assert (H : forall files code, fold_left (fun code file => code ++ "include!(" ++ show file ++ ");" ++ lf) files code
              = code ++ String.concat "" (map (fun f => "include!(" ++ show f ++ ");" ++ lf) files)).
  { clear files. induction files as [|f files IH]; intros code.
    - cbn [fold_left map String.concat]. rewrite sapp_nil. reflexivity.
    - cbn [fold_left map]. rewrite IH, Hc, !sapp_assoc. reflexivity. }
  rewrite H, !sapp_assoc. reflexivity.
Qed.
