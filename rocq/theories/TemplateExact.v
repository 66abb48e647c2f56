(** What a line of a template that is no directive renders to, whatever it ends with, for C42. *)

From Coq Require Import Arith NArith Ascii String List Bool Lia ZifyBool ZifyN ZifyNat.
From Verif Require Import Base Utf8 Compiler Template SpecUtf8 SpecTemplate Utf8Thms TemplateThms TemplateErrors.
Import ListNotations.
Local Open Scope string_scope.

Definition cr : string := String carriage_return "".
Lemma strip_cr_final : forall r, strip_cr (r ++ cr) = r.
Proof. intro r. rewrite strip_cr_app by discriminate. cbn. apply sapp_nil. Qed.
Lemma doubled_app : forall a b, doubled (a ++ b) = doubled a ++ doubled b.
Proof. induction a as [|c a IH]; intro b; [reflexivity|]. cbn [append doubled]. rewrite IH. destruct (_ || _); reflexivity. Qed.
Lemma prefix_longer : forall p r s, String.prefix p (r ++ s) = false -> String.prefix p r = false.
Proof.
  induction p as [|c p IH]; intros r s H; [destruct (r ++ s); discriminate|]. destruct r as [|d r]; [reflexivity|].
  cbn [append prefix] in *. destruct (ascii_dec c d); [|reflexivity]. eapply IH; exact H.
Qed.
Lemma bytes_app : forall a b, bytes_of_string (a ++ b) = (bytes_of_string a ++ bytes_of_string b)%list.
Proof. induction a as [|c a IH]; intro b; [reflexivity|]. cbn. f_equal. apply IH. Qed.

Theorem line_exact : forall u s r, one_line s -> utf8 s -> not_directive s ->
  (s = r ++ cr \/ no_final_cr s /\ s = r) ->
  exists t, compile u (String.concat lf ["#fragment push text"; doubled s; "#fragment pop"]) = Ok t /\
    forall vars, render_internal (t_fragments t) vars "" ["text"] = Ok (if String.eqb s "" then "" else r ++ lf).
Proof.
  intros u s r Hl Hu Hd Hr. set (F := default_functions u).
  assert (Hdl : one_line (doubled s)).
  { clear - Hl. induction s as [|c s IH]; [apply absent_nil|]. apply absent_cons in Hl. destruct Hl as [Hc Hl]. cbn [doubled].
    destruct (_ || _); repeat (apply absent_cons; split; [exact Hc|]); apply IH, Hl. }
  assert (Hlines : lines_of (String.concat lf ["#fragment push text"; doubled s; "#fragment pop"]) = ["#fragment push text"; doubled s; "#fragment pop"]).
  { apply lines_concat; [discriminate|]. constructor; [|constructor; [exact Hdl|constructor; [|constructor]]];
      repeat (apply absent_cons; split; [discriminate|]); apply absent_nil. }
  assert (Hpush : compile_line F ([], []) "#fragment push text" = Ok ([], [{| fr_name := "text"; fr_content := [] |}])) by reflexivity.
  unfold compile. change (default_functions u) with F. rewrite compile_text, Hlines. cbn [foldM]. rewrite Hpush. cbn [bind].
  destruct (String.eqb_spec s "") as [-> | Hne].
  { eexists. split; [cbn; reflexivity|]. intros vars. reflexivity. }
  assert (Hstrip : strip_cr (doubled s) = doubled r).
  { destruct Hr as [-> | [Hc ->]]; [|apply strip_cr_id, doubled_cr, Hc].
    rewrite doubled_app. change (doubled cr) with cr. apply strip_cr_final. }
  assert (Hrl : one_line r /\ utf8 r /\ not_directive r).
  { destruct Hr as [-> | [_ ->]]; [|auto]. apply absent_app in Hl. split; [apply Hl|]. split.
    - unfold utf8 in *. rewrite bytes_app in Hu. change (bytes_of_string cr) with [13%N] in Hu. apply (utf8_split 13 [] _) in Hu; [apply Hu|lia].
    - destruct Hd as [H1 H2]. split; eapply prefix_longer; eassumption. }
  destruct Hrl as [Hrl [Hru [Hd1 Hd2]]].
  destruct (scan_line_ok F (pieces_of r) (pieces_ok r Hrl Hru) (novar_separated _ (pieces_novar r)) (pieces_known_F F r) []) as [content' [H1 H2]].
  rewrite pieces_text in H1.
  assert (Hcomp : compile_line F ([], [{| fr_name := "text"; fr_content := [] |}]) (doubled s) = Ok ([], [{| fr_name := "text"; fr_content := content' |}])).
  { unfold compile_line. rewrite Hstrip. unfold starts_with, push_directive, pop_directive.
    rewrite !doubled_prefix by (split; repeat (apply absent_cons; split; [discriminate|]); apply absent_nil).
    rewrite Hd1, Hd2. cbn [fr_content fr_name]. rewrite H1. cbn [bind].
    destruct (doubled s) eqn:E; [|reflexivity]. exfalso. destruct s as [|c s]; [congruence|]. cbn [doubled] in E. destruct (_ || _); discriminate. }
  rewrite Hcomp. cbn [bind]. rewrite pop_line. cbn [bind]. eexists. split; [reflexivity|]. intros vars. cbn [t_fragments].
  specialize (H2 vars). unfold line_meaning in H2. rewrite pieces_meaning in H2.
  unfold render_internal. cbn [concatM]. change (sget (full_name "" "text") _) with (Some {| fr_name := "text"; fr_content := content' |}).
  cbn [ok_or bind fr_content]. rewrite H2. cbn. rewrite sapp_nil. reflexivity.
Qed.
