(** Sample templates, and refutations for the template engine. *)

From Coq Require Import Arith NArith Ascii String List Bool Lia.
From Verif Require Import Base Utf8 SpecUtf8 Utf8Thms Compiler Template SpecTemplate TemplateThms TemplateErrors.
Import ListNotations.
Local Open Scope string_scope.

Fixpoint map_string (f : ascii -> ascii) (s : string) : string :=
  match s with EmptyString => EmptyString | String c r => String (f c) (map_string f r) end.
Definition ascii_lower (c : ascii) : ascii :=
  let n := N_of_ascii c in if ((65 <=? n) && (n <=? 90))%N then ascii_of_N (n + 32) else c.
Definition ascii_casing : casing := {| to_upper := map_string ascii_upper; to_lower := map_string ascii_lower |}.

(** Two nested fragments, with escaped braces, a variable and a function call. *)
Definition sample_tree : list item :=
  [ IBlank;
    IFragment "a" [ ILine [PText "x "; POpen; PVar "v"; PText " "; PClose];
                    IFragment "b" [ ILine [PCall "v" "upper"] ];
                    ILine [PText "y"] ];
    IFragment "a" [] ].
Definition sample_tree2 : list item :=
  [ IFragment "a" [ ILine [PText "x"]; IFragment "b" [ ILine [PCall "v" "upper"; PCall "v" "rot13"] ] ] ].

Ltac solve_absent := repeat (apply absent_cons; split; [discriminate|]); apply absent_nil.
Ltac solve_utf8 := apply utf8_of_b; reflexivity.
Lemma final_cr_b : forall s, (match rev (list_ascii_of_string s) with c :: _ => negb (Ascii.eqb c carriage_return) | [] => true end) = true ->
  no_final_cr s.
Proof.
  intros s H r ->. revert H.
  assert (E : list_ascii_of_string (r ++ String carriage_return "") = (list_ascii_of_string r ++ [carriage_return])%list).
  { induction r as [|c r IH]; [reflexivity|]. cbn [append list_ascii_of_string app]. rewrite IH. reflexivity. }
  rewrite E, rev_app_distr. discriminate.
Qed.
Ltac solve_cr := apply final_cr_b; reflexivity.
Ltac solve_piece := cbn [piece_ok]; repeat split; first [discriminate | solve_absent | solve_utf8].
Ltac solve_sep := cbn [separated is_variable]; repeat split; intros [? [? ?]]; first [contradiction | discriminate].
Ltac solve_line := constructor; split; [discriminate|]; split; [repeat (constructor; [solve [exact I | solve_piece]|]); constructor|];
  split; [solve_sep|]; split; [split; reflexivity|solve_cr].
Ltac solve_name := split; [solve_absent|]; split; [solve_utf8|solve_cr].
Ltac solve_item := first [ apply io_blank | solve_line | apply io_fragment; [solve_name|repeat (apply Forall_cons; [solve_item|]); apply Forall_nil] ].
Ltac solve_tops := repeat (apply Forall_cons; [split; [solve_item|exact I]|]); apply Forall_nil.

Lemma sample_ok : Forall top_ok sample_tree.
Proof. unfold sample_tree. solve_tops. Qed.
Lemma sample2_ok : Forall top_ok sample_tree2.
Proof. unfold sample_tree2. solve_tops. Qed.
Lemma sample_known : Forall (item_known (default_functions ascii_casing)) sample_tree.
Proof. apply items_known. reflexivity. Qed.

Definition render_text (s : string) (vars : variables) (path : string) (names : list string) : tres string :=
  t <- compile ascii_casing s ;; render_internal (t_fragments t) vars path names.

Lemma empty_line_refuted : exists t,
  compile ascii_casing (String.concat lf ["#fragment push text"; doubled ""; "#fragment pop"]) = Ok t /\
  forall vars, render_internal (t_fragments t) vars "" ["text"] = Ok "".
Proof. eexists. split; [vm_compute; reflexivity|]. intros vars. reflexivity. Qed.

Lemma close_after_variable_refuted :
  line_text [PVar "name"; PClose] = "{name}}}" /\
  render_text (String.concat lf ["#fragment push text"; line_text [PVar "name"; PClose]; "#fragment pop"])
    [("name", "v")] "" ["text"] = Ok ("name}" ++ lf) /\
  line_meaning (default_functions ascii_casing) [("name", "v")] [PVar "name"; PClose] = Ok ("v}" ++ lf).
Proof. repeat split; vm_compute; reflexivity. Qed.

(** U+00E9 is the two bytes C3 A9. *)
Lemma capitalize_refuted :
  let e := String (ascii_of_N 195) (String (ascii_of_N 169) "") in
  utf8 e /\
  render_text (String.concat lf ["#fragment push text"; "{name:capitalize}"; "#fragment pop"])
    [("name", e)] "" ["text"] = Panic.
Proof. split; [solve_utf8|vm_compute; reflexivity]. Qed.

Lemma unclosed_refuted : exists t,
  compile ascii_casing (String.concat lf ["#fragment push a"; "x"]) = Ok t /\
  forall vars, render_internal (t_fragments t) vars "" ["a"] = Err (TFragmentNotFound "a").
Proof. eexists. split; [vm_compute; reflexivity|]. intros vars. reflexivity. Qed.

Definition crlf : string := String carriage_return lf.
Lemma crlf_refuted :
  render_text (String.concat lf ["#fragment push a"; "x"; "#fragment pop"; ""; "#fragment push b"; "#fragment pop"]) [] "" ["a"]
    = Ok ("x" ++ lf) /\
  compile ascii_casing (String.concat crlf ["#fragment push a"; "x"; "#fragment pop"; ""; "#fragment push b"; "#fragment pop"])
    = Err TNoFragment.
Proof. split; vm_compute; reflexivity. Qed.
