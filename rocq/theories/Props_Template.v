(** Property theorems C42-C45: the template engine. *)

From Coq Require Import Arith NArith Ascii String List Bool.
From Verif Require Import Base SpecUtf8 Compiler Template SpecTemplate SpecTemplateAny TemplateThms TemplateErrors TemplateExact TemplateRefute TemplateAny.
Import ListNotations.
Local Open Scope string_scope.

(** ** C42: literals *)

(** A non-empty line that is not a directive and does not end in a carriage
    return renders verbatim when its braces are doubled. *)
Theorem C42_literal_partial : forall u s,
  s <> "" -> one_line s -> utf8 s -> no_final_cr s -> not_directive s ->
  exists t, compile u (String.concat lf ["#fragment push text"; doubled s; "#fragment pop"]) = Ok t /\
    forall vars, render_internal (t_fragments t) vars "" ["text"] = Ok (s ++ lf).
Proof. exact literal_line. Qed.
Print Assumptions C42_literal_partial.

Example C42_nonvacuous : let s := "fn f() -> u8 { } }" in
  s <> "" /\ one_line s /\ utf8 s /\ no_final_cr s /\ not_directive s /\ doubled s = "fn f() -> u8 {{ }} }}".
Proof. repeat split; first [discriminate | solve_absent | solve_utf8 | solve_cr]. Qed.

(** What every line that is no directive renders to: itself without one carriage return at its end, and
    nothing for the empty line. So exactly the lines that are empty or end in a carriage return do not
    render verbatim. *)
Theorem C42_line_exact : forall u s r, one_line s -> utf8 s -> not_directive s ->
  (s = r ++ String carriage_return "" \/ no_final_cr s /\ s = r) ->
  exists t, compile u (String.concat lf ["#fragment push text"; doubled s; "#fragment pop"]) = Ok t /\
    forall vars, render_internal (t_fragments t) vars "" ["text"] = Ok (if String.eqb s "" then "" else r ++ lf).
Proof. exact line_exact. Qed.
Print Assumptions C42_line_exact.

Example C42_line_nonvacuous : let s := "let x = {}; " ++ String carriage_return "" in
  one_line s /\ utf8 s /\ not_directive s /\ doubled s = "let x = {{}}; " ++ String carriage_return "".
Proof. repeat split; first [discriminate | solve_absent | solve_utf8 | solve_cr | reflexivity]. Qed.

(** The empty line renders to nothing. *)
Theorem C42_empty_refuted : exists t,
  compile ascii_casing (String.concat lf ["#fragment push text"; doubled ""; "#fragment pop"]) = Ok t /\
  forall vars, render_internal (t_fragments t) vars "" ["text"] = Ok "".
Proof. exact empty_line_refuted. Qed.
Print Assumptions C42_empty_refuted.

(** ** C43: variables and functions *)

(** The rendering of every template is its meaning: values, functions applied,
    and the first missing fragment or variable reported. Only a variable directly
    followed by a doubled closing brace is excluded ([separated] in [line_ok]). *)
Theorem C43_meaning_partial : forall F l, Forall top_ok l -> Forall (item_known F) l ->
  exists t, compile_with_function_map F (template_text l) = Ok t /\ t_variables t = [] /\
    forall vars path names,
      render_internal (t_fragments t) vars path names = render_meaning F vars l path names.
Proof. exact template_meaning. Qed.
Print Assumptions C43_meaning_partial.

(** The first function that is not in the map is reported. *)
Theorem C43_unknown_function_partial : forall F l f, Forall top_ok l ->
  find (fun g => match sget g F with Some _ => false | None => true end) (calls l) = Some f ->
  compile_with_function_map F (template_text l) = Err (TFunctionNotFound f).
Proof. exact unknown_function. Qed.
Print Assumptions C43_unknown_function_partial.

(** Compiling any bytes gives a template or an error. *)
Theorem C43_compile_no_panic : forall F s, compile_with_function_map F s <> Panic.
Proof. exact compile_no_panic. Qed.
Print Assumptions C43_compile_no_panic.

(** Rendering never panics if all values are ASCII. *)
Theorem C43_render_no_panic : forall u s t vars path names,
  compile u s = Ok t -> (forall k v, sget k vars = Some v -> ascii_only v) ->
  render_internal (t_fragments t) vars path names <> Panic.
Proof. exact render_no_panic. Qed.
Print Assumptions C43_render_no_panic.

(** The functions known to a template are the conversions to upper and lower case of
    the standard library and [capitalize]. *)
Theorem C43_functions : forall u vars n v, sget n vars = Some v ->
  piece_meaning (default_functions u) vars (PCall n "upper") = Ok (to_upper u v) /\
  piece_meaning (default_functions u) vars (PCall n "lower") = Ok (to_lower u v) /\
  piece_meaning (default_functions u) vars (PCall n "capitalize") = capitalize v /\
  forall f, f <> "upper" -> f <> "lower" -> f <> "capitalize" -> sget f (default_functions u) = None.
Proof. exact default_functions_meaning. Qed.
Print Assumptions C43_functions.

(** What [capitalize] does to ASCII text. *)
Theorem C43_capitalize : forall c r, ascii_only (String c r) ->
  capitalize (String c r) = Ok (String (upper_letter c) r).
Proof. exact capitalize_value. Qed.
Print Assumptions C43_capitalize.

Example C43_nonvacuous :
  Forall top_ok sample_tree /\ Forall (item_known (default_functions ascii_casing)) sample_tree /\
  render_meaning (default_functions ascii_casing) [("v", "val")] sample_tree "a" ["b"] = Ok ("VAL" ++ lf) /\
  render_text (template_text sample_tree) [("v", "val")] "a" ["b"] = Ok ("VAL" ++ lf) /\
  render_text (template_text sample_tree) [] "a" ["b"] = Err (TVariableNotFound "v") /\
  render_text (template_text sample_tree) [] "a" ["c"] = Err (TFragmentNotFound "a.c") /\
  Forall top_ok sample_tree2 /\ calls sample_tree2 = ["upper"; "rot13"] /\
  compile ascii_casing (template_text sample_tree2) = Err (TFunctionNotFound "rot13") /\
  capitalize "value" = Ok "Value".
Proof.
  split; [exact sample_ok|]. split; [exact sample_known|].
  repeat split; try exact sample2_ok; vm_compute; reflexivity.
Qed.

(** A variable directly followed by a doubled closing brace. *)
Theorem C43_close_after_variable_refuted :
  line_text [PVar "name"; PClose] = "{name}}}" /\
  render_text (String.concat lf ["#fragment push text"; line_text [PVar "name"; PClose]; "#fragment pop"])
    [("name", "v")] "" ["text"] = Ok ("name}" ++ lf) /\
  line_meaning (default_functions ascii_casing) [("name", "v")] [PVar "name"; PClose] = Ok ("v}" ++ lf).
Proof. exact close_after_variable_refuted. Qed.
Print Assumptions C43_close_after_variable_refuted.

(** Beyond ASCII, capitalising panics on a value that starts with U+00E9. *)
Theorem C43_capitalize_panics :
  let e := String (ascii_of_N 195) (String (ascii_of_N 169) "") in
  utf8 e /\
  render_text (String.concat lf ["#fragment push text"; "{name:capitalize}"; "#fragment pop"])
    [("name", e)] "" ["text"] = Panic.
Proof. exact capitalize_refuted. Qed.
Print Assumptions C43_capitalize_panics.

(** Any text whatever, line by line: it compiles to the fragments that [template_reads] closes,
    which render to the meaning of their lines, or fails with the error it gives. *)
Theorem C43_exact : forall F ls r, ls <> [] -> Forall one_line ls -> template_reads F [] ls r ->
  match r with
  | Ok fragments => exists t, compile_with_function_map F (String.concat lf ls) = Ok t /\ t_variables t = [] /\
      forall vars path names, render_internal (t_fragments t) vars path names = closed_meaning F vars fragments path names
  | Err e => compile_with_function_map F (String.concat lf ls) = Err e
  | Panic => False
  end.
Proof. exact template_any. Qed.
Print Assumptions C43_exact.

(** Every text is such lines and is read. *)
Theorem C43_exact_total : forall F s, exists ls r, ls <> [] /\ Forall one_line ls /\ String.concat lf ls = s /\
  template_reads F [] ls r.
Proof. exact template_any_total. Qed.
Print Assumptions C43_exact_total.

Example C43_exact_nonvacuous :
  let F := default_functions ascii_casing in
  let cr := String carriage_return "" in
  pieces "" "x{n}}} {{y:upper}{z" = [PText "x"; PText "n}"; PText " {"; PCall "y" "upper"; PText "z"] /\
  template_reads F [] ["#fragment push a"; "x{n}}} {{y:upper}{z" ++ cr; cr; ""; "#fragment population"; "#fragment push a"]
    (Ok [(["a"], [[PText "x"; PText "n}"; PText " {"; PCall "y" "upper"; PText "z"]; []])]) /\
  template_reads F [] ["#fragment push a"; "{y:up}{n"] (Err (TFunctionNotFound "up")).
Proof. exact any_sample. Qed.

(** ** C44: scopes *)

(** Operations other than setting a variable of the template leave what it renders
    unchanged. *)
Theorem C44_template : forall ops t ss path names, (forall o, In o ops -> ~ on_template o) ->
  t_render (fst (op_run (t, ss) ops)) path names = t_render t path names.
Proof. intros ops t ss path names H. exact (f_equal (fun x => t_render x path names) (template_kept ops t ss H)). Qed.
Print Assumptions C44_template.

(** Operations that are not on a scope leave it unchanged. *)
Theorem C44_scope : forall ops t ss i s, nth_error ss i = Some s -> (forall o, In o ops -> ~ on_scope i o) ->
  nth_error (snd (op_run (t, ss) ops)) i = Some s.
Proof. exact scope_kept. Qed.
Print Assumptions C44_scope.

(** A new scope renders like its template. *)
Theorem C44_new_scope : forall t path names, s_render (t_scope t) path names = t_render t path names.
Proof. exact (fun t path names => eq_refl). Qed.
Print Assumptions C44_new_scope.

(** After any history, template and scopes render with exactly the variables set
    on them or inherited when the scope was made. *)
Theorem C44_history : forall F l t, Forall top_ok l -> Forall (item_known F) l ->
  compile_with_function_map F (template_text l) = Ok t ->
  forall ops vt vs, env_run F l ([], []) ops = (vt, vs) ->
  (forall path names, t_render (fst (op_run (t, []) ops)) path names = render_meaning F vt l path names) /\
  (forall i, match nth_error (snd (op_run (t, []) ops)) i, nth_error vs i with
             | Some s, Some v => forall path names, s_render s path names = render_meaning F v l path names
             | None, None => True
             | _, _ => False
             end).
Proof. exact history_meaning. Qed.
Print Assumptions C44_history.

Example C44_nonvacuous :
  env_run (default_functions ascii_casing) sample_tree ([], [])
    [OTemplateVar "v" "t"; OScope; OScopeVar 0 "v" "s"; OClone 0; ORenderTo 1 "a" ["b"] "v"; OScope] =
  ([("v", "t")], [[("v", "s"); ("v", "t")]; [("v", "S" ++ lf); ("v", "s"); ("v", "t")]; [("v", "t")]]).
Proof. vm_compute. reflexivity. Qed.

(** ** C45: nested fragments *)

(** The meaning of a template names each fragment by the dotted path of the open
    ones and gives it its own lines only. *)
Theorem C45_paths_partial : forall F l, Forall top_ok l -> Forall (item_known F) l ->
  exists t, compile_with_function_map F (template_text l) = Ok t /\
    forall vars q,
      render_internal (t_fragments t) vars "" [q] =
      match last_named q (all_closed l) with
      | Some own => lines_meaning F vars own
      | None => Err (TFragmentNotFound q)
      end.
Proof. exact fragment_paths. Qed.
Print Assumptions C45_paths_partial.

Example C45_nonvacuous :
  Forall top_ok sample_tree2 /\
  all_closed sample_tree =
    [(["a"; "b"], [[PCall "v" "upper"]]);
     (["a"], [[PText "x "; POpen; PVar "v"; PText " "; PClose]; [PText "y"]]);
     (["a"], [])] /\
  last_named "a.b" (all_closed sample_tree) = Some [[PCall "v" "upper"]].
Proof. split; [exact sample2_ok|]. split; reflexivity. Qed.

(** A pop without a push. *)
Theorem C45_unmatched_pop : forall F l r more, Forall top_ok l -> Forall (item_known F) l ->
  one_line r -> Forall one_line more ->
  compile_with_function_map F (String.concat lf (items_lines l ++ ("#fragment pop" ++ r)%string :: more)) = Err TInvalidPop.
Proof. exact unmatched_pop. Qed.
Print Assumptions C45_unmatched_pop.

(** A line outside fragments. *)
Theorem C45_line_outside : forall F l s more, Forall top_ok l -> Forall (item_known F) l ->
  s <> "" -> one_line s -> no_final_cr s -> not_directive s -> Forall one_line more ->
  compile_with_function_map F (String.concat lf (items_lines l ++ s :: more)) = Err TNoFragment.
Proof. exact line_outside. Qed.
Print Assumptions C45_line_outside.

Example C45_errors_nonvacuous :
  one_line "" /\ compile ascii_casing (String.concat lf (items_lines sample_tree ++ "#fragment pop" :: ["x"])) = Err TInvalidPop /\
  one_line "x" /\ no_final_cr "x" /\ not_directive "x" /\
  compile ascii_casing (String.concat lf (items_lines sample_tree ++ "x" :: ["#fragment pop"])) = Err TNoFragment.
Proof. repeat split; try solve_absent; try solve_cr; vm_compute; reflexivity. Qed.

(** A fragment that is not closed is dropped without an error. *)
Theorem C45_unclosed_refuted : exists t,
  compile ascii_casing (String.concat lf ["#fragment push a"; "x"]) = Ok t /\
  forall vars, render_internal (t_fragments t) vars "" ["a"] = Err (TFragmentNotFound "a").
Proof. exact unclosed_refuted. Qed.
Print Assumptions C45_unclosed_refuted.

(** With CRLF line ends a blank line between fragments is an error. *)
Theorem C45_crlf_refuted :
  render_text (String.concat lf ["#fragment push a"; "x"; "#fragment pop"; ""; "#fragment push b"; "#fragment pop"]) [] "" ["a"]
    = Ok ("x" ++ lf) /\
  compile ascii_casing (String.concat crlf ["#fragment push a"; "x"; "#fragment pop"; ""; "#fragment push b"; "#fragment pop"])
    = Err TNoFragment.
Proof. exact crlf_refuted. Qed.
Print Assumptions C45_crlf_refuted.
