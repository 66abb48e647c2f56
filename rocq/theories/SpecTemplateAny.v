(** Specification of what any text means as a template (C43): the pieces of a line, read
    from left to right, and the lines of a template with the fragments that are open. *)

From Coq Require Import Arith NArith Ascii String List Bool.
From Verif Require Import Base SpecUtf8 Compiler Template SpecTemplate.
Import ListNotations.
Local Open Scope string_scope.

(** ** One line *)

(** The text collected so far, if any, as a text and as a variable. The first colon in a
    variable starts the name of a function. *)
Definition as_text (s : string) : list piece := if String.eqb s "" then [] else [PText s].
Definition as_variable (s : string) : list piece :=
  if String.eqb s "" then []
  else match String.index 0 ":" s with
       | Some k => [PCall (substring 0 k s) (substring (k + 1) (String.length s - (k + 1)) s)]
       | None => [PVar s]
       end.
(** A doubled brace ends the text before it, which it belongs to. A single opening brace ends
    the text before it; whatever stands before a single closing brace is a variable. *)
Fixpoint pieces (before s : string) : list piece :=
  match s with
  | EmptyString => as_text before
  | String c r =>
      if Ascii.eqb c "{" then
        match r with
        | String d r' => if Ascii.eqb d "{" then PText (before ++ "{") :: pieces "" r' else (as_text before ++ pieces "" r)%list
        | EmptyString => as_text before
        end
      else if Ascii.eqb c "}" then
        match r with
        | String d r' => if Ascii.eqb d "}" then PText (before ++ "}") :: pieces "" r' else (as_variable before ++ pieces "" r)%list
        | EmptyString => as_variable before
        end
      else pieces (before ++ String c "") r
  end.

(** The bytes of a piece, which must be UTF-8. *)
Definition source (p : piece) : string :=
  match p with
  | PText s | PVar s => s
  | PCall n f => n ++ ":" ++ f
  | POpen => "{"
  | PClose => "}"
  end.
Definition piece_fine (F : function_map) (p : piece) : Prop := utf8 (source p) /\ piece_known F p.
(** The first piece that is not fine decides on the error. *)
Inductive line_defect (F : function_map) : list piece -> terror -> Prop :=
| ld_utf8 : forall p r, ~ utf8 (source p) -> line_defect F (p :: r) TInvalidUTF8
| ld_function : forall n f r, utf8 (source (PCall n f)) -> sget f F = None ->
    line_defect F (PCall n f :: r) (TFunctionNotFound f)
| ld_later : forall p r e, piece_fine F p -> line_defect F r e -> line_defect F (p :: r) e.

(** ** All lines *)

(** One carriage return at the end does not count. *)
Definition without_cr (s : string) : string :=
  match rev (list_ascii_of_string s) with
  | c :: r => if Ascii.eqb c carriage_return then string_of_list_ascii (rev r) else s
  | [] => s
  end.

Definition own := list (list piece).
Definition and_closed (x : list string * own) (r : tres (list (list string * own))) : tres (list (list string * own)) :=
  match r with Ok l => Ok (x :: l) | _ => r end.

(** [template_reads F opened lines r]: with the fragments [opened] (the innermost first, with
    their names and own lines so far), [lines] give [r]: the fragments that are closed in
    them, with their path and own lines, or an error. *)
Inductive template_reads (F : function_map) : list (string * own) -> list string -> tres (list (list string * own)) -> Prop :=
| tr_end : forall opened, template_reads F opened [] (Ok [])
| tr_blank : forall opened l r, template_reads F opened l r -> template_reads F opened ("" :: l) r
| tr_push : forall opened s n l r, s <> "" -> without_cr s = "#fragment push " ++ n -> utf8 n ->
    template_reads F ((n, []) :: opened) l r -> template_reads F opened (s :: l) r
| tr_push_bad : forall opened s n l, s <> "" -> without_cr s = "#fragment push " ++ n -> ~ utf8 n ->
    template_reads F opened (s :: l) (Err TInvalidUTF8)
| tr_pop : forall n c opened s t l r, s <> "" -> without_cr s = "#fragment pop" ++ t ->
    template_reads F opened l r ->
    template_reads F ((n, c) :: opened) (s :: l) (and_closed ((rev (map fst opened) ++ [n])%list, c) r)
| tr_pop_bad : forall s t l, s <> "" -> without_cr s = "#fragment pop" ++ t -> template_reads F [] (s :: l) (Err TInvalidPop)
| tr_line : forall n c opened s l r, s <> "" -> not_directive (without_cr s) ->
    Forall (piece_fine F) (pieces "" (without_cr s)) ->
    template_reads F ((n, (c ++ [pieces "" (without_cr s)])%list) :: opened) l r ->
    template_reads F ((n, c) :: opened) (s :: l) r
| tr_line_bad : forall n c opened s l e, s <> "" -> not_directive (without_cr s) ->
    line_defect F (pieces "" (without_cr s)) e -> template_reads F ((n, c) :: opened) (s :: l) (Err e)
| tr_line_outside : forall s l, s <> "" -> not_directive (without_cr s) -> template_reads F [] (s :: l) (Err TNoFragment).

(** What the closed fragments render to. *)
Definition closed_meaning F vars (l : list (list string * own)) (path : string) (names : list string) : tres string :=
  in_sequence (map (fun n =>
    match last_named (qualified path n) l with
    | Some c => lines_meaning F vars c
    | None => Err (TFragmentNotFound (qualified path n))
    end) names).
