(** Specification of the template language (C42-C45): the syntax of a template as
    a tree, the text that denotes it, and its meaning, without reference to how
    the engine scans text.

    - Outside fragments only blank lines are allowed.
    - In a line, [{{] and [}}] stand for braces, [{name}] for the value of a
      variable and [{name:function}] for a function applied to it. *)

From Coq Require Import Arith NArith Ascii String List Bool.
From Verif Require Import Base SpecUtf8 Compiler Template.
Import ListNotations.
Local Open Scope string_scope.

Inductive piece :=
| PText (s : string)
| POpen
| PClose
| PVar (name : string)
| PCall (name function : string).

Inductive item :=
| IBlank
| ILine (l : list piece)
| IFragment (name : string) (body : list item).

(** ** The text *)

Definition piece_text (p : piece) : string :=
  match p with
  | PText s => s
  | POpen => "{{"
  | PClose => "}}"
  | PVar n => "{" ++ n ++ "}"
  | PCall n f => "{" ++ n ++ ":" ++ f ++ "}"
  end.
Definition line_text (l : list piece) : string := String.concat "" (map piece_text l).

Fixpoint item_lines (i : item) : list string :=
  match i with
  | IBlank => [""]
  | ILine l => [line_text l]
  | IFragment n b => ([("#fragment push " ++ n)%string] ++ flat_map item_lines b ++ ["#fragment pop"])%list
  end.
Definition items_lines (l : list item) : list string := flat_map item_lines l.
(** Lines joined by line feeds. *)
Definition lf : string := String newline EmptyString.
Definition template_text (l : list item) : string := String.concat lf (items_lines l).

(** ** Which trees have a text that can be read back *)

Definition absent (c : ascii) (s : string) : Prop := ~ In c (list_ascii_of_string s).
Definition utf8 (s : string) : Prop := is_utf8 (bytes_of_string s).
Definition no_braces (s : string) : Prop := absent "{" s /\ absent "}" s.
Definition one_line (s : string) : Prop := absent newline s.
Definition no_final_cr (s : string) : Prop := forall r, s <> r ++ String carriage_return EmptyString.

Definition piece_ok (p : piece) : Prop :=
  match p with
  | PText s => s <> "" /\ no_braces s /\ one_line s /\ utf8 s
  | POpen | PClose => True
  | PVar n => n <> "" /\ no_braces n /\ one_line n /\ absent ":" n /\ utf8 n
  | PCall n f => no_braces n /\ one_line n /\ absent ":" n /\ utf8 n /\
                 no_braces f /\ one_line f /\ utf8 f
  end.
(** A variable is not directly followed by [}}]: the engine would take the first
    two of the three closing braces for an escaped one. *)
Definition is_variable (p : piece) : Prop :=
  match p with PVar _ | PCall _ _ => True | _ => False end.
Fixpoint separated (l : list piece) : Prop :=
  match l with
  | [] => True
  | p :: r => ~ (is_variable p /\ exists r', r = PClose :: r') /\ separated r
  end.
Definition not_directive (s : string) : Prop :=
  String.prefix "#fragment push " s = false /\ String.prefix "#fragment pop" s = false.
Definition line_ok (l : list piece) : Prop :=
  l <> [] /\ Forall piece_ok l /\ separated l /\
  not_directive (line_text l) /\ no_final_cr (line_text l).
Definition name_ok (n : string) : Prop := one_line n /\ utf8 n /\ no_final_cr n.

Inductive item_ok : item -> Prop :=
| io_blank : item_ok IBlank
| io_line : forall l, line_ok l -> item_ok (ILine l)
| io_fragment : forall n b, name_ok n -> Forall item_ok b -> item_ok (IFragment n b).
(** Allowed outside every fragment. *)
Definition top_ok (i : item) : Prop :=
  item_ok i /\ match i with ILine _ => False | _ => True end.
(** All functions called are known. *)
Definition piece_known (functions : function_map) (p : piece) : Prop :=
  match p with PCall _ f => exists g, sget f functions = Some g | _ => True end.
Inductive item_known (functions : function_map) : item -> Prop :=
| ik_blank : item_known functions IBlank
| ik_line : forall l, Forall (piece_known functions) l -> item_known functions (ILine l)
| ik_fragment : forall n b, Forall (item_known functions) b -> item_known functions (IFragment n b).

(** ** The meaning *)

(** Text of two results one after the other; the first failure wins. *)
Definition followed_by (x y : tres string) : tres string :=
  match x, y with
  | Ok a, Ok b => Ok (a ++ b)
  | Ok _, _ => y
  | _, _ => x
  end.
Fixpoint in_sequence (l : list (tres string)) : tres string :=
  match l with [] => Ok "" | x :: r => followed_by x (in_sequence r) end.

Definition value_of (vars : variables) (n : string) : tres string :=
  match sget n vars with Some v => Ok v | None => Err (TVariableNotFound n) end.
Definition piece_meaning (functions : function_map) (vars : variables) (p : piece) : tres string :=
  match p with
  | PText s => Ok s
  | POpen => Ok "{"
  | PClose => Ok "}"
  | PVar n => value_of vars n
  | PCall n f =>
      match value_of vars n, sget f functions with
      | Ok v, Some g => g v
      | Ok _, None => Err (TFunctionNotFound f)
      | e, _ => e
      end
  end.
Definition line_meaning functions vars (l : list piece) : tres string :=
  followed_by (in_sequence (map (piece_meaning functions vars) l)) (Ok lf).
Definition lines_meaning functions vars (ls : list (list piece)) : tres string :=
  in_sequence (map (line_meaning functions vars) ls).

(** Lines that belong to a fragment itself. *)
Definition own_line (i : item) : list (list piece) :=
  match i with ILine l => [l] | _ => [] end.
Definition own_lines (b : list item) : list (list piece) := flat_map own_line b.

(** Fragments of a tree with their path, in the order in which they are closed. *)
Fixpoint closed (path : list string) (i : item) : list (list string * list (list piece)) :=
  match i with
  | IFragment n b =>
      (flat_map (closed (path ++ [n])) b ++ [((path ++ [n])%list, own_lines b)])%list
  | _ => []
  end.
Definition all_closed (l : list item) := flat_map (closed []) l.
Definition dotted (path : list string) : string := String.concat "." path.

(** A name denotes the last closed fragment with that dotted path. *)
Fixpoint last_named (q : string) (l : list (list string * list (list piece))) : option (list (list piece)) :=
  match l with
  | [] => None
  | (p, c) :: r =>
      match last_named q r with
      | Some x => Some x
      | None => if String.eqb (dotted p) q then Some c else None
      end
  end.
Definition qualified (path name : string) : string :=
  if String.eqb path "" then name else path ++ "." ++ name.
Definition fragment_meaning functions vars (l : list item) (q : string) : tres string :=
  match last_named q (all_closed l) with
  | Some c => lines_meaning functions vars c
  | None => Err (TFragmentNotFound q)
  end.
Definition render_meaning functions vars (l : list item) (path : string) (names : list string) : tres string :=
  in_sequence (map (fun n => fragment_meaning functions vars l (qualified path n)) names).

(** ** Doubling braces *)
Fixpoint doubled (s : string) : string :=
  match s with
  | EmptyString => EmptyString
  | String c r =>
      if Ascii.eqb c "{" || Ascii.eqb c "}" then String c (String c (doubled r))
      else String c (doubled r)
  end.

(** ** Histories of operations on a template and its scopes (C44) *)
Inductive op :=
| OTemplateVar (key value : string)            (* template.var *)
| OScope                                       (* template.scope(), the next scope *)
| OClone (i : nat)                             (* clone of scope i, the next scope *)
| OScopeVar (i : nat) (key value : string)     (* scope i . var *)
| ORenderTo (i : nat) (path : string) (names : list string) (key : string).

Definition set_nth {A} (i : nat) (x : A) (l : list A) : list A :=
  (firstn i l ++ match skipn i l with [] => [] | _ :: r => x :: r end)%list.
Definition op_step (st : template * list scope) (o : op) : template * list scope :=
  let '(t, ss) := st in
  match o with
  | OTemplateVar k v => (t_var t k v, ss)
  | OScope => (t, (ss ++ [t_scope t])%list)
  | OClone i => match nth_error ss i with Some s => (t, (ss ++ [s])%list) | None => st end
  | OScopeVar i k v => match nth_error ss i with Some s => (t, set_nth i (s_var s k v) ss) | None => st end
  | ORenderTo i p ns k =>
      match nth_error ss i with
      | Some s => match s_render_to_var s p ns k with Ok s' => (t, set_nth i s' ss) | _ => st end
      | None => st
      end
  end.
Definition op_run (st : template * list scope) (l : list op) := fold_left op_step l st.

(** Operations that may change what the template, or scope [i], renders. *)
Definition on_template (o : op) : Prop := match o with OTemplateVar _ _ => True | _ => False end.
Definition on_scope (i : nat) (o : op) : Prop :=
  match o with OScopeVar j _ _ | ORenderTo j _ _ _ => j = i | _ => False end.

(** Functions called by a tree, in the order of its text. *)
Definition piece_calls (p : piece) : list string := match p with PCall _ f => [f] | _ => [] end.
Fixpoint item_calls (i : item) : list string :=
  match i with
  | IBlank => []
  | ILine l => flat_map piece_calls l
  | IFragment _ b => flat_map item_calls b
  end.
Definition calls (l : list item) : list string := flat_map item_calls l.

(** The capital of a letter a to z; other characters stay as they are. *)
Definition upper_letter (c : ascii) : ascii :=
  match find (fun p => Ascii.eqb c (fst p))
          (combine (list_ascii_of_string "abcdefghijklmnopqrstuvwxyz") (list_ascii_of_string "ABCDEFGHIJKLMNOPQRSTUVWXYZ")) with
  | Some p => snd p
  | None => c
  end.

(** All bytes are ASCII. *)
Definition ascii_only (s : string) : Prop :=
  forall c, In c (list_ascii_of_string s) -> (N_of_ascii c < 128)%N.

(** What a template and its scopes mean after a history: each has its own
    variables, and a scope starts with those of the template. *)
Definition env_step (F : function_map) (l : list item) (st : variables * list variables) (o : op)
  : variables * list variables :=
  let '(t, ss) := st in
  match o with
  | OTemplateVar k v => (sinsert k v t, ss)
  | OScope => (t, (ss ++ [t])%list)
  | OClone i => match nth_error ss i with Some s => (t, (ss ++ [s])%list) | None => st end
  | OScopeVar i k v => match nth_error ss i with Some s => (t, set_nth i (sinsert k v s) ss) | None => st end
  | ORenderTo i p ns k =>
      match nth_error ss i with
      | Some s => match render_meaning F s l p ns with Ok r => (t, set_nth i (sinsert k r s) ss) | _ => st end
      | None => st
      end
  end.
Definition env_run F l (st : variables * list variables) (ops : list op) := fold_left (env_step F l) ops st.
