(** Model of compiler/src/gen/template.rs: the template engine of the code
    generator.

    Text is a byte string ([string]); [&str] values are byte strings that passed
    [from_utf8]. Rust's [str::to_uppercase] and [str::to_lowercase] (full Unicode
    case mapping) belong to the standard library and are parameters ([casing]).
    Hash maps are association lists, newest entry first. *)

From Coq Require Import Arith NArith Ascii String List Bool.
From Verif Require Import Base Utf8 Compiler.
Import ListNotations.
Local Open Scope string_scope.

(** template.rs:34-43 *)
Inductive terror :=
| TInvalidUTF8
| TInvalidPop
| TNoFragment
| TFragmentNotFound (s : string)
| TVariableNotFound (s : string)
| TFunctionNotFound (s : string).

Definition tres := outcome terror.

(** [str::to_uppercase] and [str::to_lowercase]. *)
Record casing := { to_upper : string -> string; to_lower : string -> string }.

Definition bytes_of_string (s : string) : bytes := map N_of_ascii (list_ascii_of_string s).

(** [fn(&str) -> Cow<str>]; it may panic. *)
Definition tfun := string -> tres string.

(** template.rs:45-54 *)
Inductive component :=
| CConstant (s : string)
| CVariable (name : string) (function : option tfun)
| CNewLine.

(** template.rs:130-132 *)
Definition function_map := smap tfun.

(** [u8::to_ascii_uppercase] *)
Definition ascii_upper (c : ascii) : ascii :=
  let n := N_of_ascii c in
  if in_range 97 122 n then ascii_of_N (n - 32) else c.

(** template.rs:134-143. [value[..1]] and [value[1..]] panic unless byte 1 starts
    a character or is the end. *)
Definition capitalize (value : string) : tres string :=
  match value with
  | EmptyString => Ok value
  | String c r =>
      if in_range 65 90 (N_of_ascii c) then Ok value
      else match r with
           | EmptyString => Ok (String (ascii_upper c) r)
           | String d _ =>
               if is_cont (N_of_ascii d) then Panic else Ok (String (ascii_upper c) r)
           end
  end.

(** template.rs:154-164, 166-169 *)
Definition default_functions (u : casing) : function_map :=
  sinsert "capitalize" capitalize
    (sinsert "lower" (fun v => Ok (to_lower u v))
       (sinsert "upper" (fun v => Ok (to_upper u v)) [])).

(** [variable.find(":")], with the two slices of template.rs:64-65. *)
Fixpoint split_colon (s : string) : option (string * string) :=
  match s with
  | EmptyString => None
  | String c r =>
      if Ascii.eqb c ":"%char then Some (EmptyString, r)
      else match split_colon r with
           | Some (a, b) => Some (String c a, b)
           | None => None
           end
  end.

(** template.rs:57-73 *)
Definition parse_variable (functions : function_map) (variable : string) : tres component :=
  match split_colon variable with
  | None => Ok (CVariable variable None)
  | Some (name, function_name) =>
      f <- ok_or (sget function_name functions) (TFunctionNotFound function_name) ;;
      Ok (CVariable name (Some f))
  end.

(** template.rs:81-94; [data] is passed separately. *)
Record token := { tk_start : nat; tk_end : nat }.
Definition token_new : token := {| tk_start := 0; tk_end := 0 |}.
(** template.rs:96-98 *)
Definition has_next (data : string) (t : token) : bool := Nat.ltb (tk_end t) (String.length data).
(** template.rs:100-102, 104-110 *)
Definition cur (data : string) (t : token) : option ascii := String.get (tk_end t) data.
Definition next (data : string) (t : token) : option ascii := String.get (tk_end t + 1) data.
(** template.rs:125-127 *)
Definition inc (t : token) : token := {| tk_start := tk_start t; tk_end := tk_end t + 1 |}.

(** template.rs:112-123 *)
Definition pop (data : string) (t : token) : tres (option string * token) :=
  let t' := {| tk_start := tk_end t + 1; tk_end := tk_end t |} in
  if Nat.ltb (tk_start t) (tk_end t) then
    let s := substring (tk_start t) (tk_end t - tk_start t) data in
    if from_utf8 (bytes_of_string s) then Ok (Some s, t') else Err TInvalidUTF8
  else Ok (None, t').

Definition is_char (c : ascii) (o : option ascii) : bool :=
  match o with Some d => Ascii.eqb c d | None => false end.

(** [if let Some(component) = ...map(Component::Constant) { content.push(component) }] *)
Definition push_constant (content : list component) (o : option string) : list component :=
  match o with Some s => (content ++ [CConstant s])%list | None => content end.

(** template.rs:217-236: one turn of the loop. *)
Definition scan_step (functions : function_map) (data : string) (content : list component) (t : token)
  : tres (list component * token) :=
  if is_char "{"%char (cur data t) then
    let t := if is_char "{"%char (next data t) then inc t else t in
    '(o, t) <- pop data t ;;
    Ok (push_constant content o, inc t)
  else if is_char "}"%char (cur data t) then
    if is_char "}"%char (next data t) then
      '(o, t) <- pop data (inc t) ;;
      Ok (push_constant content o, inc t)
    else
      '(o, t) <- pop data t ;;
      match o with
      | Some v => c <- parse_variable functions v ;; Ok ((content ++ [c])%list, inc t)
      | None => Ok (content, inc t)
      end
  else Ok (content, inc t).

(** template.rs:216-237. Every turn advances [end], so [String.length data] turns
    are enough; running out of them is a panic. *)
Fixpoint scan_loop (fuel : nat) (functions : function_map) (data : string)
  (content : list component) (t : token) : tres (list component * token) :=
  if has_next data t then
    match fuel with
    | O => Panic
    | S k => '(content, t) <- scan_step functions data content t ;; scan_loop k functions data content t
    end
  else Ok (content, t).

(** template.rs:215-241: the components of one line, appended to [content]. *)
Definition scan_line (functions : function_map) (data : string) (content : list component)
  : tres (list component) :=
  '(content, t) <- scan_loop (String.length data) functions data content token_new ;;
  '(o, _) <- pop data t ;;
  Ok (push_constant content o ++ [CNewLine])%list.

(** [data.split(|v| *v == b'\n')] (template.rs:189): always at least one part. *)
Definition newline : ascii := ascii_of_nat 10.
Definition carriage_return : ascii := ascii_of_nat 13.
Fixpoint split_lines (s : string) : string * list string :=
  match s with
  | EmptyString => (EmptyString, [])
  | String c r =>
      let '(h, t) := split_lines r in
      if Ascii.eqb c newline then (EmptyString, h :: t) else (String c h, t)
  end.

(** template.rs:194-198: one trailing carriage return is removed. *)
Fixpoint strip_cr (s : string) : string :=
  match s with
  | EmptyString => EmptyString
  | String c EmptyString => if Ascii.eqb c carriage_return then EmptyString else s
  | String c r => String c (strip_cr r)
  end.

(** template.rs:76-79 and the locals [fragments], [frag_stack] (187-188); the top
    of the stack is the head of the list. *)
Record fragment := { fr_name : string; fr_content : list component }.
Definition cstate := (smap fragment * list fragment)%type.

Definition push_directive := "#fragment push ".
Definition pop_directive := "#fragment pop".

(** [line.starts_with(..)] *)
Definition starts_with (p line : string) : bool := String.prefix p line.

(** template.rs:209 *)
Definition combined_name (stack : list fragment) : string :=
  String.concat "." (map fr_name (rev stack)).

(** template.rs:190-243: one line. *)
Definition compile_line (functions : function_map) (st : cstate) (line : string) : tres cstate :=
  let '(fragments, stack) := st in
  match line with
  | EmptyString => Ok st
  | _ =>
      let line := strip_cr line in
      if starts_with push_directive line then
        let name := substring 15 (String.length line - 15) line in
        if from_utf8 (bytes_of_string name)
        then Ok (fragments, {| fr_name := name; fr_content := [] |} :: stack)
        else Err TInvalidUTF8
      else if starts_with pop_directive line then
        match stack with
        | [] => Err TInvalidPop
        | f :: rest => Ok (sinsert (combined_name stack) f fragments, rest)
        end
      else
        match stack with
        | [] => Err TNoFragment
        | f :: rest =>
            content <- scan_line functions line (fr_content f) ;;
            Ok (fragments, {| fr_name := fr_name f; fr_content := content |} :: rest)
        end
  end.

(** template.rs:176-179; [t_variables] is shared by template and scopes. *)
Definition variables := smap string.
Record template := { t_fragments : smap fragment; t_variables : variables }.

(** template.rs:186-248 *)
Definition compile_with_function_map (functions : function_map) (data : string) : tres template :=
  let '(h, t) := split_lines data in
  '(fragments, _) <- foldM (compile_line functions) ([], []) (h :: t) ;;
  Ok {| t_fragments := fragments; t_variables := [] |}.

(** template.rs:182-184 *)
Definition compile (u : casing) (data : string) : tres template :=
  compile_with_function_map (default_functions u) data.

(** template.rs:250-258; [var_d] first formats the value. *)
Definition t_var (t : template) (key value : string) : template :=
  {| t_fragments := t_fragments t; t_variables := sinsert key value (t_variables t) |}.

(** template.rs:268-280 *)
Definition render_component (vars : variables) (c : component) : tres string :=
  match c with
  | CConstant v => Ok v
  | CVariable name function =>
      v <- ok_or (sget name vars) (TVariableNotFound name) ;;
      match function with
      | Some f => f v
      | None => Ok v
      end
  | CNewLine => Ok (String newline EmptyString)
  end.

(** [iter().map(..).collect::<Result<Vec<_>, _>>()?.join("")] *)
Fixpoint concatM {A} (f : A -> tres string) (l : list A) : tres string :=
  match l with
  | [] => Ok EmptyString
  | x :: r => s <- f x ;; s' <- concatM f r ;; Ok (s ++ s')
  end.

(** template.rs:263-266 *)
Definition full_name (path name : string) : string :=
  match path with EmptyString => name | _ => path ++ "." ++ name end.

(** template.rs:260-284 *)
Definition render_internal (fragments : smap fragment) (vars : variables) (path : string)
  (names : list string) : tres string :=
  concatM (fun name =>
    f <- ok_or (sget (full_name path name) fragments) (TFragmentNotFound (full_name path name)) ;;
    concatM (render_component vars) (fr_content f)) names.

(** template.rs:293-295 *)
Definition t_render (t : template) (path : string) (names : list string) : tres string :=
  render_internal (t_fragments t) (t_variables t) path names.

(** template.rs:298-302; [sc_fragments] stands for the borrowed template. *)
Record scope := { sc_fragments : smap fragment; sc_variables : variables }.
(** template.rs:286-291 *)
Definition t_scope (t : template) : scope :=
  {| sc_fragments := t_fragments t; sc_variables := t_variables t |}.
(** template.rs:305-313 *)
Definition s_var (s : scope) (key value : string) : scope :=
  {| sc_fragments := sc_fragments s; sc_variables := sinsert key value (sc_variables s) |}.
(** template.rs:321-323 *)
Definition s_render (s : scope) (path : string) (names : list string) : tres string :=
  render_internal (sc_fragments s) (sc_variables s) path names.
(** template.rs:315-319 *)
Definition s_render_to_var (s : scope) (path : string) (names : list string) (key : string) : tres scope :=
  str <- s_render s path names ;; Ok (s_var s key str).
