(** Specification of the names in the generated Rust text (C73, C74).

    - the names that lines declare: methods, types, constants, members;
    - the names expected from a description;
    - the reading statements as instructions on local variables, with their text. *)

From Coq Require Import Arith NArith Ascii String List Bool.
From Verif Require Import Base Schema Codec Compiler Access Runtime Gen Template SpecTemplate Driver GenText SpecGen SpecCode.
Import ListNotations.
Local Open Scope string_scope.

(** ** Names in the text *)

(** Letters, digits and the underscore. *)
Definition word_char (c : ascii) : bool :=
  let n := N_of_ascii c in
  ((48 <=? n) && (n <=? 57) || (65 <=? n) && (n <=? 90) || (97 <=? n) && (n <=? 122) || (n =? 95))%N.
Fixpoint plain (s : string) : Prop :=
  match s with EmptyString => True | String c r => word_char c = true /\ plain r end.
(** The longest word at the start of a text. *)
Fixpoint word (s : string) : string :=
  match s with
  | EmptyString => EmptyString
  | String c r => if word_char c then String c (word r) else EmptyString
  end.
(** What follows a prefix. *)
Fixpoint after (p s : string) : option string :=
  match p, s with
  | EmptyString, _ => Some s
  | String a p', String b s' => if Ascii.eqb a b then after p' s' else None
  | _, _ => None
  end.
(** The words that follow a prefix at the start of a line. *)
Definition named_after (prefix : string) (l : list string) : list string :=
  flat_map (fun x => match after prefix x with Some r => [word r] | None => [] end) l.

(** Methods of the generated types. *)
Definition methods := named_after "    pub fn ".
(** Public members of a structure. *)
Definition public_members := named_after "    pub ".
(** Types declared by a line: structures, enumerations, type synonyms and the types
    made by [generate_array_wrapper!] (runtime/src/message/macros.rs). *)
Definition types (l : list string) : list string :=
  flat_map (fun x => named_after "pub struct " [x] ++ named_after "pub enum " [x] ++ named_after "pub type " [x] ++
                     named_after "bp3d_proto::generate_array_wrapper!(" [x])%list l.
Definition constants := named_after "pub const ".

(** Words that Rust (edition 2021) does not take as names. *)
Definition keywords : list string :=
  ["as"; "async"; "await"; "break"; "const"; "continue"; "crate"; "dyn"; "else"; "enum"; "extern"; "false"; "fn"; "for";
   "if"; "impl"; "in"; "let"; "loop"; "match"; "mod"; "move"; "mut"; "pub"; "ref"; "return"; "self"; "Self"; "static";
   "struct"; "super"; "trait"; "true"; "type"; "unsafe"; "use"; "where"; "while"].

(** ** Structures *)

Definition is_scalar (f : field) : Prop := match f with FFixed _ => True | _ => False end.
(** A scalar has a raw and a converted getter and setter; an array or a nested
    structure has a getter and one that allows changes. *)
Definition getter_names (f : field) : list string :=
  let n := field_name f in
  match f with FFixed _ => ["get_raw_" ++ n; "get_" ++ n] | _ => ["get_" ++ n] end.
Definition setter_names (f : field) : list string :=
  let n := field_name f in
  match f with FFixed _ => ["set_raw_" ++ n; "set_" ++ n] | _ => ["get_" ++ n ++ "_mut"] end.
Definition method_names (s : structure) : list string :=
  (["new"; "new_on_stack"; "to_ref"; "to_mut"] ++ flat_map getter_names (s_fields s) ++ flat_map setter_names (s_fields s))%list.

(** No two fields have one name; there is no field [raw_x] beside a scalar [x], no
    field [x_mut] beside an array or nested structure [x], and no scalar [x_mut] beside
    an array or nested structure [raw_x]. *)
Definition no_clash (fs : list field) : Prop :=
  NoDup (map field_name fs) /\
  (forall f g, In f fs -> In g fs -> is_scalar f -> field_name g <> "raw_" ++ field_name f) /\
  (forall f g, In f fs -> In g fs -> ~ is_scalar f -> field_name g <> field_name f ++ "_mut") /\
  (forall f g, In f fs -> In g fs -> is_scalar f -> ~ is_scalar g -> "raw_" ++ field_name f <> field_name g ++ "_mut").

(** ** Unions *)

Definition has_item (c : ucase) : Prop := uc_item c <> None.
(** Two cases that both have an item, or both have none, differ in their names even
    if upper and lower case letters are taken for the same. *)
Definition cases_differ (l : list ucase) : Prop :=
  forall i j c d, nth_error l i = Some c -> nth_error l j = Some d -> i <> j -> (has_item c <-> has_item d) ->
    to_ascii_lowercase (uc_name c) <> to_ascii_lowercase (uc_name d).

(** ** Types of a protocol *)

(** A list or array gives a type named after the message and the member, which
    starts with a capital. *)
Definition list_types (x : message) : list string :=
  flat_map (fun f => match mf_ty f with
                     | TArray _ _ | TList _ _ => [m_name x ++ capital (mf_name f)]
                     | _ => []
                     end) (m_fields x).
Definition type_names (p : protocol) : list string :=
  (flat_map (fun x => m_name x :: list_types x) (p_messages p) ++
   map (fun x => (m_name x ++ "Offsets")%string) (p_messages p) ++
   map s_name (p_structs p) ++ map e_name (p_enums p) ++ map u_name (p_unions p))%list.
(** All lines of a generated module. *)
Definition module_lines (fm : formats) (emb : N -> bool) (p : protocol) : list string :=
  let path := type_path_get (p_type_path_by_name p) in
  (flat_map (message_lines path) (p_messages p) ++
   flat_map (from_slice_lines path emb) (p_messages p) ++
   flat_map (write_to_lines path emb) (p_messages p) ++
   flat_map (offsets_lines path emb) (p_messages p) ++
   flat_map (structure_lines path (fm_f64 fm) (to_upper (fm_casing fm))) (p_structs p) ++
   flat_map (fun e => enum_lines (e_name e) (e_variants e)) (p_enums p) ++
   flat_map (union_lines path) (p_unions p))%list.

(** All names of a protocol consist of letters, digits and underscores. *)
Definition plain_message (x : message) : Prop := plain (m_name x) /\ Forall (fun f => plain (mf_name f)) (m_fields x).
Definition plain_structure (s : structure) : Prop := plain (s_name s) /\ Forall (fun f => plain (field_name f)) (s_fields s).
Definition plain_union (u : union_) : Prop := plain (u_name u) /\ Forall (fun c => plain (uc_name c)) (u_cases u).
Definition plain_names (p : protocol) : Prop :=
  Forall plain_message (p_messages p) /\ Forall plain_structure (p_structs p) /\
  Forall (fun e => plain (e_name e)) (p_enums p) /\ Forall plain_union (p_unions p).

(** ** Local variables *)

(** What a line of a reading function does. *)
Inductive instr :=
| ICall (dst : string) (with_offsets : bool) (t : ity) (on : option string)
| IStart (member : string)
| IAdvance (src : string)
| IEnd (member : string)
| IInner (dst src : string)
| IInnerPair (dst dst2 src : string)
| INested (member src : string).
Definition instr_text (i : instr) : string :=
  match i with
  | ICall dst w t on =>
      "        let " ++ dst ++ " = " ++ read_text t ++
      (if w then "::from_slice_with_offsets(" else "::from_slice(") ++ "&slice[byte_offset..]" ++ on_text "" on ++ ")?;"
  | IStart n => "        offsets." ++ n ++ ".start = byte_offset;"
  | IAdvance src => "        byte_offset += " ++ src ++ ".size();"
  | IEnd n => "        offsets." ++ n ++ ".end = byte_offset;"
  | IInner dst src => "        let " ++ dst ++ " = " ++ src ++ ".into_inner();"
  | IInnerPair dst dst2 src => "        let (" ++ dst ++ ", " ++ dst2 ++ ") = " ++ src ++ ".into_inner();"
  | INested n src => "        offsets." ++ n ++ " = " ++ src ++ ";"
  end.
Definition read_code (s : stmt) : list instr :=
  let n := st_name s in
  [ICall (n ++ "_msg") false (st_type s) (st_on s); IAdvance (n ++ "_msg"); IInner n (n ++ "_msg")].
Definition offset_code (s : stmt) : list instr :=
  let n := st_name s in
  ([ICall (n ++ "_msg") (has_offsets (st_type s)) (st_type s) (st_on s);
    IStart n; IAdvance (n ++ "_msg"); IEnd n] ++
   (if has_offsets (st_type s)
    then [IInnerPair n (n ++ "_offsets") (n ++ "_msg"); INested (n ++ "_offsets") (n ++ "_offsets")]
    else [IInner n (n ++ "_msg")]))%list.

(** A local variable holds the input, an offset, the outcome of a read, a value, or the
    offsets inside a value; a variable that was moved holds nothing. *)
Inductive local :=
| LSlice (b : bytes)
| LUsize (n : N)
| LRead (size : N) (v : value) (nested : option offsets)
| LValue (v : value)
| LNested (o : option offsets)
| LMoved.
(** Innermost binding first. *)
Definition locals := list (string * local).
(** [x = v] changes the innermost binding. *)
Fixpoint assign (n : string) (x : local) (l : locals) : locals :=
  match l with
  | [] => []
  | (k, y) :: r => if String.eqb n k then (k, x) :: r else (k, y) :: assign n x r
  end.
(** Members of the local [offsets]. *)
Inductive omember :=
| MField (start end_ : N)
| MNested (o : option offsets).
Definition omembers := list (string * omember).
Fixpoint oassign (n : string) (x : omember) (l : omembers) : omembers :=
  match l with
  | [] => []
  | (k, y) :: r => if String.eqb n k then (k, x) :: r else (k, y) :: oassign n x r
  end.

(** Running: [None] if the line uses a variable or member that does not exist, was moved
    or has another type, which rustc rejects. *)
Definition stuck {A} : option (rres A) := None.
Definition omap_res {A B} (x : option (rres A)) (f : A -> option (rres B)) : option (rres B) :=
  match x with
  | None => None
  | Some (Ok a) => f a
  | Some (Err e) => Some (Err e)
  | Some Panic => Some Panic
  end.

Section Locals.
Variables (m : mode) (embedded : N -> bool).

(** Only the innermost binding of the discriminant's variable counts. *)
Definition call_on (vars : locals) (on : option string) : option env :=
  match on with
  | None => Some []
  | Some n => match sget n vars with Some (LValue v) => Some [(n, v)] | _ => None end
  end.
(** [T::from_slice] or [T::from_slice_with_offsets]. *)
Definition call (with_offsets : bool) (vars : env) (on : option string) (t : ity) : reader (value * option offsets) :=
  if with_offsets then run_type_offsets m embedded vars on t
  else rmap (fun v => (v, None)) (run_type m embedded vars on t).
Definition step (vars : locals) (offs : omembers) (i : instr) : option (rres (locals * omembers)) :=
  match i with
  | ICall dst w t on =>
      match sget "slice" vars, sget "byte_offset" vars, call_on vars on with
      | Some (LSlice b), Some (LUsize n), Some env =>
          Some (d <- slice_from b n ;;
                '(size, (v, nested)) <- call w env on t d ;;
                Ok ((dst, LRead size v nested) :: vars, offs))
      | _, _, _ => None
      end
  | IAdvance src =>
      match sget src vars, sget "byte_offset" vars with
      | Some (LRead size _ _), Some (LUsize n) =>
          Some (n' <- uadd m n size ;; Ok (assign "byte_offset" (LUsize n') vars, offs))
      | _, _ => None
      end
  | IInner dst src =>
      match sget src vars with
      | Some (LRead _ v None) => Some (Ok ((dst, LValue v) :: assign src LMoved vars, offs))
      | _ => None
      end
  | IInnerPair dst dst2 src =>
      match sget src vars with
      | Some (LRead _ v nested) =>
          Some (Ok ((dst2, LNested nested) :: (dst, LValue v) :: assign src LMoved vars, offs))
      | _ => None
      end
  | IStart n =>
      match sget "offsets" vars, sget "byte_offset" vars, sget n offs with
      | None, Some (LUsize b), Some (MField _ e) => Some (Ok (vars, oassign n (MField b e) offs))
      | _, _, _ => None
      end
  | IEnd n =>
      match sget "offsets" vars, sget "byte_offset" vars, sget n offs with
      | None, Some (LUsize b), Some (MField s _) => Some (Ok (vars, oassign n (MField s b) offs))
      | _, _, _ => None
      end
  | INested n src =>
      match sget "offsets" vars, sget src vars, sget n offs with
      | None, Some (LNested o), Some (MNested _) => Some (Ok (vars, oassign n (MNested o) offs))
      | _, _, _ => None
      end
  end.
Fixpoint run_code (vars : locals) (offs : omembers) (l : list instr) : option (rres (locals * omembers)) :=
  match l with
  | [] => Some (Ok (vars, offs))
  | i :: r => omap_res (step vars offs i) (fun st => run_code (fst st) (snd st) r)
  end.
(** The literal [data]. *)
Fixpoint literal (vars : locals) (names : list string) : option (list value) :=
  match names with
  | [] => Some []
  | n :: r => match sget n vars, literal vars r with Some (LValue v), Some vs => Some (v :: vs) | _, _ => None end
  end.
Definition start_locals (b : bytes) : locals := [("byte_offset", LUsize 0); ("slice", LSlice b)].
(** [from_slice] of a message. *)
Definition run_from_slice (b : bytes) (l : list stmt) : option (rres (N * value)) :=
  omap_res (run_code (start_locals b) [] (flat_map read_code l)) (fun st =>
    match sget "byte_offset" (fst st), literal (fst st) (map st_name l) with
    | Some (LUsize n), Some vs => Some (Ok (n, VMsg vs))
    | _, _ => None
    end).
(** [from_slice_with_offsets]: [offsets] starts as its default, and its members are
    those of [offset_field_lines]. The variable [offsets] is the separate component
    of the state; a local of that name hides it. *)
Definition default_offsets (l : list stmt) : omembers :=
  flat_map (fun s => (st_name s, MField 0 0) ::
                     if has_offsets (st_type s) then [(st_name s ++ "_offsets", MNested None)] else []) l.
Fixpoint offsets_value (offs : omembers) (l : list stmt) : option (list (N * N * option offsets)) :=
  match l with
  | [] => Some []
  | s :: r =>
      match sget (st_name s) offs, offsets_value offs r with
      | Some (MField a e), Some os =>
          if has_offsets (st_type s) then
            match sget (st_name s ++ "_offsets") offs with
            | Some (MNested o) => Some ((a, e, o) :: os)
            | _ => None
            end
          else Some ((a, e, None) :: os)
      | _, _ => None
      end
  end.
Definition run_from_slice_with_offsets (b : bytes) (l : list stmt) : option (rres (N * (value * offsets))) :=
  omap_res (run_code (start_locals b) (default_offsets l) (flat_map offset_code l)) (fun st =>
    match sget "offsets" (fst st), sget "byte_offset" (fst st), literal (fst st) (map st_name l),
          offsets_value (snd st) l with
    | None, Some (LUsize n), Some vs, Some os => Some (Ok (n, (VMsg vs, MkOffsets os)))
    | _, _, _, _ => None
    end).
End Locals.

(** Member names that do not hide another variable of the reading function: distinct,
    none of them [slice] or [byte_offset], and no member [x_msg] beside [x]. *)
Definition no_hiding (x : message) : Prop :=
  let names := map mf_name (m_fields x) in
  NoDup names /\ ~ In "slice" names /\ ~ In "byte_offset" names /\
  forall n, In n names -> ~ In (n ++ "_msg") names.
(** The same with offsets: none of them [offsets], and no member [x_offsets] beside a
    message [x]. *)
Definition no_hiding_offsets (x : message) : Prop :=
  let names := map mf_name (m_fields x) in
  no_hiding x /\ ~ In "offsets" names /\ forall n, In n names -> ~ In (n ++ "_offsets") names.

(** ** Parameters *)

(** Members whose type mentions a message or a union, which is used with a
    lifetime. *)
Definition mentions_message (f : mfield) (y : message) : Prop :=
  mf_ty f = TRef (RMessage y) \/ exists t, mf_ty f = TList t y.
Definition mentions_union (f : mfield) (u : union_) : Prop := exists on i, mf_ty f = TUnion u on i.
Definition scalar_member (f : mfield) : Prop := exists t, mf_ty f = TFixed t.
(** [text] uses the type [name] with these parameters, as a whole word. *)
Definition used_with (text name params : string) : Prop :=
  exists a b, text = a ++ name ++ params ++ b.
