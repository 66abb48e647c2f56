(** The generated messages and unions are the text of SpecCode.v. *)

From Coq Require Import Arith NArith Ascii String List Bool Lia.
From Verif Require Import Base Schema Codec Compiler Access Runtime Gen Template Templates SpecTemplate TemplateThms
  GenText SpecGen SpecCode GenThms.
Import ListNotations.
Local Open Scope string_scope.

Definition msg_frs (u : casing) := Eval vm_compute in frs u message_template.
(** [capitalize] stays folded. *)
Definition ext_frs_with (cap : tfun) (u : casing) := Eval vm_compute in
  match compile_with_function_map (sinsert "capitalize" cap
    (sinsert "lower" (fun v => Ok (to_lower u v)) (sinsert "upper" (fun v => Ok (to_upper u v)) []))) message_ext_template
  with Ok t => t_fragments t | _ => [] end.
Definition ext_frs := ext_frs_with capitalize.
Definition read_frs (u : casing) := Eval vm_compute in frs u message_from_slice_template.
Definition write_frs (u : casing) := Eval vm_compute in frs u message_write_template.
Definition offs_frs (u : casing) := Eval vm_compute in frs u message_offsets_template.
Definition union_frs (u : casing) := Eval vm_compute in frs u union_template.
Lemma compile_msg : forall u, compile u message_template = Ok {| t_fragments := msg_frs u; t_variables := [] |}.
Proof. intro u. vm_compute. reflexivity. Qed.
Lemma compile_ext : forall u, compile u message_ext_template = Ok {| t_fragments := ext_frs u; t_variables := [] |}.
Proof. intro u. vm_compute. reflexivity. Qed.
Lemma compile_read : forall u, compile u message_from_slice_template = Ok {| t_fragments := read_frs u; t_variables := [] |}.
Proof. intro u. vm_compute. reflexivity. Qed.
Lemma compile_write : forall u, compile u message_write_template = Ok {| t_fragments := write_frs u; t_variables := [] |}.
Proof. intro u. vm_compute. reflexivity. Qed.
Lemma compile_offs : forall u, compile u message_offsets_template = Ok {| t_fragments := offs_frs u; t_variables := [] |}.
Proof. intro u. vm_compute. reflexivity. Qed.
Lemma compile_union : forall u, compile u union_template = Ok {| t_fragments := union_frs u; t_variables := [] |}.
Proof. intro u. vm_compute. reflexivity. Qed.

Ltac GenThms.symbolic ::=
  cbv -[append show_usize rust_type type_path_get N.add N.div to_upper fm_casing order_text
        render_internal msg_frs ext_frs read_frs write_frs offs_frs union_frs generics lifetime union_lifetime
        m_name s_name u_name capitalize capital ity_text].

Lemma generics_lifetime : forall x, generics x = lifetime x.
Proof.
  intro x. unfold generics, lifetime.
  replace (existsb _ _) with (negb (forallb (fun f => match mf_ty f with TFixed _ => true | _ => false end) (m_fields x))).
  - destruct (forallb _ _); reflexivity.
  - induction (m_fields x) as [|f l IH]; [reflexivity|]. cbn [forallb existsb]. rewrite <- IH.
    destruct (mf_ty f); cbn [andb negb orb]; try reflexivity.
Qed.

(** ** Types *)
Definition value_text' (e : endianness) (t : fixed_type) : value_type e t = value_text (order_of e) t.
Proof. destruct e; reflexivity. Qed.

(** The three templates that render types. *)
Definition type_template (F : smap fragment) (uns : string -> string -> string) : Prop :=
  forall codec path vars,
    render_internal F (("codec", codec) :: vars) "" ["varchar"] =
      Ok (util_text ("VarcharString::<" ++ codec ++ ">") ++ lf) /\
    render_internal F (("type_name", path) :: ("codec", codec) :: vars) "" ["array"] =
      Ok (util_text ("Array::<&'a [u8], " ++ codec ++ ", " ++ path ++ "<&'a [u8]>>") ++ lf) /\
    render_internal F (("type_name", path) :: ("codec", codec) :: vars) "" ["list"] =
      Ok (util_text ("List::<&'a [u8], " ++ codec ++ ", " ++ path ++ ">") ++ lf) /\
    render_internal F (("type_name", path) :: ("codec", codec) :: vars) "" ["unsized"] =
      Ok (uns codec path ++ lf).

Definition read_unsized codec path := util_text ("list::Unsized::<" ++ codec ++ ", " ++ path ++ ">").
Definition write_unsized codec path := util_text ("List::<&'a [u8], " ++ codec ++ ", " ++ path ++ ">").
Lemma read_types : forall u, type_template (read_frs u) read_unsized.
Proof. intros u codec path vars. repeat split; render. Qed.
Lemma offs_types : forall u, type_template (offs_frs u) read_unsized.
Proof. intros u codec path vars. repeat split; render. Qed.
Lemma write_types : forall u, type_template (write_frs u) write_unsized.
Proof. intros u codec path vars. repeat split; render. Qed.

Lemma field_type_text : forall tp emb F vars uns f, type_template F uns ->
  generate_field_type_inline tp emb {| t_fragments := F; t_variables := vars |} f =
  Ok (ity_text uns (st_type (field_stmt (type_path_get tp) emb f)), st_on (field_stmt (type_path_get tp) emb f)).
Proof.
  intros tp emb F vars uns [name ty opt si endi] H.
  assert (Hv : forall codec, render_internal F (("codec", codec) :: vars) "" ["varchar"] =
      Ok (util_text ("VarcharString::<" ++ codec ++ ">") ++ lf)).
  { intro codec. destruct (H codec "" vars) as (X & _). exact X. }
  assert (Ha : forall codec path, render_internal F (("type_name", path) :: ("codec", codec) :: vars) "" ["array"] =
      Ok (util_text ("Array::<&'a [u8], " ++ codec ++ ", " ++ path ++ "<&'a [u8]>>") ++ lf)).
  { intros codec path. destruct (H codec path vars) as (_ & X & _). exact X. }
  assert (Hl : forall codec path, render_internal F (("type_name", path) :: ("codec", codec) :: vars) "" ["list"] =
      Ok (util_text ("List::<&'a [u8], " ++ codec ++ ", " ++ path ++ ">") ++ lf)).
  { intros codec path. destruct (H codec path vars) as (_ & _ & X & _). exact X. }
  assert (Hu : forall codec path, render_internal F (("type_name", path) :: ("codec", codec) :: vars) "" ["unsized"] =
      Ok (uns codec path ++ lf)).
  { intros codec path. destruct (H codec path vars) as (_ & _ & _ & X). exact X. }
  clear H.
  assert (Ho : forall s t (on : option string), s = ity_text uns t ->
    Ok (E := gerror) (gen_optional opt s, on) = Ok (ity_text uns (if opt then IOptional t else t), on)).
  { intros s t on ->. destruct opt; reflexivity. }
  destruct ty as [t|[s|x]| |t|t s|u on i|t x|].
  - apply Ho. destruct endi; reflexivity.
  - apply Ho. reflexivity.
  - apply Ho. reflexivity.
  - apply Ho. reflexivity.
  - unfold generate_field_type_inline. cbn [mf_ty mf_endi mf_optional].
    unfold s_render, t_scope, s_var, sinsert. cbn [sc_fragments sc_variables t_fragments t_variables].
    rewrite Hv, value_text'. apply Ho. reflexivity.
  - unfold generate_field_type_inline. cbn [mf_ty mf_endi mf_optional].
    unfold s_render, t_scope, s_var, sinsert. cbn [sc_fragments sc_variables t_fragments t_variables].
    rewrite Ha, value_text'. apply Ho. reflexivity.
  - apply Ho. reflexivity.
  - unfold generate_field_type_inline. cbn [mf_ty mf_endi mf_optional].
    unfold s_render, t_scope, s_var, sinsert. cbn [sc_fragments sc_variables t_fragments t_variables].
    destruct emb; [rewrite Hl|rewrite Hu]; rewrite value_text'; apply Ho; reflexivity.
  - apply Ho. reflexivity.
Qed.

(** ** Reading *)
Definition msg_vars (x : message) : variables := [("generics", generics x); ("msg_name", m_name x)].

Lemma stmt_on : forall path emb f, st_on (field_stmt path emb f) =
  match mf_ty f with TUnion _ on _ => Some on | _ => None end.
Proof. reflexivity. Qed.
Lemma stmt_offsets : forall path emb f, has_offsets (st_type (field_stmt path emb f)) = is_message_reference (mf_ty f).
Proof.
  intros path emb [name ty opt si endi].
  unfold field_stmt, field_type. cbn [st_type mf_ty mf_optional mf_endi].
  destruct ty as [t|[s|x]| |t|t s|u on i|t x|], opt; try destruct emb; reflexivity.
Qed.

Lemma field_read_text : forall fm tp emb x f,
  gen_field_from_slice_impl tp emb {| t_fragments := read_frs (fm_casing fm); t_variables := msg_vars x |} f =
  Ok (lines (read_lines (field_stmt (type_path_get tp) emb f))).
Proof.
  intros fm tp emb x f. unfold gen_field_from_slice_impl.
  rewrite (field_type_text tp emb _ _ _ f (read_types (fm_casing fm))).
  rewrite stmt_on. unfold read_lines. rewrite stmt_on.
  change (st_name (field_stmt (type_path_get tp) emb f)) with (mf_name f).
  unfold read_text. fold read_unsized.
  set (T := ity_text _ _). clearbody T.
  destruct f as [name ty opt si endi]. cbn [mf_name mf_ty bind].
  destruct ty as [t|[s|y]| |t|t s|u on i|t y|]; cbn [is_message_reference]; render.
Qed.
Lemma field_offset_text : forall fm tp emb x more f,
  gen_field_from_slice_impl tp emb
    {| t_fragments := offs_frs (fm_casing fm); t_variables := ("fields", more) :: msg_vars x |} f =
  Ok (lines (offset_lines (field_stmt (type_path_get tp) emb f))).
Proof.
  intros fm tp emb x more f. unfold gen_field_from_slice_impl.
  rewrite (field_type_text tp emb _ _ _ f (offs_types (fm_casing fm))).
  unfold offset_lines. rewrite stmt_on, stmt_offsets.
  change (st_name (field_stmt (type_path_get tp) emb f)) with (mf_name f).
  unfold read_text. fold read_unsized.
  set (T := ity_text _ _). clearbody T.
  destruct f as [name ty opt si endi]. cbn [mf_name mf_ty bind].
  destruct ty as [t|[s|y]| |t|t s|u on i|t y|]; cbn [is_message_reference]; render.
Qed.
Lemma field_write_text : forall fm tp emb x f,
  gen_field_write_impl tp emb {| t_fragments := write_frs (fm_casing fm); t_variables := msg_vars x |} f =
  Ok (lines (write_lines (field_stmt (type_path_get tp) emb f))).
Proof.
  intros fm tp emb x f. unfold gen_field_write_impl.
  rewrite (field_type_text tp emb _ _ _ f (write_types (fm_casing fm))).
  unfold write_lines. rewrite stmt_on.
  change (st_name (field_stmt (type_path_get tp) emb f)) with (mf_name f).
  unfold write_text. fold write_unsized.
  set (T := ity_text _ _). clearbody T.
  destruct f as [name ty opt si endi]. cbn [mf_name mf_ty bind].
  destruct ty as [t|[s|y]| |t|t s|u on i|t y|]; render.
Qed.

Lemma lines_flat_map_map : forall {A B} (g : B -> list string) (h : A -> B) l,
  String.concat "" (map (fun x => lines (g (h x))) l) = lines (flat_map g (map h l)).
Proof.
  intros A B g h l. induction l as [|x l IH]; [reflexivity|].
  cbn [map flat_map]. rewrite concat_nil_cons, lines_app, IH. reflexivity.
Qed.

Theorem gen_from_slice_text : forall fm tp embedded x,
  gen_message_from_slice_impl fm tp embedded x =
  Ok (lines (from_slice_lines (type_path_get tp) embedded x)).
Proof.
  intros fm tp embedded x. unfold gen_message_from_slice_impl, generate_from_slice_impl, from_slice_lines, program.
  rewrite compile_read. cbn [unwrap_res bind].
  change (t_var (t_var {| t_fragments := read_frs (fm_casing fm); t_variables := [] |} "msg_name" (m_name x)) "generics" (generics x))
    with {| t_fragments := read_frs (fm_casing fm); t_variables := msg_vars x |}.
  rewrite (map_join_ok "" _ _ _ (fun f _ => field_read_text fm tp (embedded (m_id x)) x f)).
  rewrite (map_join_ok "" _ (fun f => lines ["            " ++ mf_name f ++ ","])) by (intros f _; render).
  cbn [bind]. rewrite lines_flat_map_map, lines_map, !lines_app, <- generics_lifetime.
  set (L1 := lines (flat_map _ _)). set (L2 := lines (map _ _)). clearbody L1 L2.
  render.
Qed.
Theorem gen_write_text : forall fm tp embedded x,
  gen_message_write_impl fm tp embedded x =
  Ok (lines (write_to_lines (type_path_get tp) embedded x)).
Proof.
  intros fm tp embedded x. unfold gen_message_write_impl, write_to_lines, program.
  rewrite compile_write. cbn [unwrap_res bind].
  change (t_var (t_var {| t_fragments := write_frs (fm_casing fm); t_variables := [] |} "msg_name" (m_name x)) "generics" (generics x))
    with {| t_fragments := write_frs (fm_casing fm); t_variables := msg_vars x |}.
  rewrite (map_join_ok "" _ _ _ (fun f _ => field_write_text fm tp (embedded (m_id x)) x f)).
  cbn [bind]. rewrite lines_flat_map_map, !lines_app, <- generics_lifetime.
  set (L1 := lines (flat_map _ _)). clearbody L1.
  render.
Qed.
Theorem gen_offsets_text : forall fm tp embedded x,
  gen_message_offsets_decl fm tp embedded x =
  Ok (lines (offsets_lines (type_path_get tp) embedded x)).
Proof.
  intros fm tp embedded x. unfold gen_message_offsets_decl, generate_from_slice_impl, offsets_lines, program.
  rewrite compile_offs. cbn [unwrap_res bind].
  rewrite (map_join_ok "" (gen_message_offset_field _ _) (fun f => lines (offset_field_lines (type_path_get tp) f))).
  2:{ intros [name ty opt si endi] _. unfold gen_message_offset_field, offset_field_lines. cbn [mf_ty mf_name mf_optional].
      destruct ty as [t|[s|y]| |t|t s|u on i|t y|]; try destruct opt; render. }
  cbn [bind]. set (more := String.concat "" _).
  assert (Hmore : more = lines (flat_map (offset_field_lines (type_path_get tp)) (m_fields x)))
    by apply lines_flat_map.
  clearbody more. subst more. set (more := lines (flat_map (offset_field_lines _) _)). 
  change (t_var (t_var (t_var {| t_fragments := offs_frs (fm_casing fm); t_variables := [] |} "msg_name" (m_name x)) "generics" (generics x)) "fields" more)
    with {| t_fragments := offs_frs (fm_casing fm); t_variables := ("fields", more) :: msg_vars x |}.
  rewrite (map_join_ok "" _ _ _ (fun f _ => field_offset_text fm tp (embedded (m_id x)) x more f)).
  rewrite (map_join_ok "" _ (fun f => lines ["            " ++ mf_name f ++ ","])) by (intros f _; render).
  cbn [bind]. rewrite lines_flat_map_map, lines_map, !lines_app, <- generics_lifetime. fold more.
  set (L1 := lines (flat_map _ _)). set (L2 := lines (map _ _)). clearbody L1 L2 more.
  render.
Qed.

(** ** Declarations *)
Lemma capitalize_ok : forall s, capitalizable s -> capitalize s = Ok (capital s).
Proof.
  intros [|c r] H; [reflexivity|]. cbn [capitalizable capital capitalize] in *. rewrite <- upper_letter_eq.
  unfold Utf8.in_range, ascii_upper, Utf8.in_range.
  destruct ((65 <=? N_of_ascii c) && (N_of_ascii c <=? 90))%N eqn:E.
  - f_equal. destruct ((97 <=? N_of_ascii c) && (N_of_ascii c <=? 122))%N eqn:E2; [lia|reflexivity].
  - destruct r as [|d r]; [reflexivity|].
    unfold Utf8.is_cont, Utf8.in_range.
    destruct ((128 <=? N_of_ascii d) && (N_of_ascii d <=? 191))%N eqn:E3; [lia|reflexivity].
Qed.
Lemma capitalize_panic : forall s, ~ capitalizable s -> capitalize s = Panic.
Proof.
  intros [|c r] H; cbn [capitalizable capitalize] in *; [exfalso; apply H; exact I|].
  unfold Utf8.in_range.
  destruct ((65 <=? N_of_ascii c) && (N_of_ascii c <=? 90))%N eqn:E.
  - exfalso. apply H. lia.
  - destruct r as [|d r]; [exfalso; apply H; right; exact I|].
    unfold Utf8.is_cont, Utf8.in_range.
    destruct ((128 <=? N_of_ascii d) && (N_of_ascii d <=? 191))%N eqn:E3; [reflexivity|].
    exfalso. apply H. lia.
Qed.
Lemma capitalizable_dec : forall s, capitalizable s \/ ~ capitalizable s.
Proof. intros [|c [|d r]]; cbn [capitalizable]; try lia; tauto. Qed.

Lemma ext_array : forall u codec ty name vars mn, sget "msg_name" vars = Some mn ->
  render_internal (ext_frs u) (("codec", codec) :: ("item_type", ty) :: ("name", name) :: vars) "" ["decl_array"] =
  match capitalize name with
  | Ok c => Ok (lines ["bp3d_proto::generate_array_wrapper!(" ++ mn ++ c ++ ", " ++ ty ++ ", " ++ codec ++ ");"])
  | Err e => Err e
  | Panic => Panic
  end.
Proof.
  intros u codec ty name vars mn H.
  match goal with |- render_internal ?F ?v ?p ?ns = _ =>
    let c := eval cbv -[capitalize] in (lookups F (map (full_name p) ns)) in
    match c with Some ?l => rewrite (render_lookups F v p ns l) by (vm_compute; reflexivity) end end.
  cbn [concatM render_component sget String.eqb Ascii.eqb Bool.eqb ok_or bind].
  rewrite H. cbn [ok_or bind]. destruct (capitalize name) as [c|e|]; cbn [bind]; try reflexivity.
  symbolic. f_equal. text.
Qed.
Lemma ext_list : forall u codec ty name vars mn, sget "msg_name" vars = Some mn ->
  render_internal (ext_frs u) (("codec", codec) :: ("item_type", ty) :: ("name", name) :: vars) "" ["decl_list"] =
  match capitalize name with
  | Ok c => Ok (lines ["pub type " ++ mn ++ c ++ "<'a, T> = " ++ util_text ("List<T, " ++ codec ++ ", " ++ ty ++ "<'a>>;")])
  | Err e => Err e
  | Panic => Panic
  end.
Proof.
  intros u codec ty name vars mn H.
  match goal with |- render_internal ?F ?v ?p ?ns = _ =>
    let c := eval cbv -[capitalize] in (lookups F (map (full_name p) ns)) in
    match c with Some ?l => rewrite (render_lookups F v p ns l) by (vm_compute; reflexivity) end end.
  cbn [concatM render_component sget String.eqb Ascii.eqb Bool.eqb ok_or bind].
  rewrite H. cbn [ok_or bind]. destruct (capitalize name) as [c|e|]; cbn [bind]; try reflexivity.
  symbolic. f_equal. text.
Qed.

Lemma wrappers_text : forall tp u mn fields vars, sget "msg_name" vars = Some mn ->
  Forall mfield_generates fields ->
  array_type_decls tp {| t_fragments := ext_frs u; t_variables := vars |} fields =
  Ok (lines (flat_map (wrapper_lines (type_path_get tp) mn) fields)).
Proof.
  intros tp u mn fields. induction fields as [|f l IH]; intros vars Hv HF; [reflexivity|].
  inversion HF as [|? ? Hf Hl]; subst. destruct f as [name ty opt si endi].
  cbn [array_type_decls flat_map mf_name mf_ty mf_endi]. rewrite lines_app.
  unfold mfield_generates in Hf. cbn [mf_ty mf_name] in Hf.
  destruct ty as [t|r| |t|t s|un on i|t x|].
  all: unfold t_var, sinsert, t_render; cbn [t_fragments t_variables].
  all: try (rewrite IH by (try exact Hl; cbn [sget String.eqb Ascii.eqb Bool.eqb]; exact Hv); reflexivity).
  - rewrite (ext_array u _ _ _ _ mn Hv), capitalize_ok by exact Hf. cbn [unwrap_res bind].
    rewrite IH by (try exact Hl; cbn [sget String.eqb Ascii.eqb Bool.eqb]; exact Hv). cbn [bind].
    rewrite value_text'. reflexivity.
  - rewrite (ext_list u _ _ _ _ mn Hv), capitalize_ok by exact Hf. cbn [unwrap_res bind].
    rewrite IH by (try exact Hl; cbn [sget String.eqb Ascii.eqb Bool.eqb]; exact Hv). cbn [bind].
    rewrite value_text'. reflexivity.
Qed.
Lemma wrappers_panic : forall tp u mn fields vars, sget "msg_name" vars = Some mn ->
  ~ Forall mfield_generates fields ->
  array_type_decls tp {| t_fragments := ext_frs u; t_variables := vars |} fields = Panic.
Proof.
  intros tp u mn fields. induction fields as [|f l IH]; intros vars Hv HF; [exfalso; apply HF; constructor|].
  destruct f as [name ty opt si endi].
  cbn [array_type_decls mf_name mf_ty mf_endi].
  assert (HF' : mfield_generates (MkMField name ty opt si endi) -> ~ Forall mfield_generates l)
    by (intros H1 H2; apply HF; constructor; assumption).
  unfold mfield_generates at 1 in HF'. cbn [mf_ty mf_name] in HF'.
  destruct ty as [t|r| |t|t s|un on i|t x|].
  all: unfold t_var, sinsert, t_render; cbn [t_fragments t_variables].
  all: try (apply IH; [cbn [sget String.eqb Ascii.eqb Bool.eqb]; exact Hv|apply HF'; exact I]).
  - rewrite (ext_array u _ _ _ _ mn Hv).
    destruct (capitalizable_dec name) as [C|C]; [rewrite capitalize_ok by exact C|rewrite capitalize_panic by exact C; reflexivity].
    cbn [unwrap_res bind].
    rewrite IH; [reflexivity| |apply HF', C]. cbn [sget String.eqb Ascii.eqb Bool.eqb]. exact Hv.
  - rewrite (ext_list u _ _ _ _ mn Hv).
    destruct (capitalizable_dec name) as [C|C]; [rewrite capitalize_ok by exact C|rewrite capitalize_panic by exact C; reflexivity].
    cbn [unwrap_res bind].
    rewrite IH; [reflexivity| |apply HF', C]. cbn [sget String.eqb Ascii.eqb Bool.eqb]. exact Hv.
Qed.

Lemma field_decl_text : forall fm tp x f,
  gen_field_decl tp {| t_fragments := msg_frs (fm_casing fm); t_variables := msg_vars x |} f =
  Ok (lines ["    pub " ++ mf_name f ++ ": " ++ decl_type (type_path_get tp) f ++ ","]).
Proof.
  intros fm tp x [name ty opt si endi]. unfold gen_field_decl, decl_type. cbn [mf_ty mf_name mf_endi mf_optional].
  destruct ty as [t|[s|y]| |t|t s|u on i|t y|]; rewrite ?value_text'; destruct opt; render.
Qed.
Lemma message_struct_text : forall fm tp x,
  gen_message_struct fm tp x = Ok (lines (message_struct_lines (type_path_get tp) x)).
Proof.
  intros fm tp x. unfold gen_message_struct, message_struct_lines. rewrite compile_msg. cbn [unwrap_res bind].
  change (t_var (t_var {| t_fragments := msg_frs (fm_casing fm); t_variables := [] |} "msg_name" (m_name x)) "generics" (generics x))
    with {| t_fragments := msg_frs (fm_casing fm); t_variables := msg_vars x |}.
  rewrite (map_join_ok "" _ _ _ (fun f _ => field_decl_text fm tp x f)).
  cbn [bind].
  rewrite (lines_map (fun f => "    pub " ++ mf_name f ++ ": " ++ decl_type (type_path_get tp) f ++ ",")).
  rewrite !lines_app, <- generics_lifetime.
  set (L1 := lines (map _ _)). clearbody L1. render.
Qed.
Theorem gen_message_text : forall fm tp x, Forall mfield_generates (m_fields x) ->
  gen_message_decl fm tp x = Ok (lines (message_lines (type_path_get tp) x)).
Proof.
  intros fm tp x H. unfold gen_message_decl, gen_message_array_type_decls, message_lines.
  rewrite message_struct_text. cbn [bind].
  rewrite compile_ext. cbn [unwrap_res bind].
  unfold t_var, sinsert. cbn [t_fragments t_variables].
  rewrite (wrappers_text tp _ (m_name x)) by (reflexivity || exact H). cbn [bind].
  rewrite !lines_app.
  set (L1 := lines (message_struct_lines _ _)). set (L2 := lines (flat_map _ _)). clearbody L1 L2. render.
Qed.
Theorem gen_message_panic : forall fm tp x, ~ Forall mfield_generates (m_fields x) ->
  gen_message_decl fm tp x = Panic.
Proof.
  intros fm tp x H. unfold gen_message_decl, gen_message_array_type_decls.
  rewrite message_struct_text. cbn [bind].
  rewrite compile_ext. cbn [unwrap_res bind].
  unfold t_var, sinsert. cbn [t_fragments t_variables].
  rewrite (wrappers_panic tp _ (m_name x)) by (reflexivity || exact H). reflexivity.
Qed.

(** ** Unions *)
Lemma chain_iter : forall index s l, disc_chain s index = Some l ->
  exists fs, disc_iter s index = Ok fs /\ map (fun p : field * bool => (field_name (fst p), snd p)) fs = l.
Proof.
  induction index as [|i rest IH]; intros s l H; cbn [disc_chain disc_iter] in *.
  - injection H as <-. exists []. split; reflexivity.
  - destruct (nth_error (s_fields s) i) as [[f|f|name r loc]|] eqn:E; try discriminate; cbn [unwrap bind].
    + destruct rest; [|discriminate]. injection H as <-. eexists. split; reflexivity.
    + destruct (disc_chain r rest) as [l'|] eqn:E2; cbn [option_map] in H; [|discriminate].
      injection H as <-. destruct (IH _ _ E2) as (fs & -> & Hm). cbn [bind].
      eexists. split; [reflexivity|]. cbn [map fst snd field_name]. rewrite Hm. reflexivity.
Qed.
Definition union_generates (u : union_) : Prop :=
  disc_chain (d_root (u_disc u)) (d_index_list (u_disc u)) <> None.
Lemma discriminant_path_text : forall u, union_generates u ->
  discriminant_path u = Ok (get_path (union_chain u)) /\ discriminant_path_mut u = Ok (set_path (union_chain u)).
Proof.
  intros u H. unfold union_generates in H. unfold discriminant_path, discriminant_path_mut, union_chain.
  destruct (disc_chain _ _) as [l|] eqn:E; [|congruence].
  destruct (chain_iter _ _ _ E) as (fs & -> & <-). cbn [bind]. unfold get_path, set_path. rewrite !map_map.
  split; do 2 f_equal; apply map_ext; intros [f [|]]; reflexivity.
Qed.

Lemma union_generics_lifetime : forall u, union_generics u = union_lifetime u.
Proof. reflexivity. Qed.
Lemma union_generics_any : forall u, negb (String.eqb (union_generics u) "") = any_item u.
Proof. intro u. rewrite union_generics_lifetime. unfold union_lifetime. destruct (any_item u); reflexivity. Qed.

(** The template all parts of a union are rendered with. *)
Definition union_template_of (fm : formats) (ty path path_mut l name : string) : template :=
  {| t_fragments := union_frs (fm_casing fm);
     t_variables := [("discriminant_type", ty); ("discriminant_path", path); ("discriminant_path_mut", path_mut);
                     ("generics", l); ("union_name", name)] |}.

(** The four implementations, as in [union_lines]. *)
Definition union_from_slice_lines (path : string -> string) (u : union_) : list string :=
  let ty := path (s_name (d_root (u_disc u))) in
  ["impl<'a> " ++ u_name u ++ union_lifetime u ++ " {"] ++
  (if any_item u then
     ["    pub fn from_slice(slice: &'a [u8], discriminant: &" ++ ty ++ "<&'a [u8]>) -> bp3d_proto::message::Result<bp3d_proto::message::Message<Self>> {";
      "        use bp3d_proto::message::FromSlice;"]
   else
     ["    pub fn from_slice(_: &'a [u8], discriminant: &" ++ ty ++ "<&'a [u8]>) -> bp3d_proto::message::Result<bp3d_proto::message::Message<Self>> {"]) ++
  ["        let discriminant = discriminant." ++ get_path (union_chain u) ++ ";";
   "        match discriminant {"] ++
  flat_map (from_slice_arm path) (u_cases u) ++
  ["";
   "            _ => Err(bp3d_proto::message::Error::InvalidUnionDiscriminant(discriminant as _))";
   "        }";
   "    }";
   "";
   "}"].
Definition union_write_lines (path : string -> string) (u : union_) : list string :=
  let ty := path (s_name (d_root (u_disc u))) in
  ["impl<'a> " ++ u_name u ++ union_lifetime u ++ " {"] ++
  (if any_item u then
     ["    pub fn write_to<W: std::io::Write>(input: &Self, discriminant: &" ++ ty ++ "<&'a [u8]>, mut out: W) -> bp3d_proto::message::Result<()> {";
      "        use bp3d_proto::message::WriteTo;";
      "        let discriminant = discriminant." ++ get_path (union_chain u) ++ ";";
      "        match input {"] ++
     flat_map (write_to_arm path) (u_cases u) ++
     ["";
      "            _ => ()";
      "        };";
      "        Ok(())";
      "    }"]
   else
     ["    pub fn write_to<W: std::io::Write>(_: &Self, _: &" ++ ty ++ "<&'a [u8]>, _: W) -> bp3d_proto::message::Result<()> {";
      "        Ok(())";
      "    }"]) ++
  ["";
   "}"].
Definition union_set_lines (path : string -> string) (u : union_) : list string :=
  ["impl" ++ union_lifetime u ++ " " ++ u_name u ++ union_lifetime u ++ " {";
   "    pub fn set_discriminant<T: AsMut<[u8]>>(&self, discriminant: &mut " ++ path (s_name (d_root (u_disc u))) ++ "<T>) {";
   "        let discriminant_value = match self {"] ++
  flat_map set_arm (u_cases u) ++
  ["";
   "        };";
   "        discriminant." ++ set_path (union_chain u) ++ "(discriminant_value);";
   "    }";
   "}"].
Definition union_getters_lines (path : string -> string) (u : union_) : list string :=
  ["impl" ++ union_lifetime u ++ " " ++ u_name u ++ union_lifetime u ++ " {"] ++
  flat_map (union_getter_lines path) (u_cases u) ++
  ["";
   "}"].
Definition union_decl_lines (path : string -> string) (u : union_) : list string :=
  ["#[derive(Copy, Clone, Debug)]";
   "pub enum " ++ u_name u ++ union_lifetime u ++ " {"] ++
  flat_map (variant_lines path) (u_cases u) ++
  ["";
   "}"].
Lemma union_lines_eq : forall path u, union_lines path u =
  (union_decl_lines path u ++ union_from_slice_lines path u ++ union_write_lines path u ++
   union_set_lines path u ++ union_getters_lines path u)%list.
Proof.
  intros path u. unfold union_lines, union_decl_lines, union_from_slice_lines, union_write_lines, union_set_lines,
    union_getters_lines. repeat rewrite <- app_assoc. reflexivity.
Qed.

Ltac GenThms.symbolic ::=
  cbv -[append show_usize rust_type type_path_get to_upper fm_casing
        render_internal union_frs union_lifetime m_name s_name u_name to_ascii_lowercase
        get_path set_path union_chain d_root u_disc].

Section Union.
Variables (fm : formats) (tp : smap string) (u : union_).
Let T := union_template_of fm (type_path_get tp (s_name (d_root (u_disc u)))) (get_path (union_chain u))
  (set_path (union_chain u)) (union_lifetime u) (u_name u).

Lemma union_from_slice_text :
  gen_union_from_slice_impl tp u T = Ok (lines (union_from_slice_lines (type_path_get tp) u)).
Proof.
  unfold gen_union_from_slice_impl, union_from_slice_lines. rewrite union_generics_any.
  rewrite (map_join_ok "" _ (fun c => lines (from_slice_arm (type_path_get tp) c))).
  2:{ intros [name k [[s|x]|]] _; unfold from_slice_arm; cbn [uc_item uc_name uc_case ref_name]; render. }
  cbn [bind]. rewrite lines_flat_map, !lines_app.
  set (L := lines (flat_map _ _)). clearbody L. unfold T.
  set (l := union_lifetime u). clearbody l.
  destruct (any_item u); render.
Qed.
Lemma union_write_text :
  gen_union_write_to_impl tp u T = Ok (lines (union_write_lines (type_path_get tp) u)).
Proof.
  unfold gen_union_write_to_impl, union_write_lines. rewrite union_generics_any.
  rewrite (map_join_ok "" _ (fun c => lines (write_to_arm (type_path_get tp) c))).
  2:{ intros [name k [[s|x]|]] _; unfold write_to_arm; cbn [uc_item uc_name uc_case ref_name]; render. }
  cbn [bind]. rewrite lines_flat_map.
  set (l := union_lifetime u) in *. clearbody l.
  destruct (any_item u); rewrite !lines_app; try (set (L := lines (flat_map _ _)); clearbody L); unfold T; render.
Qed.
Lemma union_set_text :
  gen_union_set_discriminant u T = Ok (lines (union_set_lines (type_path_get tp) u)).
Proof.
  unfold gen_union_set_discriminant, union_set_lines.
  rewrite (map_join_ok "" _ (fun c => lines (set_arm c))).
  2:{ intros [name k [[s|x]|]] _; unfold set_arm; cbn [uc_item uc_name uc_case]; render. }
  cbn [bind]. rewrite lines_flat_map, !lines_app.
  set (L := lines (flat_map _ _)). clearbody L. unfold T. render.
Qed.
Lemma union_getters_text :
  gen_union_as_getters tp u T = Ok (lines (union_getters_lines (type_path_get tp) u)).
Proof.
  unfold gen_union_as_getters, union_getters_lines.
  rewrite (map_join_ok "" _ (fun c => lines (union_getter_lines (type_path_get tp) c))).
  2:{ intros [name k [[s|x]|]] _; unfold union_getter_lines; cbn [uc_item uc_name uc_case]; render. }
  cbn [bind]. rewrite lines_flat_map, !lines_app.
  set (L := lines (flat_map _ _)). clearbody L. unfold T. render.
Qed.

Theorem gen_union_text : union_generates u ->
  gen_union_decl fm tp u = Ok (lines (union_lines (type_path_get tp) u)).
Proof.
  intro H. unfold gen_union_decl. rewrite compile_union. cbn [unwrap_res bind].
  destruct (discriminant_path_text u H) as [-> ->]. cbn [bind].
  rewrite union_generics_lifetime.
  change (t_var (t_var (t_var (t_var (t_var {| t_fragments := union_frs (fm_casing fm); t_variables := [] |}
    "union_name" (u_name u)) "generics" (union_lifetime u)) "discriminant_path_mut" (set_path (union_chain u)))
    "discriminant_path" (get_path (union_chain u)))
    "discriminant_type" (type_path_get tp (s_name (d_root (u_disc u))))) with T.
  rewrite (map_join_ok "" _ (fun c => lines (variant_lines (type_path_get tp) c))).
  2:{ intros [name k [[s|x]|]] _; unfold variant_lines; cbn [uc_item uc_name uc_case]; render. }
  cbn [bind]. rewrite lines_flat_map.
  rewrite union_from_slice_text, union_write_text, union_set_text, union_getters_text.
  rewrite union_lines_eq, !lines_app.
  assert (Hd : s_render (s_var (t_scope T) "cases" (lines (flat_map (variant_lines (type_path_get tp)) (u_cases u)))) "" ["decl"]
    = Ok (lines (union_decl_lines (type_path_get tp) u))).
  { unfold union_decl_lines. rewrite !lines_app. set (L := lines (flat_map _ _)). clearbody L. unfold T. render. }
  rewrite Hd. reflexivity.
Qed.
End Union.
