(** The text of the Swift generator is that of SpecSwiftGen.v. *)

From Coq Require Import Arith NArith Ascii String List Bool Lia.
From Verif Require Import Base Schema Codec Compiler Access Template Templates SpecTemplate TemplateThms GenText SpecGen GenThms
  SpecSwiftGen.
Import ListNotations.
Local Open Scope string_scope.

Definition sfield_frs (u : casing) := Eval vm_compute in frs u swift_structure_field_template.
Definition sstruct_frs (u : casing) := Eval vm_compute in frs u swift_structure_template.
Lemma compile_sfield : forall u,
  compile u swift_structure_field_template = Ok {| t_fragments := sfield_frs u; t_variables := [] |}.
Proof. intro u. vm_compute. reflexivity. Qed.
Lemma compile_sstruct : forall u,
  compile u swift_structure_template = Ok {| t_fragments := sstruct_frs u; t_variables := [] |}.
Proof. intro u. vm_compute. reflexivity. Qed.

Ltac symbolic' :=
  cbv -[append show_usize swift_type type_path_get swift_unsigned fm_f64 N.add N.div to_upper fm_casing
        l_byte_offset l_byte_size l_bit_offset l_bit_size render_internal sfield_frs sstruct_frs].
Ltac render' :=
  symbolic';
  repeat (match goal with |- context [render_internal ?F ?v ?p ?ns] =>
            let c := eval vm_compute in (lookups F (map (full_name p) ns)) in
            match c with Some ?l =>
              rewrite (render_lookups F v p ns l) by (vm_compute; reflexivity)
            end
          end; symbolic');
  f_equal; text.

Definition sfield_template_of (u : casing) (name : string) : template :=
  t_var {| t_fragments := sfield_frs u; t_variables := [] |} "struct_name" name.

Lemma swift_unsigned_ok : forall {E} l t, @get_unsigned_integer_type E l = Ok t ->
  swift_type t = swift_unsigned (get_byte_size t).
Proof.
  intros E l t. unfold get_unsigned_integer_type, fixed_from_model.
  set (n := l_bit_size l) in *. cbn [get_bit_size get_simple_type ok_or bind simple_eqb andb map_numeric].
  destruct (N.ltb_spec 32 n), (N.leb_spec n 64), (N.ltb_spec 16 n), (N.leb_spec n 32),
    (N.ltb_spec 8 n), (N.leb_spec n 16), (N.ltb_spec 0 n), (N.leb_spec n 8); try lia;
  cbn [andb unwrap_res]; let X := fresh in intro X; try discriminate; injection X as <-; reflexivity.
Qed.

Lemma sview_getter_text : forall fm tp bits fr codec fn e s sname raw v,
  gen_field_view_getter fm swift_utils v
    {| sc_fragments := sfield_frs (fm_casing fm);
       sc_variables := view_vars bits fr codec fn raw (ff_name v) e s sname |} tp =
  Ok (lines (swift_view_getter (type_path_get tp) (fm_f64 fm) v)).
Proof.
  intros fm tp bits fr codec fn e s sname raw [name ty loc view endi].
  unfold gen_field_view_getter, swift_view_getter, swift_utils.
  cbn [ut_field_type ff_ty ff_view ff_name].
  destruct bits as [[bo bs]|]; destruct view as [x y c d|en| |mp|].
  all: match goal with t : fixed_type |- context [match ?x with FBool => _ | _ => _ end] => destruct t | _ => idtac end.
  all: try (destruct en as [en l vs]); render'.
Qed.
Lemma sview_setter_text : forall fm tp bits fr codec fn e s sname v a,
  gen_field_view_setter fm swift_utils v
    {| sc_fragments := sfield_frs (fm_casing fm);
       sc_variables := view_vars bits fr codec fn (swift_unsigned (ac_raw a)) (ff_name v) e s sname |} tp =
  Ok (lines (swift_view_setter (type_path_get tp) (fm_f64 fm) v a)).
Proof.
  intros fm tp bits fr codec fn e s sname [name ty loc view endi] a.
  unfold gen_field_view_setter, swift_view_setter, swift_utils.
  cbn [ut_field_type ff_ty ff_view ff_name].
  set (raw := swift_unsigned (ac_raw a)). clearbody raw.
  destruct bits as [[bo bs]|]; destruct view as [x y c d|en| |mp|].
  all: match goal with t : fixed_type |- context [match ?x with FBool => _ | _ => _ end] => destruct t | _ => idtac end.
  all: try (destruct en as [en l vs]); render'.
Qed.

Lemma sfield_getter_text : forall fm tp sname f, field_generates f ->
  gen_field_getter fm swift_utils (sfield_template_of (fm_casing fm) sname) tp f =
  Ok (lines (swift_getter_lines (type_path_get tp) (fm_f64 fm) f)).
Proof.
  intros fm tp sname [v|v|name r loc] H; cbn [field_generates] in H.
  - destruct (@unsigned_type_ok gerror _ H) as (t & Ht & _). pose proof (swift_unsigned_ok _ _ Ht) as Hr.
    unfold gen_field_getter, swift_getter_lines, gen_fixed. cbn [swift_utils ut_function_name ut_field_type].
    unfold function_name.
    rewrite Ht, (get_unsigned_ext (F := Empty_set) _ _ Ht). cbn [bind].
    rewrite Hr. set (sz := get_byte_size t). clearbody sz. clear Ht Hr H.
    unfold field_scope. cbn [field_loc field_name].
    destruct v as [name ty loc view endi]. cbn [ff_loc ff_endianness ff_name].
    set (al := N.eqb (N.of_nat sz) (l_byte_size loc)). clearbody al.
    rewrite lines_app.
    destruct (N.eqb (l_bit_size loc mod 8) 0) eqn:Eb; cbn [negb]; set (A := {| ac_start := _ |}).
    + erewrite render_to_var.
      2:{ instantiate (1 := "        " ++ swift_read_call A ++ lf). destruct al, endi; render'. }
      cbn [bind]. apply bind_text.
      * destruct al, endi; render'.
      * apply (sview_getter_text fm tp None _ _ _ _ _ _ _ (Build_fixed_field name ty loc view endi)).
    + erewrite render_to_var.
      2:{ instantiate (1 := "        " ++ swift_read_call A ++ lf). destruct al, endi; render'. }
      cbn [bind]. apply bind_text.
      * destruct al, endi; render'.
      * apply (sview_getter_text fm tp (Some (_, _)) _ _ _ _ _ _ _ (Build_fixed_field name ty loc view endi)).
  - unfold gen_field_getter, swift_getter_lines, item_bit_size, udiv, item_bits.
    destruct v as [name ty n loc endi]. cbn [fa_array_len fa_loc fa_name fa_ty fa_endianness] in *.
    destruct (N.eqb_spec n 0); [contradiction|]. cbn [bind].
    destruct endi; render'.
  - destruct r as [si sn sf sb sz]. render'.
Qed.
Lemma sfield_setter_text : forall fm tp sname f, field_generates f ->
  gen_field_setter fm swift_utils (sfield_template_of (fm_casing fm) sname) tp f =
  Ok (lines (swift_setter_lines (type_path_get tp) (fm_f64 fm) f)).
Proof.
  intros fm tp sname [v|v|name r loc] H; cbn [field_generates] in H.
  - destruct (@unsigned_type_ok gerror _ H) as (t & Ht & _). pose proof (swift_unsigned_ok _ _ Ht) as Hr.
    unfold gen_field_setter, swift_setter_lines, gen_fixed. cbn [swift_utils ut_function_name_mut ut_field_type].
    unfold function_name.
    rewrite Ht, (get_unsigned_ext (F := Empty_set) _ _ Ht). cbn [bind].
    rewrite Hr. set (sz := get_byte_size t). clearbody sz. clear Ht Hr H.
    unfold field_scope. cbn [field_loc field_name].
    destruct v as [name ty loc view endi]. cbn [ff_loc ff_endianness ff_name].
    set (al := N.eqb (N.of_nat sz) (l_byte_size loc)). clearbody al.
    rewrite lines_app.
    destruct (N.eqb (l_bit_size loc mod 8) 0) eqn:Eb; cbn [negb]; set (A := {| ac_start := _ |}).
    + erewrite render_to_var.
      2:{ instantiate (1 := "        unsafe { " ++ swift_write_call A ++ " }" ++ lf). destruct al, endi; render'. }
      cbn [bind]. apply bind_text.
      * destruct al, endi; render'.
      * apply (sview_setter_text fm tp None _ _ _ _ _ _ (Build_fixed_field name ty loc view endi) A).
    + erewrite render_to_var.
      2:{ instantiate (1 := "        unsafe { " ++ swift_write_call A ++ " }" ++ lf). destruct al, endi; render'. }
      cbn [bind]. apply bind_text.
      * destruct al, endi; render'.
      * apply (sview_setter_text fm tp (Some (_, _)) _ _ _ _ _ _ (Build_fixed_field name ty loc view endi) A).
  - unfold gen_field_setter, swift_setter_lines, item_bit_size, udiv, item_bits.
    destruct v as [name ty n loc endi]. cbn [fa_array_len fa_loc fa_name fa_ty fa_endianness] in *.
    destruct (N.eqb_spec n 0); [contradiction|]. cbn [bind].
    destruct endi; render'.
  - destruct r as [si sn sf sb sz]. render'.
Qed.

Lemma sfield_getter_panic : forall fm tp T f, ~ field_generates f -> gen_field_getter fm swift_utils T tp f = Panic.
Proof.
  intros fm tp T [v|v|name r loc] H; cbn [field_generates] in H.
  - unfold gen_field_getter. rewrite unsigned_type_panic by exact H. reflexivity.
  - unfold gen_field_getter, item_bit_size, udiv.
    destruct (N.eqb_spec (fa_array_len v) 0); [reflexivity|contradiction].
  - exfalso. apply H. exact I.
Qed.

Lemma shead_text : forall fm name size,
  t_render (t_var (t_var {| t_fragments := sstruct_frs (fm_casing fm); t_variables := [] |} "name" name) "byte_size" size)
    "" ["decl"; "new"; "fixed_size"; "write_to"; "from_slice"] =
  Ok (lines (swift_head_lines name size)).
Proof. intros fm name size. render'. Qed.

Theorem swift_structure_text : forall fm tp s, Forall field_generates (s_fields s) ->
  gen_swift_structure_decl fm tp s = Ok (lines (swift_structure_lines (type_path_get tp) (fm_f64 fm) s)).
Proof.
  intros fm tp s H. unfold gen_swift_structure_decl, gen_structure, swift_structure_lines.
  rewrite compile_sstruct, compile_sfield. cbn [unwrap_res bind].
  rewrite shead_text. cbn [unwrap_res bind].
  unfold gen_structure_getters, gen_structure_setters.
  change (t_var {| t_fragments := sfield_frs (fm_casing fm); t_variables := [] |} "struct_name" (s_name s))
    with (sfield_template_of (fm_casing fm) (s_name s)).
  rewrite Forall_forall in H.
  rewrite (map_join_ok "" (gen_field_getter _ _ _ _) (fun f => lines (swift_getter_lines (type_path_get tp) (fm_f64 fm) f)))
    by (intros f Hf; apply sfield_getter_text, H, Hf).
  rewrite (map_join_ok "" (gen_field_setter _ _ _ _) (fun f => lines (swift_setter_lines (type_path_get tp) (fm_f64 fm) f)))
    by (intros f Hf; apply sfield_setter_text, H, Hf).
  cbn [bind]. rewrite !lines_flat_map, !lines_app.
  set (L1 := lines (flat_map _ _)). set (L2 := lines (flat_map _ _)). clearbody L1 L2.
  set (Hd := lines (swift_head_lines _ _)). clearbody Hd.
  set (n := s_name s). clearbody n. render'.
Qed.
Theorem swift_structure_panic : forall fm tp s, ~ Forall field_generates (s_fields s) ->
  gen_swift_structure_decl fm tp s = Panic.
Proof.
  intros fm tp s H. unfold gen_swift_structure_decl, gen_structure.
  rewrite compile_sstruct, compile_sfield. cbn [unwrap_res bind].
  rewrite shead_text. cbn [unwrap_res bind].
  unfold gen_structure_getters, map_join.
  rewrite (mapM_panic _ field_generates); [reflexivity| | | |exact H].
  - intros f Hf. eexists. apply sfield_getter_text. exact Hf.
  - intros f Hf. apply sfield_getter_panic. exact Hf.
  - exact field_generates_dec.
Qed.
