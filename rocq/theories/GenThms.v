(** The generated enumerations and structures are the text of SpecGen.v. *)

From Coq Require Import Arith NArith Ascii String List Bool Lia.
From Verif Require Import Base Schema Codec Compiler Access Template Templates SpecTemplate TemplateThms GenText SpecGen.
Import ListNotations.
Local Open Scope string_scope.

Definition frs (u : casing) (t : string) : smap fragment :=
  match compile u t with Ok t => t_fragments t | _ => [] end.

Definition enum_frs (u : casing) := Eval vm_compute in frs u enum_template.
Definition field_frs (u : casing) := Eval vm_compute in frs u structure_field_template.
Definition struct_frs (u : casing) := Eval vm_compute in frs u structure_template.

(** ** Lines *)
Lemma concat_nil_cons : forall x l, String.concat "" (x :: l) = x ++ String.concat "" l.
Proof. intros x [|y l]; cbn [String.concat]; [rewrite sapp_nil|]; reflexivity. Qed.
Lemma lines_cons : forall x l, lines (x :: l) = x ++ lf ++ lines l.
Proof. intros. unfold lines. cbn [map]. rewrite concat_nil_cons, sapp_assoc. reflexivity. Qed.
Lemma lines_nil : lines [] = "".
Proof. reflexivity. Qed.
Lemma lines_app : forall a b, lines (a ++ b)%list = lines a ++ lines b.
Proof.
  induction a as [|x a IH]; intro b; [reflexivity|].
  cbn [List.app]. rewrite !lines_cons, IH, !sapp_assoc. reflexivity.
Qed.
Lemma lines_flat_map : forall {A} (g : A -> list string) l,
  String.concat "" (map (fun x => lines (g x)) l) = lines (flat_map g l).
Proof.
  intros A g l. induction l as [|x l IH]; [reflexivity|].
  cbn [map flat_map]. rewrite concat_nil_cons, lines_app, IH. reflexivity.
Qed.
Lemma lines_map : forall {A} (g : A -> string) l,
  String.concat "" (map (fun x => lines [g x]) l) = lines (map g l).
Proof.
  intros A g l. induction l as [|x l IH]; [reflexivity|].
  cbn [map]. rewrite concat_nil_cons, IH, !lines_cons, lines_nil, !sapp_assoc. reflexivity.
Qed.

(** ** Loops *)
Lemma mapM_ok : forall {A B} (f : A -> gres B) g l,
  (forall x, In x l -> f x = Ok (g x)) -> mapM f l = Ok (map g l).
Proof.
  intros A B f g l. induction l as [|x l IH]; intro H; [reflexivity|].
  cbn [mapM map]. rewrite H by (left; reflexivity). cbn [bind].
  rewrite IH by (intros; apply H; right; assumption). reflexivity.
Qed.
Lemma mapM_ok_inv : forall {A B} (f : A -> gres B) l r,
  mapM f l = Ok r -> Forall2 (fun x y => f x = Ok y) l r.
Proof.
  intros A B f l. induction l as [|x l IH]; intros r H; cbn [mapM] in H.
  - injection H as <-. constructor.
  - destruct (f x) as [y|e|] eqn:E; cbn [bind] in H; try discriminate.
    destruct (mapM f l) as [ys|e|] eqn:E2; cbn [bind] in H; try discriminate.
    injection H as <-. constructor; [exact E|]. apply IH. reflexivity.
Qed.
Lemma map_join_ok : forall {A} sep (f : A -> gres string) g l,
  (forall x, In x l -> f x = Ok (g x)) -> map_join sep f l = Ok (String.concat sep (map g l)).
Proof. intros. unfold map_join. rewrite (mapM_ok f g) by assumption. reflexivity. Qed.

(** ** Enumerations *)
Lemma compile_enum : forall u, compile u enum_template = Ok {| t_fragments := enum_frs u; t_variables := [] |}.
Proof. intro u. vm_compute. reflexivity. Qed.

(** Equality of texts up to the grouping of [++], by reflection. *)
Inductive sx := SAtom (s : string) | SApp (a b : sx).
Fixpoint sx_text (e : sx) : string := match e with SAtom s => s | SApp a b => sx_text a ++ sx_text b end.
Fixpoint sx_norm (e : sx) (k : string) : string :=
  match e with SAtom s => s ++ k | SApp a b => sx_norm a (sx_norm b k) end.
Lemma sx_norm_ok : forall e k, sx_norm e k = sx_text e ++ k.
Proof. induction e as [s|a IHa b IHb]; intro k; cbn; [reflexivity|]. rewrite IHa, IHb, sapp_assoc. reflexivity. Qed.
Lemma sx_eq : forall a b, sx_norm a "" = sx_norm b "" -> sx_text a = sx_text b.
Proof. intros a b H. rewrite !sx_norm_ok, !sapp_nil in H. exact H. Qed.
Ltac sx_reify t :=
  match t with
  | append ?a ?b => let x := sx_reify a in let y := sx_reify b in constr:(SApp x y)
  | _ => constr:(SAtom t)
  end.
Ltac text :=
  match goal with |- ?a = ?b =>
    let x := sx_reify a in let y := sx_reify b in
    change (sx_text x = sx_text y); apply sx_eq; cbv [sx_norm append]; reflexivity
  end.
(** Rendering with the contents of the fragments already looked up. *)
Fixpoint lookups (fragments : smap fragment) (names : list string) : option (list (list component)) :=
  match names with
  | [] => Some []
  | n :: r =>
      match sget n fragments, lookups fragments r with
      | Some f, Some l => Some (fr_content f :: l)
      | _, _ => None
      end
  end.
Lemma render_lookups : forall fragments vars path names contents,
  lookups fragments (map (full_name path) names) = Some contents ->
  render_internal fragments vars path names = concatM (concatM (render_component vars)) contents.
Proof.
  intros fragments vars path names. unfold render_internal.
  induction names as [|n l IH]; intros contents H; cbn [map lookups] in H.
  - injection H as <-. reflexivity.
  - destruct (sget (full_name path n) fragments) as [f|] eqn:E; [|discriminate].
    destruct (lookups fragments (map (full_name path) l)) as [c|] eqn:E2; [|discriminate].
    injection H as <-. cbn [concatM]. rewrite E. cbn [ok_or bind]. rewrite (IH c eq_refl). reflexivity.
Qed.
Ltac symbolic :=
  cbv -[append show_usize rust_type type_path_get unsigned_text fm_f64 N.add N.div to_upper fm_casing
        l_byte_offset l_byte_size l_bit_offset l_bit_size render_internal enum_frs field_frs struct_frs].
Ltac render :=
  symbolic;
  repeat (match goal with |- context [render_internal ?F ?v ?p ?ns] =>
            let c := eval vm_compute in (lookups F (map (full_name p) ns)) in
            match c with Some ?l =>
              rewrite (render_lookups F v p ns l) by (vm_compute; reflexivity)
            end
          end; symbolic);
  f_equal; text.

Theorem gen_enum_text : forall fm e, gen_enum_decl fm e = Ok (lines (enum_lines (e_name e) (e_variants e))).
Proof.
  intros fm [name largest variants]. unfold gen_enum_decl, enum_lines. cbn [e_name e_variants].
  rewrite compile_enum. cbn [unwrap_res bind].
  rewrite (map_join_ok _ _ (fun kv => lines ["    " ++ fst kv ++ " = " ++ show_usize (snd kv) ++ ","])).
  2:{ intros [k v] _. render. }
  cbn [bind]. rewrite lines_map. rewrite !lines_app.
  set (L := lines (map _ _)). clearbody L. render.
Qed.

(** ** Structures *)
Lemma unsigned_type_ok : forall {E} l, (1 <= l_bit_size l <= 64)%N ->
  exists t, @get_unsigned_integer_type E l = Ok t /\ rust_type t = unsigned_text (get_byte_size t).
Proof.
  intros E l H. unfold get_unsigned_integer_type, fixed_from_model.
  set (n := l_bit_size l) in *. cbn [get_bit_size get_simple_type ok_or bind simple_eqb andb map_numeric].
  destruct (N.ltb_spec 32 n), (N.leb_spec n 64), (N.ltb_spec 16 n), (N.leb_spec n 32),
    (N.ltb_spec 8 n), (N.leb_spec n 16), (N.ltb_spec 0 n), (N.leb_spec n 8); try lia;
  cbn [andb unwrap_res]; eexists; split; reflexivity.
Qed.
Lemma unsigned_type_panic : forall {E} l, ~ (1 <= l_bit_size l <= 64)%N ->
  @get_unsigned_integer_type E l = Panic.
Proof.
  intros E l H. unfold get_unsigned_integer_type, fixed_from_model.
  set (n := l_bit_size l) in *. cbn [get_bit_size get_simple_type ok_or bind simple_eqb andb map_numeric].
  destruct (N.ltb_spec 32 n), (N.leb_spec n 64), (N.ltb_spec 16 n), (N.leb_spec n 32),
    (N.ltb_spec 8 n), (N.leb_spec n 16), (N.ltb_spec 0 n), (N.leb_spec n 8); try lia; reflexivity.
Qed.
Lemma get_unsigned_ext : forall {E F} l t,
  @get_unsigned_integer_type E l = Ok t -> @get_unsigned_integer_type F l = Ok t.
Proof.
  intros E F l t. unfold get_unsigned_integer_type. destruct (fixed_from_model _); cbn [unwrap_res]; congruence.
Qed.

Lemma compile_field : forall u, compile u structure_field_template = Ok {| t_fragments := field_frs u; t_variables := [] |}.
Proof. intro u. vm_compute. reflexivity. Qed.
Lemma compile_struct : forall u, compile u structure_template = Ok {| t_fragments := struct_frs u; t_variables := [] |}.
Proof. intro u. vm_compute. reflexivity. Qed.

(** The template the fields of a structure are generated with. *)
Definition field_template_of (u : casing) (name : string) : template :=
  t_var {| t_fragments := field_frs u; t_variables := [] |} "struct_name" name.

(** The variables known when a view is rendered. *)
Definition view_vars (bits : option (string * string)) (fr codec fn raw name e s sname : string) : variables :=
  let base := sinsert "function_name" fn (sinsert "raw_type" raw (sinsert "name" name
    (sinsert "end" e (sinsert "start" s (sinsert "struct_name" sname []))))) in
  match bits with
  | Some (bo, bs) => sinsert "fragment" fr (sinsert "bit_size" bs (sinsert "bit_offset" bo (sinsert "codec" codec base)))
  | None => sinsert "fragment" fr (sinsert "codec" codec base)
  end.

Lemma view_getter_text : forall fm tp bits fr codec fn e s sname v a,
  gen_field_view_getter fm rust_utils v
    {| sc_fragments := field_frs (fm_casing fm);
       sc_variables := view_vars bits fr codec fn (unsigned_text (ac_raw a)) (ff_name v) e s sname |} tp =
  Ok (lines (view_getter_lines (type_path_get tp) (fm_f64 fm) v a)).
Proof.
  intros fm tp bits fr codec fn e s sname [name ty loc view endi] a.
  unfold gen_field_view_getter, view_getter_lines, rust_utils.
  cbn [ut_field_type ff_ty ff_view ff_name].
  set (raw := unsigned_text (ac_raw a)). clearbody raw.
  destruct bits as [[bo bs]|]; destruct view as [x y c d|en| |mp|].
  all: match goal with t : fixed_type |- context [match ?x with FBool => _ | _ => _ end] => destruct t | _ => idtac end.
  all: try (destruct en as [en l vs]); render.
Qed.
Lemma view_setter_text : forall fm tp bits fr codec fn e s sname v a,
  gen_field_view_setter fm rust_utils v
    {| sc_fragments := field_frs (fm_casing fm);
       sc_variables := view_vars bits fr codec fn (unsigned_text (ac_raw a)) (ff_name v) e s sname |} tp =
  Ok (lines (view_setter_lines (type_path_get tp) (fm_f64 fm) v a)).
Proof.
  intros fm tp bits fr codec fn e s sname [name ty loc view endi] a.
  unfold gen_field_view_setter, view_setter_lines, rust_utils.
  cbn [ut_field_type ff_ty ff_view ff_name].
  set (raw := unsigned_text (ac_raw a)). clearbody raw.
  destruct bits as [[bo bs]|]; destruct view as [x y c d|en| |mp|].
  all: match goal with t : fixed_type |- context [match ?x with FBool => _ | _ => _ end] => destruct t | _ => idtac end.
  all: try (destruct en as [en l vs]); render.
Qed.

Lemma bind_text : forall (x y : gres string) a b, x = Ok a -> y = Ok b ->
  (c <- x ;; v <- y ;; Ok (c ++ v)) = Ok (a ++ b).
Proof. intros x y a b -> ->. reflexivity. Qed.
Lemma render_to_var : forall {E} sc p ns k t, s_render sc p ns = Ok t ->
  @unwrap_res E _ _ (s_render_to_var sc p ns k) = Ok (s_var sc k t).
Proof. intros E sc p ns k t H. unfold s_render_to_var. rewrite H. reflexivity. Qed.

Lemma field_getter_text : forall fm tp sname f, field_generates f ->
  gen_field_getter fm rust_utils (field_template_of (fm_casing fm) sname) tp f =
  Ok (lines (getter_lines (type_path_get tp) (fm_f64 fm) f)).
Proof.
  intros fm tp sname [v|v|name r loc] H; cbn [field_generates] in H.
  - destruct (@unsigned_type_ok gerror _ H) as (t & Ht & Hr).
    unfold gen_field_getter, getter_lines, gen_fixed. cbn [rust_utils ut_function_name ut_field_type].
    unfold function_name.
    rewrite Ht, (get_unsigned_ext (F := Empty_set) _ _ Ht). cbn [bind].
    rewrite Hr. set (sz := get_byte_size t). clearbody sz. clear Ht Hr H.
    unfold field_scope. cbn [field_loc field_name].
    destruct v as [name ty loc view endi]. cbn [ff_loc ff_endianness ff_name].
    set (al := N.eqb (N.of_nat sz) (l_byte_size loc)). clearbody al.
    rewrite lines_app.
    destruct (N.eqb (l_bit_size loc mod 8) 0) eqn:Eb; cbn [negb]; set (A := {| ac_start := _ |}).
    + erewrite render_to_var.
      2:{ instantiate (1 := "        unsafe { " ++ read_call A ++ " }" ++ lf). destruct al, endi; render. }
      cbn [bind]. apply bind_text.
      * destruct al, endi; render.
      * apply (view_getter_text fm tp None _ _ _ _ _ _ (Build_fixed_field name ty loc view endi) A).
    + erewrite render_to_var.
      2:{ instantiate (1 := "        unsafe { " ++ read_call A ++ " }" ++ lf). destruct al, endi; render. }
      cbn [bind]. apply bind_text.
      * destruct al, endi; render.
      * apply (view_getter_text fm tp (Some (_, _)) _ _ _ _ _ _ (Build_fixed_field name ty loc view endi) A).
  - unfold gen_field_getter, getter_lines, item_bit_size, udiv, item_bits.
    destruct v as [name ty n loc endi]. cbn [fa_array_len fa_loc fa_name fa_ty fa_endianness] in *.
    destruct (N.eqb_spec n 0); [contradiction|]. cbn [bind].
    destruct endi; render.
  - destruct r as [si sn sf sb sz]. render.
Qed.
Lemma field_setter_text : forall fm tp sname f, field_generates f ->
  gen_field_setter fm rust_utils (field_template_of (fm_casing fm) sname) tp f =
  Ok (lines (setter_lines (type_path_get tp) (fm_f64 fm) f)).
Proof.
  intros fm tp sname [v|v|name r loc] H; cbn [field_generates] in H.
  - destruct (@unsigned_type_ok gerror _ H) as (t & Ht & Hr).
    unfold gen_field_setter, setter_lines, gen_fixed. cbn [rust_utils ut_function_name_mut ut_field_type].
    unfold function_name.
    rewrite Ht, (get_unsigned_ext (F := Empty_set) _ _ Ht). cbn [bind].
    rewrite Hr. set (sz := get_byte_size t). clearbody sz. clear Ht Hr H.
    unfold field_scope. cbn [field_loc field_name].
    destruct v as [name ty loc view endi]. cbn [ff_loc ff_endianness ff_name].
    set (al := N.eqb (N.of_nat sz) (l_byte_size loc)). clearbody al.
    rewrite lines_app.
    destruct (N.eqb (l_bit_size loc mod 8) 0) eqn:Eb; cbn [negb]; set (A := {| ac_start := _ |}).
    + erewrite render_to_var.
      2:{ instantiate (1 := "        unsafe { " ++ write_call A ++ " }" ++ lf). destruct al, endi; render. }
      cbn [bind]. apply bind_text.
      * destruct al, endi; render.
      * apply (view_setter_text fm tp None _ _ _ _ _ _ (Build_fixed_field name ty loc view endi) A).
    + erewrite render_to_var.
      2:{ instantiate (1 := "        unsafe { " ++ write_call A ++ " }" ++ lf). destruct al, endi; render. }
      cbn [bind]. apply bind_text.
      * destruct al, endi; render.
      * apply (view_setter_text fm tp (Some (_, _)) _ _ _ _ _ _ (Build_fixed_field name ty loc view endi) A).
  - unfold gen_field_setter, setter_lines, item_bit_size, udiv, item_bits.
    destruct v as [name ty n loc endi]. cbn [fa_array_len fa_loc fa_name fa_ty fa_endianness] in *.
    destruct (N.eqb_spec n 0); [contradiction|]. cbn [bind].
    destruct endi; render.
  - destruct r as [si sn sf sb sz]. render.
Qed.

Lemma field_getter_panic : forall fm tp T f, ~ field_generates f ->
  gen_field_getter fm rust_utils T tp f = Panic.
Proof.
  intros fm tp T [v|v|name r loc] H; cbn [field_generates] in H.
  - unfold gen_field_getter. rewrite unsigned_type_panic by exact H. reflexivity.
  - unfold gen_field_getter, item_bit_size, udiv.
    destruct (N.eqb_spec (fa_array_len v) 0); [reflexivity|contradiction].
  - exfalso. apply H. exact I.
Qed.
Lemma field_setter_panic : forall fm tp T f, ~ field_generates f ->
  gen_field_setter fm rust_utils T tp f = Panic.
Proof.
  intros fm tp T [v|v|name r loc] H; cbn [field_generates] in H.
  - unfold gen_field_setter. rewrite unsigned_type_panic by exact H. reflexivity.
  - unfold gen_field_setter, item_bit_size, udiv.
    destruct (N.eqb_spec (fa_array_len v) 0); [reflexivity|contradiction].
  - exfalso. apply H. exact I.
Qed.
Lemma field_generates_dec : forall f, field_generates f \/ ~ field_generates f.
Proof.
  intros [v|v|name r loc]; cbn [field_generates]; [lia| |left; exact I].
  destruct (N.eq_dec (fa_array_len v) 0); tauto.
Qed.

Lemma mapM_panic : forall {A B} (f : A -> gres B) (P : A -> Prop) (l : list A),
  (forall x, P x -> exists y, f x = Ok y) -> (forall x, ~ P x -> f x = Panic) ->
  (forall x, P x \/ ~ P x) -> ~ Forall P l -> mapM f l = Panic.
Proof.
  intros A B f P l Hok Hpanic Hdec. induction l as [|x l IH]; intro H.
  - exfalso. apply H. constructor.
  - cbn [mapM]. destruct (Hdec x) as [Hx|Hx].
    + destruct (Hok x Hx) as [y ->]. cbn [bind].
      rewrite IH; [reflexivity|]. intro F. apply H. constructor; assumption.
    + rewrite (Hpanic x Hx). reflexivity.
Qed.

Lemma structure_head_text : forall fm name size,
  t_render (t_var (t_var {| t_fragments := struct_frs (fm_casing fm); t_variables := [] |} "name" name) "byte_size" size)
    "" ["decl"; "new"; "fixed_size"; "write_to"; "from_slice"] =
  Ok (lines (structure_head_lines name (to_upper (fm_casing fm) name) size)).
Proof. intros fm name size. render. Qed.

Theorem gen_structure_text : forall fm tp s, Forall field_generates (s_fields s) ->
  gen_structure_decl fm tp s =
  Ok (lines (structure_lines (type_path_get tp) (fm_f64 fm) (to_upper (fm_casing fm)) s)).
Proof.
  intros fm tp s H. unfold gen_structure_decl, gen_structure, structure_lines.
  rewrite compile_struct, compile_field. cbn [unwrap_res bind].
  rewrite structure_head_text. cbn [unwrap_res bind].
  unfold gen_structure_getters, gen_structure_setters.
  change (t_var {| t_fragments := field_frs (fm_casing fm); t_variables := [] |} "struct_name" (s_name s))
    with (field_template_of (fm_casing fm) (s_name s)).
  rewrite Forall_forall in H.
  rewrite (map_join_ok "" (gen_field_getter _ _ _ _) (fun f => lines (getter_lines (type_path_get tp) (fm_f64 fm) f)))
    by (intros f Hf; apply field_getter_text, H, Hf).
  rewrite (map_join_ok "" (gen_field_setter _ _ _ _) (fun f => lines (setter_lines (type_path_get tp) (fm_f64 fm) f)))
    by (intros f Hf; apply field_setter_text, H, Hf).
  cbn [bind]. rewrite !lines_flat_map, !lines_app.
  set (L1 := lines (flat_map _ _)). set (L2 := lines (flat_map _ _)). clearbody L1 L2.
  set (Hd := lines (structure_head_lines _ _ _)). clearbody Hd.
  set (n := s_name s). clearbody n. render.
Qed.
Theorem gen_structure_panic : forall fm tp s, ~ Forall field_generates (s_fields s) ->
  gen_structure_decl fm tp s = Panic.
Proof.
  intros fm tp s H. unfold gen_structure_decl, gen_structure.
  rewrite compile_struct, compile_field. cbn [unwrap_res bind].
  rewrite structure_head_text. cbn [unwrap_res bind].
  unfold gen_structure_getters, map_join.
  rewrite (mapM_panic _ field_generates); [reflexivity| | | |exact H].
  - intros f Hf. eexists. apply field_getter_text. exact Hf.
  - intros f Hf. apply field_getter_panic. exact Hf.
  - exact field_generates_dec.
Qed.
