(** Names declared by the generated unions, messages and modules (C73), and the
    parameters of generated types (C74). *)

From Coq Require Import Arith NArith Ascii String List Bool Lia ZifyBool ZifyN ZifyNat.
From Verif Require Import Base Schema Codec Compiler Access Runtime Gen Template SpecTemplate Driver SpecComp StructFacts
  CompFacts GenText SpecGen SpecCode GenThms GenMsgThms GenAllThms ShowThms RunThms SpecNames HygieneThms NamesThms.
Import ListNotations.
Local Open Scope string_scope.
Local Open Scope list_scope.

(** ** Words before other characters *)
Lemma after_split : forall p s t, after p s = Some t -> s = (p ++ t)%string.
Proof.
  induction p as [|c p IH]; intros s t H; cbn [after] in H; [injection H as <-; reflexivity|].
  destruct s as [|d s]; [discriminate|]. destruct (Ascii.eqb_spec c d) as [->|]; [|discriminate].
  cbn. f_equal. apply IH, H.
Qed.
Lemma plain_split : forall n q c d r t, plain n -> plain q -> word_char c = false -> word_char d = false ->
  (n ++ String c r = q ++ String d t)%string -> n = q /\ c = d.
Proof.
  induction n as [|x n IH]; intros [|y q] c d r t Hn Hq Hc Hd E; cbn in E; injection E as E1 E2.
  - auto.
  - exfalso. destruct Hq as [Hq _]. congruence.
  - exfalso. destruct Hn as [Hn _]. congruence.
  - destruct Hn as [_ Hn]. destruct Hq as [_ Hq]. destruct (IH q c d r t Hn Hq Hc Hd E2) as [-> ->]. subst. auto.
Qed.
Lemma plain_lower : forall s, plain s -> plain (to_ascii_lowercase s).
Proof.
  induction s as [|c s IH]; intro H; [exact I|]. destruct H as [H1 H2]. cbn [to_ascii_lowercase plain]. split; [|apply IH; exact H2].
  destruct c as [[] [] [] [] [] [] [] []]; vm_compute in H1 |- *; congruence.
Qed.
Lemma plain_capital : forall s, plain s -> plain (capital s).
Proof.
  intros [|c s] H; [exact I|]. destruct H as [H1 H2]. cbn [capital plain]. split; [|exact H2].
  destruct c as [[] [] [] [] [] [] [] []]; vm_compute in H1 |- *; congruence.
Qed.

(** ** Unions *)
Lemma variant_no_method : forall n c r, plain n -> word_char c = false -> c <> " "%char ->
  methods [("    " ++ n ++ String c r)%string] = [].
Proof.
  intros n c r Hn Hc Hs. unfold methods, named_after. cbn [flat_map].
  destruct (after "    pub fn " ("    " ++ n ++ String c r)%string) as [t|] eqn:E; [|reflexivity].
  exfalso. apply after_split in E. change ("    pub fn " ++ t)%string with ("    " ++ "pub" ++ String " " ("fn " ++ t))%string in E.
  apply sapp_inj_l in E. apply plain_split in E; try assumption; try reflexivity; [|repeat split].
  destruct E as [_ E]. congruence.
Qed.
Definition case_method (c : ucase) : string :=
  match uc_item c with
  | Some _ => ("as_" ++ to_ascii_lowercase (uc_name c))%string
  | None => ("is_" ++ to_ascii_lowercase (uc_name c))%string
  end.
Lemma case_methods : forall path c, plain (uc_name c) -> methods (union_getter_lines path c) = [case_method c].
Proof.
  intros path c H. unfold union_getter_lines, case_method. apply plain_lower in H.
  destruct (uc_item c) as [r|]; [one_method "as_" (to_ascii_lowercase (uc_name c))|one_method "is_" (to_ascii_lowercase (uc_name c))].
Qed.
Lemma no_methods_flat : forall {A} (g : A -> list string) l, (forall x, In x l -> methods (g x) = []) -> methods (flat_map g l) = [].
Proof.
  intros A g l H. unfold methods. rewrite named_flat. rewrite (flat_map_in_ext _ (fun _ => [])) by exact H.
  clear. induction l; [reflexivity|exact IHl].
Qed.
Theorem union_methods : forall path u, Forall (fun c => plain (uc_name c)) (u_cases u) ->
  methods (union_lines path u) = ["from_slice"; "write_to"; "set_discriminant"] ++ map case_method (u_cases u).
Proof.
  intros path u H. rewrite Forall_forall in H. unfold union_lines. rewrite !methods_app.
  replace (methods (flat_map (variant_lines path) (u_cases u))) with (@nil string).
  2:{ symmetry. apply no_methods_flat. intros c Hc. unfold variant_lines.
      destruct (uc_item c) as [[s|x]|]; eapply variant_no_method; auto; discriminate. }
  replace (methods (flat_map (from_slice_arm path) (u_cases u))) with (@nil string).
  2:{ symmetry. apply no_methods_flat. intros c Hc. unfold from_slice_arm. destruct (uc_item c); reflexivity. }
  replace (methods (flat_map set_arm (u_cases u))) with (@nil string).
  2:{ symmetry. apply no_methods_flat. intros c Hc. unfold set_arm. destruct (uc_item c); reflexivity. }
  replace (methods (flat_map (union_getter_lines path) (u_cases u))) with (map case_method (u_cases u)).
  2:{ unfold methods. rewrite named_flat. change (named_after "    pub fn ") with methods.
      rewrite (flat_map_in_ext _ (fun c => [case_method c])) by (intros c Hc; apply case_methods; auto).
      clear. induction (u_cases u) as [|c l IH]; [reflexivity|]. cbn. rewrite <- IH. reflexivity. }
  destruct (any_item u).
  - rewrite !methods_app.
    replace (methods (flat_map (write_to_arm path) (u_cases u))) with (@nil string).
    2:{ symmetry. apply no_methods_flat. intros c Hc. unfold write_to_arm. destruct (uc_item c); reflexivity. }
    cbn. rewrite !app_nil_r. reflexivity.
  - cbn. rewrite !app_nil_r. reflexivity.
Qed.
Lemma case_method_eq : forall c d, case_method c = case_method d <->
  (has_item c <-> has_item d) /\ to_ascii_lowercase (uc_name c) = to_ascii_lowercase (uc_name d).
Proof.
  intros c d. unfold case_method, has_item. destruct (uc_item c), (uc_item d).
  - split; [intro E; injection E as E; split; [split; discriminate|exact E]|intros [_ E]; rewrite E; reflexivity].
  - split; [discriminate|]. intros [[H _] _]. exfalso. apply H; [discriminate|reflexivity].
  - split; [discriminate|]. intros [[_ H] _]. exfalso. apply H; [discriminate|reflexivity].
  - split; [intro E; injection E as E; split; [tauto|exact E]|intros [_ E]; rewrite E; reflexivity].
Qed.
Theorem union_methods_distinct : forall path u, Forall (fun c => plain (uc_name c)) (u_cases u) ->
  NoDup (methods (union_lines path u)) <-> cases_differ (u_cases u).
Proof.
  intros path u H. rewrite union_methods by exact H. rewrite nodup_app. split.
  - intros (_ & HN & _) i j c d Hi Hj Hn Hk E. apply Hn.
    apply (proj1 (NoDup_nth_error (map case_method (u_cases u))) HN).
    + rewrite map_length. apply nth_error_Some. congruence.
    + rewrite !nth_error_map, Hi, Hj. cbn. f_equal. apply case_method_eq. auto.
  - intro HD. split; [repeat constructor; cbn; intuition discriminate|split].
    + apply NoDup_nth_error. intros i j Hi E. rewrite map_length in Hi. rewrite !nth_error_map in E.
      destruct (nth_error (u_cases u) i) as [c|] eqn:Hc; [|apply nth_error_None in Hc; lia].
      destruct (nth_error (u_cases u) j) as [d|] eqn:Hd; [|discriminate]. cbn in E. injection E as E.
      apply case_method_eq in E. destruct (Nat.eq_dec i j) as [e|n]; [exact e|]. exfalso.
      exact (HD i j c d Hc Hd n (proj1 E) (proj2 E)).
    + intros x Hx Hy. apply in_map_iff in Hy. destruct Hy as (c & <- & _). unfold case_method in Hx. cbn in Hx.
      destruct (uc_item c); cbn in Hx; intuition discriminate.
Qed.

(** ** Types *)
Lemma types_app : forall a b, types (a ++ b) = types a ++ types b.
Proof. intros. unfold types. apply flat_map_app. Qed.
Lemma types_flat : forall {A} (g : A -> list string) l, types (flat_map g l) = flat_map (fun x => types (g x)) l.
Proof. intros A g. induction l as [|x l IH]; [reflexivity|]. cbn [flat_map]. rewrite types_app, IH. reflexivity. Qed.
Lemma types_cons : forall x l, types (x :: l) = types [x] ++ types l.
Proof. intros. change (x :: l) with ([x] ++ l). apply types_app. Qed.
Lemma no_types_flat : forall {A} (g : A -> list string) l, (forall x, types (g x) = []) -> types (flat_map g l) = [].
Proof.
  intros A g l H. rewrite types_flat. induction l as [|a l IH]; [reflexivity|]. cbn. rewrite H, IH. reflexivity.
Qed.
Lemma no_types_map : forall {A} (g : A -> string) l, (forall x, types [g x] = []) -> types (map g l) = [].
Proof.
  intros A g l H. induction l as [|a l IH]; [reflexivity|]. cbn [map]. rewrite types_cons, H, IH. reflexivity.
Qed.
Lemma word_space : forall n r, plain n -> word (n ++ String " " r)%string = n.
Proof. intros. apply word_end; [assumption|reflexivity]. Qed.
Lemma word_lifetime : forall n (b : bool) r, plain n -> word (n ++ (if b then "" else "<'a>") ++ String " " r)%string = n.
Proof. intros n [] r H; cbn [append]; apply word_end; try assumption; reflexivity. Qed.

Definition struct_line (n rest : string) : types [("pub struct " ++ n ++ rest)%string] = [word (n ++ rest)%string] := eq_refl.
Definition enum_line (n rest : string) : types [("pub enum " ++ n ++ rest)%string] = [word (n ++ rest)%string] := eq_refl.

Lemma structure_types : forall path show upper s, plain (s_name s) ->
  types (structure_lines path show upper s) = [s_name s].
Proof.
  intros path show upper s H. unfold structure_lines. rewrite !types_app.
  rewrite (no_types_flat (getter_lines path show)).
  2:{ intros [v|v|n r l]; cbn [getter_lines]; try reflexivity. destruct (gen_fixed v); try reflexivity.
      rewrite types_app. unfold view_getter_lines.
      destruct (ff_view v); [| |destruct (ff_ty v)| |]; reflexivity. }
  rewrite (no_types_flat (setter_lines path show)).
  2:{ intros [v|v|n r l]; cbn [setter_lines]; try reflexivity. destruct (gen_fixed v); try reflexivity.
      rewrite types_app. unfold view_setter_lines.
      destruct (ff_view v); [| |destruct (ff_ty v)|destruct (ff_ty v)|]; reflexivity. }
  unfold structure_head_lines. rewrite types_cons. change (types [_]) with (@nil string) at 1. cbn [List.app].
  rewrite types_cons. rewrite struct_line.
  rewrite (word_end (s_name s) "<"%char) by (try assumption; reflexivity).
  match goal with |- ([_] ++ ?a) ++ _ = _ => change a with (@nil string) end. reflexivity.
Qed.
Lemma enum_types : forall n vs, plain n -> types (enum_lines n vs) = [n].
Proof.
  intros n vs H. unfold enum_lines. rewrite !types_app. rewrite no_types_map by (intro; reflexivity).
  rewrite types_cons. change (types [_]) with (@nil string) at 1. cbn [List.app]. rewrite enum_line, word_space by exact H. reflexivity.
Qed.
Lemma union_types : forall path u, plain (u_name u) -> types (union_lines path u) = [u_name u].
Proof.
  intros path u H. unfold union_lines. rewrite !types_app.
  rewrite (no_types_flat (variant_lines path)) by (intro c; unfold variant_lines; destruct (uc_item c) as [[s|x]|]; reflexivity).
  rewrite (no_types_flat (from_slice_arm path)) by (intro c; unfold from_slice_arm; destruct (uc_item c); reflexivity).
  rewrite (no_types_flat set_arm) by (intro c; unfold set_arm; destruct (uc_item c); reflexivity).
  rewrite (no_types_flat (union_getter_lines path)) by (intro c; unfold union_getter_lines; destruct (uc_item c); reflexivity).
  assert (HW : word (u_name u ++ union_lifetime u ++ " {")%string = u_name u).
  { unfold union_lifetime. destruct (any_item u); cbn [append]; apply word_end; try assumption; reflexivity. }
  destruct (any_item u).
  - rewrite !types_app.
    rewrite (no_types_flat (write_to_arm path)) by (intro c; unfold write_to_arm; destruct (uc_item c); reflexivity).
    rewrite types_cons. rewrite enum_line, HW. reflexivity.
  - rewrite types_cons. rewrite enum_line, HW. reflexivity.
Qed.
Lemma wrapper_types : forall path x f, plain (m_name x) -> plain (mf_name f) ->
  types (wrapper_lines path (m_name x) f) =
  match mf_ty f with TArray _ _ | TList _ _ => [(m_name x ++ capital (mf_name f))%string] | _ => [] end.
Proof.
  intros path x f Hx Hf. unfold wrapper_lines. apply plain_capital in Hf.
  pose proof (plain_app _ _ Hx Hf) as HP.
  destruct (mf_ty f) as [t|r| |t|t s|u on i|t y|]; try reflexivity.
  - pose proof (word_end _ ","%char (" " ++ path (s_name s) ++ ", " ++ value_text (order_of (mf_endi f)) t ++ ");") HP eq_refl) as HW.
    rewrite sapp_assoc in HW.
    etransitivity; [|exact (f_equal (fun z => [z]) HW)]. reflexivity.
  - pose proof (word_end _ "<"%char ("'a, T> = " ++ util_text ("List<T, " ++ value_text (order_of (mf_endi f)) t ++ ", " ++ path (m_name y) ++ "<'a>>;")) HP eq_refl) as HW.
    rewrite sapp_assoc in HW.
    etransitivity; [|exact (f_equal (fun z => [z]) HW)]. reflexivity.
Qed.
Lemma message_types : forall path x, plain_message x -> types (message_lines path x) = m_name x :: list_types x.
Proof.
  intros path x [Hx Hf]. rewrite Forall_forall in Hf. unfold message_lines, message_struct_lines. rewrite !types_app.
  rewrite no_types_map by (intro; reflexivity).
  rewrite types_cons. change (types [_]) with (@nil string) at 1. cbn [List.app]. rewrite struct_line.
  unfold lifetime. rewrite word_lifetime by exact Hx. rewrite types_flat.
  change (types [_; _]) with (@nil string). change (types [_]) with (@nil string). cbn [List.app]. rewrite app_nil_r. f_equal.
  apply flat_map_in_ext. intros f Hi. apply wrapper_types; [exact Hx|apply Hf; exact Hi].
Qed.
Lemma from_slice_types : forall path emb x, types (from_slice_lines path emb x) = [].
Proof.
  intros path emb x. unfold from_slice_lines. rewrite !types_app.
  rewrite (no_types_flat read_lines) by (intro s; reflexivity). rewrite no_types_map by (intro; reflexivity). reflexivity.
Qed.
Lemma write_to_types : forall path emb x, types (write_to_lines path emb x) = [].
Proof.
  intros path emb x. unfold write_to_lines. rewrite !types_app.
  rewrite (no_types_flat write_lines) by (intro s; reflexivity). reflexivity.
Qed.
Lemma offsets_types : forall path emb x, plain (m_name x) ->
  types (offsets_lines path emb x) = [(m_name x ++ "Offsets")%string].
Proof.
  intros path emb x H. unfold offsets_lines. rewrite !types_app.
  rewrite (no_types_flat (offset_field_lines path)).
  2:{ intro f. unfold offset_field_lines. destruct (mf_ty f) as [t|[s|y]| |t|t s|u on i|t y|]; try reflexivity.
      destruct (mf_optional f); reflexivity. }
  rewrite (no_types_flat offset_lines) by (intro s; unfold offset_lines; destruct (has_offsets (st_type s)); reflexivity).
  rewrite no_types_map by (intro; reflexivity).
  rewrite types_cons. change (types [_]) with (@nil string) at 1. cbn [List.app]. rewrite struct_line.
  change ("Offsets {")%string with ("Offsets" ++ " {")%string. rewrite <- sapp_assoc.
  rewrite word_space by (apply plain_app; [exact H|repeat split]). reflexivity.
Qed.
Theorem module_types : forall fm emb p, plain_names p -> types (module_lines fm emb p) = type_names p.
Proof.
  intros fm emb p (HM & HS & HE & HU). rewrite Forall_forall in HM, HS, HE, HU.
  unfold module_lines, type_names. cbn zeta. set (path := type_path_get (p_type_path_by_name p)).
  rewrite !types_app.
  rewrite (no_types_flat (from_slice_lines path emb)) by (intro; apply from_slice_types).
  rewrite (no_types_flat (write_to_lines path emb)) by (intro; apply write_to_types). cbn [List.app].
  assert (HF : forall {A} (g : A -> string) l, flat_map (fun x => [g x]) l = map g l)
    by (intros A g l; induction l as [|a l IH]; [reflexivity|cbn; rewrite IH; reflexivity]).
  rewrite !types_flat. rewrite <- !HF. 
  apply (f_equal2 (@List.app string)); [|apply (f_equal2 (@List.app string)); [|apply (f_equal2 (@List.app string));
    [|apply (f_equal2 (@List.app string))]]]; apply flat_map_in_ext.
  - intros x Hx. apply message_types. auto.
  - intros x Hx. apply offsets_types. apply HM, Hx.
  - intros s Hs. apply structure_types. apply HS, Hs.
  - intros e He. apply enum_types. auto.
  - intros u Hu. apply union_types. apply HU, Hu.
Qed.

(** ** Constants *)
Theorem structure_constants : forall path show upper s, plain (upper (s_name s)) ->
  constants (structure_lines path show upper s) = [("SIZE_" ++ upper (s_name s))%string].
Proof.
  intros path show upper s H. unfold structure_lines, constants. rewrite !named_app.
  assert (HN : forall {A} (g : A -> list string) l, (forall x, named_after "pub const " (g x) = []) ->
            named_after "pub const " (flat_map g l) = []).
  { intros A g l Hg. rewrite named_flat. induction l as [|a l IH]; [reflexivity|]. cbn. rewrite Hg, IH. reflexivity. }
  rewrite (HN _ (getter_lines path show)).
  2:{ intros [v|v|n r l]; cbn [getter_lines]; try reflexivity. destruct (gen_fixed v); try reflexivity.
      rewrite named_app. unfold view_getter_lines.
      destruct (ff_view v); [| |destruct (ff_ty v)| |]; reflexivity. }
  rewrite (HN _ (setter_lines path show)).
  2:{ intros [v|v|n r l]; cbn [setter_lines]; try reflexivity. destruct (gen_fixed v); try reflexivity.
      rewrite named_app. unfold view_setter_lines.
      destruct (ff_view v); [| |destruct (ff_ty v)|destruct (ff_ty v)|]; reflexivity. }
  unfold structure_head_lines.
  pose proof (named_one "pub const " "SIZE_" (upper (s_name s)) ":"%char (" usize = " ++ show_usize (s_byte_size s) ++ ";")
    ltac:(repeat split) H eq_refl) as HO.
  etransitivity; [|exact HO].
  cbn. rewrite ?app_nil_r. reflexivity.
Qed.

(** ** Members *)
Lemma members_flat : forall {A} (g : A -> list string) l,
  public_members (flat_map g l) = flat_map (fun x => public_members (g x)) l.
Proof. intros. apply named_flat. Qed.
Lemma members_app : forall a b, public_members (a ++ b) = public_members a ++ public_members b.
Proof. intros. apply named_app. Qed.
Lemma member_one : forall n c r, plain n -> word_char c = false -> public_members [("    pub " ++ n ++ String c r)%string] = [n].
Proof. intros n c r H Hc. apply (named_one "    pub " "" n c r I H Hc). Qed.
Theorem message_members : forall path x, Forall (fun f => plain (mf_name f)) (m_fields x) ->
  public_members (message_struct_lines path x) = map mf_name (m_fields x).
Proof.
  intros path x H. unfold message_struct_lines. rewrite !members_app.
  replace (public_members (map (fun f => ("    pub " ++ mf_name f ++ ": " ++ decl_type path f ++ ",")%string) (m_fields x)))
    with (map mf_name (m_fields x)).
  { cbn. rewrite app_nil_r. reflexivity. }
  symmetry. induction H as [|f l Hf _ IH]; [reflexivity|]. cbn [map]. unfold public_members. rewrite named_cons.
  fold (public_members (map (fun f => ("    pub " ++ mf_name f ++ ": " ++ decl_type path f ++ ",")%string) l)).
  rewrite IH. change (named_after "    pub ") with public_members.
  change (": " ++ decl_type path f ++ ",")%string with (String ":" (" " ++ decl_type path f ++ ","))%string.
  rewrite member_one by (try exact Hf; reflexivity). reflexivity.
Qed.
Definition offset_member_names (f : mfield) : list string :=
  mf_name f :: match mf_ty f with TRef (RMessage _) => [(mf_name f ++ "_offsets")%string] | _ => [] end.
Theorem offsets_members : forall path emb x, Forall (fun f => plain (mf_name f)) (m_fields x) ->
  public_members (offsets_lines path emb x) = flat_map offset_member_names (m_fields x).
Proof.
  intros path emb x H. rewrite Forall_forall in H. unfold offsets_lines. rewrite !members_app. rewrite !members_flat.
  rewrite (flat_map_in_ext (fun f => public_members (offset_field_lines path f)) offset_member_names).
  2:{ intros f Hf. pose proof (H f Hf) as Hn. unfold offset_field_lines, offset_member_names. rewrite members_app.
      change (": bp3d_proto::message::FieldOffset,")%string with (String ":" " bp3d_proto::message::FieldOffset,").
      rewrite member_one by (try exact Hn; reflexivity). cbn [List.app]. f_equal.
      pose proof (plain_app _ "_offsets" Hn ltac:(repeat split)) as Hp.
      destruct (mf_ty f) as [t|[s|y]| |t|t s|u on i|t y|]; try reflexivity.
      destruct (mf_optional f).
      - pose proof (member_one _ ":"%char (" Option<" ++ path (m_name y) ++ "Offsets>,") Hp eq_refl) as HO.
        rewrite sapp_assoc in HO. exact HO.
      - pose proof (member_one _ ":"%char (" " ++ path (m_name y) ++ "Offsets,") Hp eq_refl) as HO.
        rewrite sapp_assoc in HO. exact HO. }
  rewrite (flat_map_in_ext (fun s => public_members (offset_lines s)) (fun _ => [])).
  2:{ intros s _. unfold offset_lines. destruct (has_offsets (st_type s)); reflexivity. }
  replace (public_members (map (fun f => ("            " ++ mf_name f ++ ",")%string) (m_fields x))) with (@nil string).
  2:{ clear. symmetry. induction (m_fields x) as [|f l IH]; [reflexivity|]. cbn [map]. unfold public_members. rewrite named_cons.
      unfold public_members in IH. rewrite IH. reflexivity. }
  replace (flat_map (fun _ : stmt => @nil string) (program path emb x)) with (@nil string)
    by (induction (program path emb x) as [|a l IH]; [reflexivity|exact IH]).
  cbn. rewrite !app_nil_r. reflexivity.
Qed.

(** ** Parameters *)
Lemma lifetime_iff : forall x, lifetime x = "<'a>" <-> exists f, In f (m_fields x) /\ ~ scalar_member f.
Proof.
  intro x. unfold lifetime.
  assert (H : forallb (fun f => match mf_ty f with TFixed _ => true | _ => false end) (m_fields x) = true <->
              forall f, In f (m_fields x) -> scalar_member f).
  { rewrite forallb_forall. unfold scalar_member. split; intros H f Hf; specialize (H f Hf).
    - destruct (mf_ty f); try discriminate. eauto.
    - destruct H as [t ->]. reflexivity. }
  destruct (forallb _ (m_fields x)) eqn:E.
  - split; [discriminate|]. intros (f & Hf & Hs). exfalso. apply Hs. apply (proj1 H eq_refl f Hf).
  - split; [|reflexivity]. intros _. clear H. induction (m_fields x) as [|f l IH]; [discriminate|].
    cbn in E. destruct (mf_ty f) eqn:Ht; try (exists f; split; [left; reflexivity|intros [t Hs]; congruence]).
    destruct (IH E) as (g & Hg & Hs). exists g. split; [right; exact Hg|exact Hs].
Qed.
Lemma lifetime_two : forall x, lifetime x = "" \/ lifetime x = "<'a>".
Proof. intro x. unfold lifetime. destruct (forallb _ _); auto. Qed.
Lemma message_declared : forall path x ps,
  nth_error (message_lines path x) 1 = Some ("pub struct " ++ m_name x ++ ps ++ " {")%string ->
  (ps = "<'a>" <-> exists f, In f (m_fields x) /\ ~ scalar_member f) /\ (ps = "" \/ ps = "<'a>").
Proof.
  intros path x ps H. cbn in H. injection H as H. apply sapp_inj_l in H. apply sapp_inj_r in H. subst ps.
  split; [apply lifetime_iff|apply lifetime_two].
Qed.
Lemma union_declared : forall path u ps,
  nth_error (union_lines path u) 1 = Some ("pub enum " ++ u_name u ++ ps ++ " {")%string ->
  (ps = "<'a>" <-> exists c, In c (u_cases u) /\ has_item c) /\ (ps = "" \/ ps = "<'a>").
Proof.
  intros path u ps H. cbn in H. injection H as H. apply sapp_inj_l in H. apply sapp_inj_r in H. subst ps.
  unfold union_lifetime, has_item.
  assert (HE : any_item u = true <-> exists c, In c (u_cases u) /\ uc_item c <> None).
  { unfold any_item. rewrite existsb_exists. split; intros (c & Hc & H); exists c; split; auto; destruct (uc_item c); congruence. }
  destruct (any_item u).
  - split; [tauto|auto].
  - split; [split; [discriminate|intro H; apply HE in H; discriminate]|auto].
Qed.
Lemma used_app : forall a text name ps b, used_with text name ps -> used_with (a ++ text ++ b)%string name ps.
Proof.
  intros a text name ps b (c & d & ->). exists (a ++ c)%string, (d ++ b)%string. rewrite !sapp_assoc. reflexivity.
Qed.
Lemma type_used : forall path f n,
  (exists y, mentions_message f y /\ n = m_name y) \/ (exists u, mentions_union f u /\ n = u_name u) ->
  used_with (decl_type path f) (path n) "<'a>".
Proof.
  intros path f n H. unfold decl_type.
  assert (HU : used_with
    match mf_ty f with
            | TFixed t => rust_type t
            | TRef (RStruct s) => (path (s_name s) ++ "<&'a [u8]>")%string
            | TRef (RMessage x) => (path (m_name x) ++ "<'a>")%string
            | TNullTerminatedString | TVarcharString _ => "&'a str"
            | TArray t s => (util_text ("Array::<&'a [u8], " ++ value_text (order_of (mf_endi f)) t ++ ", " ++ path (s_name s) ++ "<&'a [u8]>>") ++ lf)%string
            | TUnion u _ _ => (path (u_name u) ++ "<'a>")%string
            | TList t x => (util_text ("List::<&'a [u8], " ++ value_text (order_of (mf_endi f)) t ++ ", " ++ path (m_name x) ++ "<'a>>") ++ lf)%string
            | TPayload => "&'a [u8]"
            end (path n) "<'a>").
  { destruct H as [(y & [Ht|(t & Ht)] & ->)|(u & (on & i & Ht) & ->)]; rewrite Ht.
    - exists "", "". reflexivity.
    - exists (util_text ("List::<&'a [u8], " ++ value_text (order_of (mf_endi f)) t ++ ", "))%string, (">" ++ lf)%string.
      unfold util_text. rewrite !sapp_assoc. reflexivity.
    - exists "", "". reflexivity. }
  cbn zeta. destruct (mf_optional f); [|exact HU].
  apply used_app. exact HU.
Qed.
Lemma member_line_used : forall path x f n, In f (m_fields x) ->
  (exists y, mentions_message f y /\ n = m_name y) \/ (exists u, mentions_union f u /\ n = u_name u) ->
  exists line, In line (message_lines path x) /\ used_with line (path n) "<'a>".
Proof.
  intros path x f n Hf H. exists ("    pub " ++ mf_name f ++ ": " ++ decl_type path f ++ ",")%string. split.
  - unfold message_lines, message_struct_lines. apply in_or_app. left. apply in_or_app. right. apply in_or_app. left.
    apply in_map_iff. exists f. auto.
  - pose proof (used_app ("    pub " ++ mf_name f ++ ": ") _ _ _ "," (type_used path f n H)) as HU.
    rewrite !sapp_assoc in HU. exact HU.
Qed.
Lemma case_line_used : forall path u c y, In c (u_cases u) -> uc_item c = Some (RMessage y) ->
  exists line, In line (union_lines path u) /\ used_with line (path (m_name y)) "<'a>".
Proof.
  intros path u c y Hc Hy. exists ("    " ++ uc_name c ++ "(" ++ path (m_name y) ++ "<'a>),")%string. split.
  - unfold union_lines. apply in_or_app. right. apply in_or_app. left. apply in_flat_map. exists c. split; [exact Hc|].
    unfold variant_lines. rewrite Hy. left. reflexivity.
  - exists ("    " ++ uc_name c ++ "(")%string, ("),")%string. rewrite !sapp_assoc. reflexivity.
Qed.

(** ** Compiled protocols *)
Lemma files_generate : forall m fm emb p files, compiled m p -> rust_files fm emb p = Ok files -> generates p.
Proof.
  intros m fm emb p files Hc H.
  assert (Hd : generates p \/ ~ generates p).
  { unfold generates.
    destruct (Forall_dec_prop (fun s => Forall field_generates (s_fields s)) (p_structs p))
      as [A|A]; [intro; apply Forall_dec_prop, field_generates_dec| |right; tauto].
    destruct (Forall_dec_prop (fun x => Forall mfield_generates (m_fields x)) (p_messages p))
      as [B|B]; [intro; apply Forall_dec_prop, mfield_generates_dec|left; tauto|right; tauto]. }
  destruct Hd as [Hd|Hd]; [exact Hd|]. rewrite (rust_files_panic fm emb p Hd) in H. discriminate.
Qed.
Theorem structures_distinct : forall m fm emb p files s, compiled m p -> rust_files fm emb p = Ok files ->
  In s (p_structs p) -> plain_structure s ->
  let path := type_path_get (p_type_path_by_name p) in
  methods (structure_lines path (fm_f64 fm) (to_upper (fm_casing fm)) s) = method_names s /\
  (NoDup (methods (structure_lines path (fm_f64 fm) (to_upper (fm_casing fm)) s)) <-> no_clash (s_fields s)).
Proof.
  intros m fm emb p files s Hc H Hs Hp path. destruct (files_generate _ _ _ _ _ Hc H) as (HG & _).
  rewrite Forall_forall in HG. pose proof (HG s Hs) as Hg. destruct Hp as (_ & Hp).
  split; [apply structure_methods; assumption|]. rewrite structure_methods by assumption. apply method_names_distinct.
Qed.
Lemma offsets_members_distinct : forall path emb x, Forall (fun f => plain (mf_name f)) (m_fields x) -> no_hiding_offsets x ->
  NoDup (public_members (message_struct_lines path x)) /\ NoDup (public_members (offsets_lines path emb x)).
Proof.
  intros path emb x Hp ((HN & _) & _ & HO). rewrite message_members, offsets_members by exact Hp. split; [exact HN|].
  apply nodup_flat. split.
  - intros f _. unfold offset_member_names. destruct (mf_ty f) as [t|[s|y]| |t|t s|u on i|t y|]; repeat constructor; cbn; try tauto.
    intros [E|[]]. clear - E. assert (H : String.length (mf_name f ++ "_offsets") = String.length (mf_name f)) by (rewrite E; reflexivity).
    clear E. induction (mf_name f); cbn in H; [discriminate|]. apply IHs. lia.
  - intros i j f g Hi Hj Hn z Hz Hz'.
    assert (Hne : mf_name f <> mf_name g).
    { intro E. apply Hn. apply (proj1 (NoDup_nth_error (map mf_name (m_fields x))) HN).
      - rewrite map_length. apply nth_error_Some. congruence.
      - rewrite !nth_error_map, Hi, Hj. cbn. congruence. }
    apply nth_error_In in Hi. apply nth_error_In in Hj. apply (in_map mf_name) in Hi. apply (in_map mf_name) in Hj.
    assert (HC : forall f z, In z (offset_member_names f) -> z = mf_name f \/ z = (mf_name f ++ "_offsets")%string).
    { intros h w [<-|Hw]; [auto|]. destruct (mf_ty h) as [t|[s|y]| |t|t s|u on k|t y|]; try destruct Hw as [<-|[]]; try destruct Hw. auto. }
    apply HC in Hz. apply HC in Hz'. destruct Hz as [->| ->], Hz' as [E|E].
    + exact (Hne E).
    + apply (HO _ Hj). rewrite <- E. exact Hi.
    + apply (HO _ Hi). rewrite E. exact Hj.
    + apply Hne. eapply sapp_inj_r; exact E.
Qed.
Lemma structures_constants : forall path show upper l, Forall (fun s => plain (upper (s_name s))) l ->
  constants (flat_map (structure_lines path show upper) l) = map (fun s => ("SIZE_" ++ upper (s_name s))%string) l /\
  (NoDup (constants (flat_map (structure_lines path show upper) l)) <-> NoDup (map (fun s => upper (s_name s)) l)).
Proof.
  intros path show upper l H.
  assert (E : constants (flat_map (structure_lines path show upper) l) = map (fun s => ("SIZE_" ++ upper (s_name s))%string) l).
  { induction H as [|s l Hs _ IH]; [reflexivity|]. cbn [flat_map map]. unfold constants in *. rewrite named_app.
    change (named_after "pub const " (structure_lines path show upper s)) with (constants (structure_lines path show upper s)).
    rewrite structure_constants by exact Hs. rewrite IH. reflexivity. }
  split; [exact E|]. rewrite E. rewrite <- (map_map (fun s => upper (s_name s)) (fun n => ("SIZE_" ++ n)%string)).
  split; intro HN.
  - eapply NoDup_map_inv. exact HN.
  - apply FinFun.Injective_map_NoDup; [|exact HN]. intros a b Hab. eapply sapp_inj_l. exact Hab.
Qed.
Theorem compiled_messages : forall m fm emb p files x, compiled m p -> rust_files fm emb p = Ok files ->
  In x (p_messages p) -> plain_message x -> no_hiding_offsets x ->
  let path := type_path_get (p_type_path_by_name p) in
  NoDup (public_members (message_struct_lines path x)) /\ NoDup (public_members (offsets_lines path emb x)).
Proof. intros m fm emb p files x _ _ _ (_ & Hp) Hn path. apply offsets_members_distinct; assumption. Qed.
Lemma message_uses : forall path y,
  (forall ps, nth_error (message_lines path y) 1 = Some ("pub struct " ++ m_name y ++ ps ++ " {")%string ->
     (ps = "<'a>" <-> exists f, In f (m_fields y) /\ ~ scalar_member f) /\ (ps = "" \/ ps = "<'a>")) /\
  (forall x f, In f (m_fields x) -> mentions_message f y ->
     exists line, In line (message_lines path x) /\ used_with line (path (m_name y)) "<'a>") /\
  (forall u c, In c (u_cases u) -> uc_item c = Some (RMessage y) ->
     exists line, In line (union_lines path u) /\ used_with line (path (m_name y)) "<'a>").
Proof.
  intros path y. split; [apply message_declared|]. split.
  - intros x f Hf Hm. eapply member_line_used; eauto.
  - intros u c Hc Hu. eapply case_line_used; eauto.
Qed.
Lemma union_uses : forall path u,
  (forall ps, nth_error (union_lines path u) 1 = Some ("pub enum " ++ u_name u ++ ps ++ " {")%string ->
     (ps = "<'a>" <-> exists c, In c (u_cases u) /\ has_item c) /\ (ps = "" \/ ps = "<'a>")) /\
  (forall x f, In f (m_fields x) -> mentions_union f u ->
     exists line, In line (message_lines path x) /\ used_with line (path (u_name u)) "<'a>").
Proof.
  intros path u. split; [apply union_declared|].
  intros x f Hf Hm. eapply member_line_used; eauto.
Qed.
