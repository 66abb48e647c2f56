(** Property theorems C14-C21: the schema compiler. *)

From Coq Require Import Arith NArith ZArith Ascii String List Bool Lia Permutation Sorted.
From Verif Require Import Base Schema Compiler Access Bits SpecStruct SpecComp EnumThms CompThms ScopeThms
  ImportThms AcceptThms WidthExact SmallExact Samples SamplesComp CompRefute.
Import ListNotations.
Local Open Scope string_scope.
Local Open Scope N_scope.

(** ** C14: declared endianness *)

(** Everything a compiled protocol defines is little-endian, whatever is
    declared; so the claim holds for protocols that declare little-endian. *)
Theorem C14_little_partial : forall m p, compiled m p ->
  (forall s f, In s (p_structs p) -> In f (s_fields s) -> field_endi Little f) /\
  (forall x f, In x (p_messages p) -> In f (m_fields x) -> mf_endi f = Little).
Proof. exact compiled_little. Qed.
Print Assumptions C14_little_partial.

Example C14_nonvacuous : compiled Debug main_p /\ length (p_messages main_p) = 2%nat.
Proof. split; [exact main_compiled|reflexivity]. Qed.

Theorem C14_endianness_refuted : exists v p w f,
  sp_endianness v = Some Big /\
  protocol_from_model Debug no_imports world0 v = Ok (p, w) /\
  (exists s, In s (p_structs p) /\ s_fields s = [FFixed f]) /\
  ff_endianness f = Little /\
  get_raw (E:=cerror) Release f [1; 2] = Ok 513 /\ be_value [1; 2] = 258.
Proof. exact endianness_refuted. Qed.
Print Assumptions C14_endianness_refuted.

(** ** C15: accepted widths *)

Theorem C15_scalar_widths_partial : forall m endi enums structs id d s i df f b,
  structure_from_model m endi enums structs id d = Ok s ->
  nth_error (ss_fields d) i = Some df ->
  get_bit_size (sf_info df) = Some b -> get_simple_type (sf_info df) <> Boolean ->
  nth_error (s_fields s) i = Some f ->
  exists ty, (match f with FFixed g => ff_ty g = ty | FArray g => fa_ty g = ty | FStruct _ _ _ => False end) /\
    1 <= b <= 64 /\ b <= storage_bits ty /\
    (get_simple_type (sf_info df) <> Float ->
     forall n, (n = 8 \/ n = 16 \/ n = 32 \/ n = 64) -> b <= n -> storage_bits ty <= n).
Proof. exact scalar_widths. Qed.
Print Assumptions C15_scalar_widths_partial.

Example C15_nonvacuous :
  structure_from_model Debug Little sample_enums [] 0 demo = Ok demo_s /\
  nth_error (ss_fields demo) 2 = Some (scalar "c" (STUnsigned 24)) /\
  nth_error (s_fields demo_s) 2 = Some (FFixed (demo_fixed 2)) /\ ff_ty (demo_fixed 2) = U32.
Proof. split; [vm_compute; reflexivity|]. repeat split. Qed.

(** Other widths give an error: always in a release build; in a debug build if
    the compiler's own arithmetic does not overflow first. *)
Theorem C15_bad_width_error_partial : forall m endi enums structs off df b,
  get_bit_size (sf_info df) = Some b -> get_simple_type (sf_info df) <> Boolean ->
  ~ (1 <= b <= 64) ->
  (m = Release \/ (width_ok df /\ b * match sf_array_len df with Some n => n | None => 1 end < 2 ^ 64)) ->
  exists e, field_from_model m endi enums structs off df = Err e.
Proof. exact bad_width_error. Qed.
Print Assumptions C15_bad_width_error_partial.

Example C15_error_nonvacuous :
  field_from_model Debug Little [] [] 0 (scalar "x" (STUnsigned 65)) = Err (EUnsupportedBitSize 65) /\
  width_ok (scalar "x" (STUnsigned 65)).
Proof. split; [vm_compute; reflexivity|exact I]. Qed.

(** Exactly which widths a plain scalar may have. *)
Theorem C15_scalar_exact : forall m endi enums structs id name t,
  (exists s, structure_from_model m endi enums structs id
     {| ss_name := name; ss_fields := [ {| sf_name := "x"; sf_info := t; sf_view := None; sf_array_len := None |} ] |} = Ok s) <->
  match t with
  | STUnsigned b | STSigned b => 1 <= b <= 64
  | STFloat b => b = 32 \/ b = 64
  | STBoolean b => m = Debug -> b < 2 ^ 64
  | STStruct n => exists r, sget n structs = Some r /\ (m = Debug -> s_bit_size r < 2 ^ 64)
  end.
Proof. exact scalar_width_exact. Qed.
Print Assumptions C15_scalar_exact.

Example C15_exact_nonvacuous :
  (exists s, structure_from_model Debug Little [] [] 0
     {| ss_name := "S"; ss_fields := [ {| sf_name := "x"; sf_info := STSigned 13; sf_view := None; sf_array_len := None |} ] |} = Ok s) /\
  structure_from_model Debug Little [] [] 0
     {| ss_name := "S"; ss_fields := [ {| sf_name := "x"; sf_info := STFloat 16; sf_view := None; sf_array_len := None |} ] |} =
    Err (EUnsupportedViewType Float).
Proof. split; [eexists|]; vm_compute; reflexivity. Qed.

(** Booleans of any width are accepted. *)
Theorem C15_bool_width_refuted : forall n, n = 0 \/ n = 100 -> exists p w f,
  protocol_from_model Debug no_imports world0 (one_struct [scalar "x" (STBoolean n)]) = Ok (p, w) /\
  (exists s, In s (p_structs p) /\ s_fields s = [FFixed f]) /\ l_bit_size (ff_loc f) = n.
Proof. exact bool_width_refuted. Qed.
Print Assumptions C15_bool_width_refuted.

(** ** C16: panics *)

(** No panic when (in a debug build) widths are in range and sizes fit in 64
    bits, and no union discriminant is the path of a structure. *)
Theorem C16_no_panic_partial : forall m solver w v,
  (m = Release \/
   forall k d p w', nth_error (sp_structs v) k = Some d ->
     protocol_from_model m solver w (only_structs k v) = Ok (p, w') ->
     Forall width_ok (ss_fields d) /\ layout_fits (p_structs_by_name p) d) ->
  (forall u n parts p w' root, In u (sp_unions v) ->
     joined (sun_discriminant u) (n :: parts) -> Forall no_dot (n :: parts) ->
     protocol_from_model m solver w (only_structs (length (sp_structs v)) v) = Ok (p, w') ->
     sget n (p_structs_by_name p) = Some root -> ~ path_to_struct root parts) ->
  protocol_from_model m solver w v <> Panic.
Proof. exact protocol_np. Qed.
Print Assumptions C16_no_panic_partial.

Theorem C16_structure_release : forall endi enums structs id d,
  structure_from_model Release endi enums structs id d <> Panic.
Proof. exact (fun endi enums structs id d => structure_np Release endi enums structs id d (or_introl eq_refl)). Qed.
Print Assumptions C16_structure_release.

Theorem C16_enum_and_message : (forall v, enum_from_model v <> Panic) /\
  (forall env id v, message_from_model env id v <> Panic).
Proof. exact (conj enum_np message_np). Qed.
Print Assumptions C16_enum_and_message.

Theorem C16_panic_refuted :
  protocol_from_model Debug no_imports world0 (one_struct [scalar "x" (STSigned 0)]) = Panic /\
  protocol_from_model Debug no_imports world0 (one_struct [scalar "x" (STSigned 65)]) = Panic /\
  protocol_from_model Debug no_imports world0
    (one_struct [ {| sf_name := "x"; sf_info := STFloat 64; sf_array_len := None;
                     sf_view := Some (SVFloatRange f64_zero f64_one) |} ]) = Panic /\
  (forall m, protocol_from_model m no_imports world0 (one_union "S") = Panic) /\
  (forall m, protocol_from_model m no_imports world0 (one_union "S.t") = Panic).
Proof. exact panic_refuted. Qed.
Print Assumptions C16_panic_refuted.

Example C16_nonvacuous : forall root, sget "Header" (p_structs_by_name main_p) = Some root ->
  ~ path_to_struct root ["kind"] /\ width_ok (scalar "x" (STSigned 12)).
Proof.
  intros root H. split; [|split; discriminate]. intro Hp. inversion Hp as [|s n name r loc rest Hf Hr]; subst.
  vm_compute in H. inversion H; subst. destruct Hf as (k & Hk & Hn & Hb).
  destruct k as [|[|k]]; cbn in Hk; [discriminate|discriminate|destruct k; discriminate].
Qed.

(** ** C17: enums *)

Theorem C17_enum_sorted : forall de e, enum_from_model de = Ok e ->
  e_name e = se_name de /\
  Permutation (e_variants e) (se_variants de) /\
  StronglySorted (fun a b => snd a <= snd b) (e_variants e) /\
  In (e_largest e) (map snd (se_variants de)) /\
  forall v, In v (map snd (se_variants de)) -> v <= e_largest e.
Proof. exact enum_sorted. Qed.
Print Assumptions C17_enum_sorted.

Theorem C17_enum_empty : forall de,
  (se_variants de = [] /\ enum_from_model de = Err EZeroEnum) \/
  (se_variants de <> [] /\ exists e, enum_from_model de = Ok e).
Proof. exact enum_result. Qed.
Print Assumptions C17_enum_empty.

Theorem C17_enum_deterministic_partial : forall name v1 v2,
  Permutation v1 v2 -> NoDup (map snd v1) ->
  enum_from_model {| se_name := name; se_variants := v1 |} =
  enum_from_model {| se_name := name; se_variants := v2 |}.
Proof. exact enum_deterministic. Qed.
Print Assumptions C17_enum_deterministic_partial.

(** Exact, for a hash map (no name occurs twice): the result does not depend on
    the order in which the variants are listed if and only if no two variants
    have the same number. *)
Theorem C17_enum_deterministic_exact : forall name v, NoDup (map fst v) ->
  ((forall v', Permutation v v' ->
      enum_from_model {| se_name := name; se_variants := v |} =
      enum_from_model {| se_name := name; se_variants := v' |})
   <-> NoDup (map snd v)).
Proof. exact enum_deterministic_exact. Qed.
Print Assumptions C17_enum_deterministic_exact.

Theorem C17_enum_lookup : forall de e, enum_from_model de = Ok e -> NoDup (map fst (se_variants de)) ->
  forall k v, sget k (e_map e) = Some v <-> In (k, v) (se_variants de).
Proof. exact enum_lookup. Qed.
Print Assumptions C17_enum_lookup.

Example C17_nonvacuous : NoDup (map snd (se_variants color)) /\ NoDup (map fst (se_variants color)) /\
  exists e, enum_from_model color = Ok e /\ e_variants e = [("Red", 0); ("Green", 1); ("Blue", 2)].
Proof.
  split; [cbn; repeat constructor; cbn; intuition discriminate|].
  split; [cbn; repeat constructor; cbn; intuition discriminate|].
  eexists. split; vm_compute; reflexivity.
Qed.

(** With two variants of equal number the order depends on the hash map. *)
Theorem C17_duplicates_refuted : exists name v1 v2 e1 e2, Permutation v1 v2 /\
  enum_from_model {| se_name := name; se_variants := v1 |} = Ok e1 /\
  enum_from_model {| se_name := name; se_variants := v2 |} = Ok e2 /\
  e_variants e1 <> e_variants e2.
Proof. exact duplicate_enum_refuted. Qed.
Print Assumptions C17_duplicates_refuted.

(** ** C18: length prefixes *)

Theorem C18_length_prefix : forall env id v x mk k vf f n,
  message_from_model env id v = Ok (x, mk) ->
  nth_error (sm_fields v) k = Some vf -> nth_error (m_fields x) k = Some f ->
  declared_max (smf_info vf) = Some n -> n < 2 ^ 64 ->
  exists ty, prefix_of (mf_ty f) = Some ty /\ In ty [U8; U16; U32; U64] /\
    n < 2 ^ storage_bits ty /\
    forall w, In w [8; 16; 32; 64] -> n < 2 ^ w -> storage_bits ty <= w.
Proof. exact length_prefix. Qed.
Print Assumptions C18_length_prefix.

Example C18_nonvacuous : exists x mk,
  message_from_model {| pe_endianness := Little; pe_structs := []; pe_messages := []; pe_unions := [] |} 0
    {| sm_name := "M"; sm_fields := [fld "a" (MTString (Some 255)); fld "b" (MTString (Some 256))] |} = Ok (x, mk) /\
  map mf_ty (m_fields x) = [TVarcharString U8; TVarcharString U16].
Proof. do 2 eexists. split; vm_compute; reflexivity. Qed.

(** ** C19: open-ended fields *)

(** Nothing variable-size follows an open-ended field; in particular there is
    at most one. *)
Theorem C19_open_field_last : forall m p x i j f g, compiled m p -> In x (p_messages p) ->
  (i < j)%nat -> nth_error (m_fields x) i = Some f -> nth_error (m_fields x) j = Some g ->
  open_ended (mf_ty f) -> ~ variable_size (mf_ty g).
Proof. exact open_field_last. Qed.
Print Assumptions C19_open_field_last.

(** Where the members [l1] are accepted and hold an open-ended one, a variable-size
    member [v] behind them is reported, whatever members [l2] follow. *)
Theorem C19_reported : forall m p id name l1 v l2 x mk f mk' g, compiled m p ->
  let env := {| pe_endianness := p_endianness p; pe_structs := p_structs_by_name p;
                pe_messages := p_messages_by_name p; pe_unions := p_unions_by_name p |} in
  message_from_model env id {| sm_name := name; sm_fields := l1 |} = Ok (x, mk) ->
  mfield_from_model env (m_fields x) v = Ok (f, mk') ->
  In g (m_fields x) -> open_ended (mf_ty g) -> variable_size (mf_ty f) ->
  message_from_model env id {| sm_name := name; sm_fields := (l1 ++ v :: l2)%list |} = Err EVarsizeAfterPayload.
Proof. exact open_field_reported. Qed.
Print Assumptions C19_reported.

Example C19_nonvacuous :
  (exists x f, In x (p_messages main_p) /\ nth_error (m_fields x) 2 = Some f /\ open_ended (mf_ty f)) /\
  (exists mk, message_from_model {| pe_endianness := Little; pe_structs := []; pe_messages := []; pe_unions := [] |} 0
    {| sm_name := "M"; sm_fields := [fld "a" MTPayload; fld "b" (MTString None)] |} = mk /\ mk = Err EVarsizeAfterPayload).
Proof.
  split.
  - eexists. eexists. split; [right; left; reflexivity|]. split; [reflexivity|]. constructor.
  - eexists. split; vm_compute; reflexivity.
Qed.

Example C19_reported_nonvacuous :
  let env := {| pe_endianness := p_endianness main_p; pe_structs := p_structs_by_name main_p;
                pe_messages := p_messages_by_name main_p; pe_unions := p_unions_by_name main_p |} in
  compiled Debug main_p /\
  exists x mk f mk' g,
    message_from_model env 0 {| sm_name := "M"; sm_fields := [fld "a" MTPayload] |} = Ok (x, mk) /\
    mfield_from_model env (m_fields x) (fld "b" (MTString None)) = Ok (f, mk') /\
    In g (m_fields x) /\ open_ended (mf_ty g) /\ variable_size (mf_ty f).
Proof.
  split; [exact main_compiled|]. eexists _, _, _, _, _. split; [vm_compute; reflexivity|].
  split; [vm_compute; reflexivity|]. split; [left; reflexivity|]. split; [constructor|apply vs_string].
Qed.

(** ** C20: references *)

Theorem C20_struct_references : forall m solver w v p w' k d df,
  protocol_from_model m solver w v = Ok (p, w') ->
  nth_error (sp_structs v) k = Some d -> In df (ss_fields d) ->
  (forall n, sf_info df = STStruct n -> imported v n \/ earlier_struct v k n) /\
  (forall n, sf_view df = Some (SVEnum n) -> (exists b, sf_info df = STUnsigned b) -> imported v n \/ some_enum v n).
Proof. exact struct_references. Qed.
Print Assumptions C20_struct_references.

Theorem C20_union_references : forall m solver w v p w' u,
  protocol_from_model m solver w v = Ok (p, w') -> In u (sp_unions v) ->
  (exists n parts, joined (sun_discriminant u) (n :: parts) /\ Forall no_dot (n :: parts) /\
     (imported v n \/ some_struct v n)) /\
  (forall c n, In c (sun_cases u) -> su_item_type c = Some n -> imported v n \/ some_struct v n).
Proof. exact union_references. Qed.
Print Assumptions C20_union_references.

Theorem C20_message_references : forall m solver w v p w' k d j df,
  protocol_from_model m solver w v = Ok (p, w') ->
  nth_error (sp_messages v) k = Some d -> nth_error (sm_fields d) j = Some df ->
  (forall n, item_reference (smf_info df) = Some n ->
     imported v n \/ some_struct v n \/ earlier_message v k n) /\
  (forall on n, smf_info df = MTUnion on n ->
     (imported v n \/ some_union v n) /\ In on (map smf_name (firstn j (sm_fields d)))).
Proof. exact message_references. Qed.
Print Assumptions C20_message_references.

Theorem C20_undefined_reference :
  (forall m endi enums structs off df n, sf_info df = STStruct n -> sget n structs = None ->
     field_from_model m endi enums structs off df = Err (EUndefinedReference n)) /\
  (forall env un v n, item_reference (smf_info v) = Some n ->
     sget n (pe_structs env) = None -> sget n (pe_messages env) = None ->
     mfield_from_model env un v = Err (EUndefinedReference n)).
Proof. exact (conj undefined_struct undefined_item). Qed.
Print Assumptions C20_undefined_reference.

Theorem C20_struct_shadows_message : forall structs messages n s,
  sget n structs = Some s -> referenced_lookup structs messages n = Some (RStruct s).
Proof. exact struct_shadows. Qed.
Print Assumptions C20_struct_shadows_message.

Example C20_nonvacuous :
  protocol_from_model Debug main_solver (snd lib_pw) main_v = Ok main_pw /\
  (exists d df, nth_error (sp_structs main_v) 1 = Some d /\ In df (ss_fields d) /\ sf_info df = STStruct "Pos") /\
  earlier_struct main_v 1 "Pos" /\
  (* a structure cannot contain itself *)
  protocol_from_model Debug no_imports world0 (one_struct [scalar "x" (STStruct "S")]) = Err (EUndefinedReference "S").
Proof.
  split; [exact main_ok|]. split.
  { eexists. eexists. split; [reflexivity|]. split; [left; reflexivity|reflexivity]. }
  split; [left; reflexivity|vm_compute; reflexivity].
Qed.

(** ** C21: imports *)

Theorem C21_import_resolves_partial : forall m solver w v p w' i,
  (forall n q, r_protocol solver n = Some q -> compiled m q) ->
  protocol_from_model m solver w v = Ok (p, w') ->
  In i (sp_imports v) -> NoDup (map si_type (sp_imports v)) ->
  ~ some_struct v (si_type i) -> ~ some_enum v (si_type i) -> ~ some_union v (si_type i) ->
  ~ In (si_type i) (map sm_name (sp_messages v)) ->
  exists q path, r_protocol solver (si_protocol i) = Some q /\
    r_path solver (si_protocol i) (si_type i) = Some path /\
    imports_as q p (si_type i) /\
    type_path_get (p_type_path_by_name p) (si_type i) = path.
Proof. exact import_resolves. Qed.
Print Assumptions C21_import_resolves_partial.

Theorem C21_solver_lookup : forall sep regs base p,
  In (base, p) regs -> NoDup (map (fun r => p_name (snd r)) regs) ->
  let r := solver_resolver (fold_left (fun s x => solver_register s (fst x) (snd x)) regs (solver_new sep)) in
  r_protocol r (p_name p) = Some p /\
  forall t, r_path r (p_name p) t = Some (base ++ sep ++ t)%string.
Proof. exact solver_lookup. Qed.
Print Assumptions C21_solver_lookup.

Theorem C21_import_unknown : forall solver p v,
  (r_protocol solver (si_protocol v) = None ->
     import_one solver p v = Err (EUndefinedReference (si_protocol v))) /\
  (forall q, r_protocol solver (si_protocol v) = Some q ->
     sget (si_type v) (p_structs_by_name q) = None -> sget (si_type v) (p_enums_by_name q) = None ->
     sget (si_type v) (p_unions_by_name q) = None -> sget (si_type v) (p_messages_by_name q) = None ->
     import_one solver p v = Err (EUndefinedReference (si_protocol v ++ "::" ++ si_type v))).
Proof. exact import_unknown. Qed.
Print Assumptions C21_import_unknown.

Example C21_nonvacuous :
  NoDup (map si_type (sp_imports main_v)) /\
  type_path_get (p_type_path_by_name main_p) "Ping" = "crate::lib::Ping" /\
  (exists x, sget "Ping" (p_messages_by_name lib_p) = Some x /\ sget "Ping" (p_messages_by_name main_p) = Some x).
Proof.
  split; [cbn; repeat constructor; cbn; intuition discriminate|]. split; [reflexivity|].
  eexists. split; reflexivity.
Qed.

(** In generated code a type is named by the path of its last import, and by its own
    name when it is not imported. *)
Theorem C21_names : forall m solver w v p w' t,
  (forall n q, r_protocol solver n = Some q -> compiled m q) ->
  protocol_from_model m solver w v = Ok (p, w') ->
  type_path_get (p_type_path_by_name p) t = printed_name solver v t.
Proof. exact names_printed. Qed.
Print Assumptions C21_names.

Theorem C21_names_prefixed : forall m solver w v p w' t prefix,
  (forall n q, r_protocol solver n = Some q -> compiled m q) ->
  protocol_from_model m solver w v = Ok (p, w') ->
  type_path_get_with_default_prefix (p_type_path_by_name p) t prefix = printed_name_with solver v prefix t.
Proof. exact names_prefixed. Qed.
Print Assumptions C21_names_prefixed.

Example C21_names_nonvacuous : printed_name main_solver main_v "Ping" = "crate::lib::Ping" /\
  printed_name main_solver main_v "Line" = "Line" /\
  printed_name_with main_solver main_v "super::" "Ping" = "crate::lib::Ping" /\
  printed_name_with main_solver main_v "super::" "Line" = "super::Line".
Proof. repeat split; reflexivity. Qed.

(** A local type of the same name is used, but under the imported path. *)
Theorem C21_shadow_refuted : exists v p w s,
  imported v "Id" /\ some_struct v "Id" /\
  protocol_from_model Debug main_solver world0 v = Ok (p, w) /\
  In s (p_structs p) /\ sget "Id" (p_structs_by_name p) = Some s /\ s_byte_size s = 1 /\
  type_path_get (p_type_path_by_name p) "Id" = "crate::lib::Id".
Proof. exact shadow_refuted. Qed.
Print Assumptions C21_shadow_refuted.
