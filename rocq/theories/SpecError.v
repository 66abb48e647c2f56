(** Which error the compiler reports, for C76: the defect of a definition that error names. *)

From Coq Require Import Arith NArith Ascii String List Bool.
From Verif Require Import Base Schema Compiler SpecStruct SpecComp SpecCase SpecPanic SpecAccept.
Import ListNotations.
Local Open Scope N_scope.
Local Open Scope string_scope.

(** ** Structures *)

(** The view does not go with the type of the field. *)
Inductive view_error (enums : smap enum_) (f : sfield) : cerror -> Prop :=
| ve_enum : forall n b, sf_view f = Some (SVEnum n) -> sf_info f = STUnsigned b -> sget n enums = None ->
    view_error enums f (EUndefinedReference n)
| ve_not_number : forall n, sf_view f = Some (SVEnum n) -> (forall b, sf_info f <> STUnsigned b) ->
    view_error enums f (EUnsupportedViewType (get_simple_type (sf_info f)))
| ve_not_float : forall v, sf_view f = Some v -> (forall n, v <> SVEnum n) -> (forall b, sf_info f <> STFloat b) ->
    view_error enums f (EUnsupportedViewType (get_simple_type (sf_info f)))
| ve_raw_float : forall b, sf_view f = None -> sf_info f = STFloat b -> b <> 32 -> b <> 64 ->
    view_error enums f (EUnsupportedViewType Float).

(** The defects of a field, in the order in which they are noticed. With overflow checks the arithmetic
    before them must not have overflown. *)
Inductive field_error (m : mode) (enums : smap enum_) (structs : smap structure) (f : sfield) : cerror -> Prop :=
| fe_reference : forall n, sf_info f = STStruct n -> sget n structs = None -> field_error m enums structs f (EUndefinedReference n)
| fe_view : forall e, (forall n, sf_info f <> STStruct n) -> view_error enums f e -> field_error m enums structs f e
| fe_width : forall b, get_bit_size (sf_info f) = Some b -> view_fits enums f -> ~ width_fits f ->
    (m = Debug -> (forall b', sf_info f <> STSigned b') /\ range_fits f /\ b * items_of f < 2 ^ 64) ->
    field_error m enums structs f (EUnsupportedBitSize b)
| fe_items : forall b, get_bit_size (sf_info f) = Some b -> view_fits enums f -> width_fits f ->
    1 < items_of f -> (b * items_of f) mod 8 <> 0 -> (m = Debug -> range_fits f /\ b * items_of f < 2 ^ 64) ->
    field_error m enums structs f EUnalignedArrayCodec.

Definition struct_error (m : mode) (enums : smap enum_) (structs : smap structure) (d : sstruct) (e : cerror) : Prop :=
  exists k f, nth_error (ss_fields d) k = Some f /\
    struct_accepted m enums structs (first_fields k d) /\ field_error m enums structs f e.

(** ** Unions *)

(** The path stops at a component [n]: the structure reached has no such field, or it is an array. *)
Inductive stops (s : structure) : list string -> string -> cerror -> Prop :=
| st_missing : forall root n rest, (forall k f, ~ first_at n (s_fields s) k f) ->
    stops s (n :: rest) root (EUndefinedReference (root ++ "." ++ n))
| st_array : forall root n rest k a, first_at n (s_fields s) k (FArray a) -> stops s (n :: rest) root EInvalidUnionDiscriminant
| st_more : forall root n k name r loc rest e, first_at n (s_fields s) k (FStruct name r loc) -> stops r rest root e ->
    stops s (n :: rest) root e.

Inductive case_error (structs : smap structure) (messages : smap message) (f : fixed_field) (c : sucase) : cerror -> Prop :=
| ce_float : forall a b x y, ff_view f = VFloat a b x y -> case_error structs messages f c EFloatInUnionDiscriminant
| ce_label : (forall a b x y, ff_view f <> VFloat a b x y) -> (forall n, ~ label_number (ff_view f) (su_case c) n) ->
    case_error structs messages f c (EInvalidUnionCase (su_case c))
| ce_item : forall n t, label_number (ff_view f) (su_case c) n -> su_item_type c = Some t ->
    sget t structs = None -> sget t messages = None -> case_error structs messages f c (EUndefinedReference t).

Inductive union_error (structs : smap structure) (messages : smap message) (u : sunion) : cerror -> Prop :=
| ue_root : forall n parts, joined (sun_discriminant u) (n :: parts) -> Forall no_dot (n :: parts) -> sget n structs = None ->
    union_error structs messages u (EUndefinedReference n)
| ue_path : forall n parts root e, joined (sun_discriminant u) (n :: parts) -> Forall no_dot (n :: parts) ->
    sget n structs = Some root -> stops root parts n e -> union_error structs messages u e
| ue_case : forall n parts root f k c e, joined (sun_discriminant u) (n :: parts) -> Forall no_dot (n :: parts) ->
    sget n structs = Some root -> taken_for root parts f -> nth_error (sun_cases u) k = Some c ->
    Forall (case_accepted structs messages f) (firstn k (sun_cases u)) -> case_error structs messages f c e ->
    union_error structs messages u e.

(** ** Messages *)

Definition first_member (on : string) (before : list smfield) (j : nat) (w : smfield) : Prop :=
  nth_error before j = Some w /\ smf_name w = on /\
  forall i x, (i < j)%nat -> nth_error before i = Some x -> smf_name x <> on.

Inductive member_error (env : proto_env) (before : list smfield) (v : smfield) : cerror -> Prop :=
| me_item : forall n, (smf_info v = MTItem n \/ exists len, smf_info v = MTList len n) ->
    sget n (pe_structs env) = None -> sget n (pe_messages env) = None -> member_error env before v (EUndefinedReference n)
| me_on : forall on n, smf_info v = MTUnion on n -> (forall j w, ~ first_member on before j w) ->
    member_error env before v (EUndefinedReference on)
| me_union : forall on n j w, smf_info v = MTUnion on n -> first_member on before j w -> sget n (pe_unions env) = None ->
    member_error env before v (EUndefinedReference n)
| me_mismatch : forall on n j w u, smf_info v = MTUnion on n -> first_member on before j w -> sget n (pe_unions env) = Some u ->
    (forall t s, smf_info w = MTItem t -> sget t (pe_structs env) = Some s -> ~ bare s -> s_id s <> s_id (d_root (u_disc u))) ->
    member_error env before v EUnionTypeMismatch
| me_behind : forall x z y, In x before -> member_size env x = Some z -> is_element_dyn_sized z = true ->
    told_apart env before v -> member_size env v = Some y -> is_dyn_sized y = true \/ is_element_dyn_sized y = true ->
    member_error env before v EVarsizeAfterPayload.

Definition first_members (k : nat) (d : smessage) : smessage := {| sm_name := sm_name d; sm_fields := firstn k (sm_fields d) |}.
Definition message_error (env : proto_env) (d : smessage) (e : cerror) : Prop :=
  exists k v, nth_error (sm_fields d) k = Some v /\ message_accepted env (first_members k d) /\
    member_error env (firstn k (sm_fields d)) v e.

(** ** Imports *)

Inductive import_error (solver : resolver) (v : simport) : cerror -> Prop :=
| ie_protocol : r_protocol solver (si_protocol v) = None -> import_error solver v (EUndefinedReference (si_protocol v))
| ie_type : forall r, r_protocol solver (si_protocol v) = Some r -> sget (si_type v) (p_structs_by_name r) = None ->
    sget (si_type v) (p_enums_by_name r) = None -> sget (si_type v) (p_unions_by_name r) = None ->
    sget (si_type v) (p_messages_by_name r) = None -> import_error solver v (EUndefinedReference (si_protocol v ++ "::" ++ si_type v))
| ie_path : forall r, r_protocol solver (si_protocol v) = Some r -> r_path solver (si_protocol v) (si_type v) = None ->
    ((exists s, sget (si_type v) (p_structs_by_name r) = Some s) \/ (exists e, sget (si_type v) (p_enums_by_name r) = Some e) \/
     (exists u, sget (si_type v) (p_unions_by_name r) = Some u) \/ (exists x, sget (si_type v) (p_messages_by_name r) = Some x)) ->
    import_error solver v ESolverError.
