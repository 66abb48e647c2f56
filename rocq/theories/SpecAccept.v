(** Which descriptions the compiler accepts, for C75: in terms of the description and of the
    definitions that come before. *)

From Coq Require Import Arith NArith Ascii String List Bool.
From Verif Require Import Base Schema Compiler SpecStruct SpecComp SpecCase SpecPanic.
Import ListNotations.
Local Open Scope N_scope.

(** A field of a structure: the structure it refers to exists, or its view and its width go together
    (SpecPanic) and the items of an array fill whole bytes. *)
Definition field_accepted (enums : smap enum_) (structs : smap structure) (f : sfield) : Prop :=
  match sf_info f with
  | STStruct n => exists r, sget n structs = Some r
  | t => view_fits enums f /\ width_fits f /\
      (1 < items_of f -> exists b, get_bit_size t = Some b /\ (b * items_of f) mod 8 = 0)
  end.

(** With overflow checks the structure is below 2^64 bits, and the limit of a float range is computed in
    64 bits. *)
Definition range_fits (f : sfield) : Prop :=
  forall b lo hi, sf_info f = STFloat b -> sf_view f = Some (SVFloatRange lo hi) -> b < 64.
Definition struct_accepted (m : mode) (enums : smap enum_) (structs : smap structure) (d : sstruct) : Prop :=
  Forall (field_accepted enums structs) (ss_fields d) /\
  (m = Debug -> Forall range_fits (ss_fields d) /\
     exists t, declared_total structs (ss_fields d) = Some t /\ t < 2 ^ 64).

(** The scalar that a path is taken for: the one it names, whatever follows it; or, if it ends at a
    structure, the scalar which has in that structure the place that the structure has in its parent. *)
Definition taken_for (root : structure) (parts : list string) (f : fixed_field) : Prop :=
  (exists used ignored path, parts = (used ++ ignored)%list /\ names_scalar root used path f) \/
  (exists k r, leads root parts k r /\ nth_error (s_fields r) k = Some (FFixed f)).
Definition case_accepted (structs : smap structure) (messages : smap message) (f : fixed_field) (c : sucase) : Prop :=
  (exists n, label_number (ff_view f) (su_case c) n) /\ (exists r, case_item structs messages (su_item_type c) r).
Definition union_accepted (structs : smap structure) (messages : smap message) (u : sunion) : Prop :=
  exists n parts root, joined (sun_discriminant u) (n :: parts) /\ Forall no_dot (n :: parts) /\
    sget n structs = Some root /\
    ((exists f, taken_for root parts f /\ Forall (case_accepted structs messages f) (sun_cases u)) \/
     (sun_cases u = [] /\ exists k r, leads root parts k r)).

(** The size of a member of a message: fixed, or known when it is read, or open, that is, not known even
    then. *)
Definition member_size (env : proto_env) (v : smfield) : option size_info :=
  match smf_info v with
  | MTItem n =>
      match sget n (pe_structs env) with
      | Some _ => Some {| is_dyn_sized := false; is_element_dyn_sized := false |}
      | None => option_map m_size (sget n (pe_messages env))
      end
  | MTList _ n =>
      match sget n (pe_structs env) with
      | Some _ => Some {| is_dyn_sized := true; is_element_dyn_sized := false |}
      | None => option_map (fun _ => {| is_dyn_sized := true; is_element_dyn_sized := true |}) (sget n (pe_messages env))
      end
  | MTString _ => Some {| is_dyn_sized := true; is_element_dyn_sized := false |}
  | MTUnion _ n => option_map u_size (sget n (pe_unions env))
  | MTPayload => Some {| is_dyn_sized := true; is_element_dyn_sized := true |}
  end.
(** A structure that becomes a plain number in a message. *)
Definition bare (s : structure) : Prop :=
  exists f, s_fields s = [FFixed f] /\ (ff_view f = VTransmute \/ ff_view f = VNone) /\ l_bit_size (ff_loc f) mod 8 = 0.
(** A union is told apart by an earlier member, the first of that name: an item of the very structure in
    which the discriminant of the union is found, and which is not bare. *)
Definition told_apart (env : proto_env) (before : list smfield) (v : smfield) : Prop :=
  forall on n, smf_info v = MTUnion on n -> exists u j w t s,
    sget n (pe_unions env) = Some u /\
    nth_error before j = Some w /\ smf_name w = on /\
    (forall i x, (i < j)%nat -> nth_error before i = Some x -> smf_name x <> on) /\
    smf_info w = MTItem t /\ sget t (pe_structs env) = Some s /\ ~ bare s /\ s_id s = s_id (d_root (u_disc u)).
Definition message_accepted (env : proto_env) (d : smessage) : Prop :=
  (forall j v, nth_error (sm_fields d) j = Some v ->
     (exists z, member_size env v = Some z) /\ told_apart env (firstn j (sm_fields d)) v) /\
  (* behind an open member, all members have a fixed size *)
  (forall i j v w z y, (i < j)%nat -> nth_error (sm_fields d) i = Some v -> nth_error (sm_fields d) j = Some w ->
     member_size env v = Some z -> is_element_dyn_sized z = true -> member_size env w = Some y ->
     is_dyn_sized y = false /\ is_element_dyn_sized y = false).

(** An import: the protocol is known, it has something of that name, and a path leads there. *)
Definition import_accepted (solver : resolver) (v : simport) : Prop :=
  exists r path, r_protocol solver (si_protocol v) = Some r /\ r_path solver (si_protocol v) (si_type v) = Some path /\
    ((exists s, sget (si_type v) (p_structs_by_name r) = Some s) \/
     (exists e, sget (si_type v) (p_enums_by_name r) = Some e) \/
     (exists u, sget (si_type v) (p_unions_by_name r) = Some u) \/
     (exists x, sget (si_type v) (p_messages_by_name r) = Some x)).
