(** Property theorems C52-C55: zeroed structures, the meaning of unions and
    the contents of a compiled protocol. *)

From Coq Require Import Arith NArith ZArith Ascii String List Bool Lia.
From Verif Require Import Base Schema Bits Codec Compiler Access SpecStruct SpecComp SpecUnion SpecCase SpecItems
  Samples SamplesComp CompRefute StructThms NestedThms StackThms CaseThms ItemsThms ImportExact SmallExact.
Import ListNotations.
Local Open Scope N_scope.
Local Open Scope string_scope.

(** ** C52: new_on_stack *)

Theorem C52_new_on_stack : forall E m mr structs name s, built m structs -> sget name structs = Some s ->
  len (new_on_stack s) = s_byte_size s /\
  forall path o w, path_at s path o w -> 0 < w <= 64 ->
    path_get (E:=E) mr s path (new_on_stack s) = Ok 0.
Proof. exact (@new_on_stack_zero). Qed.
Print Assumptions C52_new_on_stack.

Example C52_nonvacuous : sget "Outer" outer_structs = Some outer_s /\
  path_at outer_s [1%nat; 1%nat] 12 12 /\ new_on_stack outer_s = [0; 0; 0; 0].
Proof.
  split; [reflexivity|]. split; [|vm_compute; reflexivity].
  change 12 with (total_bits (firstn 1 (s_fields outer_s)) + 4) at 1.
  eapply path_struct; [reflexivity|].
  change 4 with (total_bits (firstn 1 (s_fields inner_s))).
  refine (path_scalar inner_s 1 (second_fixed inner_s) _). reflexivity.
Qed.

(** ** C53: case labels *)

(** Every case of a compiled union has the declared name, the number its label
    stands for and the type it names. *)
Theorem C53_cases : forall m solver w v p w' k d u,
  protocol_from_model m solver w v = Ok (p, w') ->
  nth_error (sp_unions v) k = Some d -> nth_error (p_unions p) k = Some u ->
  exists q wq, protocol_from_model m solver w (only_messages 0 v) = Ok (q, wq) /\
  u_name u = sun_name d /\
  (sun_cases d = [] /\ u_cases u = [] \/
   exists f, get_leaf (E:=cerror) (u_disc u) = Ok f /\
     Forall2 (case_of (p_structs_by_name p) (p_messages_by_name q) (ff_view f)) (sun_cases d) (u_cases u)).
Proof. exact protocol_unions. Qed.
Print Assumptions C53_cases.

(** A union whose labels and types all have a meaning compiles. *)
Theorem C53_accepted : forall structs messages v d f cs,
  disc_from_model structs (sun_discriminant v) = Ok d -> get_leaf (E:=cerror) d = Ok f ->
  Forall2 (case_of structs messages (ff_view f)) (sun_cases v) cs ->
  exists u, union_from_model structs messages v = Ok u /\ u_disc u = d /\ u_cases u = cs.
Proof. exact union_compiles. Qed.
Print Assumptions C53_accepted.

Example C53_nonvacuous :
  decimal "042" 42 /\ signed_label "-7" (-7) /\ label_number (VSignedCast 127) "-7" (2 ^ 64 - 7) /\
  exists u f, nth_error (p_unions main_p) 0 = Some u /\ get_leaf (E:=cerror) (u_disc u) = Ok f /\
    label_number (ff_view f) "Green" 1 /\ map uc_case (u_cases u) = [0; 1; 2].
Proof.
  assert (Hd : decimal "7" 7) by (apply dec_digit; [lia|reflexivity]).
  assert (Hs : signed_label "-7" (-7)) by (right; exists "7", 7; repeat split; exact Hd).
  split.
  { apply (dec_more "04" 4 "2" 2); [|lia|reflexivity]. apply (dec_more "0" 0 "4" 4); [|lia|reflexivity].
    apply dec_digit; [lia|reflexivity]. }
  split; [exact Hs|]. split.
  { apply (ln_signed (VSignedCast 127) "-7" (-7)); [right; eexists; reflexivity|exact Hs|lia]. }
  eexists. eexists. split; [reflexivity|]. split; [reflexivity|]. split; [|reflexivity].
  eapply ln_enum; reflexivity.
Qed.

(** A negative label of a signed discriminant narrower than 64 bits is never
    selected: the raw value is compared with the two's complement at 64 bits. *)
Theorem C53_negative_dead : forall m mr structs name u o w c data d,
  built m structs -> sget name structs = Some (d_root (u_disc u)) ->
  path_at (d_root (u_disc u)) (d_index_list (u_disc u)) o w -> 0 < w < 64 ->
  In c (u_cases u) -> 2 ^ 63 <= uc_case c -> bytes_ok data ->
  discriminant mr u data d -> uc_case c <> d.
Proof. exact negative_case_dead. Qed.
Print Assumptions C53_negative_dead.

Theorem C53_negative_refuted : exists v p w s f u c,
  protocol_from_model Debug no_imports world0 v = Ok (p, w) /\ p_structs p = [s] /\ s_fields s = [FFixed f] /\
  p_unions p = [u] /\ map su_case (flat_map sun_cases (sp_unions v)) = ["-1"] /\ u_cases u = [c] /\
  get_view (E:=cerror) Debug f [255] = Ok (XInt (-1)) /\
  path_get (E:=cerror) Debug s (d_index_list (u_disc u)) [255] = Ok 255 /\ uc_case c = 18446744073709551615.
Proof. exact negative_label_refuted. Qed.
Print Assumptions C53_negative_refuted.

(** ** C54: discriminant paths *)

(** A path that names a scalar is accepted, with the position of that scalar. *)
Theorem C54_found : forall structs disc name parts root path f,
  joined disc (name :: parts) -> Forall no_dot (name :: parts) ->
  sget name structs = Some root -> names_scalar root parts path f ->
  exists d, disc_from_model structs disc = Ok d /\ d_root d = root /\ d_index_list d = path /\
    get_leaf (E:=cerror) d = Ok f.
Proof. exact discriminant_found. Qed.
Print Assumptions C54_found.

(** An accepted path names a scalar, up to components that follow it, unless it
    leads to a structure. *)
Theorem C54_sound_partial : forall structs disc d, disc_from_model structs disc = Ok d ->
  exists name parts, joined disc (name :: parts) /\ Forall no_dot (name :: parts) /\
    sget name structs = Some (d_root d) /\
    (path_to_struct (d_root d) parts \/
     exists used ignored f, parts = (used ++ ignored)%list /\ names_scalar (d_root d) used (d_index_list d) f /\
       get_leaf (E:=cerror) d = Ok f).
Proof. exact discriminant_sound. Qed.
Print Assumptions C54_sound_partial.

Example C54_nonvacuous : joined "Outer.inner.b" ["Outer"; "inner"; "b"] /\
  exists n r loc i, nth_error (s_fields outer_s) 1 = Some (FStruct n r loc) /\
    names_scalar outer_s [n; field_name (FFixed (second_fixed r))] [1%nat; i] (second_fixed r).
Proof.
  split; [reflexivity|]. do 3 eexists. exists 1%nat. split; [reflexivity|].
  eapply ns_struct.
  - split; [reflexivity|]. split; [reflexivity|]. intros [|j] g Hj Hg; [|lia]. inversion Hg; subst. discriminate.
  - apply ns_scalar. split; [reflexivity|]. split; [reflexivity|]. intros [|j] g Hj Hg; [|lia]. inversion Hg; subst. discriminate.
Qed.

(** The path leads to a structure, and another field is used. *)
Theorem C54_structure_refuted : exists v p w u,
  protocol_from_model Debug no_imports world0 v = Ok (p, w) /\ p_unions p = [u] /\
  sun_discriminant (hd {| sun_name := ""; sun_discriminant := ""; sun_cases := [] |} (sp_unions v)) = "S.t" /\
  path_to_struct (d_root (u_disc u)) ["t"].
Proof. exact wrong_discriminant_refuted. Qed.
Print Assumptions C54_structure_refuted.

Theorem C54_trailing_refuted : exists v p w u,
  protocol_from_model Debug no_imports world0 v = Ok (p, w) /\ p_unions p = [u] /\
  map sun_discriminant (sp_unions v) = ["S.a.b.c"] /\ d_index_list (u_disc u) = [0%nat].
Proof. exact trailing_discriminant_refuted. Qed.
Print Assumptions C54_trailing_refuted.

(** Exact: the paths that are accepted. The first component names a structure,
    and the rest leads from one structure to the next, to a structure, or to a
    scalar with anything behind it. *)
Theorem C54_accepted_exact : forall structs disc,
  (exists d, disc_from_model structs disc = Ok d) <->
  exists name parts root, joined disc (name :: parts) /\ Forall no_dot (name :: parts) /\
    sget name structs = Some root /\
    ((parts <> [] /\ path_to_struct root parts) \/
     exists used ignored path f, parts = (used ++ ignored)%list /\ names_scalar root used path f).
Proof. exact discriminant_exact. Qed.
Print Assumptions C54_accepted_exact.

(** ** C55: the contents of a compiled protocol *)

Theorem C55_items : forall m solver w v p w', protocol_from_model m solver w v = Ok (p, w') ->
  p_name p = sp_name v /\
  Forall2 (fun d e => enum_from_model d = Ok e) (sp_enums v) (p_enums p) /\
  each (fun k d s => exists q wq, protocol_from_model m solver w (only_structs k v) = Ok (q, wq) /\
          structure_from_model m Little (p_enums_by_name p) (p_structs_by_name q) (w_next wq) d = Ok s)
       (sp_structs v) (p_structs p) /\
  Forall2 (fun d u => exists q wq, protocol_from_model m solver w (only_messages 0 v) = Ok (q, wq) /\
             union_from_model (p_structs_by_name p) (p_messages_by_name q) d = Ok u)
       (sp_unions v) (p_unions p) /\
  each (fun k d x => exists q wq marks, protocol_from_model m solver w (only_messages k v) = Ok (q, wq) /\
          message_from_model {| pe_endianness := Little; pe_structs := p_structs_by_name p;
            pe_messages := p_messages_by_name q; pe_unions := p_unions_by_name p |} (w_next wq) d = Ok (x, marks))
       (sp_messages v) (p_messages p).
Proof. exact protocol_items. Qed.
Print Assumptions C55_items.

Theorem C55_names : forall m solver w v p w', protocol_from_model m solver w v = Ok (p, w') ->
  exists q wq, protocol_from_model m solver w (only_imports v) = Ok (q, wq) /\
  forall n,
    sget n (p_enums_by_name p) = or_else (named_last e_name (p_enums p) n) (sget n (p_enums_by_name q)) /\
    sget n (p_structs_by_name p) = or_else (named_last s_name (p_structs p) n) (sget n (p_structs_by_name q)) /\
    sget n (p_unions_by_name p) = or_else (named_last u_name (p_unions p) n) (sget n (p_unions_by_name q)) /\
    sget n (p_messages_by_name p) = or_else (named_last m_name (p_messages p) n) (sget n (p_messages_by_name q)).
Proof. exact protocol_names. Qed.
Print Assumptions C55_names.

Example C55_nonvacuous : protocol_from_model Debug main_solver (snd lib_pw) main_v = Ok main_pw /\
  map s_name (p_structs main_p) = ["Pos"; "Line"] /\ map m_name (p_messages main_p) = ["Packet"; "Raw"] /\
  map u_name (p_unions main_p) = ["Body"] /\ map e_name (p_enums lib_p) = ["Color"].
Proof. split; [exact main_ok|]. repeat split; reflexivity. Qed.

(** ** C21: what a name refers to *)

(** For every accepted description and every name, without conditions: the last own
    definition of that name, or else what the last import of it brought. *)
Theorem C21_exact : forall m solver w v p w', protocol_from_model m solver w v = Ok (p, w') -> forall n,
  sget n (p_structs_by_name p) = or_else (named_last s_name (p_structs p) n) (last_import struct_there solver (sp_imports v) n) /\
  sget n (p_enums_by_name p) = or_else (named_last e_name (p_enums p) n) (last_import enum_there solver (sp_imports v) n) /\
  sget n (p_unions_by_name p) = or_else (named_last u_name (p_unions p) n) (last_import union_there solver (sp_imports v) n) /\
  sget n (p_messages_by_name p) = or_else (named_last m_name (p_messages p) n) (last_import message_there solver (sp_imports v) n).
Proof. exact names_exact. Qed.
Print Assumptions C21_exact.

Example C21_exact_nonvacuous : protocol_from_model Debug main_solver (snd lib_pw) main_v = Ok main_pw /\
  exists i s, In i (sp_imports main_v) /\ named_last s_name (p_structs main_p) (si_type i) = None /\
    last_import struct_there main_solver (sp_imports main_v) (si_type i) = Some s /\
    sget (si_type i) (p_structs_by_name main_p) = Some s.
Proof. split; [exact main_ok|]. eexists. eexists. split; [left; reflexivity|]. repeat split; vm_compute; reflexivity. Qed.
