(** Refutations for the schema compiler. *)

From Coq Require Import Arith NArith ZArith Ascii String List Bool Lia Permutation.
From Verif Require Import Base Schema Compiler Access Bits SpecComp SpecStruct Samples SamplesComp.
Import ListNotations.
Local Open Scope N_scope.
Local Open Scope string_scope.

Lemma endianness_refuted : exists v p w f,
  sp_endianness v = Some Big /\
  protocol_from_model Debug no_imports world0 v = Ok (p, w) /\
  (exists s, In s (p_structs p) /\ s_fields s = [FFixed f]) /\
  ff_endianness f = Little /\
  get_raw (E:=cerror) Release f [1; 2] = Ok 513 /\ be_value [1; 2] = 258.
Proof.
  exists (with_endianness (Some Big) (one_struct [scalar "x" (STUnsigned 16)])). do 3 eexists.
  split; [reflexivity|]. split; [vm_compute; reflexivity|].
  split; [eexists; split; [left; reflexivity|reflexivity]|].
  split; [reflexivity|]. split; vm_compute; reflexivity.
Qed.

Lemma bool_width_refuted : forall n, n = 0 \/ n = 100 -> exists p w f,
  protocol_from_model Debug no_imports world0 (one_struct [scalar "x" (STBoolean n)]) = Ok (p, w) /\
  (exists s, In s (p_structs p) /\ s_fields s = [FFixed f]) /\ l_bit_size (ff_loc f) = n.
Proof.
  intros n [-> | ->]; do 3 eexists; (split; [vm_compute; reflexivity|]);
    (split; [eexists; split; [left; reflexivity|reflexivity]|reflexivity]).
Qed.

Lemma panic_refuted :
  protocol_from_model Debug no_imports world0 (one_struct [scalar "x" (STSigned 0)]) = Panic /\
  protocol_from_model Debug no_imports world0 (one_struct [scalar "x" (STSigned 65)]) = Panic /\
  protocol_from_model Debug no_imports world0
    (one_struct [ {| sf_name := "x"; sf_info := STFloat 64; sf_array_len := None;
                     sf_view := Some (SVFloatRange f64_zero f64_one) |} ]) = Panic /\
  (forall m, protocol_from_model m no_imports world0 (one_union "S") = Panic) /\
  (forall m, protocol_from_model m no_imports world0 (one_union "S.t") = Panic).
Proof.
  split; [vm_compute; reflexivity|]. split; [vm_compute; reflexivity|]. split; [vm_compute; reflexivity|].
  split; intros [|]; vm_compute; reflexivity.
Qed.

Lemma duplicate_enum_refuted : exists name v1 v2 e1 e2, Permutation v1 v2 /\
  enum_from_model {| se_name := name; se_variants := v1 |} = Ok e1 /\
  enum_from_model {| se_name := name; se_variants := v2 |} = Ok e2 /\
  e_variants e1 <> e_variants e2.
Proof.
  exists "E", [("A", 1); ("B", 1)], [("B", 1); ("A", 1)]. do 2 eexists.
  split; [apply perm_swap|]. split; [vm_compute; reflexivity|]. split; [vm_compute; reflexivity|].
  discriminate.
Qed.

(** A local structure named like an imported one is found by name, but code
    refers to the imported path. *)
Lemma shadow_refuted : exists v p w s,
  imported v "Id" /\ some_struct v "Id" /\
  protocol_from_model Debug main_solver world0 v = Ok (p, w) /\
  In s (p_structs p) /\ sget "Id" (p_structs_by_name p) = Some s /\ s_byte_size s = 1 /\
  type_path_get (p_type_path_by_name p) "Id" = "crate::lib::Id".
Proof.
  exists {| sp_name := "P"; sp_endianness := None; sp_imports := [ {| si_protocol := "Lib"; si_type := "Id" |} ];
            sp_enums := []; sp_unions := []; sp_messages := [];
            sp_structs := [ {| ss_name := "Id"; ss_fields := [scalar "x" (STUnsigned 8)] |} ] |}.
  do 3 eexists. split; [left; reflexivity|]. split; [left; reflexivity|].
  split; [vm_compute; reflexivity|]. split; [left; reflexivity|]. split; [reflexivity|]. split; reflexivity.
Qed.

(** A discriminant path that ends at a nested structure is accepted when the
    field of the same index in that structure is a scalar. *)
Lemma wrong_discriminant_refuted : exists v p w u,
  protocol_from_model Debug no_imports world0 v = Ok (p, w) /\ p_unions p = [u] /\
  sun_discriminant (hd {| sun_name := ""; sun_discriminant := ""; sun_cases := [] |} (sp_unions v)) = "S.t" /\
  path_to_struct (d_root (u_disc u)) ["t"].
Proof.
  exists {| sp_name := "P"; sp_endianness := None; sp_imports := []; sp_enums := []; sp_messages := [];
     sp_structs := [ {| ss_name := "T"; ss_fields := [ scalar "a" (STUnsigned 8) ] |};
                     {| ss_name := "S"; ss_fields := [ scalar "t" (STStruct "T"); scalar "a" (STUnsigned 8) ] |} ];
     sp_unions := [ {| sun_name := "U"; sun_discriminant := "S.t";
                       sun_cases := [ ucase_d "A" "1" None ] |} ] |}.
  do 3 eexists. split; [vm_compute; reflexivity|]. split; [reflexivity|]. split; [reflexivity|].
  eapply pst_cons; [|apply pst_nil]. exists 0%nat. split; [reflexivity|]. split; [reflexivity|]. intros j g Hj. lia.
Qed.

(** Components after a scalar are ignored. *)
Lemma trailing_discriminant_refuted : exists v p w u,
  protocol_from_model Debug no_imports world0 v = Ok (p, w) /\ p_unions p = [u] /\
  map sun_discriminant (sp_unions v) = ["S.a.b.c"] /\ d_index_list (u_disc u) = [0%nat].
Proof.
  exists {| sp_name := "P"; sp_endianness := None; sp_imports := []; sp_enums := []; sp_messages := [];
     sp_structs := [ {| ss_name := "S"; ss_fields := [ scalar "a" (STUnsigned 8) ] |} ];
     sp_unions := [ {| sun_name := "U"; sun_discriminant := "S.a.b.c";
                       sun_cases := [ ucase_d "A" "1" None ] |} ] |}.
  do 3 eexists. split; [vm_compute; reflexivity|]. split; [reflexivity|]. split; reflexivity.
Qed.

(** A structure that holds -1 selects no case, although one is labelled -1. *)
Lemma negative_label_refuted : exists v p w s f u c,
  protocol_from_model Debug no_imports world0 v = Ok (p, w) /\ p_structs p = [s] /\ s_fields s = [FFixed f] /\
  p_unions p = [u] /\ map su_case (flat_map sun_cases (sp_unions v)) = ["-1"] /\ u_cases u = [c] /\
  get_view (E:=cerror) Debug f [255] = Ok (XInt (-1)) /\
  path_get (E:=cerror) Debug s (d_index_list (u_disc u)) [255] = Ok 255 /\ uc_case c = 18446744073709551615.
Proof.
  exists {| sp_name := "P"; sp_endianness := None; sp_imports := []; sp_enums := []; sp_messages := [];
     sp_structs := [ {| ss_name := "S"; ss_fields := [ scalar "a" (STSigned 8) ] |} ];
     sp_unions := [ {| sun_name := "U"; sun_discriminant := "S.a"; sun_cases := [ ucase_d "A" "-1" None ] |} ] |}.
  do 6 eexists. repeat split; vm_compute; reflexivity.
Qed.
