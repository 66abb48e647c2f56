(** Property theorems C92: consecutive fields of a structure can be put into a structure of their own. [g] is the
    compiled structure of the group, [x] the one with a field of this type and [z] the one with all fields;
    [structs] are the structures defined before. The declared size is below 2^64 bits throughout. *)

From Coq Require Import Arith NArith String List Bool Lia.
From Verif Require Import Base Schema Codec Compiler Access SpecStruct SpecNest NestMain Samples SamplesNest.
Import ListNotations.
Local Open Scope N_scope.
Local Open Scope string_scope.

(** One description is accepted exactly if the other is. *)
Theorem C92_accepted : forall m endi enums structs before members after grp outer flat, nested before members after grp outer flat ->
  (forall t, declared_total structs (ss_fields flat) = Some t -> t < 2 ^ 64) ->
  forall i j k, (exists z, structure_from_model m endi enums structs k flat = Ok z) <->
    (exists g x, structure_from_model m endi enums structs i grp = Ok g /\
       structure_from_model m endi enums (sinsert (ss_name grp) g structs) j outer = Ok x).
Proof. exact nest_accepted. Qed.
Print Assumptions C92_accepted.

(** They have the same size, and every chain of accessors of one corresponds to one of the other for the
    same bits. *)
Theorem C92_layout : forall m endi enums structs before members after grp outer flat, nested before members after grp outer flat ->
  (forall t, declared_total structs (ss_fields flat) = Some t -> t < 2 ^ 64) ->
  forall i j k g x z, structure_from_model m endi enums structs i grp = Ok g ->
  structure_from_model m endi enums (sinsert (ss_name grp) g structs) j outer = Ok x -> structure_from_model m endi enums structs k flat = Ok z ->
  s_name z = s_name x /\ s_bit_size z = s_bit_size x /\ s_byte_size z = s_byte_size x /\
  (forall path o w, path_at x path o w -> path_at z (flat_path (length before) (length members) path) o w) /\
  (forall path o w, path_at z path o w -> exists path', path_at x path' o w /\ path = flat_path (length before) (length members) path').
Proof. exact nest_layout. Qed.
Print Assumptions C92_layout.

(** Corresponding accessors read and write alike if the group starts on a byte boundary, and those that do not
    lead into the group always do. *)
Theorem C92_accessors_partial : forall E m mr endi enums structs before members after grp outer flat B, nested before members after grp outer flat ->
  (forall t, declared_total structs (ss_fields flat) = Some t -> t < 2 ^ 64) -> declared_total structs before = Some B ->
  forall i j k g x z, structure_from_model m endi enums structs i grp = Ok g ->
  structure_from_model m endi enums (sinsert (ss_name grp) g structs) j outer = Ok x -> structure_from_model m endi enums structs k flat = Ok z ->
  forall path o w, path_at x path o w -> B mod 8 = 0 \/ hd_error path <> Some (length before) ->
  forall data, s_byte_size x <= len data ->
    path_get (E:=E) mr z (flat_path (length before) (length members) path) data = path_get mr x path data /\
    (forall v, path_set (E:=E) mr z (flat_path (length before) (length members) path) data v = path_set mr x path data v).
Proof. exact nest_access. Qed.
Print Assumptions C92_accessors_partial.

(** So do the views and the arrays of the group, which are read and written in its bytes. *)
Theorem C92_members_partial : forall E m mr endi enums structs before members after grp outer flat B, nested before members after grp outer flat ->
  (forall t, declared_total structs (ss_fields flat) = Some t -> t < 2 ^ 64) -> declared_total structs before = Some B -> B mod 8 = 0 ->
  forall i j k g x z, structure_from_model m endi enums structs i grp = Ok g ->
  structure_from_model m endi enums (sinsert (ss_name grp) g structs) j outer = Ok x -> structure_from_model m endi enums structs k flat = Ok z ->
  exists nm loc, nth_error (s_fields x) (length before) = Some (FStruct nm g loc) /\
  forall data, s_byte_size x <= len data ->
  (forall n f, nth_error (s_fields g) n = Some (FFixed f) -> exists f', nth_error (s_fields z) (length before + n) = Some (FFixed f') /\
     get_view (E:=E) mr f' data = (w <- slice data (l_byte_offset loc) (l_byte_offset loc + l_byte_size loc) ;; get_view mr f w) /\
     forall v, set_view (E:=E) mr f' data v = update_slice data (l_byte_offset loc) (l_byte_offset loc + l_byte_size loc) (fun w => set_view mr f w v)) /\
  (forall n f, nth_error (s_fields g) n = Some (FArray f) -> exists f', nth_error (s_fields z) (length before + n) = Some (FArray f') /\
     forall p, arr_get (E:=E) mr f' data p = (w <- slice data (l_byte_offset loc) (l_byte_offset loc + l_byte_size loc) ;; arr_get mr f w p) /\
     forall v, arr_set (E:=E) mr f' data p v = update_slice data (l_byte_offset loc) (l_byte_offset loc + l_byte_size loc) (fun w => arr_set mr f w p v)).
Proof. exact nest_members. Qed.
Print Assumptions C92_members_partial.

(** The byte boundary is needed for every accessor into the group that is right without it. *)
Theorem C92_exact : forall E m mr enums structs before members after grp outer flat B, built m structs -> nested before members after grp outer flat ->
  (forall t, declared_total structs (ss_fields flat) = Some t -> t < 2 ^ 64) -> declared_total structs before = Some B ->
  forall i j k g x z, structure_from_model m Little enums structs i grp = Ok g ->
  structure_from_model m Little enums (sinsert (ss_name grp) g structs) j outer = Ok x -> structure_from_model m Little enums structs k flat = Ok z ->
  forall rest o w, path_at x (length before :: rest) o w ->
  path_bytes_aligned z (flat_path (length before) (length members) (length before :: rest)) -> 0 < w <= 64 -> addressable o w ->
  (B mod 8 = 0 <->
   forall data, s_byte_size x <= len data -> bytes_ok data ->
     path_get (E:=E) mr z (flat_path (length before) (length members) (length before :: rest)) data = path_get mr x (length before :: rest) data) /\
  (B mod 8 = 0 <->
   forall data v, s_byte_size x <= len data -> bytes_ok data ->
     path_set (E:=E) mr z (flat_path (length before) (length members) (length before :: rest)) data v = path_set mr x (length before :: rest) data v).
Proof. exact nest_exact. Qed.
Print Assumptions C92_exact.

(** Two fields stay in front and one behind; a scalar, a structure and an array are grouped. *)
Example C92_nonvacuous : nested head_f body_f tail_f body_d frame_d plain_d /\
  declared_total nest_structs (ss_fields plain_d) = Some 88 /\ declared_total nest_structs head_f = Some 8 /\ built Debug nest_structs /\
  structure_from_model Debug Little [] nest_structs 0 body_d = Ok body_s /\
  structure_from_model Debug Little [] (sinsert (ss_name body_d) body_s nest_structs) 0 frame_d = Ok frame_s /\
  structure_from_model Debug Little [] nest_structs 0 plain_d = Ok plain_s /\
  path_at frame_s [2; 2; 1]%nat 28 12 /\ flat_path 2 4 [2; 2; 1]%nat = [4; 1]%nat /\ s_byte_size frame_s = len frame_b /\
  path_get (E:=cerror) Debug frame_s [2; 2; 1]%nat frame_b = Ok 2712 /\ path_get (E:=cerror) Debug plain_s [4; 1]%nat frame_b = Ok 2712.
Proof.
  split; [exact frame_nested|]. split; [reflexivity|]. split; [reflexivity|]. split.
  { apply (built_def Debug [] [] 0 {| ss_name := "Word"; ss_fields := [scalar "lo" (STUnsigned 4); scalar "hi" (STUnsigned 12)] |} word_s "Word" []);
      [constructor|vm_compute; reflexivity|left; reflexivity|constructor]. }
  split; [vm_compute; reflexivity|]. split; [vm_compute; reflexivity|]. split; [vm_compute; reflexivity|]. split.
  { eapply (path_struct frame_s 2 _ _ _ [2; 1]%nat 20 12); [reflexivity|]. eapply (path_struct body_s 2 _ _ _ [1]%nat 4 12); [reflexivity|].
    match goal with |- path_at ?s _ _ _ => refine (path_scalar s 1 _ eq_refl) end. }
  repeat split; vm_compute; reflexivity.
Qed.

(** A group that starts inside of a byte reads other bits. *)
Theorem C92_unaligned_refuted : exists data path o w,
  nested odd_head odd_body [] odd_grp odd_outer odd_flat /\ declared_total [] odd_head = Some 4 /\
  structure_from_model Debug Little [] [] 0 odd_grp = Ok odd_g /\
  structure_from_model Debug Little [] (sinsert (ss_name odd_grp) odd_g []) 0 odd_outer = Ok odd_x /\
  structure_from_model Debug Little [] [] 0 odd_flat = Ok odd_z /\
  path_at odd_x path o w /\ s_byte_size odd_x = len data /\ bytes_ok data /\
  path_get (E:=cerror) Debug odd_x path data = Ok 5 /\ path_get (E:=cerror) Debug odd_z (flat_path 1 1 path) data = Ok 10.
Proof.
  exists [165], [1; 0]%nat, 4, 4. split; [exact odd_nested|]. split; [reflexivity|]. split; [vm_compute; reflexivity|].
  split; [vm_compute; reflexivity|]. split; [vm_compute; reflexivity|]. split.
  { eapply (path_struct odd_x 1 _ _ _ [0]%nat 0 4); [reflexivity|]. match goal with |- path_at ?s _ _ _ => refine (path_scalar s 0 _ eq_refl) end. }
  split; [reflexivity|]. split; [repeat constructor|]. split; vm_compute; reflexivity.
Qed.
Print Assumptions C92_unaligned_refuted.
