(** Property theorems for C77: names do not matter on the wire. The renaming of a description and of a
    compiled protocol is defined in SpecRename. *)

From Coq Require Import NArith String List.
From Verif Require Import Base Schema Compiler Access Runtime Gen Loader SpecRename RenameThms SamplesComp SamplesRename.
Import ListNotations.
Local Open Scope N_scope.
Local Open Scope string_scope.

(** A description with other names compiles to the same protocol with other names, with the same messages
    marked as embedded; or it is rejected for the same reason; or the compiler panics for both. *)
Theorem C77_compile : forall r m solver solver' w d d', proper r -> solvers_alike r solver solver' -> renamed r d d' ->
  same_outcome (fun a b => alike r (fst a) (fst b) /\ snd b = snd a)
    (protocol_from_model m solver w d) (protocol_from_model m solver' w d').
Proof. exact protocols_renamed. Qed.
Print Assumptions C77_compile.

(** Programs built from the one read what programs built from the other write, and all accessors agree. *)
Theorem C77_wire : forall r p p', proper r -> alike r p p' ->
  (forall n x, sget n (p_messages_by_name p) = Some x ->
     exists x', sget (r_type r n) (p_messages_by_name p') = Some x' /\ same_wire x x') /\
  (forall n s, sget n (p_structs_by_name p) = Some s ->
     exists s', sget (r_type r n) (p_structs_by_name p') = Some s' /\ same_access r s s') /\
  (forall n u, sget n (p_unions_by_name p) = Some u ->
     exists u', sget (r_type r n) (p_unions_by_name p') = Some u' /\
       forall m k data, set_discriminant m u' k data = set_discriminant m u k data) /\
  (forall n e, sget n (p_enums_by_name p) = Some e ->
     exists e', sget (r_type r n) (p_enums_by_name p') = Some e' /\
       e_variants e' = map (fun kv => (r_variant r (fst kv), snd kv)) (e_variants e)).
Proof. exact names_on_wire. Qed.
Print Assumptions C77_wire.

Example C77_nonvacuous : proper other_names /\ solvers_alike other_names main_solver new_solver /\
  renamed other_names main_v (new_names main_v) /\
  protocol_from_model Debug main_solver (snd lib_pw) main_v = Ok main_pw /\
  protocol_from_model Debug new_solver (snd lib_pw) (new_names main_v) = Ok new_main_pw /\
  alike other_names main_p (fst new_main_pw) /\ fst new_main_pw <> main_p.
Proof.
  split; [exact other_proper|]. split; [exact new_solvers|]. split; [exact new_renamed|]. split; [exact main_ok|].
  split; [vm_compute; reflexivity|]. split; [repeat split; vm_compute; reflexivity|].
  intro H. apply (f_equal p_name) in H. discriminate.
Qed.
