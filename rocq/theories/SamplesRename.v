(** A sample of C77: the sample protocols with other names. *)

From Coq Require Import NArith Ascii String List Bool.
From Verif Require Import Base Schema Compiler SpecComp SpecRename Samples SamplesComp.
Import ListNotations.
Local Open Scope string_scope.

Definition starts_like_number (s : string) : bool :=
  match s with
  | String c _ => existsb (Ascii.eqb c) ["0"; "1"; "2"; "3"; "4"; "5"; "6"; "7"; "8"; "9"; "+"; "-"]%char
  | EmptyString => false
  end.
Definition other_names : renaming :=
  {| r_proto := append "New"; r_type := append "T"; r_field := append "f_"; r_member := append "m_";
     r_variant := fun s => if starts_like_number s then s else "V" ++ s; r_case := fun _ => "case" |}.

Lemma append_injective : forall p, injective (append p).
Proof. intros p a b. induction p as [|c p IH]; cbn; [auto|]. intro H. injection H as H. auto. Qed.
Lemma starts_like : forall s, like_number s -> starts_like_number s = true.
Proof.
  intros s (c & q & -> & H). cbn [starts_like_number]. apply existsb_exists. exists c. split; [exact H|apply Ascii.eqb_refl].
Qed.
Lemma other_proper : proper other_names.
Proof.
  unfold proper. cbn [other_names r_proto r_type r_field r_member r_variant].
  repeat (split; [apply append_injective|]). split.
  { intros a b H. destruct (starts_like_number a) eqn:A, (starts_like_number b) eqn:B; try exact H.
    - subst a. discriminate.
    - subst b. discriminate.
    - exact (append_injective "V" a b H). }
  split; [intros s H [|i]; cbn; [discriminate|apply H]|].
  split; [intros s H [|[|i]]; cbn; try discriminate; apply H|].
  intros s H. rewrite (starts_like s H). reflexivity.
Qed.

Definition new_union (u : sunion) : sunion :=
  {| sun_name := "T" ++ sun_name u; sun_discriminant := "THeader.f_kind"; sun_cases := map (ren_sucase other_names) (sun_cases u) |}.
Definition new_names (v : sprotocol) : sprotocol :=
  {| sp_name := "New" ++ sp_name v; sp_endianness := sp_endianness v; sp_imports := map (ren_simport other_names) (sp_imports v);
     sp_enums := map (ren_senum other_names) (sp_enums v); sp_structs := map (ren_sstruct other_names) (sp_structs v);
     sp_unions := map new_union (sp_unions v); sp_messages := map (ren_smessage other_names) (sp_messages v) |}.

Definition new_lib_pw : protocol * world :=
  Eval vm_compute in get_ok dummy_p (protocol_from_model Debug no_imports world0 (new_names lib_v)).
Definition new_solver : resolver := solver_resolver (solver_register (solver_new "::") "crate::other" (fst new_lib_pw)).
Definition new_main_pw : protocol * world :=
  Eval vm_compute in get_ok dummy_p (protocol_from_model Debug new_solver (snd new_lib_pw) (new_names main_v)).

Lemma new_lib_alike : alike other_names lib_p (fst new_lib_pw).
Proof. repeat split; vm_compute; reflexivity. Qed.
Lemma new_solvers : solvers_alike other_names main_solver new_solver.
Proof.
  assert (G1 : forall n, sget n (is_map (solver_register (solver_new "::") "crate::lib" lib_p)) =
    if String.eqb n "Lib" then Some ("crate::lib", lib_p) else None) by reflexivity.
  assert (G2 : forall n, sget ("New" ++ n) (is_map (solver_register (solver_new "::") "crate::other" (fst new_lib_pw))) =
    if String.eqb n "Lib" then Some ("crate::other", fst new_lib_pw) else None).
  { intro n. transitivity (if String.eqb ("New" ++ n) "NewLib" then Some ("crate::other", fst new_lib_pw) else None); [reflexivity|].
    destruct (String.eqb_spec n "Lib") as [->|N1]; [reflexivity|].
    destruct (String.eqb_spec ("New" ++ n) "NewLib") as [E|_]; [destruct (N1 (append_injective "New" n "Lib" E))|reflexivity]. }
  unfold main_solver, new_solver, solver_resolver, solvers_alike. cbn [r_protocol r_path].
  split; intro n; [|intro t]; change (r_proto other_names n) with ("New" ++ n); rewrite G1, G2;
    destruct (String.eqb n "Lib"); [exact new_lib_alike|exact I|split; discriminate|split; reflexivity].
Qed.
Lemma new_renamed : renamed other_names main_v (new_names main_v).
Proof.
  repeat (split; [reflexivity|]). split; [|reflexivity]. constructor; [|constructor].
  split; [reflexivity|]. split; [reflexivity|]. exists "Header", ["kind"]. split; [reflexivity|]. split; [|reflexivity].
  repeat constructor; intros i; do 7 (destruct i as [|i]; [discriminate|]); cbn; destruct i; discriminate.
Qed.
