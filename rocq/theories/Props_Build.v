(** Property theorems C56 and C57: the build script, and combining options. *)

From Coq Require Import Arith NArith Ascii String List Bool.
From Verif Require Import Base Schema Compiler SamplesComp Runtime Loader SpecLoader SpecRun Template SpecTemplate Driver SpecDriver
  DriverThms GenText SpecCode BuildScript SpecBuild BuildThms BuildRefute.
Import ListNotations.
Local Open Scope string_scope.

(** ** C56: generating code from a build script *)

(** A kind of files is written if the last setting of that kind says so; without one,
    all are but the code that reads and writes messages. *)
Theorem C56_settings : forall l f, selected (configure l) f = wanted l (fi_ty f).
Proof. exact configure_wanted. Qed.
Print Assumptions C56_settings.

(** A run that ends normally prints one line per loaded protocol, in order, with its
    name in upper case and the path of its umbrella. If the names are distinct names of
    folders, the files are exactly the wanted ones and the umbrellas. *)
Theorem C56_success_partial : forall S (fs : fs_ops S) m fm show calls settings ok out_dir s lines s',
  generate_rust fs m fm show calls ok settings out_dir s = (Printed lines, s') ->
  exists out ps w seen w1, ok = true /\ out_dir = Some out /\
    imports_run m "::" [] world_new (imported calls) seen w1 /\
    loads_run m (visible "::" seen) w1 (loaded calls) ps w /\
    map p_name ps = map sp_name (loaded calls) /\
    lines = map (fun v => "cargo::rustc-env=BP3D_PROTOC_" ++ shout (sp_name v) ++ "=" ++
                          join (join out (sp_name v)) "umbrella.rs") (loaded calls) /\
    forall look, stores fs look ->
      NoDup (map sp_name (loaded calls)) -> Forall (fun v => plain (sp_name v)) (loaded calls) ->
      (forall p, In p ps -> let dir := join out (p_name p) in
         let kept := kept_files fm (marked w) settings p in
         (forall t n d, In (t, n, d) kept -> look s' (join dir n) = Some (EFile d)) /\
         look s' (join dir "umbrella.rs") = Some (EFile (umbrella_text_of show (p_name p) dir kept))) /\
      (forall q, (forall p, In p ps -> let dir := join out (p_name p) in
                    q <> dir /\ q <> join dir "umbrella.rs" /\
                    forall t n d, In (t, n, d) (kept_files fm (marked w) settings p) -> q <> join dir n) ->
         look s' q = look s q).
Proof. exact (fun S fs m fm show calls settings => build_success fs m fm show calls settings). Qed.
Print Assumptions C56_success_partial.

(** The files exactly, for any names, also equal ones: after a run that ends normally every
    path holds the last thing that the plans of the protocols, in order, put there, or what
    it held before. *)
Theorem C56_files_exact : forall S (fs : fs_ops S) m fm show calls settings ok out s lines s' look, stores fs look ->
  generate_rust fs m fm show calls ok settings (Some out) s = (Printed lines, s') ->
  exists ps w seen w1,
    imports_run m "::" [] world_new (imported calls) seen w1 /\
    loads_run m (visible "::" seen) w1 (loaded calls) ps w /\
    forall q, look s' q = last_at q (flat_map (build_plan fm show (marked w) settings out) ps) (look s q).
Proof. exact (fun S fs m fm show calls settings => build_files_exact fs m fm show calls settings). Qed.
Print Assumptions C56_files_exact.

(** Where the file system lets files be created below the output directory, a run ends
    normally exactly if loading succeeds, the output directory is known, everything
    compiles and the declarations can be generated. *)
Theorem C56_succeeds : forall S (fs : fs_ops S) m fm show calls settings look ok out_dir s, stores fs look ->
  (forall out, out_dir = Some out -> works_below fs look out /\
     forall v, In v (loaded calls) -> plain (sp_name v) /\ clear (look s) out (sp_name v)) ->
  Forall widths_usize (loaded calls) ->
  ((exists lines s', generate_rust fs m fm show calls ok settings out_dir s = (Printed lines, s')) <->
   ok = true /\ out_dir <> None /\
   (exists ps w seen w1, imports_run m "::" [] world_new (imported calls) seen w1 /\
      loads_run m (visible "::" seen) w1 (loaded calls) ps w) /\
   Forall declaration_generates (loaded calls)).
Proof. exact (fun S fs m fm show calls settings => build_succeeds_iff fs m fm show calls settings). Qed.
Print Assumptions C56_succeeds.

(** Each way to panic has its cause, and nothing is written before generation starts. *)
Theorem C56_failure : forall S (fs : fs_ops S) m fm show calls settings ok out_dir s c s', Forall widths_usize (loaded calls) ->
  generate_rust fs m fm show calls ok settings out_dir s = (Panicked c, s') ->
  let runs ps w := exists seen w1, imports_run m "::" [] world_new (imported calls) seen w1 /\
                     loads_run m (visible "::" seen) w1 (loaded calls) ps w in
  let compiling := loader_compile m (loader_after calls) (solver_new "::") in
  match c with
  | CauseLoad => ok = false /\ s' = s
  | CauseCompile e => ok = true /\ failed compiling (Some e) /\ s' = s
  | CauseOutDir => ok = true /\ (exists ps w, runs ps w) /\ out_dir = None /\ s' = s
  | CauseGenerate e => ok = true /\ (exists ps w, runs ps w) /\ e = DIo
  | CauseInside => ok = true /\
      ((failed compiling None /\ s' = s) \/ ((exists ps w, runs ps w) /\ ~ Forall declaration_generates (loaded calls)))
  end.
Proof. exact (fun S fs m fm show calls settings => build_failure fs m fm show calls settings). Qed.
Print Assumptions C56_failure.

(** A protocol that imports another one is loaded; enumerations are not wanted, reading
    code is. *)
Example C56_nonvacuous :
  let calls := [LLoad main_v; LImport "crate::lib" lib_v] in
  let settings := [UseEnums true; ReadsMessages true; UseEnums false] in
  stores mem_fs mem_look /\ works_below mem_fs mem_look "out" /\ Forall widths_usize (loaded calls) /\
  Forall (fun v => plain (sp_name v) /\ clear (mem_look []) "out" (sp_name v)) (loaded calls) /\
  NoDup (map sp_name (loaded calls)) /\
  generate_rust mem_fs Debug build_formats quoted calls true settings (Some "out") [] =
    (Printed ["cargo::rustc-env=BP3D_PROTOC_MAIN=out/Main/umbrella.rs"], build_state) /\
  map fst build_state = ["out/Main/umbrella.rs"; "out/Main/unions.rs"; "out/Main/structures.rs";
    "out/Main/messages_offsets.rs"; "out/Main/messages_from_slice.rs"; "out/Main/messages.rs"; "out/Main"] /\
  fst (generate_rust mem_fs Debug build_formats quoted calls false settings (Some "out") []) = Panicked CauseLoad /\
  fst (generate_rust mem_fs Debug build_formats quoted calls true settings None []) = Panicked CauseOutDir /\
  fst (generate_rust mem_fs Debug build_formats quoted [LLoad main_v] true settings (Some "out") []) =
    Panicked (CauseCompile (EUndefinedReference "Lib")) /\
  fst (generate_rust mem_fs Debug build_formats quoted calls true settings (Some "out") [("out/Main/unions.rs", EDir)]) =
    Panicked (CauseGenerate DIo).
Proof. exact build_sample. Qed.

(** Two protocols whose names differ only in case are given the same variable, so one
    of them cannot be reached. *)
Theorem C56_same_variable_refuted : exists calls, NoDup (map sp_name (loaded calls)) /\
  fst (generate_rust mem_fs Debug build_formats quoted calls true [] (Some "out") []) =
  Printed ["cargo::rustc-env=BP3D_PROTOC_NET=out/net/umbrella.rs"; "cargo::rustc-env=BP3D_PROTOC_NET=out/Net/umbrella.rs"].
Proof. exact same_variable_refuted. Qed.
Print Assumptions C56_same_variable_refuted.

(** ** C57: combining options *)

(** A pair of options becomes an option of the pair of their values, if both have one. *)
Theorem C57_single : forall A B (x : option A) (y : option B) a b,
  to_single (x, y) = Some (a, b) <-> x = Some a /\ y = Some b.
Proof. exact to_single_iff. Qed.
Print Assumptions C57_single.

Example C57_nonvacuous : to_single (Some 1, Some true) = Some (1, true) /\ to_single (Some 1, @None bool) = None.
Proof. split; reflexivity. Qed.
