(** Property theorems C47 and C48: loading protocols and writing generated
    files. *)

From Coq Require Import Arith NArith Ascii String List Bool.
From Verif Require Import Base Schema Compiler SamplesComp Loader SpecLoader SpecRun LoaderThms LoaderSession
  Template SpecTemplate Driver SpecDriver DriverThms DriverRefute.
Import ListNotations.
Local Open Scope string_scope.

(** ** C47: generated files *)

(** For every file system, generator, flags and list of protocols: running the
    generator is executing the specified steps, in order, until one fails; and if
    none fails one path per protocol is reported, in order. *)
Theorem C47_steps : forall S (fs : fs_ops S) P (T : generator P) name_of fl out ps s,
  generate fs T name_of fl out s ps =
  match run_steps fs s (flat_map (script T name_of fl out) ps) with
  | (Ok _, s') => (Ok (map (reported T name_of fl out) ps), s')
  | (Err e, s') => (Err e, s')
  | (Panic, s') => (Panic, s')
  end.
Proof. exact (fun S fs P T name_of fl out => generate_steps fs T name_of fl out). Qed.
Print Assumptions C47_steps.

(** The folder that is made for a file is its name up to the first slash. *)
Theorem C47_folder : forall s a, folder s = Some a <->
  ~ In "/"%char (list_ascii_of_string a) /\ exists r, s = (a ++ "/" ++ r)%string.
Proof. exact folder_split. Qed.
Print Assumptions C47_folder.

Example C47_folder_nonvacuous : folder "ab/cd/e.rs" = Some "ab" /\ folder "e.rs" = None.
Proof. split; reflexivity. Qed.

(** On a file system that stores what is written to it, if no path is written
    twice, success leaves exactly the enabled files that are longer than one byte
    and the umbrellas, and touches nothing else but their directories. *)
Theorem C47_contents_partial : forall S (fs : fs_ops S) P (T : generator P) name_of fl out look,
  stores fs look -> forall ps s res s',
  generate fs T name_of fl out s ps = (Ok res, s') ->
  NoDup (write_paths (flat_map (script T name_of fl out) ps)) ->
  res = map (reported T name_of fl out) ps /\
  (forall p files f, In p ps -> g_generate T p = Ok files -> In f files ->
     enabled fl (fi_ty f) -> (1 < String.length (fi_data f))%nat ->
     look s' (join (join out (name_of p)) (fi_name f)) = Some (EFile (fi_data f))) /\
  (forall p files u, In p ps -> g_generate T p = Ok files ->
     g_umbrella T (name_of p) (written name_of fl out p files) = Ok u -> (1 < String.length u)%nat ->
     look s' (join (join out (name_of p)) "umbrella.rs") = Some (EFile u)) /\
  (forall q, (forall p files, In p ps -> g_generate T p = Ok files ->
                q <> join out (name_of p) /\ q <> join (join out (name_of p)) "umbrella.rs" /\
                forall f, In f files -> chosen fl f = true ->
                  q <> join (join out (name_of p)) (fi_name f) /\
                  forall sub, folder (fi_name f) = Some sub -> q <> join (join out (name_of p)) sub) ->
     look s' q = look s q).
Proof. exact (fun S fs P T name_of fl out look H => generate_contents fs T name_of fl out look H). Qed.
Print Assumptions C47_contents_partial.

(** Exactly, for every outcome and also if paths are written twice: on such a file system
    every path holds the last thing that the steps done put there, or what it held before.
    The steps done are all steps if the run succeeds and otherwise those before the first
    that fails. *)
Theorem C47_contents_exact : forall S (fs : fs_ops S) P (T : generator P) name_of fl out look,
  stores fs look -> forall ps s res s',
  generate fs T name_of fl out s ps = (res, s') ->
  exists before after, flat_map (script T name_of fl out) ps = (before ++ after)%list /\
    (forall q, look s' q = last_at q before (look s q)) /\
    match res, after with
    | Ok l, [] => l = map (reported T name_of fl out) ps
    | Err e, SFail e' :: _ => e = e'
    | Err e, SOp o :: _ => e = DIo /\ fop_do fs s' o = None
    | Panic, SPanic :: _ => True
    | _, _ => False
    end.
Proof. exact (fun S fs P T name_of fl out look H => generate_exact fs T name_of fl out look H). Qed.
Print Assumptions C47_contents_exact.

(** The umbrella of the Rust generator includes the files it is given, in order. *)
Theorem C47_umbrella : forall show name files,
  umbrella_rust show name files =
  "pub mod " ++ name ++ " {" ++ lf ++
  String.concat "" (map (fun f => "include!(" ++ show f ++ ");" ++ lf) files) ++ "}" ++ lf.
Proof. exact umbrella_text. Qed.
Print Assumptions C47_umbrella.

Example C47_nonvacuous :
  stores mem_fs mem_look /\
  generate mem_fs demo_generator (fun n => n) flags_new "out" [] ["A"; "B"] =
    (Ok [ {| pr_name := "A"; pr_path := "out/A/umbrella.rs" |}; {| pr_name := "B"; pr_path := "out/B/umbrella.rs" |} ], demo_state) /\
  mem_look demo_state "out/A/structures.rs" = Some (EFile "struct A;") /\
  mem_look demo_state "out/A/messages_write.rs" = None /\ mem_look demo_state "out/A/enums.rs" = None /\
  NoDup (write_paths (flat_map (script demo_generator (fun n => n) flags_new "out") ["A"; "B"])).
Proof. exact demo_run. Qed.

(** Two protocols with the same name: the files of the first are replaced. *)
Theorem C47_same_name_refuted : exists T : generator (string * string), exists s,
  generate mem_fs T fst flags_new "out" [] [("P", "first"); ("P", "second")] =
    (Ok [ {| pr_name := "P"; pr_path := "out/P" |}; {| pr_name := "P"; pr_path := "out/P" |} ], s) /\
  mem_look s "out/P/structures.rs" = Some (EFile "second").
Proof. exact same_name_refuted. Qed.
Print Assumptions C47_same_name_refuted.

(** A generator whose files are in a folder: a second file in it, or a second
    run, is an error. *)
Theorem C47_folder_refuted : exists T1 T2 : generator string,
  (exists s, generate mem_fs T1 (fun n => n) flags_new "out" [] ["P"] = (Err DIo, s)) /\
  (exists r s1 s2, generate mem_fs T2 (fun n => n) flags_new "out" [] ["P"] = (Ok r, s1) /\
                   generate mem_fs T2 (fun n => n) flags_new "out" s1 ["P"] = (Err DIo, s2)).
Proof. exact folder_refuted. Qed.
Print Assumptions C47_folder_refuted.

(** The files of the second of two protocols with one name are what is left. *)
Example C47_exact_nonvacuous :
  last_at "out/P/a.rs" [SOp (FEnsure "out/P"); SOp (FWrite "out/P/a.rs" "first"); SOp (FEnsure "out/P");
                        SOp (FWrite "out/P/a.rs" "second")] None = Some (EFile "second") /\
  last_at "out/P" [SOp (FEnsure "out/P"); SOp (FWrite "out/P/a.rs" "first")] None = Some EDir /\
  last_at "out/Q" [SOp (FEnsure "out/P")] (Some (EFile "kept")) = Some (EFile "kept").
Proof. repeat split; reflexivity. Qed.

(** ** C48: loading *)

(** Compiling what was loaded succeeds exactly if all imported models compile in
    the order of the calls, each seeing the ones before it, and then the loaded
    ones, in order. *)
Theorem C48_order : forall m sep calls ps w,
  loader_compile m (loader_after calls) (solver_new sep) = Ok (ps, w) <->
  exists seen w1, imports_run m sep [] world_new (imported calls) seen w1 /\
    loads_run m (visible sep seen) w1 (loaded calls) ps w.
Proof. exact load_ok. Qed.
Print Assumptions C48_order.

(** It fails, with an error or a panic, exactly if some model fails that way when
    all those before it compile. *)
Theorem C48_first_error : forall m sep calls e,
  failed (loader_compile m (loader_after calls) (solver_new sep)) e <->
  (exists l1 path v l2 seen w, imported calls = (l1 ++ (path, v) :: l2)%list /\
     imports_run m sep [] world_new l1 seen w /\ failed (protocol_from_model m (visible sep seen) w v) e) \/
  (exists seen w l1 v l2 ps w1, imports_run m sep [] world_new (imported calls) seen w /\
     loaded calls = (l1 ++ v :: l2)%list /\ loads_run m (visible sep seen) w l1 ps w1 /\
     failed (protocol_from_model m (visible sep seen) w1 v) e).
Proof. exact load_failed. Qed.
Print Assumptions C48_first_error.

Example C48_nonvacuous :
  (exists ps w, loader_compile Debug (loader_after [LLoad main_v; LImport "lib" lib_v]) (solver_new "::") = Ok (ps, w) /\
     map p_name ps = ["Main"]) /\
  loader_compile Debug (loader_after [LLoad lib_v; LLoad main_v]) (solver_new "::") = Err (EUndefinedReference "Lib").
Proof. split; [do 2 eexists; split; vm_compute; reflexivity|vm_compute; reflexivity]. Qed.

(** Whatever a loader returns has been compiled in one session, in which the loaded
    protocols come last: all that is proved about sessions (C26, C32, C68, ...) holds for
    what the tool compiles. *)
Theorem C48_session : forall m calls sep ps w,
  loader_compile m (loader_after calls) (solver_new sep) = Ok (ps, w) ->
  exists imported, session m w (imported ++ ps)%list.
Proof. exact (fun m calls => loader_session m (loader_after calls)). Qed.
Print Assumptions C48_session.
