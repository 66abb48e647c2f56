(** Sample runs of the driver, and refutations. *)

From Coq Require Import Arith NArith Ascii String List Bool.
From Verif Require Import Base Compiler Template Driver SpecDriver DriverThms.
Import ListNotations.
Local Open Scope string_scope.

Definition plain_show (s : string) : string := String "034" (s ++ String "034" "").
Definition demo_generator : generator string := {|
  g_generate := fun n =>
    Ok [ {| fi_name := "messages_write.rs"; fi_data := "impl Write"; fi_ty := MessageWriting |};
         {| fi_name := "structures.rs"; fi_data := "struct " ++ n ++ ";"; fi_ty := StructureFile |};
         {| fi_name := "enums.rs"; fi_data := ""; fi_ty := EnumFile |} ];
  g_umbrella := fun n files => Ok (umbrella_rust plain_show n files) |}.
Definition demo_state : mem :=
  Eval vm_compute in snd (generate mem_fs demo_generator (fun n => n) flags_new "out" [] ["A"; "B"]).
Lemma demo_run :
  stores mem_fs mem_look /\
  generate mem_fs demo_generator (fun n => n) flags_new "out" [] ["A"; "B"] =
    (Ok [ {| pr_name := "A"; pr_path := "out/A/umbrella.rs" |}; {| pr_name := "B"; pr_path := "out/B/umbrella.rs" |} ], demo_state) /\
  mem_look demo_state "out/A/structures.rs" = Some (EFile "struct A;") /\
  mem_look demo_state "out/A/messages_write.rs" = None /\ mem_look demo_state "out/A/enums.rs" = None /\
  NoDup (write_paths (flat_map (script demo_generator (fun n => n) flags_new "out") ["A"; "B"])).
Proof.
  split; [exact mem_stores|]. repeat split; try (vm_compute; reflexivity).
  replace (write_paths _) with ["out/A/structures.rs"; "out/A/umbrella.rs"; "out/B/structures.rs"; "out/B/umbrella.rs"]
    by (vm_compute; reflexivity).
  repeat constructor; cbn; intuition discriminate.
Qed.

Definition no_umbrella (_ : string) (_ : list string) : outcome string string := Ok "".
Lemma same_name_refuted : exists T : generator (string * string), exists s,
  generate mem_fs T fst flags_new "out" [] [("P", "first"); ("P", "second")] =
    (Ok [ {| pr_name := "P"; pr_path := "out/P" |}; {| pr_name := "P"; pr_path := "out/P" |} ], s) /\
  mem_look s "out/P/structures.rs" = Some (EFile "second").
Proof.
  exists {| g_generate := fun p => Ok [ {| fi_name := "structures.rs"; fi_data := snd p; fi_ty := StructureFile |} ];
            g_umbrella := no_umbrella |}.
  eexists. split; vm_compute; reflexivity.
Qed.
Lemma folder_refuted : exists T1 T2 : generator string,
  (exists s, generate mem_fs T1 (fun n => n) flags_new "out" [] ["P"] = (Err DIo, s)) /\
  (exists r s1 s2, generate mem_fs T2 (fun n => n) flags_new "out" [] ["P"] = (Ok r, s1) /\
                   generate mem_fs T2 (fun n => n) flags_new "out" s1 ["P"] = (Err DIo, s2)).
Proof.
  exists {| g_generate := fun p => Ok [ {| fi_name := "sub/a"; fi_data := "aa"; fi_ty := StructureFile |};
                                        {| fi_name := "sub/b"; fi_data := "bb"; fi_ty := StructureFile |} ];
            g_umbrella := no_umbrella |}.
  exists {| g_generate := fun p => Ok [ {| fi_name := "sub/a"; fi_data := "aa"; fi_ty := StructureFile |} ];
            g_umbrella := no_umbrella |}.
  split; [eexists; vm_compute; reflexivity|]. do 3 eexists. split; vm_compute; reflexivity.
Qed.
