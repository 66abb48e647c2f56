(** Sample protocols used by the examples of the compiler and message
    properties. *)

From Coq Require Import Arith NArith ZArith Ascii String List Bool.
From Verif Require Import Base Schema Compiler SpecComp Samples.
Import ListNotations.
Local Open Scope N_scope.
Local Open Scope string_scope.

Definition fld (n : string) (t : mftype) : smfield := {| smf_name := n; smf_info := t; smf_optional := None |}.
Definition optfld (n : string) (t : mftype) : smfield := {| smf_name := n; smf_info := t; smf_optional := Some true |}.
Definition ucase_d (n c : string) (t : option string) : sucase :=
  {| su_name := n; su_case := c; su_item_type := t |}.

(** The library protocol: an enum, three structures, a message. *)
Definition lib_v : sprotocol :=
  {| sp_name := "Lib"; sp_endianness := None; sp_imports := [];
     sp_enums := [color];
     sp_structs :=
       [ {| ss_name := "Header"; ss_fields :=
             [ {| sf_name := "kind"; sf_info := STUnsigned 8; sf_view := Some (SVEnum "Color"); sf_array_len := None |};
               scalar "size" (STUnsigned 16) ] |};
         {| ss_name := "Id"; ss_fields := [ scalar "id" (STUnsigned 32) ] |} ];
     sp_unions := [];
     sp_messages :=
       [ {| sm_name := "Ping"; sm_fields := [ fld "id" (MTItem "Id"); fld "who" (MTString None) ] |} ] |}.

(** The main protocol: imports everything, defines a structure, a union over
    the header, a message with a union and a list, and one with a payload. *)
Definition main_v : sprotocol :=
  {| sp_name := "Main"; sp_endianness := Some Little;
     sp_imports := [ {| si_protocol := "Lib"; si_type := "Header" |};
                     {| si_protocol := "Lib"; si_type := "Id" |};
                     {| si_protocol := "Lib"; si_type := "Color" |};
                     {| si_protocol := "Lib"; si_type := "Ping" |} ];
     sp_enums := [];
     sp_structs :=
       [ {| ss_name := "Pos"; ss_fields := [ scalar "x" (STSigned 12); scalar "y" (STSigned 12) ] |};
         {| ss_name := "Line"; ss_fields := [ scalar "a" (STStruct "Pos"); scalar "b" (STStruct "Pos") ] |} ];
     sp_unions :=
       [ {| sun_name := "Body"; sun_discriminant := "Header.kind";
            sun_cases := [ ucase_d "Ping" "Red" (Some "Ping"); ucase_d "Line" "Green" (Some "Line");
                           ucase_d "Nothing" "Blue" None ] |} ];
     sp_messages :=
       [ {| sm_name := "Packet"; sm_fields :=
             [ fld "hdr" (MTItem "Header"); optfld "note" (MTString (Some 300));
               fld "body" (MTUnion "hdr" "Body"); fld "lines" (MTList 100 "Line");
               fld "pings" (MTList 100 "Ping") ] |};
         {| sm_name := "Raw"; sm_fields :=
             [ fld "pos" (MTItem "Pos"); optfld "packet" (MTItem "Ping"); fld "data" MTPayload ] |} ] |}.

Definition world0 : world := {| w_next := 0; w_embedded := [] |}.
Definition no_imports : resolver := solver_resolver (solver_new "::").
Definition dummy_p : protocol * world := (protocol_empty "", world0).
Definition get_ok {E A} (d : A) (x : outcome E A) : A := match x with Ok a => a | _ => d end.

Definition lib_pw : protocol * world :=
  Eval vm_compute in get_ok dummy_p (protocol_from_model Debug no_imports world0 lib_v).
Definition lib_p := Eval vm_compute in fst lib_pw.
Definition main_solver : resolver :=
  solver_resolver (solver_register (solver_new "::") "crate::lib" lib_p).
Definition main_pw : protocol * world :=
  Eval vm_compute in get_ok dummy_p (protocol_from_model Debug main_solver (snd lib_pw) main_v).
Definition main_p := Eval vm_compute in fst main_pw.

Lemma lib_ok : protocol_from_model Debug no_imports world0 lib_v = Ok lib_pw.
Proof. vm_compute. reflexivity. Qed.
Lemma main_ok : protocol_from_model Debug main_solver (snd lib_pw) main_v = Ok main_pw.
Proof. vm_compute. reflexivity. Qed.
Lemma lib_compiled : compiled Debug lib_p.
Proof.
  apply (compiled_intro Debug no_imports world0 lib_v lib_p (snd lib_pw)).
  - intros n q H. discriminate.
  - exact lib_ok.
Qed.
Lemma main_imports : forall n q, r_protocol main_solver n = Some q -> compiled Debug q.
Proof.
  intros n q H. unfold main_solver, solver_resolver in H. cbn [r_protocol is_map solver_register solver_new sget sinsert] in H.
  destruct (String.eqb n (p_name lib_p)); [|discriminate]. inversion H. exact lib_compiled.
Qed.
Lemma main_compiled : compiled Debug main_p.
Proof.
  apply (compiled_intro Debug main_solver (snd lib_pw) main_v main_p (snd main_pw)).
  - exact main_imports.
  - exact main_ok.
Qed.

(** Descriptions with a single structure, or with a structure and a union. *)
Definition one_struct (fs : list sfield) : sprotocol :=
  {| sp_name := "P"; sp_endianness := None; sp_imports := []; sp_enums := []; sp_unions := []; sp_messages := [];
     sp_structs := [ {| ss_name := "S"; ss_fields := fs |} ] |}.
Definition one_union (disc : string) : sprotocol :=
  {| sp_name := "P"; sp_endianness := None; sp_imports := []; sp_enums := []; sp_messages := [];
     sp_structs := [ {| ss_name := "T"; ss_fields := [ scalar "a" (STUnsigned 8) ] |};
                     {| ss_name := "S"; ss_fields := [ scalar "a" (STUnsigned 8); scalar "t" (STStruct "T") ] |} ];
     sp_unions := [ {| sun_name := "U"; sun_discriminant := disc;
                       sun_cases := [ ucase_d "A" "1" None ] |} ] |}.
