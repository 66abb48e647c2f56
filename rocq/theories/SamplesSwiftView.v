(** Samples for C101. *)

From Coq Require Import NArith ZArith String List.
From Verif Require Import Base Schema Codec Compiler Access SpecStruct Swift Samples.
Import ListNotations.
Local Open Scope N_scope.
Local Open Scope string_scope.

(** A number of 24 bits in front of two enumerations, the second with a gap. *)
Definition dial : sstruct :=
  {| ss_name := "Dial";
     ss_fields :=
       [ scalar "turn" (STSigned 24);
         {| sf_name := "color"; sf_info := STUnsigned 8; sf_view := Some (SVEnum "Color"); sf_array_len := None |};
         {| sf_name := "hole"; sf_info := STUnsigned 8; sf_view := Some (SVEnum "Holes"); sf_array_len := None |};
         scalar "small" (STSigned 5);
         scalar "wide" (STSigned 19) ] |}.
Definition dial_s : structure := compile_one Debug sample_enums [] dial.
Definition dial_fixed (i : nat) : fixed_field :=
  match nth_error (s_fields dial_s) i with Some (FFixed f) => f | _ => demo_fixed 0 end.
(** turn 5, color 2, hole 3, small -2, wide 0x5555. *)
Definition dial_buf : bytes := [5; 0; 0; 2; 3; 190; 170; 10].
Definition dial_window : dbuf := db_of_bytes dial_buf.

(** Three numbers of 16 bits in front of two of 24 bits. *)
Definition rows : sstruct :=
  {| ss_name := "Rows";
     ss_fields :=
       [ {| sf_name := "words"; sf_info := STUnsigned 16; sf_view := None; sf_array_len := Some 3 |};
         {| sf_name := "marks"; sf_info := STUnsigned 24; sf_view := None; sf_array_len := Some 2 |} ] |}.
Definition rows_s : structure := compile_one Debug sample_enums [] rows.
Definition rows_array (i : nat) : array_field :=
  match nth_error (s_fields rows_s) i with Some (FArray f) => f | _ => demo_array end.
Definition rows_buf : bytes := [1; 2; 3; 4; 5; 6; 7; 8; 9; 10; 11; 12].
Definition rows_window : dbuf := db_of_bytes rows_buf.
