(** Specification vocabulary for numbers written in descriptions and for the
    case labels of unions (C49, C53). *)

From Coq Require Import Arith NArith ZArith Ascii String List Bool.
From Verif Require Import Base Schema Compiler.
Import ListNotations.
Local Open Scope N_scope.
Local Open Scope string_scope.

(** [s] is a non-empty string of decimal digits whose value is [n]. *)
Inductive decimal : string -> N -> Prop :=
| dec_digit : forall c d, (d <= 9)%N -> N_of_ascii c = (48 + d)%N -> decimal (String c "") d
| dec_more : forall s n c d, decimal s n -> (d <= 9)%N -> N_of_ascii c = (48 + d)%N ->
    decimal (s ++ String c "") (10 * n + d)%N.

(** Integers written with an optional sign. *)
Definition unsigned_label (s : string) (n : N) : Prop :=
  decimal s n \/ exists r, s = String "+" r /\ decimal r n.
Definition signed_label (s : string) (z : Z) : Prop :=
  (exists n, unsigned_label s n /\ z = Z.of_N n) \/
  (exists r n, s = String "-" r /\ decimal r n /\ z = (- Z.of_N n)%Z).

(** The number a case label stands for, by the kind of the discriminant: a
    variant of the enum, or an integer in the range of a 64-bit word, signed
    ones in two's complement. *)
Inductive label_number (view : fview) (label : string) : N -> Prop :=
| ln_enum : forall e n, view = VEnum e -> sget label (e_map e) = Some n -> label_number view label n
| ln_signed : forall z, (view = VTransmute \/ exists mp, view = VSignedCast mp) ->
    signed_label label z -> (- 2 ^ 63 <= z < 2 ^ 63)%Z ->
    label_number view label (if (z <? 0)%Z then Z.to_N (z + 2 ^ 64) else Z.to_N z)
| ln_plain : forall n, view = VNone -> unsigned_label label n -> n < 2 ^ 64 -> label_number view label n.

(** The type a case refers to: a structure of that name, else a message. *)
Inductive case_item (structs : smap structure) (messages : smap message) : option string -> option referenced -> Prop :=
| ci_none : case_item structs messages None None
| ci_struct : forall name s, sget name structs = Some s -> case_item structs messages (Some name) (Some (RStruct s))
| ci_message : forall name x, sget name structs = None -> sget name messages = Some x ->
    case_item structs messages (Some name) (Some (RMessage x)).

(** [c] is what the declared case [d] stands for. *)
Record case_of (structs : smap structure) (messages : smap message) (view : fview) (d : sucase) (c : ucase) : Prop := {
  co_name : uc_name c = su_name d;
  co_case : label_number view (su_case d) (uc_case c);
  co_item : case_item structs messages (su_item_type d) (uc_item c) }.

(** The components [parts] name, from structure [s], the scalar field [f]; its
    position is given by field indices. Each component names the first field
    of that name, all but the last one a structure. *)
Definition first_at (n : string) (l : list field) (k : nat) (f : field) : Prop :=
  nth_error l k = Some f /\ field_name f = n /\
  forall j g, (j < k)%nat -> nth_error l j = Some g -> field_name g <> n.
Inductive names_scalar : structure -> list string -> list nat -> fixed_field -> Prop :=
| ns_scalar : forall s n k f, first_at n (s_fields s) k (FFixed f) -> names_scalar s [n] [k] f
| ns_struct : forall s n k name r loc rest path f, first_at n (s_fields s) k (FStruct name r loc) ->
    names_scalar r rest path f -> names_scalar s (n :: rest) (k :: path) f.
