(** Specification vocabulary for float views (C09): floats as real numbers. *)

From Coq Require Import ZArith NArith Reals SpecFloat.
From Verif Require Import Base Schema Compiler.
Local Open Scope R_scope.

(** The number a finite float denotes. *)
Definition real_of (x : spec_float) : R :=
  match x with
  | S754_finite s m e => (if s then -1 else 1) * IZR (Zpos m) * powerRZ 2 e
  | _ => 0
  end.
Definition is_number (x : spec_float) : Prop :=
  match x with S754_finite _ _ _ | S754_zero _ => True | _ => False end.
(** A number of a binary format with [digits] significant bits and exponents below [top]. *)
Definition in_format (digits top : Z) (x : spec_float) : Prop :=
  SpecFloat.valid_binary digits top x = true /\ is_number x.
Definition is_f64 : spec_float -> Prop := in_format 53 1024.

(** The type of the view of a field of [n] bits: f32 up to 16 bits and for 32, f64 for
    the other widths. *)
Definition single (n : N) : bool := (n <=? 16)%N || (n =? 32)%N.
Definition view_digits (n : N) : Z := if single n then 24 else 53.
Definition view_top (n : N) : Z := if single n then 128 else 1024.
Definition is_view (n : N) : spec_float -> Prop := in_format (view_digits n) (view_top n).

(** Half a unit in the last place, relative to the value. *)
Definition view_eps (n : N) : R := powerRZ 2 (- view_digits n).
(** The number of raw values of [n] bits. *)
Definition raws (n : N) : R := powerRZ 2 (Z.of_N n).

(** Negative numbers and minus infinity. *)
Definition below_zero (x : spec_float) : Prop :=
  match x with S754_finite true _ _ | S754_infinity true => True | _ => False end.

(** A view under which the raw value [r] stands for [step * r]: a multiplier, or a range
    starting at zero whose largest raw value stands for its end. *)
Definition scaled_by (n : N) (view : sview) (step : R) : Prop :=
  match view with
  | SVFloatMultiplier multiplier => is_f64 multiplier /\ step = real_of multiplier
  | SVFloatRange lo hi => is_f64 lo /\ real_of lo = 0 /\ is_f64 hi /\ step = real_of hi / (raws n - 1)
  | SVEnum _ => False
  end.
Definition moderate (step : R) : Prop := powerRZ 2 (-100) <= step <= powerRZ 2 100.
