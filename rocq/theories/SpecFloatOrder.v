(** Order of floats, for C95. *)

From Coq Require Import ZArith NArith Reals SpecFloat.
From Verif Require Import Base Schema SpecFloats.
Local Open Scope R_scope.

(** [x] is at most [y]: as numbers, with the infinities at the ends. Nothing compares with NaN. *)
Definition at_most (x y : spec_float) : Prop :=
  match x, y with
  | S754_nan, _ | _, S754_nan => False
  | S754_infinity true, _ => True
  | _, S754_infinity false => True
  | S754_infinity false, _ => False
  | _, S754_infinity true => False
  | _, _ => real_of x <= real_of y
  end.

(** A view under which the raw value [r] of [n] bits is to stand for [lo + step * r]. *)
Definition stepped (n : N) (view : sview) (lo step : R) : Prop :=
  match view with
  | SVFloatMultiplier multiplier => is_f64 multiplier /\ lo = 0 /\ step = real_of multiplier
  | SVFloatRange minimum maximum => is_f64 minimum /\ is_f64 maximum /\ (n < 64)%N /\
      lo = real_of minimum /\ step = real_of maximum / (raws n - 1)
  | SVEnum _ => False
  end.

(** A value of the type of the view of [n] bits: a number, an infinity or NaN. *)
Definition of_view_type (n : N) (v : spec_float) : Prop := SpecFloat.valid_binary (view_digits n) (view_top n) v = true.
