(** Model of [std::str::from_utf8] (called by
    runtime/src/message/util/string.rs:43 and 68).

    The standard library is not part of the repository; this transcribes the
    byte-level check of [core::str::validations::run_utf8_validation]. The
    fast path over ASCII words is not modelled (it accepts the same strings). *)

From Coq Require Import Arith NArith List Bool.
From Verif Require Import Base.
Import ListNotations.
Local Open Scope N_scope.

Definition in_range (lo hi x : N) : bool := (lo <=? x) && (x <=? hi).

(** [(byte as i8) < -64] *)
Definition is_cont (x : N) : bool := in_range 0x80 0xBF x.

Fixpoint from_utf8 (b : bytes) : bool :=
  match b with
  | [] => true
  | x :: r =>
      if x <? 0x80 then from_utf8 r
      else if in_range 0xC2 0xDF x then
        match r with
        | y :: r => is_cont y && from_utf8 r
        | _ => false
        end
      else if in_range 0xE0 0xEF x then
        match r with
        | y :: z :: r =>
            (if x =? 0xE0 then in_range 0xA0 0xBF y
             else if x =? 0xED then in_range 0x80 0x9F y
             else in_range 0x80 0xBF y)
            && is_cont z && from_utf8 r
        | _ => false
        end
      else if in_range 0xF0 0xF4 x then
        match r with
        | y :: z :: t :: r =>
            (if x =? 0xF0 then in_range 0x90 0xBF y
             else if x =? 0xF4 then in_range 0x80 0x8F y
             else in_range 0x80 0xBF y)
            && is_cont z && is_cont t && from_utf8 r
        | _ => false
        end
      else false
  end.
