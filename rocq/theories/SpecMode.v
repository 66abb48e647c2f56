(** Specification vocabulary for C65: two runs of a program, the first with and
    the second without overflow checks. *)

From Coq Require Import List.
From Verif Require Import Base Runtime.

(** The first run panics or the second gives the same result. *)
Definition same_or_panic {E A} (checked unchecked : outcome E A) : Prop :=
  checked = Panic \/ unchecked = checked.

(** The same for programs that write; what was written is compared too. *)
Definition same_write_or_panic {St} (checked unchecked : wr St) : Prop :=
  forall s, snd (checked s) = Panic \/ unchecked s = checked s.
