(** Rust core semantics used by every other file of the model.

    - A function that may panic or return [Err] is modelled by a value of type
      [outcome]; a panic is an explicit value, never an undefined result.
    - [mode] selects the semantics of overflowing integer arithmetic: debug
      builds panic, release builds wrap modulo 2^64.
    - A byte is a number below 256, a byte string is a list of bytes.
    - [usize] is 64 bits wide. *)

From Coq Require Import Arith NArith List Bool.
Import ListNotations.
Local Open Scope N_scope.

(** Result of running Rust code: [Ok], a returned [Err], or a panic. *)
Inductive outcome (E A : Type) : Type :=
| Ok (a : A)
| Err (e : E)
| Panic.
Arguments Ok {E A} a.
Arguments Err {E A} e.
Arguments Panic {E A}.

(** The [?] operator and sequencing of statements. *)
Definition bind {E A B} (x : outcome E A) (k : A -> outcome E B) : outcome E B :=
  match x with
  | Ok a => k a
  | Err e => Err e
  | Panic => Panic
  end.
Notation "x <- e ;; k" := (bind e (fun x => k))
  (at level 61, e at next level, right associativity).
Notation "' p <- e ;; k" := (bind e (fun p => k))
  (at level 61, p pattern, e at next level, right associativity).

(** [Option::unwrap] and [Result::unwrap]. *)
Definition unwrap {E A} (o : option A) : outcome E A :=
  match o with Some a => Ok a | None => Panic end.
Definition unwrap_res {E F A} (o : outcome F A) : outcome E A :=
  match o with Ok a => Ok a | _ => Panic end.

(** [Option::ok_or]. *)
Definition ok_or {E A} (o : option A) (e : E) : outcome E A :=
  match o with Some a => Ok a | None => Err e end.

(** Build profile: [debug_assertions] on (overflow checks) or off. *)
Inductive mode := Debug | Release.

Definition usize_mod : N := 2 ^ 64.

Definition overflow {E} (m : mode) (wrapped : N) : outcome E N :=
  match m with Debug => Panic | Release => Ok wrapped end.

(** [a + b], [a - b], [a * b] on usize. *)
Definition uadd {E} (m : mode) (a b : N) : outcome E N :=
  if a + b <? usize_mod then Ok (a + b) else overflow m ((a + b) mod usize_mod).
Definition usub {E} (m : mode) (a b : N) : outcome E N :=
  if b <=? a then Ok (a - b) else overflow m ((a + usize_mod - b) mod usize_mod).
Definition umul {E} (m : mode) (a b : N) : outcome E N :=
  if a * b <? usize_mod then Ok (a * b) else overflow m ((a * b) mod usize_mod).
(** [1usize << n]: a shift amount of 64 or more panics in debug and is
    reduced modulo 64 in release. *)
Definition ushl1 {E} (m : mode) (n : N) : outcome E N :=
  if n <? 64 then Ok (2 ^ n) else overflow m (2 ^ (n mod 64)).
(** [a / b] and [a % b] panic on zero in every mode. *)
Definition udiv {E} (a b : N) : outcome E N :=
  if b =? 0 then Panic else Ok (a / b).

Definition bytes := list N.
Definition bytes_ok (b : bytes) : Prop := Forall (fun x => x < 256) b.

Definition len {A} (l : list A) : N := N.of_nat (length l).

(** [&b[lo..hi]]: panics unless [lo <= hi <= b.len()]. *)
Definition slice {E A} (b : list A) (lo hi : N) : outcome E (list A) :=
  if (lo <=? hi) && (hi <=? len b)
  then Ok (firstn (N.to_nat (hi - lo)) (skipn (N.to_nat lo) b))
  else Panic.
(** [&b[lo..]] *)
Definition slice_from {E A} (b : list A) (lo : N) : outcome E (list A) :=
  if lo <=? len b then Ok (skipn (N.to_nat lo) b) else Panic.

(** Overwrite [b[lo .. lo + d.len()]] by [d]; used only after the same
    range was taken by [slice]. *)
Definition splice {A} (b : list A) (lo : N) (d : list A) : list A :=
  firstn (N.to_nat lo) b ++ d ++ skipn (N.to_nat lo + length d) b.

(** Result of [f] run on the mutable window [&mut b[lo..hi]]. *)
Definition update_slice {E} (b : bytes) (lo hi : N)
  (f : bytes -> outcome E bytes) : outcome E bytes :=
  w <- slice b lo hi ;; w' <- f w ;; Ok (splice b lo w').

(** Unsigned integers of [sz] bytes: little-endian value of a byte string
    and byte string of a value. *)
Fixpoint le_dec (b : bytes) : N :=
  match b with
  | [] => 0
  | x :: r => x + 256 * le_dec r
  end.
Fixpoint le_enc (sz : nat) (v : N) : bytes :=
  match sz with
  | O => []
  | S k => v mod 256 :: le_enc k (v / 256)
  end.

(** Number of values of an unsigned integer type of [sz] bytes. *)
Definition tmod (sz : nat) : N := 2 ^ (8 * N.of_nat sz).
