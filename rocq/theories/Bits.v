(** Specification vocabulary: a byte string seen as a sequence of bits.

    Bit [i] of a buffer is bit [i mod 8] (least significant first) of byte
    [i / 8]; positions past the end read as [false]. This is the usual
    little-endian bit numbering and does not refer to the code's codecs. *)

From Coq Require Import Arith NArith List Bool.
From Verif Require Import Base.
Local Open Scope N_scope.

Definition bit_at (b : bytes) (i : N) : bool :=
  N.testbit (nth (N.to_nat (i / 8)) b 0) (i mod 8).

(** [v] is the unsigned number stored in the [w] bits of [b] from bit [o]. *)
Definition is_field_value (b : bytes) (o w v : N) : Prop :=
  forall j, N.testbit v j = (j <? w) && bit_at b (o + j).

(** [b'] is [b] with the [w] bits from bit [o] replaced by the low bits of
    [v], everything else unchanged. *)
Definition is_field_update (b : bytes) (o w v : N) (b' : bytes) : Prop :=
  length b' = length b /\ bytes_ok b' /\
  forall i, bit_at b' i =
    if (o <=? i) && (i <? o + w) then N.testbit v (i - o) else bit_at b i.

(** The number a byte string denotes in big-endian order: the first byte is
    the most significant. *)
Definition be_value (b : bytes) : N := fold_left (fun acc x => 256 * acc + x) b 0.

(** [x'] is [x] with the [w] bits from bit [o] replaced by the low bits of [v]. *)
Definition bits_replaced (x o w v x' : N) : Prop :=
  forall i, N.testbit x' i = if (o <=? i) && (i <? o + w) then N.testbit v (i - o) else N.testbit x i.
